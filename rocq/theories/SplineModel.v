(** scipy.interpolate.CubicHermiteSpline, the spline of the "Hermite"
    interpolations of chords/pseudospectral.py, chords/bu_pseudospectral.py and
    chords/td_pseudospectral.py, on exact reals. *)
From Verif Require Import Prelude Poly Mat.
Open Scope R_scope.
Open Scope list_scope.

(** A piecewise polynomial: breakpoints, and for each interval the polynomials
    of the components, in the time since the left end. *)
Record spline := { sp_x : vec; sp_c : list (list (list R)) }.

(** scipy: the coefficients of one component on one interval of length [h],
    lowest degree first. *)
Definition herm_coefs (h y0 y1 d0 d1 : R) : list R :=
  let slope := (y1 - y0) / h in
  let t := (d0 + d1 - 2 * slope) / h in
  [y0; d0; (slope - d0) / h - t; t / h].
Definition herm_piece (h : R) (y0 y1 d0 d1 : vec) : list (list R) :=
  map (fun j => herm_coefs h (vnth y0 j) (vnth y1 j) (vnth d0 j) (vnth d1 j)) (seq 0 (length y0)).
(** numpy.any(numpy.diff(x) <= 0) is false *)
Fixpoint strictly_up (x : vec) : bool :=
  match x with
  | a :: ((b :: _) as l) => if Rlt_dec a b then strictly_up l else false
  | _ => true
  end.
(** CubicHermiteSpline(x, y, dydx): at least two points, as many rows in y and
    dydx, increasing points. *)
Definition hermite (x : vec) (y dydx : mat) : Res spline :=
  if (length x <? 2)%nat then Err ValueError
  else if negb (length x =? length y)%nat then Err ValueError
  else if negb (length y =? length dydx)%nat then Err ValueError
  else if negb (strictly_up x) then Err ValueError
  else Ok (Build_spline x (map (fun i =>
         herm_piece (vnth x (i + 1) - vnth x i) (mrow i y) (mrow (i + 1) y) (mrow i dydx) (mrow (i + 1) dydx))
         (seq 0 (length x - 1)))).
(** [spline.derivative()] *)
Definition sp_derivative (s : spline) : spline :=
  Build_spline (sp_x s) (map (map pderiv) (sp_c s)).
(** The interval of a time: the first one before the first breakpoint, the last
    one after the last, and the one to the right at a breakpoint. *)
Definition sp_interval (x : vec) (t : R) : nat :=
  Nat.min (length x - 2) (length (filter (fun a => if Rle_dec a t then true else false) (tl x))).
(** [spline(t)] *)
Definition sp_eval (s : spline) (t : R) : vec :=
  let i := sp_interval (sp_x s) t in
  map (fun c => peval c (t - vnth (sp_x s) i)) (nth i (sp_c s) []).

(** scipy's spline, evaluated.  piecewise.py:2107-2108.  An error of scipy has
    no value: the calls of the theorem make none. *)
Definition scipy_hermite (x : list R) (y d : list vec) (t : R) : vec :=
  match hermite x y d with Ok s => sp_eval s t | Err _ => [] end.
