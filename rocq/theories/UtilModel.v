(** Model of the numeric part of chords/util.py (lines 385-569).  Conventions
    as in PsModel.v: floats are reals, a function that numpy evaluates on an
    array of times is given at one time, a row of values per time is a [vec].
    numpy's leggauss is a parameter, see UtilSpec.v for what is assumed.
    lru_cache and store_results are transparent here. *)
From Coq Require Import String.
From Verif Require Import Prelude Poly Mat PwInterpModel PsModel.
Open Scope R_scope.
Open Scope vec_scope.
Open Scope list_scope.

Section Util.
Variable real_roots : list R -> list R.
(** util.py:395-398 [leggauss]: points and weights. *)
Variable leggauss : nat -> vec * vec.

(** int(ceil(n / 2)) *)
Definition ceil_half (n : nat) : nat := ((n + 1) / 2)%nat.

(** util.py:404-406: the points of the rule moved to [t0, t1]. *)
Definition gauss_points (N : nat) (t0 t1 : R) : vec :=
  let scale := t1 - t0 in map (fun p => t0 + scale * ((p + 1) / 2)) (fst (leggauss N)).

(** util.py:401-410 [gauss_integral] *)
Definition gauss_integral (f : R -> R) (N : nat) (t0 t1 : R) : R :=
  let scale := t1 - t0 in
  let points := gauss_points N t0 t1 in
  let weights := snd (leggauss N) in
  scale * vsum (vmul weights (map f points)) / 2.

(** util.py:413-422 [gauss_integral_2d]: f_vals has one row per point, the sum
    is over the rows. *)
Definition gauss_integral_2d (f : R -> vec) (N : nat) (t0 t1 : R) : vec :=
  let scale := t1 - t0 in
  let points := gauss_points N t0 t1 in
  let weights := snd (leggauss N) in
  let f_vals := map f points in
  map (fun j => scale * vsum (vmul weights (mcol j f_vals)) / 2) (seq 0 (mwidth f_vals)).

(** util.py:425-430 [gauss_rep_integral] with f2d=False (f2d is never used).
    n_integ >= 1. *)
Definition gauss_rep_integral (f : R -> R) (t0 t1 : R) (n_pol n_integ : nat) : R :=
  let n_pol_cauchy := (n_pol + n_integ - 1)%nat in
  let n_gauss := ceil_half (n_pol_cauchy + 1) in
  let cauchy_f := fun t => (t1 - t) ^ (n_integ - 1) * f t in
  1 / INR (fact (n_integ - 1)) * gauss_integral cauchy_f n_gauss t0 t1.

(** util.py:433-452 [poly_integral], at one time *)
Definition poly_integral (f : R -> R) (n_pol : nat) (t0 t1 y0 : R) : R -> R :=
  let points := gauss_points (n_pol + 1) t0 t1 in
  let N_gauss := ceil_half (n_pol + 1) in
  let y := [y0] ++ map (fun ii => y0 + gauss_integral f N_gauss t0 ii) points in
  bary_poly ([t0] ++ points) y.

(** util.py:455-492 [poly_integral_2d], at one time.  [y0] is a 1-D array; the
    default y0=0 is [[0]].  With one component the Python function returns a
    scalar function; here its values are lists of one item, and the models of
    the callers say where the difference matters. *)
Definition poly_integral_2d (f : R -> vec) (n_pol : nat) (t0 t1 : R) (y0 : vec)
  : Res (R -> vec) :=
  let dim := length (f t0) in
  if (dim =? 1)%nat then
    if (length y0 =? 1)%nat
    then Ok (fun t => [poly_integral (fun s => vnth (f s) 0) n_pol t0 t1 (vnth y0 0) t])
    else Err ValueError
  else
    do y0 <- (if (length y0 =? dim)%nat then Ok y0
              else if (length y0 =? 1)%nat then Ok (repeat (vnth y0 0) dim)
              else Err ValueError);
    let points := gauss_points (n_pol + 1) t0 t1 in
    let N_gauss := ceil_half (n_pol + 1) in
    let mat := [repeat 0 dim] ++ map (fun p => gauss_integral_2d f N_gauss t0 p) points in
    let mat := map (fun r => y0 +v r) mat in
    Ok (bary_poly_2d ([t0] ++ points) mat).

(** util.py:495-498 [Lag_pol_2d], at one time *)
Definition Lag_pol_2d (N : nat) (scheme : string) (order : nat) : Res (R -> vec) :=
  do tau_arr <- coll_points real_roots N scheme order;
  Ok (bary_poly_2d tau_arr (eye N)).

(** util.py:501-518: the points of [Lag_pol_2d_x]. *)
Definition x_points (N : nat) (scheme : string) : Res vec :=
  if mem scheme gauss_like then
    do p <- node_points real_roots (N - 1) scheme; Ok (p ++ [1])
  else if mem scheme gauss_inv then
    do p <- node_points real_roots (N - 1) scheme; Ok ([-1] ++ p)
  else node_points real_roots N scheme.
(** util.py:501-522 [Lag_pol_2d_x], at one time *)
Definition Lag_pol_2d_x (N : nat) (scheme : string) : Res (R -> vec) :=
  do tau_arr <- x_points N scheme;
  Ok (bary_poly_2d tau_arr (eye N)).

(** util.py:525-532 [Lag_integ_2d], at one time.  N - 2 + integ_order is
    computed as N + integ_order - 2, the same for N >= 1. *)
Fixpoint Lag_integ_2d (N : nat) (scheme : string) (integ_order order : nat) : Res (R -> vec) :=
  match integ_order with
  | O => Lag_pol_2d N scheme order
  | S k =>
      do deriv_poly <- Lag_integ_2d N scheme k order;
      let poly_deg := (N + S k - 2)%nat in
      poly_integral_2d deriv_poly poly_deg (-1) 1 [0]
  end.

(** util.py:535-569 [get_weights] *)
Definition get_weights (N : nat) (scheme : string) (order : nat) (mode : string) : Res vec :=
  let N_gauss := ceil_half (N + 1) in
  if (mode =? "u")%string then
    if (scheme =? "LG")%string then Ok (snd (leggauss N))
    else do pol <- Lag_pol_2d N scheme order; Ok (gauss_integral_2d pol N_gauss (-1) 1)
  else if (mode =? "x")%string then
    do pol <- Lag_pol_2d_x N scheme; Ok (gauss_integral_2d pol N_gauss (-1) 1)
  else Err ValueError.
End Util.
