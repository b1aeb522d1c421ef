(** Model of the array helpers of chords/numpy.py and of the numerical functions
    built from symbolic right-hand sides.

    Simplifications: numbers are real; an array of a dimension above two is
    known by its shape only; the elements of the lists given to
    congruent_concatenate have dimension 0 or 1, as those of unpack and of
    lambdified functions of them. *)
From Coq Require Import Reals List Bool Arith String ZArith.
From Verif Require Import Prelude Mat PwInterpModel.
Import ListNotations.
Open Scope list_scope.
Open Scope R_scope.

(** numpy arrays: a number, 1-D, 2-D (number of columns, rows), others. *)
Inductive arr := A0 (r : R) | A1 (v : vec) | A2 (c : nat) (m : mat) | AN (shape : list nat).
(** entries: 0-D and 1-D. *)
Inductive ent := E0 (r : R) | E1 (v : vec).

(** numpy.py:25-40 [unpack]; for more dimensions, ValueError. *)
Definition unpack (a : arr) : Res (list ent) :=
  match a with
  | A0 r => Ok [E0 r]
  | A1 v => Ok (map E0 v)
  | A2 c m => Ok (map (fun j => E1 (mcol j m)) (seq 0 c))
  | AN _ => Err ValueError
  end.

(** numpy.py:51-60 [congruent_concatenate]; an empty list is an IndexError;
    concatenating columns of different lengths is a ValueError. *)
Definition size (e : ent) : nat := match e with E0 _ => 1%nat | E1 v => length v end.
Definition zero_d (e : ent) : bool := match e with E0 _ => true | E1 _ => false end.
Definition value0 (e : ent) : R := match e with E0 r => r | E1 _ => 0 end.
Definition value1 (e : ent) : vec := match e with E0 _ => [] | E1 v => v end.
Definition columns (l : list vec) : mat :=
  map (fun i => map (fun v => vnth v i) l) (seq 0 (length (hd [] l))).
Definition congruent_concatenate (l : list ent) : Res arr :=
  match l with
  | [] => Err IndexError
  | x :: _ =>
      if (size x =? 1)%nat then
        if forallb zero_d l then Ok (A1 (map value0 l)) else Err AssertionError
      else
        if forallb (fun e => negb (zero_d e)) l then
          if forallb (fun e => (size e =? size x)%nat) l
          then Ok (A2 (length l) (columns (map value1 l)))
          else Err ValueError
        else Err AssertionError
  end.

(** The type of the elements of an array: an assignment to an array of integers
    drops the decimals. *)
Inductive dtype := D_float | D_int.
Definition truncate (r : R) : R := if Rle_dec 0 r then IZR (Int_part r) else - IZR (Int_part (- r)).
Definition store (dt : dtype) (r : R) : R := match dt with D_float => r | D_int => truncate r end.

(** numpy broadcasting of one axis. *)
Definition bc {A B C} (f : A -> B -> C) (a : list A) (b : list B) : Res (list C) :=
  if (length a =? length b)%nat then Ok (map2 f a b)
  else match a, b with
       | [x], _ => Ok (map (f x) b)
       | _, [y] => Ok (map (fun x => f x y) a)
       | _, _ => Err ValueError
       end.
(** numpy.trapz: sum of d * (y[1:] + y[:-1]) / 2 along the last axis, with
    d = diff(x). *)
Definition diffs (t : vec) : vec := map2 Rminus (tl t) t.
Definition pair_sums (y : vec) : vec := map2 Rplus (tl y) y.
Definition trapz1 (y t : vec) : Res R :=
  do p <- bc (fun d s => d * s / 2) (diffs t) (pair_sums y); Ok (vsum p).
Definition trapz2 (y : mat) (t : vec) : Res vec :=
  do p <- mapm (fun row => bc (fun d s => d * s / 2) (diffs t) (pair_sums row)) y; Ok (map vsum p).
(** numpy.py:63-67 [trapz_integrate]: of a 1-D array and of one of two
    dimensions; t_array is 1-D. *)
Definition trapz_integrate1 (dt : dtype) (X t : vec) : Res vec :=
  match X with
  | [] => Ok []
  | _ => do rest <- mapm (fun i => do r <- trapz1 (firstn (i + 1) X) (firstn (i + 1) t); Ok (store dt r)) (seq 1 (length X - 1));
         Ok (0 :: rest)
  end.
(** new_X[i] = ret *)
Definition set_row (c : nat) (ret : vec) : Res vec :=
  if (length ret =? c)%nat then Ok ret
  else match ret with [x] => Ok (repeat x c) | _ => Err ValueError end.
Definition trapz_integrate2 (dt : dtype) (c : nat) (X : mat) (t : vec) : Res mat :=
  match X with
  | [] => Ok []
  | _ => do rest <- mapm (fun i => do r <- trapz2 (firstn (i + 1) X) (firstn (i + 1) t); do row <- set_row c r; Ok (map (store dt) row))
                         (seq 1 (length X - 1));
         Ok (repeat 0 c :: rest)
  end.

(** numpy.py:70-75 [num_derivative], for elements (numbers or rows) with their
    difference and quotient; X[1] of fewer than two elements is an IndexError.  *)
Section Derivative.
  Context {A : Type} (zero : A) (sub : A -> A -> A) (div : A -> R -> A) (put : A -> A).
  Definition num_derivative (X : list A) (h : R) : Res (list A) :=
    let n := length X in
    if (n <? 2)%nat then Err IndexError
    else
      let inner := map put (map2 (fun a b => div (sub a b) (2 * h)) (skipn 2 X) (firstn (n - 2) X)) in
      Ok (put (div (sub (nth 1 X zero) (nth 0 X zero)) h) :: inner ++
          [put (div (sub (nth (n - 2) X zero) (nth (n - 1) X zero)) h)]).
End Derivative.
Definition num_derivative1 (dt : dtype) (X : vec) (h : R) : Res vec := num_derivative 0 Rminus Rdiv (store dt) X h.
Definition num_derivative2 (dt : dtype) (X : mat) (h : R) : Res mat := num_derivative [] vsub vdivs (map (store dt)) X h.

(** ** Numerical functions of symbolic expressions *)
(** sympy expressions after lambdify: numbers, the i-th argument, and operations
    of one or two operands that numpy applies element by element. *)
Inductive expr :=
| X_const (r : R)
| X_var (i : nat)
| X_op1 (f : R -> R) (e : expr)
| X_op2 (f : R -> R -> R) (e e' : expr).
Fixpoint eval (args : list ent) (e : expr) : Res ent :=
  match e with
  | X_const r => Ok (E0 r)
  | X_var i => Ok (nth i args (E0 0))
  | X_op1 f e1 => do a <- eval args e1;
      Ok (match a with E0 r => E0 (f r) | E1 v => E1 (map f v) end)
  | X_op2 f e1 e2 =>
      do a <- eval args e1; do b <- eval args e2;
      match a, b with
      | E0 r, E0 s => Ok (E0 (f r s))
      | E0 r, E1 w => Ok (E1 (map (f r) w))
      | E1 v, E0 s => Ok (E1 (map (fun x => f x s) v))
      | E1 v, E1 w => do z <- bc f v w; Ok (E1 z)
      end
  end.

(** numpy.py:117-136 (RHS2numpy): which functions are evaluated, for n_q
    coordinates.  The arguments are q, v, u and params, in this order
    (numpy.py:138). *)
Definition rhs_funcs (n_q : nat) (RHS : list expr) (mode : string) : Res (list expr) :=
  if String.eqb mode "x" then
    if (n_q =? length RHS)%nat then Ok (map X_var (seq n_q n_q) ++ RHS)
    else if (length RHS =? 2 * n_q)%nat then Ok RHS
    else Err ValueError
  else if String.eqb mode "q" then
    if (n_q =? length RHS)%nat then Ok RHS
    else if (length RHS =? 2 * n_q)%nat then Ok (skipn (length RHS / 2) RHS)
    else Err ValueError
  else Err ValueError.
(** numpy.py:152-168: New_F(x, u, params), New_F(q, v, u, params)
    on the arrays [inputs]; lambdified functions of another number of arguments
    are a TypeError. *)
Fixpoint unpack_all (inputs : list arr) : Res (list ent) :=
  match inputs with
  | [] => Ok []
  | a :: l => do e <- unpack a; do es <- unpack_all l; Ok (e ++ es)
  end.
Definition new_F (n_vars : nat) (funcs : list expr) (inputs : list arr) : Res arr :=
  do all_np_vars <- unpack_all inputs;
  if negb (length all_np_vars =? n_vars)%nat && negb (length funcs =? 0)%nat then Err TypeError
  else do results <- mapm (eval all_np_vars) funcs; congruent_concatenate results.

(** numpy.py:312-315 and casadi.py:466-469 (doub_pend_F): ten names are taken
    from params. *)
Definition doub_pend_params {A} (params : list A) : Res (list A) :=
  if (length params =? 10)%nat then Ok params else Err ValueError.
