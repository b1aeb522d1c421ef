(** Vocabulary for the array helpers. *)
From Coq Require Import Reals List Bool.
From Verif Require Import Prelude Mat NumpyModel.
Import ListNotations.
Open Scope R_scope.

(** The value of an expression for given values of its arguments. *)
Fixpoint scalar_value (vals : vec) (e : expr) : R :=
  match e with
  | X_const r => r
  | X_var i => vnth vals i
  | X_op1 f e1 => f (scalar_value vals e1)
  | X_op2 f e1 e2 => f (scalar_value vals e1) (scalar_value vals e2)
  end.
(** It has one of the first k arguments in it. *)
Fixpoint uses_first (k : nat) (e : expr) : bool :=
  match e with
  | X_const _ => false
  | X_var i => (i <? k)%nat
  | X_op1 _ e1 => uses_first k e1
  | X_op2 _ e1 e2 => uses_first k e1 || uses_first k e2
  end.
(** The samples a + b t at the times t0 + i h. *)
Definition affine (a b t0 h : R) (n : nat) : vec := map (fun i => a + b * (t0 + INR i * h)) (seq 0 n).
