(** Specification vocabulary for C100: values of expressions with their floats
    read through a function. *)
From Coq Require Import String.
From Verif Require Import Prelude RoundModel.
Open Scope R_scope.
Open Scope list_scope.

(** The value of an expression: symbols have the values [s], functions are
    those of [f], and a float [r] is read as [g r]. *)
Fixpoint value (s : string -> R) (f : string -> R -> R) (g : R -> R) (t : tree) : R :=
  match t with
  | Flt r => g r
  | Itg z => IZR z
  | Sym x => s x
  | Op o a b => value_op o (value s f g a) (value s f g b)
  | Fun h a => f h (value s f g a)
  end.
(** The floats of an expression. *)
Fixpoint floats (t : tree) : list R :=
  match t with
  | Flt r => [r]
  | Op _ a b => floats a ++ floats b
  | Fun _ a => floats a
  | _ => []
  end.
(** Simplification does not change the value ... *)
Definition keeps_values (make : op -> tree -> tree -> tree) : Prop :=
  forall s f o a b, value s f (fun r => r) (make o a b) = value_op o (value s f (fun r => r) a) (value s f (fun r => r) b).
(** ... whatever the floats are: it does not compute with floats ... *)
Definition keeps_floats (make : op -> tree -> tree -> tree) : Prop :=
  forall s f g o a b, value s f g (make o a b) = value_op o (value s f g a) (value s f g b).
(** ... and it makes no floats. *)
Definition makes_no_floats (make : op -> tree -> tree -> tree) : Prop :=
  forall o a b r, In r (floats (make o a b)) -> In r (floats a ++ floats b).
(** Rounding to the nearest integer. *)
Definition nearest (round0 : R -> Z) : Prop := forall r, Rabs (IZR (round0 r) - r) <= 1 / 2.
