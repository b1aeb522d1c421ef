(** Specification vocabulary for the summaries of the errors of a result
    (property C101).  Nothing of the model is used. *)
From Verif Require Import Prelude.
Open Scope R_scope.
Open Scope list_scope.

(** The times increase. *)
Definition increasing (t : vec) : Prop := forall i, (S i < length t)%nat -> vnth t i < vnth t (S i).
(** [w] is the polyline through the values [y] at the times [t]. *)
Definition polyline (t y : vec) (w : R -> R) : Prop :=
  (forall i, (i < length t)%nat -> w (vnth t i) = vnth y i) /\
  forall i, (S i < length t)%nat -> exists a b, forall x, vnth t i <= x <= vnth t (S i) -> w x = a + b * x.
(** The largest absolute value of a row is [m]. *)
Definition largest_abs (r : vec) (m : R) : Prop :=
  (exists x, In x r /\ m = Rabs x) /\ forall x, In x r -> Rabs x <= m.
