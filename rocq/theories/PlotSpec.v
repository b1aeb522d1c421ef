(** What labels, colours, curves drawn in pieces and file names should be. *)
From Coq Require Import String Ascii.
From Verif Require Import Prelude DispatchSpec.
Open Scope string_scope.
Open Scope list_scope.

(** Schemes accepted by the factory for which there is no label, no colour. *)
Definition unlabelled : list string := ["euler"; "LG_inv"; "JG_inv"; "JG2"; "CG2"; "LGLm"; "D2"].
Definition uncoloured : list string := ["euler"; "JG2"; "CG2"; "LGLm"; "D2"].

Open Scope R_scope.
(** [t] in the l-th of the N equal parts of (0, end_t); everything before 0 is
    counted with the first part. *)
Definition in_part (N : nat) (end_t : R) (l : nat) (t : R) : Prop :=
  (l = 0%nat \/ INR l * end_t / INR N <= t) /\ t < INR (S l) * end_t / INR N.
Definition nondecreasing (ts : vec) : Prop := forall i j, (i <= j < length ts)%nat -> vnth ts i <= vnth ts j.

(** A name without the character c. *)
Fixpoint lacks (c : ascii) (s : string) : Prop :=
  match s with EmptyString => True | String d r => d <> c /\ lacks c r end.
(** The file lies directly in the folder. *)
Definition directly_in (folder file : string) : Prop :=
  exists title, file = (folder ++ "/" ++ title)%string /\ lacks "/"%char title.
