(** Specification vocabulary of C16 for the layouts of the accelerations. *)
From Verif Require Import Prelude PwExpandModel.
Open Scope R_scope.
Open Scope list_scope.

(** q, q', ... of a state: M consecutive blocks of n numbers. *)
Definition blocks (M n : nat) (x : vec) : list vec := map (fun k => firstn n (skipn (k * n) x)) (seq 0 M).
(** N rows of n numbers. *)
Definition wide (N n : nat) (m : mat) : Prop := length m = N /\ Forall (fun r => length r = n) m.
(** The accelerations [a] of one state: a 1-D array, or a number if there is
    only one. *)
Definition layout_1d (a : vec) (o : out) : Prop := o = A1 a \/ exists r, a = [r] /\ o = A0 r.
(** The accelerations of N states, one row each: a 2-D array; a 1-D array if there
    is one coordinate or one state; a number if there is one of each. *)
Definition layout_2d (N n : nat) (A : mat) (o : out) : Prop :=
  o = A2 A \/ ((N = 1 \/ n = 1)%nat /\ o = A1 (concat A)) \/ exists r, A = [[r]] /\ o = A0 r.
(** The rows of one array followed by those of another. *)
Definition beside (A B : mat) : mat := map2 (fun r s => r ++ s) A B.
