(** A concrete problem: a unit mass under a unit force, two intervals. *)
From Coq Require Import String.
From Verif Require Import Prelude PreludeFacts Mat Poly PwModel PwSpec CostModel EquiModel EquiSpec.
Open Scope string_scope.
Open Scope list_scope.
Open Scope R_scope.

Definition mass_dyn (x xd u lam p : vec) : vec := [vnth xd 0 - vnth x 1; vnth xd 1 - vnth u 0].
Definition mass_values : eq_values :=
  Build_eq_values [[0; 0]; [1 / 2; 1]; [2; 2]] [[0; 1]; [1; 1]; [2; 1]] [[1]; [1]; [1]] [[]; []; []]
    [[1 / 8; 1 / 2]; [9 / 8; 3 / 2]] [[1 / 2; 1]; [3 / 2; 1]] [[1]; [1]] [[]; []].

Lemma mass_sizes : eq_sizes 2 1 1 2 mass_values.
Proof. repeat split; repeat constructor. Qed.
Lemma mass_kinematic : kinematic 2 1 mass_dyn [].
Proof.
  intros x xd u lam Lx Ld H. destruct x as [|q [|w [|? ?]]]; try discriminate. destruct xd as [|a [|b [|? ?]]]; try discriminate.
  cbn. unfold mass_dyn in H. cbn in H. inversion H as [|? ? H1 H2]; subst. cbn in *. f_equal. lra.
Qed.
Lemma mass_hs : exists cs, eq_apply_scheme mass_dyn "hs" 2 1 2 0 2 [] mass_values = Ok cs /\ rows_satisfied cs /\ (8 <= length cs)%nat.
Proof.
  eexists. split; [reflexivity|]. split.
  - unfold rows_satisfied. cbn.
    repeat constructor; unfold mass_dyn; cbn; repeat (f_equal; try lra).
  - cbn. repeat apply le_n_S. apply Nat.le_0_l.
Qed.
