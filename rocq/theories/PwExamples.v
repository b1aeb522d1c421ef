(** Concrete data that meet the hypotheses of the piecewise theorems. *)
From Coquelicot Require Import Coquelicot.
From Coq Require Import String.
From Verif Require Import Prelude PreludeFacts Poly PolyFacts PwModel PwInterpModel PwFacts PwSpec PwInterpSpec.
Open Scope R_scope.
Open Scope vec_scope.
Open Scope list_scope.

(** Two tapes of one control that agree on the first two steps. *)
Definition ex_tape : tape := {| tape_2d := false; tape_rows := [[1]; [2]; [3]] |}.
Definition ex_tape2 : tape := {| tape_2d := false; tape_rows := [[1]; [2]; [7]; [8]] |}.
Lemma ex_tape_wf : tape_wf ex_tape.
Proof.
  split; [discriminate|]. split; [|discriminate].
  simpl. intros r H. repeat destruct H as [<-|H]; [discriminate..|destruct H].
Qed.
Lemma ex_tape2_wf : tape_wf ex_tape2.
Proof.
  split; [discriminate|]. split; [|discriminate].
  simpl. intros r H. repeat destruct H as [<-|H]; [discriminate..|destruct H].
Qed.
Lemma ex_tape_ok : tape_wf ex_tape /\ (length (tape_rows ex_tape) - 1 <= length [[3 / 2]; [5 / 2]])%nat.
Proof. split; [apply ex_tape_wf|simpl; lia]. Qed.
Lemma ex_tapes_agree : tape_wf ex_tape /\ tape_wf ex_tape2 /\ agree 2 (tape_rows ex_tape) (tape_rows ex_tape2) /\
  tape_rows ex_tape <> tape_rows ex_tape2 /\ (1 < length (tape_rows ex_tape))%nat /\ (1 < length (tape_rows ex_tape2))%nat.
Proof.
  split; [apply ex_tape_wf|]. split; [apply ex_tape2_wf|]. split.
  - intros j Hj. destruct j as [|[|j]]; [reflexivity..|lia].
  - split; [discriminate|simpl; lia].
Qed.

(** The double integrator: q'' = u. *)
Definition ex_F (x u : vec) (_ : unit) : vec := [vnth x 1; vnth u 0].
Lemma ex_F_order : order_form 2 1 ex_F tt /\ same_size 2 ex_F tt.
Proof.
  split.
  - intros x u Hx. split; [reflexivity|]. destruct x as [|a [|b [|]]]; try discriminate. reflexivity.
  - intros x u Hx. reflexivity.
Qed.
Lemma ex_F_size : same_size 2 ex_F tt /\ length [1; 2] = 2%nat /\
  [2 + 1 / 2; 2 + 1] = euler_step ex_F [1 + 1 / 2; 2] [1] 1 tt -v [1; 0].
Proof.
  split; [apply ex_F_order|]. split; [reflexivity|].
  unfold euler_step, ex_F, vnth, vadd, vsub, vscale. simpl. f_equal; [lra|]. f_equal. lra.
Qed.

Ltac vz := unfold vzero; repeat constructor; unfold ex_F, vnth, vadd, vsub, vscale, vdivs; simpl; lra.
Lemma ex_step_zero : order_form 2 1 ex_F tt /\ vzero (hs_parab_restr ex_F [0; 0] [1 / 2; 1] [1] [1] 1 tt [1]) /\
  vzero (hs_mod_parab_restr ex_F [0; 0] [1 / 2; 1] [1] [1] 1 tt [1]) /\
  vzero (hsj_parab_restr ex_F [0; 0] [1 / 2; 1] [1] [1] 1 tt [1]).
Proof.
  split; [apply ex_F_order|]. split; [|split]; vz.
Qed.

Lemma ex_lengths : length [1; 2; 3; 4; 5; 6] = (3 * 2)%nat /\ (0 < 3)%nat /\ (1 / 2 <> 0).
Proof. split; [reflexivity|]. split; [lia|lra]. Qed.

(** Two steps of uniformly accelerated motion, with one control fewer than samples. *)
Definition ex_X : list vec := [[0; 0]; [1 / 2; 1]; [2; 2]].
Definition ex_U : list vec := [[1]; [1]].
Lemma ex_driver : scheme_blocks "hs_mod" (sp_order no_params) = Some 2%nat /\ order_form 2 1 ex_F tt /\
  steps_hold ex_F tt "hs_mod" 2 1 1 ex_X (full_controls ex_X ex_U) no_params.
Proof.
  split; [reflexivity|]. split; [apply ex_F_order|].
  intros i Hi. simpl in Hi. destruct i as [|[|i]]; [| |lia].
  - eexists. split; [reflexivity|]. unfold interior_u, default_u_c. cbn. vz.
  - eexists. split; [reflexivity|]. unfold interior_u, default_u_c. cbn. vz.
Qed.

Lemma ex_cubic : passes_at 2 1 [0; 0; 0; 1] 0 [0; 0] 0 /\ passes_at 2 1 [0; 0; 0; 1] 2 [8; 12] 0 /\
  vnth (accel 1 [0; 0]) 0 = D 2 [0; 0; 0; 1] 0 /\ vnth (accel 1 [12; 12]) 0 = D 2 [0; 0; 0; 1] 2 /\ (length [0; 0; 0; 1] <= 2 + 2)%nat.
Proof.
  assert (P : forall t, passes_at 2 1 [0; 0; 0; 1] t [t ^ 3; 3 * t ^ 2] 0).
  { intros t k Hk. destruct k as [|[|k]]; [| |lia]; unfold D, coord, vnth, pderiv; simpl; ring. }
  split; [|split].
  - replace [0; 0] with [0 ^ 3; 3 * 0 ^ 2] by (f_equal; [lra|f_equal; lra]). apply P.
  - replace [8; 12] with [2 ^ 3; 3 * 2 ^ 2] by (f_equal; [lra|f_equal; lra]). apply P.
  - unfold D, accel, vnth, pderiv. simpl. repeat split; try lra. lia.
Qed.
Lemma ex_times : increasing_from 0 [1; 5 / 2] /\ (0 < 1) /\ length [1; 2] = 2%nat.
Proof. simpl. repeat split; lra. Qed.
Lemma ex_implicit : forall x xd u : vec, length x = (1 * 2)%nat -> length xd = (1 * 2)%nat ->
  length ((fun x xd (u : vec) (_ : unit) => xd -v x) x xd u tt) = (1 * 2)%nat.
Proof. intros x xd u Hx Hxd. cbv beta. rewrite vsub_length. lia. Qed.
