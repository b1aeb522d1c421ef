(** Proofs: the schemes for second order, used with systems of third order. *)
From Coq Require Import String.
From Verif Require Import Prelude PreludeFacts Mat Poly PwModel PwSpec PsModel CostModel EquiModel EquiSpec EquiProofs.
Open Scope string_scope.
Open Scope list_scope.
Open Scope R_scope.

Lemma three {l : vec} : length l = 3%nat -> exists a b c, l = [a; b; c].
Proof. destruct l as [|a [|b [|c [|]]]]; cbn; try lia. intros _. now exists a, b, c. Qed.
Lemma one {l : vec} : length l = 1%nat -> exists a, l = [a].
Proof. destruct l as [|a [|]]; cbn; try lia. intros _. now exists a. Qed.

Section Third.
  Variables (dyn : vec -> vec -> vec -> vec -> vec -> vec) (n_u N : nat) (t_start t_end : R) (p : vec) (v : eq_values).
  Hypothesis HN : (0 < N)%nat.
  Hypothesis Hs : eq_sizes 3 1 n_u N v.

  Lemma rows_3 i : (i <= N)%nat -> exists a b c, mrow i (ev_x v) = [a; b; c].
  Proof. intros H. apply three. apply (mrow_len (N + 1)); [apply Hs|lia]. Qed.
  Lemma acc_1 i : (i <= N)%nat -> exists a, accel 1 (mrow i (ev_x_d v)) = [a].
  Proof.
    intros H. apply one. apply (acc_length 1 3); auto. apply (mrow_len (N + 1)); [apply Hs|lia].
  Qed.
  Lemma acc_c1 i : (i < N)%nat -> exists a, accel 1 (mrow i (ev_x_d_c v)) = [a].
  Proof.
    intros H. apply one. apply (acc_length 1 3); auto. apply (mrow_len N); [apply Hs|lia].
  Qed.
  Lemma frozen scheme : In scheme second_order_schemes ->
    exists cs, eq_apply_scheme dyn scheme 3 1 N t_start t_end p v = Ok cs /\
    (rows_satisfied cs -> forall i, (i < N)%nat -> coord 1 (mrow (i + 1) (ev_x v)) 1 0 = coord 1 (mrow i (ev_x v)) 1 0).
  Proof.
    assert (K : forall i, (i < N)%nat -> forall f, (f = (fun x x_n a a_n dt (_ : vec) => trapz_mod_accel_restr x x_n a a_n dt) \/ f = hs_mod_accel_restr \/ f = hsj_accel_restr) ->
      forall h a_c, (exists c, a_c = [c]) -> vzero (f (mrow i (ev_x v)) (mrow (i + 1) (ev_x v)) (accel 1 (mrow i (ev_x_d v))) (accel 1 (mrow (i + 1) (ev_x_d v))) h a_c) ->
      coord 1 (mrow (i + 1) (ev_x v)) 1 0 = coord 1 (mrow i (ev_x v)) 1 0).
    { intros i Hi f Hf h a_c (c & ->) Z.
      destruct (rows_3 i ltac:(lia)) as (x0 & x1 & x2 & Ex). destruct (rows_3 (i + 1) ltac:(lia)) as (y0 & y1 & y2 & Ey).
      destruct (acc_1 i ltac:(lia)) as (a & Ea). destruct (acc_1 (i + 1) ltac:(lia)) as (b & Eb).
      rewrite Ex, Ey, Ea, Eb in Z. rewrite Ex, Ey. cbn.
      rewrite vzero_iff in Z. specialize (Z 1%nat). destruct Hf as [-> |[-> | ->]]; cbn in Z; specialize (Z ltac:(lia)); lra. }
    assert (HN3 : (0 < 3)%nat) by lia. assert (H1 : (0 < 1)%nat) by lia.
    assert (T : forall f, sub_in "hs" scheme = true -> restr_schemes scheme 3 = Some f -> f = hs_mod_accel_restr \/ f = hsj_accel_restr ->
      exists cs, eq_apply_scheme dyn scheme 3 1 N t_start t_end p v = Ok cs /\
      (rows_satisfied cs -> forall i, (i < N)%nat -> coord 1 (mrow (i + 1) (ev_x v)) 1 0 = coord 1 (mrow i (ev_x v)) 1 0)).
    { intros f H E F. destruct (with_hs dyn 3 1 n_u N t_start t_end p v HN3 H1 HN Hs scheme f H E) as [cs [Ecs G]].
      exists cs. split; [exact Ecs|]. intros S i Hi. apply G in S. destruct S as (_ & _ & S & _). destruct (S i Hi) as [Z _].
      eapply (K i Hi f); [now right| |exact Z]. now apply acc_c1. }
    unfold second_order_schemes. intros [<-|[<-|[<-|[<-|[<-|[<-|[]]]]]]].
    - destruct (no_hs dyn 3 1 n_u N t_start t_end p v HN3 H1 HN Hs "trapz_mod" _ eq_refl eq_refl) as [cs [E H]].
      exists cs. split; [exact E|]. intros S i Hi. apply H in S. destruct S as [_ S].
      apply (K i Hi (fun x x_n a a_n dt (_ : vec) => trapz_mod_accel_restr x x_n a a_n dt) ltac:(auto) ((t_end - t_start) / INR N) [0]); [now exists 0|].
      apply (S i Hi).
    - apply (T hs_mod_accel_restr eq_refl eq_refl). auto.
    - apply (T hs_mod_accel_restr eq_refl eq_refl). auto.
    - apply (T hsj_accel_restr eq_refl eq_refl). auto.
    - apply (T hsj_accel_restr eq_refl eq_refl). auto.
    - apply (T hsj_accel_restr eq_refl eq_refl). auto.
  Qed.
End Third.

(** The motion q = t^2 / 2 from 0 to 1. *)
Definition half_square (tau : R) : eq_values :=
  {| ev_x := [[0; 0; 1]; [1 / 2; 1; 1]]; ev_x_d := [[0; 1; 0]; [1; 1; 0]]; ev_u := [[0]; [0]]; ev_lam := [];
     ev_x_c := [[tau ^ 2 / 2; tau; 1]]; ev_x_d_c := [[tau; 1; 0]]; ev_u_c := [[0]]; ev_lam_c := [] |}.
Lemma third_refuted scheme : In scheme second_order_schemes ->
  exists v cs c tau, eq_sizes 3 1 1 1 v /\ kinematic 3 1 no_jerk [] /\ at_nodes no_jerk 1 [] v /\ at_middles no_jerk 1 [] v /\ affine_controls tau 1 1 v /\
  (forall t, D 3 c t = 0) /\ passes_at 3 1 c 0 (mrow 0 (ev_x v)) 0 /\ passes_at 3 1 c tau (mrow 0 (ev_x_c v)) 0 /\ passes_at 3 1 c 1 (mrow 1 (ev_x v)) 0 /\
  tau = (if sub_in "j" scheme then 2 / 5 else 1 / 2) /\
  eq_apply_scheme no_jerk scheme 3 1 1 0 1 [] v = Ok cs /\ ~ rows_satisfied cs.
Proof.
  intros Hsch. set (tau := if sub_in "j" scheme then 2 / 5 else 1 / 2).
  assert (Hs : eq_sizes 3 1 1 1 (half_square tau)).
  { unfold eq_sizes, shaped. cbn. repeat split; repeat constructor. }
  destruct (frozen no_jerk 1 1 0 1 [] (half_square tau) ltac:(lia) Hs scheme Hsch) as (cs & E & F).
  exists (half_square tau), cs, [0; 0; 1 / 2], tau. split; [exact Hs|].
  split.
  { intros x xd u lam Lx Ld Z. cbn [Nat.mul Nat.add Nat.sub] in *. destruct (three Lx) as (a & b & c & ->). destruct (three Ld) as (a' & b' & c' & ->).
    rewrite vzero_iff in Z. cbn in *. pose proof (Z 0%nat) as Z0. pose proof (Z 1%nat) as Z1. cbn in Z0, Z1. specialize (Z0 ltac:(lia)). specialize (Z1 ltac:(lia)). f_equal; [lra|]. f_equal. lra. }
  split. { intros [|[|i]] Hi; [| |lia]; rewrite vzero_iff; intros [|[|[|j]]] Hj; cbn in *; try lia; lra. }
  split. { intros [|i] Hi; [|lia]; rewrite vzero_iff; intros [|[|[|j]]] Hj; cbn in *; try lia; lra. }
  split. { intros [|i] [|j] Hi Hj; try lia. cbn. lra. }
  split. { intros t. cbn. lra. }
  split. { intros [|[|[|k]]] Hk; [| | |lia]; cbn; lra. }
  split. { intros [|[|[|k]]] Hk; [| | |lia]; unfold D; cbn; lra. }
  split. { intros [|[|[|k]]] Hk; [| | |lia]; cbn; lra. }
  split; [reflexivity|]. split; [exact E|]. intros S. specialize (F S 0%nat ltac:(lia)). cbn in F. lra.
Qed.
