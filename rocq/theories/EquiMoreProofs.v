From Coq Require Import String.
From Verif Require Import Prelude PreludeFacts Mat Poly PwModel PwSpec PwFacts PwSchemeProofs PwMotionProofs PwDynProofs PwFinalProofs PsModel CostModel EquiModel EquiSpec EquiProofs DispatchModel DispatchSpec DispatchProofs.
Open Scope string_scope.
Open Scope list_scope.
Open Scope R_scope.

Lemma accel_all n y : length y = n -> accel n y = y.
Proof. intros L. unfold accel. rewrite L, Nat.sub_diag. reflexivity. Qed.

Section Schemes.
Context (dyn : vec -> vec -> vec -> vec -> vec -> vec) (M n n_u N : nat) (t_start t_end : R) (p : vec) (v : eq_values).
Hypothesis HM : (0 < M)%nat.
Hypothesis Hn : (0 < n)%nat.
Hypothesis HN : (0 < N)%nat.
Hypothesis Ht : t_start <> t_end.
Hypothesis Hs : eq_sizes M n n_u N v.
Let h := (t_end - t_start) / INR N.
Let Hh : h <> 0.
Proof. unfold h. apply Rmult_integral_contrapositive_currified; [lra|]. apply Rinv_neq_0_compat, not_0_INR. lia. Qed.
Let xlen i : (i <= N)%nat -> length (mrow i (ev_x v)) = (M * n)%nat.
Proof. intros H. apply (mrow_len (N + 1)); [apply Hs|lia]. Qed.
Let dlen i : (i <= N)%nat -> length (mrow i (ev_x_d v)) = (M * n)%nat.
Proof. intros H. apply (mrow_len (N + 1)); [apply Hs|lia]. Qed.
Let clen i : (i < N)%nat -> length (mrow i (ev_x_c v)) = (M * n)%nat.
Proof. intros H. apply (mrow_len N); [apply Hs|lia]. Qed.
Let cdlen i : (i < N)%nat -> length (mrow i (ev_x_d_c v)) = (M * n)%nat.
Proof. intros H. apply (mrow_len N); [apply Hs|lia]. Qed.
Let alen i : (i <= N)%nat -> length (accel n (mrow i (ev_x_d v))) = n.
Proof. intros H. apply (acc_length n M); auto. Qed.
Let aclen i : (i < N)%nat -> length (accel n (mrow i (ev_x_d_c v))) = n.
Proof. intros H. apply (acc_length n M); auto. Qed.

Lemma steps_trapz_iff : steps_trapz M n N h v <-> forall i, (i < N)%nat ->
  vzero (trapz_m_accel_restr M (mrow i (ev_x v)) (mrow (i + 1) (ev_x v)) (accel n (mrow i (ev_x_d v))) (accel n (mrow (i + 1) (ev_x_d v))) h).
Proof.
  unfold steps_trapz. split.
  - intros H i Hi. apply (step_trapz M n); auto; try (apply xlen; lia); try (apply alen; lia).
  - intros H i j Hi Hj. pose proof (proj1 (step_trapz M n h _ _ _ _ HM Hh (xlen i ltac:(lia)) (xlen (i + 1)%nat ltac:(lia)) (alen i ltac:(lia)) (alen (i + 1)%nat ltac:(lia))) (H i Hi)) as K.
    apply K. exact Hj.
Qed.
Lemma steps_hs_iff : steps_hs M n N h v <-> forall i, (i < N)%nat ->
  vzero (hs_m_accel_restr M (mrow i (ev_x v)) (mrow (i + 1) (ev_x v)) (accel n (mrow i (ev_x_d v))) (accel n (mrow (i + 1) (ev_x_d v))) h (accel n (mrow i (ev_x_d_c v)))) /\
  mrow i (ev_x_c v) = hs_m_half_x M (mrow i (ev_x v)) (mrow (i + 1) (ev_x v)) (accel n (mrow i (ev_x_d v))) (accel n (mrow (i + 1) (ev_x_d v))) h.
Proof.
  assert (HL : forall i, (i < N)%nat -> length (hs_m_half_x M (mrow i (ev_x v)) (mrow (i + 1) (ev_x v)) (accel n (mrow i (ev_x_d v))) (accel n (mrow (i + 1) (ev_x_d v))) h) = (M * n)%nat).
  { intros i Hi. apply hs_m_half_length; auto; try (apply xlen; lia); apply alen; lia. }
  unfold steps_hs. split.
  - intros H i Hi. apply (step_hs M n); auto; try (apply xlen; lia); try (apply alen; lia).
  - intros H i j Hi Hj.
    exact (proj1 (step_hs M n h _ _ _ _ _ _ HM Hn Hh (xlen i ltac:(lia)) (xlen (i + 1)%nat ltac:(lia)) (clen i Hi) (HL i Hi) (alen i ltac:(lia)) (alen (i + 1)%nat ltac:(lia)) (aclen i Hi)) (H i Hi) j Hj).
Qed.
Lemma steps_hsj_iff : M = 2%nat -> (steps_hsj n N h v <-> forall i, (i < N)%nat ->
  vzero (hsj_accel_restr (mrow i (ev_x v)) (mrow (i + 1) (ev_x v)) (accel n (mrow i (ev_x_d v))) (accel n (mrow (i + 1) (ev_x_d v))) h (accel n (mrow i (ev_x_d_c v)))) /\
  mrow i (ev_x_c v) = hsj_half_x (mrow i (ev_x v)) (mrow (i + 1) (ev_x v)) (accel n (mrow i (ev_x_d v))) (accel n (mrow (i + 1) (ev_x_d v))) h).
Proof.
  intros E. rewrite E in *.
  assert (HL : forall i, (i < N)%nat -> length (hsj_half_x (mrow i (ev_x v)) (mrow (i + 1) (ev_x v)) (accel n (mrow i (ev_x_d v))) (accel n (mrow (i + 1) (ev_x_d v))) h) = (2 * n)%nat).
  { intros i Hi. pose proof (xlen i ltac:(lia)) as L0. pose proof (xlen (i + 1)%nat ltac:(lia)) as L1. pose proof (alen i ltac:(lia)) as A0. pose proof (alen (i + 1)%nat ltac:(lia)) as A1.
    rewrite (PwAccelProofs.hsj_half_nf n) by auto. len. }
  unfold steps_hsj. split.
  - intros H i Hi. apply (step_hsj n); auto; try (apply xlen; lia); try (apply alen; lia).
  - intros H i j Hi Hj.
    exact (proj1 (step_hsj n h _ _ _ _ _ _ Hh (xlen i ltac:(lia)) (xlen (i + 1)%nat ltac:(lia)) (clen i Hi) (HL i Hi) (alen i ltac:(lia)) (alen (i + 1)%nat ltac:(lia)) (aclen i Hi)) (H i Hi) j Hj).
Qed.

Lemma eq_trapz_n : exists cs, eq_apply_scheme dyn "trapz_n" M n N t_start t_end p v = Ok cs /\
  (rows_satisfied cs <-> at_nodes dyn N p v /\ steps_trapz M n N h v).
Proof.
  destruct (no_hs dyn M n n_u N t_start t_end p v HM Hn HN Hs "trapz_n" _ eq_refl eq_refl) as [cs [E H]].
  exists cs. split; [exact E|]. rewrite H, steps_trapz_iff. reflexivity.
Qed.
Lemma eq_trapz_mod : M = 2%nat -> exists cs, eq_apply_scheme dyn "trapz_mod" M n N t_start t_end p v = Ok cs /\
  (rows_satisfied cs <-> at_nodes dyn N p v /\ steps_trapz M n N h v).
Proof.
  intros E2. destruct (no_hs dyn M n n_u N t_start t_end p v HM Hn HN Hs "trapz_mod" _ eq_refl eq_refl) as [cs [E H]].
  exists cs. split; [exact E|]. rewrite H, steps_trapz_iff. fold h.
  assert (EQ : forall i, (i < N)%nat -> trapz_mod_accel_restr (mrow i (ev_x v)) (mrow (i + 1) (ev_x v)) (accel n (mrow i (ev_x_d v))) (accel n (mrow (i + 1) (ev_x_d v))) h
     = trapz_m_accel_restr M (mrow i (ev_x v)) (mrow (i + 1) (ev_x v)) (accel n (mrow i (ev_x_d v))) (accel n (mrow (i + 1) (ev_x_d v))) h).
  { intros i Hi. rewrite E2. apply (trapz_2 n); try (rewrite <- E2; apply xlen; lia); apply alen; lia. }
  split; intros [A B]; (split; [exact A|]); intros i Hi; [rewrite <- EQ by exact Hi|rewrite EQ by exact Hi]; apply B; exact Hi.
Qed.
Lemma eq_hsn scheme : scheme = "hsn" \/ scheme = "hsn_parab" -> exists cs, eq_apply_scheme dyn scheme M n N t_start t_end p v = Ok cs /\
  (rows_satisfied cs <-> at_nodes dyn N p v /\ at_middles dyn N p v /\ steps_hs M n N h v /\ (scheme = "hsn" -> affine_controls (1 / 2) n_u N v)).
Proof.
  intros [->| ->].
  - destruct (with_hs dyn M n n_u N t_start t_end p v HM Hn HN Hs "hsn" _ eq_refl eq_refl) as [cs [E H]].
    exists cs. split; [exact E|]. rewrite H, steps_hs_iff. unfold controls_of. cbn. intuition.
  - destruct (with_hs dyn M n n_u N t_start t_end p v HM Hn HN Hs "hsn_parab" _ eq_refl eq_refl) as [cs [E H]].
    exists cs. split; [exact E|]. rewrite H, steps_hs_iff. unfold controls_of. cbn. intuition. discriminate.
Qed.
Lemma eq_hs_mod scheme : M = 2%nat -> scheme = "hs_mod" \/ scheme = "hs_mod_parab" -> exists cs, eq_apply_scheme dyn scheme M n N t_start t_end p v = Ok cs /\
  (rows_satisfied cs <-> at_nodes dyn N p v /\ at_middles dyn N p v /\ steps_hs M n N h v /\ (scheme = "hs_mod" -> affine_controls (1 / 2) n_u N v)).
Proof.
  intros E2 HSch.
  assert (EQ : forall i, (i < N)%nat -> hs_mod_accel_restr (mrow i (ev_x v)) (mrow (i + 1) (ev_x v)) (accel n (mrow i (ev_x_d v))) (accel n (mrow (i + 1) (ev_x_d v))) h (accel n (mrow i (ev_x_d_c v)))
     = hs_m_accel_restr M (mrow i (ev_x v)) (mrow (i + 1) (ev_x v)) (accel n (mrow i (ev_x_d v))) (accel n (mrow (i + 1) (ev_x_d v))) h (accel n (mrow i (ev_x_d_c v)))).
  { intros i Hi. rewrite E2. apply (hs_2 n); try (rewrite <- E2; apply xlen; lia); try (apply alen; lia). apply aclen; lia. }
  assert (EH : forall i, (i < N)%nat -> hs_mod_half_x (mrow i (ev_x v)) (mrow (i + 1) (ev_x v)) (accel n (mrow i (ev_x_d v))) (accel n (mrow (i + 1) (ev_x_d v))) h
     = hs_m_half_x M (mrow i (ev_x v)) (mrow (i + 1) (ev_x v)) (accel n (mrow i (ev_x_d v))) (accel n (mrow (i + 1) (ev_x_d v))) h).
  { intros i Hi. rewrite E2. apply (hs_half_2 n); try (rewrite <- E2; apply xlen; lia); try (apply alen; lia). }
  assert (G : forall (f : vec -> vec -> vec -> vec -> R -> vec -> vec) hx, f = hs_mod_accel_restr -> hx = hs_mod_half_x ->
     ((forall i, (i < N)%nat -> vzero (f (mrow i (ev_x v)) (mrow (i + 1) (ev_x v)) (accel n (mrow i (ev_x_d v)))
                (accel n (mrow (i + 1) (ev_x_d v))) h (accel n (mrow i (ev_x_d_c v)))) /\
      mrow i (ev_x_c v) = hx (mrow i (ev_x v)) (mrow (i + 1) (ev_x v)) (accel n (mrow i (ev_x_d v)))
                (accel n (mrow (i + 1) (ev_x_d v))) h) <-> steps_hs M n N h v)).
  { intros f hx -> ->. rewrite steps_hs_iff. split; intros X i Hi; [rewrite <- EQ, <- EH by exact Hi|rewrite EQ, EH by exact Hi]; apply X; exact Hi. }
  destruct HSch as [->| ->].
  - destruct (with_hs dyn M n n_u N t_start t_end p v HM Hn HN Hs "hs_mod" _ eq_refl eq_refl) as [cs [E H]].
    exists cs. split; [exact E|]. rewrite H. fold h. rewrite (G hs_mod_accel_restr (half_x_of "hs_mod" M) eq_refl eq_refl). unfold controls_of. cbn. intuition.
  - destruct (with_hs dyn M n n_u N t_start t_end p v HM Hn HN Hs "hs_mod_parab" _ eq_refl eq_refl) as [cs [E H]].
    exists cs. split; [exact E|]. rewrite H. fold h. rewrite (G hs_mod_accel_restr (half_x_of "hs_mod_parab" M) eq_refl eq_refl). unfold controls_of. cbn. intuition. discriminate.
Qed.
Lemma eq_hsj scheme : M = 2%nat -> scheme = "hsj" \/ scheme = "hsj_parab" \/ scheme = "hsj_parab_mod" -> exists cs, eq_apply_scheme dyn scheme M n N t_start t_end p v = Ok cs /\
  (rows_satisfied cs <-> at_nodes dyn N p v /\ at_middles dyn N p v /\ steps_hsj n N h v /\ (scheme = "hsj" -> affine_controls (2 / 5) n_u N v)).
Proof.
  intros E2 [->|[->| ->]].
  - destruct (with_hs dyn M n n_u N t_start t_end p v HM Hn HN Hs "hsj" _ eq_refl eq_refl) as [cs [E H]].
    exists cs. split; [exact E|]. rewrite H, (steps_hsj_iff E2). unfold controls_of. cbn. intuition.
  - destruct (with_hs dyn M n n_u N t_start t_end p v HM Hn HN Hs "hsj_parab" _ eq_refl eq_refl) as [cs [E H]].
    exists cs. split; [exact E|]. rewrite H, (steps_hsj_iff E2). unfold controls_of. cbn. intuition. discriminate.
  - destruct (with_hs dyn M n n_u N t_start t_end p v HM Hn HN Hs "hsj_parab_mod" _ eq_refl eq_refl) as [cs [E H]].
    exists cs. split; [exact E|]. rewrite H, (steps_hsj_iff E2). unfold controls_of. cbn. intuition. discriminate.
Qed.
End Schemes.

(** first-order forms *)
Lemma eq_sizes_1 M n n_u N v : eq_sizes M n n_u N v -> eq_sizes 1 (M * n) n_u N v.
Proof. unfold eq_sizes. rewrite Nat.mul_1_l. tauto. Qed.

Section FirstOrder.
Context (dyn : vec -> vec -> vec -> vec -> vec -> vec) (M n n_u N : nat) (t_start t_end : R) (p : vec) (v : eq_values).
Hypothesis HM : (0 < M)%nat.
Hypothesis Hn : (0 < n)%nat.
Hypothesis HN : (0 < N)%nat.
Hypothesis Ht : t_start <> t_end.
Hypothesis Hs : eq_sizes M n n_u N v.
Hypothesis Hk : kinematic M n dyn p.
Let h := (t_end - t_start) / INR N.
Let xlen i : (i <= N)%nat -> length (mrow i (ev_x v)) = (M * n)%nat.
Proof. intros H. apply (mrow_len (N + 1)); [apply Hs|lia]. Qed.
Let dlen i : (i <= N)%nat -> length (mrow i (ev_x_d v)) = (M * n)%nat.
Proof. intros H. apply (mrow_len (N + 1)); [apply Hs|lia]. Qed.
Let clen i : (i < N)%nat -> length (mrow i (ev_x_c v)) = (M * n)%nat.
Proof. intros H. apply (mrow_len N); [apply Hs|lia]. Qed.
Let cdlen i : (i < N)%nat -> length (mrow i (ev_x_d_c v)) = (M * n)%nat.
Proof. intros H. apply (mrow_len N); [apply Hs|lia]. Qed.
Let N0 : (0 < M * n)%nat.
Proof. apply Nat.mul_pos_pos; assumption. Qed.
Let kin i : at_nodes dyn N p v -> (i <= N)%nat -> firstn ((M - 1) * n) (mrow i (ev_x_d v)) = skipn n (mrow i (ev_x v)).
Proof. intros A Hi. eapply Hk; [apply xlen; exact Hi|apply dlen; exact Hi|apply A; exact Hi]. Qed.
Let kinc i : at_middles dyn N p v -> (i < N)%nat -> firstn ((M - 1) * n) (mrow i (ev_x_d_c v)) = skipn n (mrow i (ev_x_c v)).
Proof. intros A Hi. eapply Hk; [apply clen; exact Hi|apply cdlen; exact Hi|apply A; exact Hi]. Qed.
Let acc1 i : (i <= N)%nat -> accel (M * n) (mrow i (ev_x_d v)) = mrow i (ev_x_d v).
Proof. intros Hi. apply accel_all, dlen, Hi. Qed.
Let acc1c i : (i < N)%nat -> accel (M * n) (mrow i (ev_x_d_c v)) = mrow i (ev_x_d_c v).
Proof. intros Hi. apply accel_all, cdlen, Hi. Qed.

Lemma eq_trapz : exists cs, eq_apply_scheme dyn "trapz" M n N t_start t_end p v = Ok cs /\
  (rows_satisfied cs <-> at_nodes dyn N p v /\ steps_trapz 1 (M * n) N h v).
Proof.
  destruct (no_hs dyn M n n_u N t_start t_end p v HM Hn HN Hs "trapz" _ eq_refl eq_refl) as [cs [E H]].
  exists cs. split; [exact E|]. rewrite H. fold h.
  pose proof (steps_trapz_iff 1 (M * n) n_u N t_start t_end v ltac:(lia) N0 HN Ht (eq_sizes_1 _ _ _ _ _ Hs)) as S. fold h in S.
  rewrite S. split; intros [A B]; (split; [exact A|]); intros i Hi.
  - rewrite !acc1 by lia. specialize (B i Hi). rewrite (trapz_first M n) in B by (try apply xlen; try apply dlen; try apply kin; try assumption; lia). exact B.
  - rewrite (trapz_first M n) by (try apply xlen; try apply dlen; try apply kin; try assumption; lia).
    specialize (B i Hi). rewrite !acc1 in B by lia. exact B.
Qed.

Lemma eq_hs scheme : scheme = "hs" \/ scheme = "hs_parab" -> exists cs, eq_apply_scheme dyn scheme M n N t_start t_end p v = Ok cs /\
  (rows_satisfied cs <-> at_nodes dyn N p v /\ at_middles dyn N p v /\ steps_hs 1 (M * n) N h v /\ (scheme = "hs" -> affine_controls (1 / 2) n_u N v)).
Proof.
  intros HS.
  pose proof (steps_hs_iff 1 (M * n) n_u N t_start t_end v ltac:(lia) N0 HN Ht (eq_sizes_1 _ _ _ _ _ Hs)) as S. fold h in S.
  assert (G : at_nodes dyn N p v -> at_middles dyn N p v ->
     ((forall i, (i < N)%nat -> vzero (hs_accel_restr (mrow i (ev_x v)) (mrow (i + 1) (ev_x v)) (accel n (mrow i (ev_x_d v)))
                (accel n (mrow (i + 1) (ev_x_d v))) h (accel n (mrow i (ev_x_d_c v)))) /\
      mrow i (ev_x_c v) = hs_half_x (mrow i (ev_x v)) (mrow (i + 1) (ev_x v)) (accel n (mrow i (ev_x_d v)))
                (accel n (mrow (i + 1) (ev_x_d v))) h) <-> steps_hs 1 (M * n) N h v)).
  { intros A B. rewrite S. split; intros X i Hi; specialize (X i Hi).
    - rewrite !acc1, acc1c by lia. rewrite (hs_half_first M n) in X by (try apply xlen; try apply dlen; try apply kin; try assumption; lia).
      destruct X as [X1 X2]. split; [|exact X2].
      rewrite (hs_first M n HM Hn _ _ _ _ h) with (x_c := mrow i (ev_x_c v)) in X1
        by (try exact X2; try apply xlen; try apply dlen; try apply cdlen; try apply kin; try apply kinc; try assumption; lia). exact X1.
    - rewrite !acc1, acc1c in X by lia. rewrite (hs_half_first M n) by (try apply xlen; try apply dlen; try apply kin; try assumption; lia).
      destruct X as [X1 X2]. split; [|exact X2].
      rewrite (hs_first M n HM Hn _ _ _ _ h) with (x_c := mrow i (ev_x_c v))
        by (try exact X2; try apply xlen; try apply dlen; try apply cdlen; try apply kin; try apply kinc; try assumption; lia). exact X1. }
  destruct HS as [->| ->].
  - destruct (with_hs dyn M n n_u N t_start t_end p v HM Hn HN Hs "hs" _ eq_refl eq_refl) as [cs [E H]].
    exists cs. split; [exact E|]. rewrite H. fold h. unfold controls_of. cbn [sub_in String.index]. split.
    + intros [A [B [C D]]]. split; [exact A|split; [exact B|split; [exact (proj1 (G A B) C)|intros _; exact D]]].
    + intros [A [B [C D]]]. split; [exact A|split; [exact B|split; [exact (proj2 (G A B) C)|exact (D eq_refl)]]].
  - destruct (with_hs dyn M n n_u N t_start t_end p v HM Hn HN Hs "hs_parab" _ eq_refl eq_refl) as [cs [E H]].
    exists cs. split; [exact E|]. rewrite H. fold h. unfold controls_of. cbn [sub_in String.index]. split.
    + intros [A [B [C D]]]. split; [exact A|split; [exact B|split; [exact (proj1 (G A B) C)|discriminate]]].
    + intros [A [B [C D]]]. split; [exact A|split; [exact B|split; [exact (proj2 (G A B) C)|exact I]]].
Qed.
End FirstOrder.

Lemma eq_euler LM g : In g guess_names -> (exists pr, Opti_Problem LM "euler" g = Ok pr /\ op_sch pr = Equispaced) /\
  forall dyn M n N t_start t_end p v, eq_apply_scheme dyn "euler" M n N t_start t_end p v = Err KeyError.
Proof.
  intros G. split; [|reflexivity]. destruct (dispatch_ok LM false FEquispaced "euler" "euler" g) as [pr [E [C _]]];
    [split; [cbn; tauto|reflexivity]|exact G|]. exists pr. split; assumption.
Qed.

Lemma t_arr_nodes t_start t_end N : (0 < N)%nat -> length (eq_t_arr t_start t_end N) = (N + 1)%nat /\
  vnth (eq_t_arr t_start t_end N) 0 = t_start /\ vnth (eq_t_arr t_start t_end N) N = t_end /\
  forall i, (i < N)%nat -> vnth (eq_t_arr t_start t_end N) (i + 1) = vnth (eq_t_arr t_start t_end N) i + (t_end - t_start) / INR N.
Proof.
  intros HN. unfold eq_t_arr. rewrite map_length, seq_length. split; [reflexivity|].
  assert (E : forall i, (i <= N)%nat -> vnth (map (fun i => t_start + INR i * ((t_end - t_start) / INR N)) (seq 0 (N + 1))) i = t_start + INR i * ((t_end - t_start) / INR N)).
  { intros i Hi. rewrite vnth_map_seq by lia. reflexivity. }
  rewrite !E by lia. assert (INR N <> 0) by (apply not_0_INR; lia). repeat split.
  - cbn. ring.
  - field. assumption.
  - intros i Hi. rewrite !E by lia. rewrite plus_INR. cbn [INR]. ring.
Qed.
Lemma t_c_nodes scheme t_start t_end N : (0 < N)%nat -> 
  length (eq_t_c_arr scheme (eq_t_arr t_start t_end N)) = N /\
  forall i, (i < N)%nat -> vnth (eq_t_c_arr scheme (eq_t_arr t_start t_end N)) i =
    vnth (eq_t_arr t_start t_end N) i + (if sub_in "j" scheme then 2 / 5 else 1 / 2) * ((t_end - t_start) / INR N).
Proof.
  intros HN. destruct (t_arr_nodes t_start t_end N HN) as [L [_ [_ Hs]]]. set (t := eq_t_arr t_start t_end N) in *.
  unfold eq_t_c_arr. assert (L1 : length (butlastn 1 t) = N). { unfold butlastn. cbn [Nat.eqb]. rewrite firstn_length. lia. }
  assert (L2 : length (skipn 1 t) = N) by (rewrite skipn_length; lia).
  assert (V1 : forall i, (i < N)%nat -> vnth (butlastn 1 t) i = vnth t i).
  { intros i Hi. unfold butlastn. cbn [Nat.eqb]. rewrite vnth_firstn. destruct (Nat.ltb_spec i (length t - 1)); [reflexivity|lia]. }
  assert (V2 : forall i, (i < N)%nat -> vnth (skipn 1 t) i = vnth t i + (t_end - t_start) / INR N).
  { intros i Hi. rewrite vnth_skipn. rewrite Nat.add_comm. apply Hs. exact Hi. }
  destruct (sub_in "j" scheme); split; try (len; lia); intros i Hi; comp; rewrite V1, V2 by exact Hi; lra.
Qed.
