(** The constraints of the bottom-up and top-down problems mean that a
    polynomial trajectory obeys the dynamics at the collocation times (C28, C29). *)
From Coq Require Import String.
From Coquelicot Require Import Coquelicot.
From Verif Require Import Prelude PreludeFacts Poly PolyFacts PolyInterp Mat MatFacts
  PwInterpModel PsModel JacobiFacts PsSpec PsPointsProofs PsBaryProofs PsNodesProofs PsProblemProofs PsApplyProofs PsInterpProofs
  UtilModel UtilSpec GaussFacts UtilProofs BuTdModel BuTdSpec BuTdFacts BuTdProofs.
Open Scope R_scope.
Open Scope vec_scope.
Open Scope list_scope.

(** ** Blocks of a state *)
Lemma rate_n_eval k P t : rate_n_at k P t = map (fun c => peval (pderiv_n k c) t) P.
Proof. unfold rate_n_at. apply map_ext. intros c. apply Derive_n_peval. Qed.
Lemma rate_n_length k P t : length (rate_n_at k P t) = length P.
Proof. apply map_length. Qed.
Lemma vnth_rate_n k P t j : (j < length P)%nat -> vnth (rate_n_at k P t) j = peval (pderiv_n k (nth j P [])) t.
Proof. intros H. rewrite rate_n_eval. unfold vnth. now rewrite (nth_map' _ _ _ []). Qed.
Lemma flat_map_const_length {A} (f : nat -> list A) n M s : (forall k, length (f k) = n) -> length (flat_map f (seq s M)) = (M * n)%nat.
Proof. intros H. revert s. induction M; intros s; [reflexivity|]. cbn [seq flat_map]. rewrite app_length, H, IHM. lia. Qed.
Lemma full_state_length M P t : length (full_state M P t) = (M * length P)%nat.
Proof. apply flat_map_const_length. intros k. apply rate_n_length. Qed.
Lemma full_rate_length M P t : length (full_rate M P t) = (M * length P)%nat.
Proof. apply flat_map_const_length. intros k. apply rate_n_length. Qed.
Lemma full_state_S M P t : full_state (S M) P t = rate_n_at 0 P t ++ flat_map (fun k => rate_n_at (S k) P t) (seq 0 M).
Proof. unfold full_state. cbn [seq flat_map]. f_equal. rewrite <- seq_shift, flat_map_concat_map, map_map, <- flat_map_concat_map. reflexivity. Qed.
Lemma full_rate_split M P t : full_rate (S M) P t = skipn (length P) (full_state (S M) P t) ++ rate_n_at (S M) P t.
Proof.
  rewrite full_state_S, skipn_app, skipn_all2 by (rewrite rate_n_length; lia).
  rewrite rate_n_length, Nat.sub_diag. cbn [skipn app]. unfold full_rate.
  rewrite seq_S, flat_map_app. cbn [flat_map]. now rewrite app_nil_r, Nat.add_0_l.
Qed.

Lemma slice_app_l {A} (a b : list A) n : length a = n -> slice 0 n (a ++ b) = a.
Proof. intros H. unfold slice. rewrite Nat.sub_0_r. cbn [skipn]. rewrite firstn_app, H, Nat.sub_diag, firstn_O, app_nil_r. apply firstn_all2. lia. Qed.
Lemma slice_skip {A} (l : list A) a lo hi : slice (a + lo) (a + hi) l = slice lo hi (skipn a l).
Proof. unfold slice. rewrite skipn_skipn'. f_equal. lia. Qed.
Lemma blocks_iff (f : nat -> vec) n M v : length v = (M * n)%nat -> (forall k, length (f k) = n) ->
  (v = flat_map f (seq 0 M) <-> forall k, (k < M)%nat -> slice (n * k) (n * (k + 1)) v = f k).
Proof.
  revert f v. induction M; intros f v L F.
  - split; [intros _ k H; lia|]. intros _. destruct v; [reflexivity|simpl in L; lia].
  - assert (E : flat_map f (seq 0 (S M)) = f 0%nat ++ flat_map (fun k => f (S k)) (seq 0 M)).
    { cbn [seq flat_map]. f_equal. rewrite <- seq_shift, flat_map_concat_map, map_map, <- flat_map_concat_map. reflexivity. }
    rewrite E.
    assert (Sp : v = slice 0 n v ++ skipn n v) by (unfold slice; rewrite Nat.sub_0_r; cbn [skipn]; symmetry; apply firstn_skipn).
    assert (Ls : length (skipn n v) = (M * n)%nat) by (rewrite skipn_length; lia).
    assert (Lf : length (slice 0 n v) = n) by (rewrite slice_length; lia).
    specialize (IHM (fun k => f (S k)) (skipn n v) Ls (fun k => F (S k))).
    assert (Q : v = f 0%nat ++ flat_map (fun k => f (S k)) (seq 0 M) <->
      slice 0 n v = f 0%nat /\ skipn n v = flat_map (fun k => f (S k)) (seq 0 M)).
    { split.
      - intros ->. split; [now apply slice_app_l|].
        rewrite skipn_app, skipn_all2, F, Nat.sub_diag by (rewrite F; lia). reflexivity.
      - intros [A B]. rewrite Sp, A, B. reflexivity. }
    rewrite Q, IHM. split.
    + intros [A B] [|k] Hk.
      * rewrite Nat.mul_0_r, Nat.add_0_l, Nat.mul_1_r. exact A.
      * rewrite <- (B k) by lia. rewrite <- slice_skip. f_equal; lia.
    + intros H. split.
      * rewrite <- (H 0%nat) by lia. f_equal; lia.
      * intros k Hk. rewrite <- (H (S k)) by lia. rewrite <- slice_skip. f_equal; lia.
Qed.

(** Rows of the problem arrays. *)
Lemma q_and_der_row p x x_d n k i : shaped n (ps_order p * ps_n_q p) x -> shaped n (ps_order p * ps_n_q p) x_d ->
  (i < n)%nat ->
  mrow i (q_and_der p x x_d k) =
    if (k <? ps_order p)%nat then slice (ps_n_q p * k) (ps_n_q p * (k + 1)) (mrow i x) else lastn (ps_n_q p) (mrow i x_d).
Proof.
  intros [L _] [Ld _] Hi. unfold q_and_der. destruct (Nat.ltb_spec k (ps_order p)).
  - apply mrow_mcols. lia.
  - apply mrow_lastcols. lia.
Qed.
Lemma q_and_der_shaped p x x_d n k : shaped n (ps_order p * ps_n_q p) x -> shaped n (ps_order p * ps_n_q p) x_d ->
  (1 <= ps_n_q p)%nat -> (1 <= ps_order p)%nat -> shaped n (ps_n_q p) (q_and_der p x x_d k).
Proof.
  intros Sx Sd Q O. unfold q_and_der. destruct (Nat.ltb_spec k (ps_order p)).
  - replace (ps_n_q p) with (ps_n_q p * (k + 1) - ps_n_q p * k)%nat at 1 by nia.
    apply (mcols_shaped n (ps_order p * ps_n_q p)); [exact Sx|nia|nia].
  - apply (mlastcols_shaped n (ps_order p * ps_n_q p)); [exact Sd|lia|nia].
Qed.
Lemma rows_state p x n P ts : shaped n (ps_order p * ps_n_q p) x -> length P = ps_n_q p -> length ts = n ->
  forall x_d, shaped n (ps_order p * ps_n_q p) x_d ->
  (forall k i, (k < ps_order p)%nat -> (i < n)%nat -> mrow i (q_and_der p x x_d k) = rate_n_at k P (vnth ts i)) <->
  (forall i, (i < n)%nat -> mrow i x = full_state (ps_order p) P (vnth ts i)).
Proof.
  intros S LP LT x_d Sd. split.
  - intros H i Hi. unfold full_state. apply (blocks_iff _ (ps_n_q p)).
    + now apply (shaped_row _ _ _ _ S).
    + intros k. now rewrite rate_n_length.
    + intros k Hk. rewrite <- H by assumption. rewrite (q_and_der_row p x x_d n) by assumption.
      apply Nat.ltb_lt in Hk. now rewrite Hk.
  - intros H k i Hk Hi. rewrite (q_and_der_row p x x_d n) by assumption.
    pose proof Hk as Hk'. apply Nat.ltb_lt in Hk. rewrite Hk.
    specialize (H i Hi). unfold full_state in H. revert k Hk' Hk.
    pose proof (proj1 (blocks_iff (fun k => rate_n_at k P (vnth ts i)) (ps_n_q p) (ps_order p) (mrow i x)
      (shaped_row _ _ _ _ S Hi) (fun k => eq_trans (rate_n_length k P _) LP)) H) as B.
    intros k Hk _. now apply B.
Qed.

(** ** The dynamics constraints *)
Lemma take_seq (l r : bool) n :
  take (1 - b2n l, 1 - b2n r)%nat (seq 0 (2 + n)) = map (fun i => (1 - b2n l + i)%nat) (seq 0 (b2n l + n + b2n r)).
Proof.
  apply (list_ext 0%nat).
  - rewrite take_length, seq_length, map_length, seq_length. destruct l, r; simpl; lia.
  - intros i Hi. rewrite take_length, seq_length in Hi. unfold take. cbn [fst snd].
    rewrite nth_firstn_lt by (rewrite seq_length; exact Hi). rewrite PsApplyProofs.nth_skipn'.
    rewrite seq_nth by (destruct l, r; cbn [b2n] in *; lia).
    rewrite (nth_map' _ _ _ 0%nat) by (rewrite seq_length; destruct l, r; cbn [b2n] in *; lia).
    rewrite seq_nth by (destruct l, r; cbn [b2n] in *; lia). lia.
Qed.
Lemma map2_seq {A} (f : nat -> nat -> A) g n :
  map2 f (seq 0 n) (map g (seq 0 n)) = map (fun i => f i (g i)) (seq 0 n).
Proof.
  generalize 0%nat. induction n; intros s; [reflexivity|]. cbn [seq map map2]. now rewrite IHn.
Qed.
Lemma bt_dyn_satisfied dyn (l r : bool) n w N : N = (b2n l + n + b2n r)%nat ->
  satisfied (bt_dyn dyn (2 + n) (1 - b2n l, 1 - b2n r)%nat w) <->
  forall k, (k < N)%nat -> Forall (fun a => a = 0)
    (dyn (mrow (1 - b2n l + k) (pv_x w)) (mrow (1 - b2n l + k) (pv_x_d w)) (mrow k (pv_u w)) (mrow k (pv_lam w))).
Proof.
  intros ->. unfold bt_dyn. rewrite take_seq, map_length, seq_length, map2_seq.
  unfold satisfied. rewrite Forall_map, Forall_forall. cbn [fst snd]. split.
  - intros H k Hk. specialize (H k). rewrite in_seq in H. specialize (H ltac:(lia)).
    apply vzero_of. injection H. auto.
  - intros H k Hk. apply in_seq in Hk. f_equal. apply vzero_of. apply H. lia.
Qed.

(** The chain rows and the dynamics, given the polynomial. *)
Lemma lastn_app {A} (a b : list A) n : length b = n -> (0 < n)%nat -> lastn n (a ++ b) = b.
Proof.
  intros L H. unfold lastn. destruct (Nat.eqb_spec n 0); [lia|]. rewrite app_length, L.
  rewrite skipn_app. rewrite skipn_all2 by lia. replace (length a + n - n - length a)%nat with 0%nat by lia. reflexivity.
Qed.
Lemma chain_dynamics dyn nq M ts tc i0 x x_d u lam P n :
  (1 <= nq)%nat -> (1 <= M)%nat -> residual_has_chain nq M dyn ->
  shaped n (M * nq) x -> shaped n (M * nq) x_d -> length ts = n -> NoDup ts ->
  (forall k, (k < length tc)%nat -> (i0 + k < n)%nat /\ vnth tc k = vnth ts (i0 + k)) ->
  length P = nq ->
  (forall i, (i < n)%nat -> mrow i x = full_state M P (vnth ts i)) ->
  (forall i, (i < n)%nat -> lastn nq (mrow i x_d) = rate_n_at M P (vnth ts i)) ->
  (forall k, (k < length tc)%nat ->
     Forall (fun a => a = 0) (dyn (mrow (i0 + k) x) (mrow (i0 + k) x_d) (mrow k u) (mrow k lam))) <->
  (forall i k, (i < n)%nat -> (k < length tc)%nat -> vnth ts i = vnth tc k -> mrow i x_d = full_rate M P (vnth tc k)) /\
  (forall k, (k < length tc)%nat ->
     Forall (fun a => a = 0) (dyn (full_state M P (vnth tc k)) (full_rate M P (vnth tc k)) (mrow k u) (mrow k lam))).
Proof.
  intros Q O C Sx Sd LT ND I LP X XD.
  assert (R : forall k, (k < length tc)%nat ->
     firstn ((M - 1) * nq) (mrow (i0 + k) x_d) = skipn nq (mrow (i0 + k) x) ->
     mrow (i0 + k) x_d = full_rate M P (vnth tc k)).
  { intros k Hk E. destruct (I k Hk) as [I1 I2].
    rewrite <- (firstn_skipn ((M - 1) * nq) (mrow (i0 + k) x_d)), E.
    destruct M as [|M']; [lia|]. rewrite full_rate_split, LP, I2, <- X by exact I1. f_equal.
    rewrite <- XD by exact I1. unfold lastn. destruct (Nat.eqb_spec nq 0); [lia|].
    f_equal. rewrite (shaped_row _ _ _ _ Sd I1). nia. }
  assert (EQ : forall i k, (i < n)%nat -> (k < length tc)%nat -> vnth ts i = vnth tc k -> i = (i0 + k)%nat).
  { intros i k Hi Hk E. destruct (I k Hk) as [I1 I2]. rewrite I2 in E.
    apply (NoDup_vnth ts); auto; lia. }
  split.
  - intros H.
    assert (A : forall k, (k < length tc)%nat -> mrow (i0 + k) x_d = full_rate M P (vnth tc k)).
    { intros k Hk. apply R; [exact Hk|]. destruct (I k Hk) as [I1 _].
      apply (C _ _ (mrow k u) (mrow k lam)); [now apply (shaped_row _ _ _ _ Sx)|now apply (shaped_row _ _ _ _ Sd)|now apply H]. }
    split.
    + intros i k Hi Hk E. rewrite (EQ i k Hi Hk E). now apply A.
    + intros k Hk. destruct (I k Hk) as [I1 I2]. rewrite <- A, I2, <- X by assumption. now apply H.
  - intros [A B] k Hk. destruct (I k Hk) as [I1 I2].
    rewrite (A (i0 + k)%nat k) by auto. rewrite X, <- I2 by exact I1. now apply B.
Qed.

(** A problem the theorems are about. *)
Definition bt_valid (p : ps_problem) : Prop :=
  In (ps_scheme p) bt_schemes /\ enough_points (ps_scheme p) (ps_n_coll p) /\
  (1 <= ps_order p)%nat /\ (1 <= ps_n_q p)%nat /\ ps_t_start p <> ps_t_end p.

Lemma mrow_mmul A B i : (i < length A)%nat ->
  mrow i (mmul A B) = map (fun j => vdot (mrow i A) (mcol j B)) (seq 0 (mwidth B)).
Proof. intros H. unfold mrow, mmul. now rewrite (nth_map' _ _ _ []). Qed.
Lemma satisfied_app a b : satisfied (a ++ b) <-> satisfied a /\ satisfied b.
Proof. apply Forall_app. Qed.
Lemma mcol_app j A B : mcol j (A ++ B) = mcol j A ++ mcol j B.
Proof. apply map_app. Qed.

(** Times of the arrays of a problem. *)
Lemma times_coll (l r : bool) c t0 tf k : (k < b2n l + length c + b2n r)%nat ->
  (1 - b2n l + k < 2 + length c)%nat /\
  vnth (tau_to_t_points (with_ends l r c) t0 tf) k = vnth (tau_to_t_points (with_ends true true c) t0 tf) (1 - b2n l + k).
Proof.
  intros H. assert (B : (1 - b2n l + k < 2 + length c)%nat) by (destruct l, r; simpl in *; lia).
  split; [exact B|]. rewrite vnth_times by (rewrite with_ends_length; exact H).
  rewrite vnth_times by (rewrite with_ends_length; cbn [b2n] in *; lia).
  rewrite (with_ends_shift l r c k H). reflexivity.
Qed.

Section Td.
Variable rr : list R -> list R.
Hypothesis OK : real_roots_ok rr.
Variable dyn : vec -> vec -> vec -> vec -> vec.

Lemma td_block ts tx L n nq Q P k t0 tf : NoDup ts -> t0 <> tf -> (0 < n)%nat -> length ts = n -> shaped n nq Q -> length P = nq ->
  shaped (length tx) n L -> (forall i, (i < length tx)%nat -> mrow i L = state_at (lagrs ts) (vnth tx i)) ->
  traj_through (tau_to_t_points ts t0 tf) Q P ->
  shaped (length tx) nq (mmul (mmul (mscale ((2 / (tf - t0)) ^ k) L) (mpow (Dmat ts) k)) Q) /\
  forall i, (i < length tx)%nat ->
    mrow i (mmul (mmul (mscale ((2 / (tf - t0)) ^ k) L) (mpow (Dmat ts) k)) Q) = rate_n_at k P (tau_to_t (vnth tx i) t0 tf).
Proof.
  intros ND T Hn LT SQ LP SL RL TP.
  assert (SD : shaped n n (mpow (Dmat ts) k)).
  { apply mpow_shaped; [|exact Hn]. rewrite <- LT. apply Dmat_shaped. }
  assert (SA : shaped (length tx) n (mmul (mscale ((2 / (tf - t0)) ^ k) L) (mpow (Dmat ts) k))).
  { apply (mmul_shaped _ n); auto. now apply mscale_shaped. }
  assert (SF := mmul_shaped _ n nq _ Q SA SQ Hn). split; [exact SF|]. intros i Hi.
  apply vec_ext; [rewrite rate_n_length, (shaped_row _ _ _ _ SF Hi); auto|].
  rewrite (shaped_row _ _ _ _ SF Hi). intros j Hj.
  change (vnth (mrow i ?A) j) with (mget A i j).
  rewrite (mget_mmul (length tx) n nq) by assumption.
  rewrite vnth_rate_n by lia.
  assert (Lq := shaped_length _ _ _ SQ).
  rewrite <- (td_row_exact ts (vnth tx i) (map (fun i => peval (pderiv_n k (in_tau t0 tf (nth j P []))) (vnth ts i)) (seq 0 (length ts)))
    (mcol j Q) (nth j P []) k t0 tf); auto.
  2:{ apply TP. lia. }
  2:{ rewrite mcol_length. lia. }
  rewrite PreludeFacts.vdot_rsum by (rewrite state_at_length, lagrs_length, map_length, seq_length; reflexivity).
  rewrite state_at_length, lagrs_length, LT, <- rsum_scal.
  rewrite (rsum_ext _ _ (fun l => rsum n (fun m => (2 / (tf - t0)) ^ k * (mget L i m * (mget (mpow (Dmat ts) k) m l * mget Q l j))))).
  2:{ intros l Hl. rewrite (mget_mmul (length tx) n n) by (auto using mscale_shaped).
      rewrite <- rsum_scal_r. apply rsum_ext. intros m Hm. rewrite mget_mscale. ring. }
  rewrite rsum_swap. apply rsum_ext. intros m Hm. rewrite !rsum_scal.
  rewrite <- (mget_mmul n n nq) by (auto; lia).
  assert (IT : interpolates ts (mcol j Q) (in_tau t0 tf (nth j P []))).
  { apply interpolates_in_tau. apply TP. lia. }
  rewrite <- LT in SQ, Hm, Hn.
  rewrite (Dmat_pow ts Q nq j (in_tau t0 tf (nth j P [])) k m) by auto.
  rewrite vnth_map_seq by lia. rewrite Nat.add_0_l. unfold mget at 1. rewrite RL by exact Hi. reflexivity.
Qed.

Theorem td_apply p w q_constr :
  bt_valid p -> residual_has_chain (ps_n_q p) (ps_order p) dyn ->
  exists st cs, td_opti_setup rr p = Ok st /\
    get_coll_indices (ps_scheme p) = Ok (bset_coll st) /\ take (bset_coll st) (bset_tau st) = bset_tau_col st /\
    length (bset_tau st) = bset_n_arr st /\ length (bset_tau_col st) = ps_n_coll p /\
    td_apply_scheme rr dyn p w q_constr = Ok cs /\
    (shaped (bset_n_arr st) (ps_order p * ps_n_q p) (pv_x w) ->
     shaped (bset_n_arr st) (ps_order p * ps_n_q p) (pv_x_d w) ->
     shaped (ps_n_coll p + ps_order p) (ps_n_q p) q_constr ->
     satisfied cs <->
     exists P, order_solution dyn (ps_n_coll p + ps_order p) (ps_n_q p) (ps_order p)
         (t_of p (bset_tau st)) (t_of p (bset_tau_col st)) (pv_x w) (pv_x_d w) (pv_u w) (pv_lam w) P /\
       forall i, (i < ps_n_coll p + ps_order p)%nat ->
         mrow i q_constr = state_at P (vnth (t_of p (LGL rr (ps_n_coll p + ps_order p))) i)).
Proof.
  intros (H & E & O & Q & T) C.
  destruct (bt_points rr OK (ps_scheme p) (ps_n_coll p) (ps_order p) H E) as (c & S & Ec & _ & _ & Ex & Ei & L).
  set (s := ps_scheme p) in *. set (N := ps_n_coll p) in *. set (M := ps_order p) in *. set (nq := ps_n_q p) in *.
  set (tc := with_ends (starts s) (ends s) c) in *. set (tx := with_ends true true c) in *.
  exists (Build_bt_setup (length tx) tx tc (1 - b2n (starts s), 1 - b2n (ends s))%nat).
  unfold td_apply_scheme, td_opti_setup. fold s N M. rewrite Ei. cbn [rbind]. rewrite Ex. cbn [rbind]. rewrite Ec.
  cbn [rbind bset_n_arr bset_tau bset_tau_col bset_coll].
  destruct (matrix_D_nu_ok rr OK (M + N)) as (c' & _ & _ & LL & NDL & ED); [destruct E; lia|].
  rewrite ED. cbn [rbind].
  destruct (matrix_L_ok rr OK s N M H E O) as (tx' & Lm & Ex' & EL & SL & RL).
  rewrite Ex in Ex'. injection Ex' as <-. rewrite EL. cbn [rbind].
  eexists. split; [reflexivity|]. split; [reflexivity|].
  split; [exact (take_with_ends true true (starts s) (ends s) c (fun _ => eq_refl) (fun _ => eq_refl))|].
  split; [reflexivity|]. split; [exact L|]. split; [reflexivity|]. intros Sx Sd SQ.
  set (t0 := ps_t_start p) in *. set (tf := ps_t_end p) in *.
  replace (M + N)%nat with (N + M)%nat in * by lia.
  set (ts := LGL rr (N + M)) in *.
  assert (LX : length tx = (2 + length c)%nat) by (unfold tx; rewrite with_ends_length; simpl; lia).
  assert (NDX : NoDup (tau_to_t_points tx t0 tf)).
  { apply times_NoDup; [exact T|]. now apply (with_ends_NoDup _ _ _ _ S). }
  assert (NDT : NoDup (tau_to_t_points ts t0 tf)) by (now apply times_NoDup).
  assert (HN : (0 < N + M)%nat) by lia.
  assert (Lq := shaped_length _ _ _ SQ).
  assert (TX : length (t_of p tx) = length tx) by apply times_length.
  assert (Main : forall P, length P = nq -> traj_through (tau_to_t_points ts t0 tf) q_constr P ->
     satisfied (map (fun ii => (q_and_der p (pv_x w) (pv_x_d w) ii,
        mmul (mmul (mscale ((2 / (tf - t0)) ^ ii) Lm) (mpow (Dmat ts) ii)) q_constr)) (seq 0 (M + 1))) <->
     (forall i, (i < length tx)%nat -> mrow i (pv_x w) = full_state M P (vnth (t_of p tx) i)) /\
     (forall i, (i < length tx)%nat -> lastn nq (mrow i (pv_x_d w)) = rate_n_at M P (vnth (t_of p tx) i))).
  { intros P LP TP.
    pose proof (rows_state p (pv_x w) (length tx) P (t_of p tx) Sx LP TX (pv_x_d w) Sd) as RS. fold M in RS. rewrite <- RS.
    unfold satisfied. rewrite Forall_map, Forall_forall. cbn [fst snd].
    assert (BR : forall k, (q_and_der p (pv_x w) (pv_x_d w) k = mmul (mmul (mscale ((2 / (tf - t0)) ^ k) Lm) (mpow (Dmat ts) k)) q_constr <->
       forall i, (i < length tx)%nat -> mrow i (q_and_der p (pv_x w) (pv_x_d w) k) = rate_n_at k P (vnth (t_of p tx) i))).
    { intros k. destruct (td_block ts tx Lm (N + M) nq q_constr P k t0 tf NDL T HN LL SQ LP SL RL TP) as [SB RB].
      rewrite (rows_ext (length tx) nq) by (auto; now apply q_and_der_shaped).
      split; intros A i Hi; specialize (A i Hi).
      - rewrite A, RB by exact Hi. unfold t_of. now rewrite vnth_times.
      - rewrite A, RB by exact Hi. unfold t_of. now rewrite vnth_times. }
    split.
    - intros A. split.
      + intros k i Hk Hi. apply BR; [apply A; apply in_seq; fold M in Hk; lia|exact Hi].
      + intros i Hi. specialize (A M). rewrite in_seq in A. specialize (A ltac:(lia)).
        rewrite BR in A. rewrite <- A by exact Hi. rewrite (q_and_der_row p _ _ (length tx)) by assumption.
        fold M. now rewrite Nat.ltb_irrefl.
    - intros [A B] k Hk. apply in_seq in Hk. apply BR. intros i Hi.
      destruct (Nat.eq_dec k M) as [->|NE].
      + rewrite (q_and_der_row p _ _ (length tx)) by assumption. fold M. rewrite Nat.ltb_irrefl. now apply B.
      + apply A; [fold M; lia|exact Hi]. }
  rewrite satisfied_app, LX.
  rewrite (bt_dyn_satisfied dyn (starts s) (ends s) (length c) w N).
  2:{ rewrite <- L. unfold tc. apply with_ends_length. }
  assert (LTC : length (t_of p tc) = N) by (unfold t_of; now rewrite times_length).
  assert (IDX : forall k, (k < length (t_of p tc))%nat ->
     (1 - b2n (starts s) + k < length tx)%nat /\ vnth (t_of p tc) k = vnth (t_of p tx) (1 - b2n (starts s) + k)).
  { intros k Hk. rewrite LX. apply times_coll. rewrite LTC, <- L in Hk. unfold tc in Hk. now rewrite with_ends_length in Hk. }
  split.
  - intros [A B]. exists (interp_traj (tau_to_t_points ts t0 tf) nq q_constr).
    set (P := interp_traj (tau_to_t_points ts t0 tf) nq q_constr).
    assert (LP : length P = nq) by apply interp_traj_length.
    assert (TP : traj_through (tau_to_t_points ts t0 tf) q_constr P) by (now apply interp_traj_ok).
    apply (Main P LP TP) in A. destruct A as [A1 A2].
    assert (D : forall k, (k < length (t_of p tc))%nat -> _) by (intros k Hk; rewrite LTC in Hk; exact (B k Hk)).
    apply (chain_dynamics dyn nq M (t_of p tx) (t_of p tc) _ _ _ _ _ P (length tx) Q O C Sx Sd TX NDX IDX LP A1 A2) in D.
    split.
    + split; [exact LP|]. split.
      { apply Forall_forall. intros a Ia. pose proof (traj_bound _ _ _ _ TP Ia) as K. rewrite times_length, LL in K. exact K. }
      rewrite TX. split; [exact A1|]. split; [exact A2|]. exact D.
    + intros i Hi. apply (traj_row (tau_to_t_points ts t0 tf) q_constr (N + M) nq P i); auto.
      rewrite times_length. exact LL.
  - intros (P & (LP & BP & A1 & A2 & D1 & D2) & RQ). rewrite TX in *.
    assert (TP : traj_through (tau_to_t_points ts t0 tf) q_constr P).
    { apply (traj_of_rows _ _ (N + M) nq); auto.
      - rewrite times_length. exact LL.
      - intros a Ia. rewrite Forall_forall in BP. now apply BP. }
    split; [apply (Main P LP TP); split; assumption|].
    intros k Hk. rewrite <- LTC in Hk. revert k Hk.
    apply (chain_dynamics dyn nq M (t_of p tx) (t_of p tc) _ _ _ _ _ P (length tx) Q O C Sx Sd TX NDX IDX LP A1 A2).
    split; assumption.
Qed.
End Td.

Section BuApply.
Variable rr : list R -> list R.
Hypothesis OK : real_roots_ok rr.
Variable lg : nat -> vec * vec.
Hypothesis LGOK : leggauss_ok lg.
Variable dyn : vec -> vec -> vec -> vec -> vec.

Lemma mrow_skipn1 X i : mrow i (skipn 1 X) = mrow (S i) X.
Proof. unfold mrow. destruct X; [destruct i; reflexivity|reflexivity]. Qed.
Lemma skipn1_shaped n m X : shaped (S n) m X -> shaped n m (skipn 1 X).
Proof.
  intros [L F]. destruct X as [|r X]; [simpl in L; lia|]. cbn [skipn]. inversion F; subst.
  split; [simpl in L; lia|assumption].
Qed.
Lemma mcol_rows n m A j : shaped n m A -> mcol j A = map (fun i => mget A i j) (seq 0 n).
Proof.
  intros [L _]. apply vec_ext; [now rewrite mcol_length, map_length, seq_length|].
  intros i Hi. rewrite mcol_length in Hi. rewrite vnth_mcol by exact Hi. rewrite vnth_map_seq by lia. reflexivity.
Qed.

(** The data of the integration matrix, column by column. *)
Lemma bu_data_col M nq N P t0 (q0 : nat -> vec) hi_coll times j :
  length P = nq -> (j < nq)%nat -> shaped N nq hi_coll -> length times = N ->
  (forall k, (k < M)%nat -> q0 k = rate_n_at k P t0) ->
  (forall k, (k < N)%nat -> mrow k hi_coll = rate_n_at M P (vnth times k)) ->
  mcol j (map q0 (seq 0 M) ++ hi_coll) = taylor_data M (nth j P []) t0 times.
Proof.
  intros LP Hj SH LT A B. rewrite mcol_app. unfold taylor_data. f_equal.
  - unfold mcol. rewrite map_map. apply map_ext_in. intros k Hk. apply in_seq in Hk.
    rewrite A by lia. now rewrite vnth_rate_n by lia.
  - rewrite (mcol_rows N nq) by exact SH. apply vec_ext; [rewrite !map_length, seq_length; lia|].
    rewrite map_length, seq_length. intros k Hk. rewrite vnth_map_seq by exact Hk. rewrite Nat.add_0_l.
    unfold mget. rewrite B by exact Hk. rewrite vnth_rate_n by lia.
    unfold vnth. now rewrite (nth_map' _ _ _ 0) by lia.
Qed.

Theorem bu_apply p w :
  bt_valid p -> bu_sized (ps_scheme p) (ps_n_coll p) -> residual_has_chain (ps_n_q p) (ps_order p) dyn ->
  exists st cs, bu_opti_setup rr p = Ok st /\
    get_coll_indices (ps_scheme p) = Ok (bset_coll st) /\ take (bset_coll st) (bset_tau st) = bset_tau_col st /\
    length (bset_tau st) = bset_n_arr st /\ length (bset_tau_col st) = ps_n_coll p /\
    bu_apply_scheme rr lg dyn p w = Ok cs /\
    (shaped (bset_n_arr st) (ps_order p * ps_n_q p) (pv_x w) ->
     shaped (bset_n_arr st) (ps_order p * ps_n_q p) (pv_x_d w) ->
     satisfied cs <->
     exists P, order_solution dyn (ps_n_coll p + ps_order p) (ps_n_q p) (ps_order p)
         (t_of p (bset_tau st)) (t_of p (bset_tau_col st)) (pv_x w) (pv_x_d w) (pv_u w) (pv_lam w) P).
Proof.
  intros (H & E & O & Q & T) BS C.
  destruct (bt_points rr OK (ps_scheme p) (ps_n_coll p) (ps_order p) H E) as (c & S & Ec & _ & Ex & _ & Ei & L).
  set (s := ps_scheme p) in *. set (N := ps_n_coll p) in *. set (M := ps_order p) in *. set (nq := ps_n_q p) in *.
  set (tc := with_ends (starts s) (ends s) c) in *. set (tx1 := with_ends false true c) in *.
  set (tx := with_ends true true c).
  assert (Etx : [-1] ++ tx1 = tx) by reflexivity.
  assert (LX1 : length tx1 = (1 + length c)%nat) by (unfold tx1; rewrite with_ends_length; simpl; lia).
  assert (LX : length tx = (2 + length c)%nat) by (unfold tx; rewrite with_ends_length; simpl; lia).
  exists (Build_bt_setup (length tx1 + 1) tx tc (1 - b2n (starts s), 1 - b2n (ends s))%nat).
  set (t0 := ps_t_start p) in *. set (tf := ps_t_end p) in *.
  set (x := pv_x w) in *. set (x_d := pv_x_d w) in *.
  set (hi := q_and_der p x x_d M). set (idx := (1 - b2n (starts s), 1 - b2n (ends s))%nat) in *.
  set (data := map (fun ii => mrow 0 (q_and_der p x x_d ii)) (seq 0 M) ++ take idx hi).
  (* the three groups of constraints *)
  destruct (Extreme_Matrix_ok rr OK s N "start" (-1) M H E (or_introl eq_refl)) as (tc1 & A1 & Ec1 & _ & ND & EA1 & SA1 & RA1).
  rewrite Ec in Ec1. injection Ec1 as <-.
  destruct (Extreme_Matrix_ok rr OK s N "end" 1 M H E (or_intror (or_introl eq_refl))) as (tc2 & A2 & Ec2 & _ & _ & EA2 & SA2 & RA2).
  rewrite Ec in Ec2. injection Ec2 as <-.
  set (cs1 := if mem s (gauss_like ++ radau_inv) then [([mrow 0 hi], mmul A1 (take idx hi))] else [] : list constr).
  set (cs2 := if mem s (gauss_like ++ radau_like) then [([mrow (length hi - 1) hi], mmul A2 (take idx hi))] else [] : list constr).
  assert (M1 : mem s (gauss_like ++ radau_inv) = negb (starts s)) by (clear - H; revert H; generalize s; intros s' H; bt_cases H; reflexivity).
  assert (M2 : mem s (gauss_like ++ radau_like) = negb (ends s)) by (clear - H; revert H; generalize s; intros s' H; bt_cases H; reflexivity).
  assert (IM : forall k, (k < M)%nat -> exists A, Integration_Matrix rr lg N s k (tf - t0) M = Ok A /\
      shaped (length tx1) (M + N) A /\
      forall i, (i < length tx1)%nat -> mrow i A =
        integ_row M k (tf - t0) (vnth tx1 i) (state_at (map (pint_n (M - k) (-1)) (lagrs tc)) (vnth tx1 i))).
  { intros k Hk. destruct (Integration_Matrix_ok rr OK lg LGOK s N k (tf - t0) M H E BS Hk) as (tc' & tx' & A & E1 & E2 & E3 & _ & _ & E4 & E5).
    rewrite Ec in E1. injection E1 as <-. rewrite Ex in E2. injection E2 as <-. exists A. auto. }
  assert (IMs : exists f, (forall k, (k < M)%nat -> Integration_Matrix rr lg N s k (tf - t0) M = Ok (f k)) /\
     forall k, (k < M)%nat -> shaped (length tx1) (M + N) (f k) /\
      forall i, (i < length tx1)%nat -> mrow i (f k) =
        integ_row M k (tf - t0) (vnth tx1 i) (state_at (map (pint_n (M - k) (-1)) (lagrs tc)) (vnth tx1 i))).
  { exists (fun k => match Integration_Matrix rr lg N s k (tf - t0) M with Ok A => A | Err _ => [] end).
    split; intros k Hk; destruct (IM k Hk) as (A & EA & SA & RA); rewrite EA; auto. }
  destruct IMs as (f & Ef & Rf). clear IM.
  set (cs3 := map (fun ii => (skipn 1 (q_and_der p x x_d ii), mmul (f ii) data)) (seq 0 M) : list constr).
  exists (cs1 ++ cs2 ++ cs3 ++ bt_dyn dyn (length tx1 + 1) idx w).
  unfold bu_apply_scheme, bu_opti_setup. fold s N M. rewrite Ei. cbn [rbind]. rewrite Ex. cbn [rbind]. rewrite Ec.
  cbn [rbind bset_n_arr bset_tau bset_tau_col bset_coll].
  split; [reflexivity|]. split; [reflexivity|].
  split; [exact (take_with_ends true true (starts s) (ends s) c (fun _ => eq_refl) (fun _ => eq_refl))|].
  split; [rewrite LX, LX1; lia|]. split; [exact L|]. split.
  { fold x x_d t0 tf. fold hi. fold data.
    assert (X1 : (if mem s (gauss_like ++ radau_inv)
       then do start_mat <- Extreme_Matrix rr N s "start" M; Ok [([mrow 0 hi], mmul start_mat (take idx hi))]
       else Ok []) = Ok cs1).
    { unfold cs1. destruct (mem s (gauss_like ++ radau_inv)); [now rewrite EA1|reflexivity]. }
    rewrite X1. cbn [rbind].
    assert (X2 : (if mem s (gauss_like ++ radau_like)
       then do end_mat <- Extreme_Matrix rr N s "end" M; Ok [([mrow (length hi - 1) hi], mmul end_mat (take idx hi))]
       else Ok []) = Ok cs2).
    { unfold cs2. destruct (mem s (gauss_like ++ radau_like)); [now rewrite EA2|reflexivity]. }
    rewrite X2. cbn [rbind].
    rewrite (mapm_ext _ (fun ii => Ok (skipn 1 (q_and_der p x x_d ii), mmul (f ii) data))).
    - rewrite mapm_Ok. reflexivity.
    - intros k Hk. apply in_seq in Hk. rewrite Ef by lia. reflexivity. }
  intros Sx Sd. replace (length tx1 + 1)%nat with (2 + length c)%nat in * by lia. rewrite <- LX in Sx, Sd.
  assert (LTC : length (t_of p tc) = N) by (unfold t_of; now rewrite times_length).
  assert (TX : length (t_of p tx) = length tx) by apply times_length.
  assert (NDX : NoDup (t_of p tx)).
  { apply times_NoDup; [exact T|]. now apply (with_ends_NoDup _ _ _ _ S). }
  assert (NDC : NoDup (t_of p tc)) by (apply times_NoDup; [exact T|exact ND]).
  assert (IDX : forall k, (k < length (t_of p tc))%nat ->
     (1 - b2n (starts s) + k < length tx)%nat /\ vnth (t_of p tc) k = vnth (t_of p tx) (1 - b2n (starts s) + k)).
  { intros k Hk. rewrite LX. apply times_coll. rewrite LTC, <- L in Hk. unfold tc in Hk. now rewrite with_ends_length in Hk. }
  assert (Shi : shaped (length tx) nq hi) by (now apply q_and_der_shaped).
  assert (HR : forall i, (i < length tx)%nat -> mrow i hi = lastn nq (mrow i x_d)).
  { intros i Hi. unfold hi. rewrite (q_and_der_row p x x_d (length tx)) by assumption. fold M. now rewrite Nat.ltb_irrefl. }
  assert (EN : (length tx - (1 - b2n (starts s)) - (1 - b2n (ends s)))%nat = N).
  { rewrite LX, <- L. unfold tc. rewrite with_ends_length. destruct (starts s), (ends s); simpl; lia. }
  assert (Shc : shaped N nq (take idx hi)).
  { rewrite <- EN. now apply take_shaped. }
  assert (HC : forall k, (k < N)%nat -> mrow k (take idx hi) = mrow (1 - b2n (starts s) + k) hi).
  { intros k Hk. apply mrow_take. rewrite (shaped_length _ _ _ Shi), EN. exact Hk. }
  assert (HN : (1 <= N)%nat) by apply E.
  assert (T0 : vnth (t_of p tx) 0 = t0).
  { unfold t_of. rewrite vnth_times by lia. unfold tx. rewrite with_ends_first. apply tau_start. }
  assert (TF : vnth (t_of p tx) (length tx - 1) = tf).
  { unfold t_of. rewrite vnth_times by lia. unfold tx. rewrite with_ends_last. apply tau_end. }
  assert (Sdata : shaped (M + N) nq data).
  { unfold data. split.
    - rewrite app_length, map_length, seq_length, (shaped_length _ _ _ Shc). reflexivity.
    - apply Forall_app. split; [|apply Shc]. apply Forall_map, Forall_forall. intros k _.
      apply (shaped_row (length tx) nq); [now apply q_and_der_shaped|lia]. }
  pose proof (bt_dyn_satisfied dyn (starts s) (ends s) (length c) w N) as BD.
  fold idx x x_d in BD. rewrite !satisfied_app, BD by (rewrite <- L; unfold tc; apply with_ends_length). clear BD.
  (* what the constraints say of a polynomial that matches the data *)
  assert (Main : forall P, length P = nq -> Forall (fun a => (length a <= N + M)%nat) P ->
     (forall k, (k < M)%nat -> mrow 0 (q_and_der p x x_d k) = rate_n_at k P t0) ->
     (forall k, (k < N)%nat -> mrow (1 - b2n (starts s) + k) hi = rate_n_at M P (vnth (t_of p tc) k)) ->
     (satisfied cs1 /\ satisfied cs2 /\ satisfied cs3) <->
     (forall i, (i < length tx)%nat -> mrow i x = full_state M P (vnth (t_of p tx) i)) /\
     (forall i, (i < length tx)%nat -> lastn nq (mrow i x_d) = rate_n_at M P (vnth (t_of p tx) i))).
  { intros P LP BP D0 DH.
    assert (BPj : forall j, (j < nq)%nat -> (length (nth j P []) <= N + M)%nat).
    { intros j Hj. rewrite Forall_forall in BP. apply BP. apply nth_In. lia. }
    pose proof (rows_state p x (length tx) P (t_of p tx) Sx LP TX x_d Sd) as RS. fold M in RS. rewrite <- RS.
    (* extremes *)
    assert (XR : forall A pt, shaped 1 N A -> mrow 0 A = map (fun j => peval (lagr tc j) pt) (seq 0 N) ->
       mmul A (take idx hi) = [rate_n_at M P (tau_to_t pt t0 tf)]).
    { intros A pt SA RA. apply (mat_ext 1 nq).
      - apply (mmul_shaped 1 N); auto.
      - split; [reflexivity|]. constructor; [rewrite rate_n_length; exact LP|constructor].
      - intros i j Hi Hj. assert (i = 0)%nat as -> by lia.
        rewrite (mget_mmul 1 N nq) by (auto; lia). unfold mget at 3. cbn [mrow nth].
        rewrite vnth_rate_n by lia. rewrite <- peval_in_tau.
        assert (IT : interpolates tc (mcol j (take idx hi)) (in_tau t0 tf (pderiv_n M (nth j P [])))).
        { apply interpolates_in_tau. split.
          - rewrite pderiv_n_length. specialize (BPj j Hj). change (tau_to_t_points tc t0 tf) with (t_of p tc). rewrite LTC. lia.
          - change (tau_to_t_points tc t0 tf) with (t_of p tc). rewrite LTC. intros k Hk.
            rewrite vnth_mcol by (rewrite (shaped_length _ _ _ Shc); exact Hk).
            unfold mget. rewrite HC, DH by exact Hk. now rewrite vnth_rate_n by lia. }
        rewrite (interp_lagr tc _ _ ND IT), L. apply rsum_ext. intros k Hk.
        rewrite vnth_mcol by (rewrite (shaped_length _ _ _ Shc); exact Hk).
        unfold mget at 1. rewrite RA, vnth_map_seq by exact Hk. rewrite Nat.add_0_l. ring. }
    assert (S1 : satisfied cs1 <-> (starts s = false -> mrow 0 hi = rate_n_at M P t0)).
    { unfold cs1. rewrite M1. destruct (starts s); cbn [negb].
      - split; [discriminate|constructor].
      - rewrite (XR A1 (-1)) by assumption. rewrite tau_start. unfold satisfied. rewrite Forall_cons_iff. cbn [fst snd].
        split; [intros [A _] _; now injection A|]. intros A. split; [now rewrite A|constructor]. }
    assert (S2 : satisfied cs2 <-> (ends s = false -> mrow (length tx - 1) hi = rate_n_at M P tf)).
    { unfold cs2. rewrite M2, (shaped_length _ _ _ Shi). destruct (ends s); cbn [negb].
      - split; [discriminate|constructor].
      - rewrite (XR A2 1) by assumption. rewrite tau_end. unfold satisfied. rewrite Forall_cons_iff. cbn [fst snd].
        split; [intros [A _] _; now injection A|]. intros A. split; [now rewrite A|constructor]. }
    assert (S3 : satisfied cs3 <-> forall k i, (k < M)%nat -> (i < length tx1)%nat ->
       mrow (1 + i) (q_and_der p x x_d k) = rate_n_at k P (vnth (t_of p tx) (1 + i))).
    { unfold satisfied, cs3. rewrite Forall_map, Forall_forall. cbn [fst snd].
      assert (ST : forall k, (k < M)%nat -> (skipn 1 (q_and_der p x x_d k) = mmul (f k) data <->
         forall i, (i < length tx1)%nat -> mrow (1 + i) (q_and_der p x x_d k) = rate_n_at k P (vnth (t_of p tx) (1 + i)))).
      { intros k Hk. destruct (Rf k Hk) as [SA RA].
        assert (Sq : shaped (length tx1) nq (skipn 1 (q_and_der p x x_d k))).
        { apply skipn1_shaped. replace (Datatypes.S (length tx1)) with (length tx) by lia. now apply q_and_der_shaped. }
        assert (Sm : shaped (length tx1) nq (mmul (f k) data)) by (apply (mmul_shaped _ (M + N)); auto; lia).
        rewrite (rows_ext (length tx1) nq) by assumption.
        assert (RM : forall i, (i < length tx1)%nat -> mrow i (mmul (f k) data) = rate_n_at k P (vnth (t_of p tx) (1 + i))).
        { intros i Hi. rewrite mrow_mmul by (rewrite (shaped_length _ _ _ SA); exact Hi).
          rewrite (shaped_mwidth _ _ _ Sdata) by lia.
          apply vec_ext; [rewrite map_length, seq_length, rate_n_length; auto|].
          rewrite map_length, seq_length. intros j Hj. rewrite vnth_map_seq by exact Hj. rewrite Nat.add_0_l.
          rewrite vnth_rate_n by lia.
          unfold data. rewrite (bu_data_col M nq N P t0 _ (take idx hi) (t_of p tc) j); auto.
          2:{ intros k' Hk'. rewrite HC by exact Hk'. now apply DH. }
          rewrite RA by exact Hi. unfold t_of. fold t0 tf.
          rewrite integ_row_exact; [|exact Hk|exact ND|rewrite L; now apply BPj].
          rewrite vnth_times by lia. f_equal. }
        split; intros A i Hi; specialize (A i Hi); rewrite mrow_skipn1 in *.
        - change (1 + i)%nat with (Datatypes.S i) at 1. rewrite A. now apply RM.
        - rewrite RM by exact Hi. exact A. }
      split.
      - intros A k i Hk. apply ST; [exact Hk|]. apply A. apply in_seq. lia.
      - intros A k Hk. apply in_seq in Hk. apply ST; [lia|]. intros i Hi. apply A; [lia|exact Hi]. }
    rewrite S1, S2, S3. split.
    - intros (X1 & X2 & X3). split.
      + intros k i Hk Hi. destruct i as [|i]; [rewrite T0; now apply D0|]. apply (X3 k i Hk). lia.
      + intros i Hi. rewrite <- HR by exact Hi.
        destruct (index_split (starts s) (ends s) (length c) i) as [(i' & Hi' & ->)|[[-> B]|[-> B]]]; [lia| | |].
        * assert (Hi2 : (i' < N)%nat) by (rewrite <- L; unfold tc; rewrite with_ends_length; exact Hi').
          rewrite DH by exact Hi2. f_equal. apply IDX. now rewrite LTC.
        * rewrite T0. now apply X1.
        * replace (1 + length c)%nat with (length tx - 1)%nat by lia. rewrite TF. now apply X2.
    - intros [X1 X2]. split; [|split].
      + intros _. rewrite HR, X2, T0 by lia. reflexivity.
      + intros _. rewrite HR, X2, TF by lia. reflexivity.
      + intros k i Hk Hi. apply X1; [exact Hk|lia]. }
  split.
  - intros (C1 & C2 & C3 & C4).
    set (P := map (fun j => tay t0 (map (fun k => mget (q_and_der p x x_d k) 0 j) (seq 0 M))
       (lagr_interp (t_of p tc) (mcol j (take idx hi)))) (seq 0 nq)).
    assert (LP : length P = nq) by (unfold P; now rewrite map_length, seq_length).
    assert (NP : forall j, (j < nq)%nat -> nth j P [] = tay t0 (map (fun k => mget (q_and_der p x x_d k) 0 j) (seq 0 M))
       (lagr_interp (t_of p tc) (mcol j (take idx hi)))).
    { intros j Hj. unfold P. rewrite (nth_map' _ _ _ 0%nat) by (now rewrite seq_length). now rewrite seq_nth by exact Hj. }
    assert (IL : forall j, interpolates (t_of p tc) (mcol j (take idx hi)) (lagr_interp (t_of p tc) (mcol j (take idx hi)))).
    { intros j. now apply lagr_interp_ok. }
    assert (LS : forall j, length (map (fun k => mget (q_and_der p x x_d k) 0 j) (seq 0 M)) = M) by (intros j; now rewrite map_length, seq_length).
    assert (BP : Forall (fun a => (length a <= N + M)%nat) P).
    { unfold P. rewrite Forall_map, Forall_forall. intros j _. rewrite tay_length, LS.
      destruct (IL j) as [B _]. rewrite LTC in B. lia. }
    assert (D0 : forall k, (k < M)%nat -> mrow 0 (q_and_der p x x_d k) = rate_n_at k P t0).
    { intros k Hk. assert (Sk : shaped (length tx) nq (q_and_der p x x_d k)) by (now apply q_and_der_shaped).
      apply vec_ext; [rewrite rate_n_length, (shaped_row _ _ _ _ Sk); [auto|lia]|].
      rewrite (shaped_row _ _ _ _ Sk) by lia. intros j Hj. rewrite vnth_rate_n by lia. rewrite NP by exact Hj.
      rewrite tay_val by (now rewrite LS). now rewrite vnth_map_seq by exact Hk. }
    assert (DH : forall k, (k < N)%nat -> mrow (1 - b2n (starts s) + k) hi = rate_n_at M P (vnth (t_of p tc) k)).
    { intros k Hk. rewrite <- HC by exact Hk.
      apply vec_ext; [rewrite rate_n_length, (shaped_row _ _ _ _ Shc); auto|].
      rewrite (shaped_row _ _ _ _ Shc) by exact Hk. intros j Hj. rewrite vnth_rate_n by lia. rewrite NP by exact Hj.
      rewrite <- (LS j) at 1. rewrite tay_top. destruct (IL j) as [_ B]. rewrite B by (now rewrite LTC).
      rewrite vnth_mcol by (rewrite (shaped_length _ _ _ Shc); exact Hk). reflexivity. }
    exists P. destruct (proj1 (Main P LP BP D0 DH) (conj C1 (conj C2 C3))) as [X1 X2].
    split; [exact LP|]. split; [exact BP|]. rewrite TX. split; [exact X1|]. split; [exact X2|].
    apply (chain_dynamics dyn nq M (t_of p tx) (t_of p tc) (1 - b2n (starts s)) x x_d _ _ P (length tx) Q O C Sx Sd TX NDX IDX LP X1 X2).
    rewrite LTC. exact C4.
  - intros (P & LP & BP & X1 & X2 & D1 & D2). rewrite TX in *.
    assert (D0 : forall k, (k < M)%nat -> mrow 0 (q_and_der p x x_d k) = rate_n_at k P t0).
    { intros k Hk. rewrite <- T0. pose proof (rows_state p x (length tx) P (t_of p tx) Sx LP TX x_d Sd) as RS. fold M in RS.
      apply (proj2 RS); auto. lia. }
    assert (DH : forall k, (k < N)%nat -> mrow (1 - b2n (starts s) + k) hi = rate_n_at M P (vnth (t_of p tc) k)).
    { intros k Hk. rewrite <- LTC in Hk. destruct (IDX k Hk) as [I1 I2]. rewrite HR, X2 by exact I1. now rewrite I2. }
    destruct (proj2 (Main P LP BP D0 DH) (conj X1 X2)) as (C1 & C2 & C3).
    split; [exact C1|]. split; [exact C2|]. split; [exact C3|].
    pose proof (proj2 (chain_dynamics dyn nq M (t_of p tx) (t_of p tc) (1 - b2n (starts s)) x x_d (pv_u w) (pv_lam w) P (length tx) Q O C Sx Sd TX NDX IDX LP X1 X2)
      (conj D1 D2)) as K. rewrite LTC in K. exact K.
Qed.
End BuApply.
