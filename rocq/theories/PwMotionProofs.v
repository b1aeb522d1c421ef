(** Order-M schemes, half points and interpolators against the polynomial
    motion of a step (C05-C11). *)
From Coquelicot Require Import Coquelicot.
From Verif Require Import Prelude PreludeFacts Poly PolyFacts PwModel PwFacts PwSpec PwSchemeProofs PwAccelProofs.
Open Scope R_scope.
Open Scope vec_scope.

Lemma vnth_repeat0 n j : vnth (repeat 0 n) j = 0.
Proof. unfold vnth. revert j; induction n; intros [|j]; simpl; auto. Qed.

(** ** Components of the order-M functions *)
Section Comp.
  Variables M n : nat.
  Hypothesis HM : (0 < M)%nat.

  Lemma last_block (y : vec) j : length y = (M * n)%nat -> (j < n)%nat ->
    vnth (last (get_x_divisions y M) []) j = coord n y (M - 1) j.
  Proof.
    intros Hy Hj. rewrite last_get_x_divisions by auto.
    apply (vnth_block y M n); auto; lia.
  Qed.
  Lemma last_block_length (y : vec) : length y = (M * n)%nat ->
    length (last (get_x_divisions y M) []) = n.
  Proof. intros Hy. rewrite last_get_x_divisions by auto. apply (block_length y M n); auto; lia. Qed.
  Lemma accel_coord (y : vec) j : length y = (M * n)%nat -> (j < n)%nat ->
    vnth (accel n y) j = coord n y (M - 1) j.
  Proof.
    intros Hy Hj. unfold accel, coord. rewrite vnth_skipn. f_equal. nia.
  Qed.

  Lemma nth_map_seq_blocks (f : nat -> vec) k : (k < M)%nat -> nth k (map f (seq 0 M)) [] = f k.
  Proof.
    intros H. rewrite (nth_map' f _ _ 0%nat) by (rewrite seq_length; lia).
    now rewrite nth_seq_lt.
  Qed.

  Lemma vnth_reunite_map (x : vec) f k j : length x = (M * n)%nat ->
    (forall k, (k < M)%nat -> length (f k) = n) -> (k < M)%nat -> (j < n)%nat ->
    vnth (reunite x (map f (seq 0 M)) M) (k * n + j) = vnth (f k) j.
  Proof.
    intros Hx Hf Hk Hj. rewrite (vnth_reunite x M n); auto.
    - now rewrite nth_map_seq_blocks.
    - now rewrite map_length, seq_length.
    - intros k' Hk'. rewrite nth_map_seq_blocks; auto.
  Qed.
  Lemma reunite_map_length (x : vec) f : length x = (M * n)%nat ->
    (forall k, (k < M)%nat -> length (f k) = n) ->
    length (reunite x (map f (seq 0 M)) M) = (M * n)%nat.
  Proof.
    intros Hx Hf. apply reunite_length; auto.
    - now rewrite map_length, seq_length.
    - intros k' Hk'. rewrite nth_map_seq_blocks; auto.
  Qed.

  (** Interpolator blocks. *)
  Lemma interp_block_length l cnt ext tau :
    (forall i, (i < Z.to_nat cnt)%nat -> length (nth (Z.to_nat (Z.of_nat i + Z.of_nat M - l)) ext []) = n) ->
    length (interp_block M l cnt n ext tau) = n.
  Proof.
    intros H. apply accum_length; [apply repeat_length|].
    intros t Ht. apply in_map_iff in Ht as (i & <- & Hi). apply in_seq in Hi.
    rewrite vscale_length. apply H. lia.
  Qed.
  Lemma interp_block_comp l cnt ext tau j :
    (forall i, (i < Z.to_nat cnt)%nat -> length (nth (Z.to_nat (Z.of_nat i + Z.of_nat M - l)) ext []) = n) ->
    vnth (interp_block M l cnt n ext tau) j
    = rsum (Z.to_nat cnt) (fun i => tau ^ i / INR (fact i)
         * vnth (nth (Z.to_nat (Z.of_nat i + Z.of_nat M - l)) ext []) j).
  Proof.
    intros H. unfold interp_block. rewrite (vnth_accum _ _ _ n).
    - rewrite vnth_repeat0. rewrite Rplus_0_l. apply rsum_ext; intros.
      now rewrite vnth_vscale.
    - apply repeat_length.
    - intros i Hi. rewrite vscale_length. auto.
  Qed.

  Variables x x_n a a_n : vec.
  Hypothesis Hx : length x = (M * n)%nat.
  Hypothesis Hxn : length x_n = (M * n)%nat.
  Hypothesis Ha : length a = n.
  Hypothesis Han : length a_n = n.
  Variable h : R.

  Lemma vnth_accum_blocks (start : vec) (w : nat -> R) cnt l j :
    length start = n -> (cnt <= l)%nat -> (l <= M)%nat -> (j < n)%nat ->
    vnth (accum start (map (fun i => w i *v nth (i + M - l) (get_x_divisions x M) []) (seq 0 cnt))) j
    = vnth start j + rsum cnt (fun i => w i * coord n x (M - l + i) j).
  Proof.
    intros Hs Hc Hl Hj. rewrite (vnth_accum _ _ _ n); auto.
    - f_equal. apply rsum_ext; intros i Hi. rewrite vnth_vscale. f_equal.
      rewrite (vnth_block x M n) by (auto; lia). unfold coord. f_equal. f_equal. f_equal. lia.
    - intros i Hi. rewrite vscale_length. apply (block_length x M n); auto; lia.
  Qed.
  Lemma accum_blocks_length (start : vec) (w : nat -> R) cnt l :
    length start = n -> (cnt <= l)%nat -> (l <= M)%nat ->
    length (accum start (map (fun i => w i *v nth (i + M - l) (get_x_divisions x M) []) (seq 0 cnt))) = n.
  Proof.
    intros Hs Hc Hl. apply accum_length; auto.
    intros t Ht. apply in_map_iff in Ht as (i & <- & Hi). apply in_seq in Hi.
    rewrite vscale_length. apply (block_length x M n); auto; lia.
  Qed.

  Lemma trapz_m_block_length k : (k < M)%nat ->
    length (trapz_m_block M (M - k) (get_x_divisions x M) a a_n h) = n.
  Proof. intros. apply accum_blocks_length; [len|lia|lia]. Qed.
  Lemma hs_m_half_block_length k : (k < M)%nat ->
    length (hs_m_half_block M (M - k) (get_x_divisions x M) (last (get_x_divisions x M) [])
              (last (get_x_divisions x_n M) []) a a_n h) = n.
  Proof.
    intros. pose proof (last_block_length x Hx). pose proof (last_block_length x_n Hxn).
    apply accum_blocks_length; [len|lia|lia].
  Qed.

  Lemma trapz_m_length : length (trapz_m_accel_restr M x x_n a a_n h) = (M * n)%nat.
  Proof.
    unfold trapz_m_accel_restr. rewrite vsub_length, reunite_map_length, Hxn; auto.
    - lia.
    - apply trapz_m_block_length.
  Qed.
  Lemma hs_m_half_length : length (hs_m_half_x M x x_n a a_n h) = (M * n)%nat.
  Proof. apply reunite_map_length; auto. apply hs_m_half_block_length. Qed.

  Lemma trapz_m_comp k j : (k < M)%nat -> (j < n)%nat ->
    coord n (trapz_m_accel_restr M x x_n a a_n h) k j =
    coord n x_n k j -
    (h ^ (M - k) * (1 / INR (fact (M - k + 1))) * (INR (M - k) * vnth a j + vnth a_n j)
     + rsum (M - k) (fun i => h ^ i * (1 / INR (fact i)) * coord n x (k + i) j)).
  Proof.
    intros Hk Hj. unfold coord at 1, trapz_m_accel_restr.
    rewrite vnth_vsub; [|rewrite reunite_map_length, Hxn; auto; apply trapz_m_block_length].
    rewrite vnth_reunite_map; auto; [|apply trapz_m_block_length].
    unfold trapz_m_block. rewrite vnth_accum_blocks; [|len|lia|lia|auto].
    replace (M - (M - k))%nat with k by lia. comp. reflexivity.
  Qed.
  Lemma hs_m_half_comp k j : (k < M)%nat -> (j < n)%nat ->
    coord n (hs_m_half_x M x x_n a a_n h) k j =
    let l := (M - k)%nat in
    h ^ (l - 1) / (2 ^ l * INR (fact l) * (INR l + 2)) *
      (3 * coord n x_n (M - 1) j + (2 * INR l ^ 2 + 4 * INR l - 3) * coord n x (M - 1) j)
    + h ^ l / (2 ^ (l + 1) * INR (fact (l + 2))) *
      ((2 * INR l ^ 2 + 2 * INR l - 1) * vnth a j + (-2 * INR l - 1) * vnth a_n j)
    + rsum (l - 1) (fun i => h ^ i * (1 / (2 ^ i * INR (fact i))) * coord n x (k + i) j).
  Proof.
    intros Hk Hj. cbv zeta. unfold coord at 1, hs_m_half_x.
    pose proof (last_block_length x Hx) as L1. pose proof (last_block_length x_n Hxn) as L2.
    rewrite vnth_reunite_map; auto; [|apply hs_m_half_block_length].
    unfold hs_m_half_block. rewrite vnth_accum_blocks; [|len|lia|lia|auto].
    replace (M - (M - k))%nat with k by lia. comp.
    rewrite (last_block x), (last_block x_n) by auto. reflexivity.
  Qed.

  Variable a_c : vec.
  Hypothesis Hac : length a_c = n.
  Lemma hs_m_block_length k : (k < M)%nat ->
    length (hs_m_block M (M - k) (get_x_divisions x M) a a_n a_c h) = n.
  Proof. intros. apply accum_blocks_length; [len|lia|lia]. Qed.
  Lemma hs_m_length : length (hs_m_accel_restr M x x_n a a_n h a_c) = (M * n)%nat.
  Proof.
    unfold hs_m_accel_restr. rewrite vsub_length, reunite_map_length, Hxn; auto.
    - lia.
    - apply hs_m_block_length.
  Qed.
  Lemma hs_m_comp k j : (k < M)%nat -> (j < n)%nat ->
    coord n (hs_m_accel_restr M x x_n a a_n h a_c) k j =
    coord n x_n k j -
    (h ^ (M - k) / INR (fact (M - k + 2)) *
       (INR (M - k) ^ 2 * vnth a j + 4 * INR (M - k) * vnth a_c j + (2 - INR (M - k)) * vnth a_n j)
     + rsum (M - k) (fun i => h ^ i * (1 / INR (fact i)) * coord n x (k + i) j)).
  Proof.
    intros Hk Hj. unfold coord at 1, hs_m_accel_restr.
    rewrite vnth_vsub; [|rewrite reunite_map_length, Hxn; auto; apply hs_m_block_length].
    rewrite vnth_reunite_map; auto; [|apply hs_m_block_length].
    unfold hs_m_block. rewrite vnth_accum_blocks; [|len|lia|lia|auto].
    replace (M - (M - k))%nat with k by lia. comp. reflexivity.
  Qed.
End Comp.

(** ** Motions *)
Lemma D_taylor k c t N : (length c <= N + k)%nat ->
  D k c t = rsum N (fun i => t ^ i / INR (fact i) * D (k + i) c 0).
Proof.
  intros H. unfold D. rewrite (taylor_peval _ t N) by (rewrite pderiv_n_length; lia).
  apply rsum_ext; intros i Hi. now rewrite pderiv_n_add.
Qed.
Lemma D_zero k c t : (length c <= k)%nat -> D k c t = 0.
Proof.
  intros H. unfold D. replace (pderiv_n k c) with (@nil R); [reflexivity|].
  symmetry. apply length_zero_iff_nil. rewrite pderiv_n_length. lia.
Qed.
Lemma D_is_derive k c t : is_derive (D k c) t (D (S k) c t).
Proof. unfold D. rewrite pderiv_n_S. apply (is_derive_peval (pderiv_n k c) t). Qed.

(** The motion with prescribed derivatives at 0. *)
Definition motion_of (N : nat) (d : nat -> R) : list R :=
  map (fun k => d k / INR (fact k)) (seq 0 N).
Lemma motion_of_length N d : length (motion_of N d) = N.
Proof. unfold motion_of. now rewrite map_length, seq_length. Qed.
Lemma D_motion_of N d k : (k < N)%nat -> D k (motion_of N d) 0 = d k.
Proof.
  intros H. unfold D. rewrite peval_0, nth_pderiv_n. cbn [Nat.add fact].
  unfold motion_of. fold (vnth (map (fun k => d k / INR (fact k)) (seq 0 N)) k).
  rewrite vnth_map_seq by auto. cbn [Nat.add]. simpl (INR 1).
  pose proof (INR_fact_neq_0 k). field. auto.
Qed.

Lemma rsum2 f : rsum 2 f = f 0%nat + f 1%nat.
Proof. simpl. ring. Qed.
Lemma rsum3 f : rsum 3 f = f 0%nat + f 1%nat + f 2%nat.
Proof. simpl. ring. Qed.
Lemma rsum4 f : rsum 4 f = f 0%nat + f 1%nat + f 2%nat + f 3%nat.
Proof. simpl. ring. Qed.
Lemma rsum5 f : rsum 5 f = f 0%nat + f 1%nat + f 2%nat + f 3%nat + f 4%nat.
Proof. simpl. ring. Qed.

Section Motions.
  Variables M n : nat.
  Hypothesis HM : (0 < M)%nat.
  Variable h : R.
  Hypothesis Hh : h <> 0.

  Lemma tz_motion_top x a a_n j c : tz_motion M n h x a a_n j c ->
    D (M + 1) c 0 = (vnth a_n j - vnth a j) / h.
  Proof.
    intros (Lc & _ & E0 & E1). rewrite (D_taylor M c h 2) in E1 by lia.
    rewrite rsum2, Nat.add_0_r, E0 in E1. simpl in E1. rewrite <- E1. field. auto.
  Qed.
  Lemma hs_motion_top x a a_c a_n j c : hs_motion M n h x a a_c a_n j c ->
    D (M + 1) c 0 = (-3 * vnth a j + 4 * vnth a_c j - vnth a_n j) / h /\
    D (M + 2) c 0 = (4 * vnth a j - 8 * vnth a_c j + 4 * vnth a_n j) / h ^ 2.
  Proof.
    intros (Lc & _ & E0 & E1 & E2).
    rewrite (D_taylor M c (h / 2) 3) in E1 by lia.
    rewrite (D_taylor M c h 3) in E2 by lia.
    rewrite rsum3, Nat.add_0_r, E0 in E1, E2. simpl in E1, E2. rewrite <- E1, <- E2.
    split; field; auto.
  Qed.

  Lemma tz_motion_exists x a a_n j : exists c, tz_motion M n h x a a_n j c.
  Proof.
    set (d := fun k => if (k <? M)%nat then coord n x k j
                       else if (k =? M)%nat then vnth a j else (vnth a_n j - vnth a j) / h).
    exists (motion_of (M + 2) d).
    assert (E0 : D M (motion_of (M + 2) d) 0 = vnth a j).
    { rewrite D_motion_of by lia. unfold d.
      rewrite Nat.ltb_irrefl, Nat.eqb_refl. reflexivity. }
    assert (E1 : D (M + 1) (motion_of (M + 2) d) 0 = (vnth a_n j - vnth a j) / h).
    { rewrite D_motion_of by lia. unfold d.
      destruct (Nat.ltb_spec (M + 1) M); [lia|]. destruct (Nat.eqb_spec (M + 1) M); [lia|]. reflexivity. }
    repeat split.
    - rewrite motion_of_length. lia.
    - intros k Hk. rewrite D_motion_of by lia. unfold d. destruct (Nat.ltb_spec k M); [reflexivity|lia].
    - exact E0.
    - rewrite (D_taylor M _ h 2) by (rewrite motion_of_length; lia).
      rewrite rsum2, Nat.add_0_r, E0, E1. simpl. field. auto.
  Qed.
  Lemma hs_motion_exists x a a_c a_n j : exists c, hs_motion M n h x a a_c a_n j c.
  Proof.
    set (d := fun k => if (k <? M)%nat then coord n x k j
                       else if (k =? M)%nat then vnth a j
                       else if (k =? M + 1)%nat then (-3 * vnth a j + 4 * vnth a_c j - vnth a_n j) / h
                       else (4 * vnth a j - 8 * vnth a_c j + 4 * vnth a_n j) / h ^ 2).
    exists (motion_of (M + 3) d).
    assert (E0 : D M (motion_of (M + 3) d) 0 = vnth a j).
    { rewrite D_motion_of by lia. unfold d.
      rewrite Nat.ltb_irrefl, Nat.eqb_refl. reflexivity. }
    assert (E1 : D (M + 1) (motion_of (M + 3) d) 0 = (-3 * vnth a j + 4 * vnth a_c j - vnth a_n j) / h).
    { rewrite D_motion_of by lia. unfold d.
      destruct (Nat.ltb_spec (M + 1) M); [lia|]. destruct (Nat.eqb_spec (M + 1) M); [lia|].
      now rewrite Nat.eqb_refl. }
    assert (E2 : D (M + 2) (motion_of (M + 3) d) 0 = (4 * vnth a j - 8 * vnth a_c j + 4 * vnth a_n j) / h ^ 2).
    { rewrite D_motion_of by lia. unfold d.
      destruct (Nat.ltb_spec (M + 2) M); [lia|]. destruct (Nat.eqb_spec (M + 2) M); [lia|].
      destruct (Nat.eqb_spec (M + 2) (M + 1)); [lia|]. reflexivity. }
    repeat split.
    - rewrite motion_of_length. lia.
    - intros k Hk. rewrite D_motion_of by lia. unfold d. destruct (Nat.ltb_spec k M); [reflexivity|lia].
    - exact E0.
    - rewrite (D_taylor M _ _ 3) by (rewrite motion_of_length; lia).
      rewrite rsum3, Nat.add_0_r, E0, E1, E2. simpl. field. auto.
    - rewrite (D_taylor M _ _ 3) by (rewrite motion_of_length; lia).
      rewrite rsum3, Nat.add_0_r, E0, E1, E2. simpl. field. auto.
  Qed.

  (** Values of the derivatives at local time t, M - k of them known. *)
  Lemma tz_motion_at x a a_n j c k t : tz_motion M n h x a a_n j c -> (k < M)%nat ->
    D k c t = rsum (M - k) (fun i => t ^ i * (1 / INR (fact i)) * coord n x (k + i) j)
      + t ^ (M - k) / INR (fact (M - k)) * vnth a j
      + t ^ (M - k + 1) / INR (fact (M - k + 1)) * ((vnth a_n j - vnth a j) / h).
  Proof.
    intros Hm Hk. pose proof (tz_motion_top _ _ _ _ _ Hm) as E1.
    destruct Hm as (Lc & Hs & E0 & _).
    rewrite (D_taylor k c t (M - k + 2)) by lia. rewrite rsum_split, rsum2.
    rewrite Rplus_assoc. f_equal.
    - apply rsum_ext; intros i Hi. rewrite Hs by lia. unfold Rdiv. ring.
    - rewrite Nat.add_0_r. replace (k + (M - k))%nat with M by lia.
      replace (k + (M - k + 1))%nat with (M + 1)%nat by lia. rewrite E0, E1. reflexivity.
  Qed.
  Lemma hs_motion_at x a a_c a_n j c k t : hs_motion M n h x a a_c a_n j c -> (k < M)%nat ->
    D k c t = rsum (M - k) (fun i => t ^ i * (1 / INR (fact i)) * coord n x (k + i) j)
      + t ^ (M - k) / INR (fact (M - k)) * vnth a j
      + t ^ (M - k + 1) / INR (fact (M - k + 1)) * ((-3 * vnth a j + 4 * vnth a_c j - vnth a_n j) / h)
      + t ^ (M - k + 2) / INR (fact (M - k + 2)) * ((4 * vnth a j - 8 * vnth a_c j + 4 * vnth a_n j) / h ^ 2).
  Proof.
    intros Hm Hk. destruct (hs_motion_top _ _ _ _ _ _ Hm) as [E1 E2].
    destruct Hm as (Lc & Hs & E0 & _).
    rewrite (D_taylor k c t (M - k + 3)) by lia. rewrite rsum_split, rsum3.
    rewrite !Rplus_assoc. f_equal.
    - apply rsum_ext; intros i Hi. rewrite Hs by lia. unfold Rdiv. ring.
    - rewrite Nat.add_0_r. replace (k + (M - k))%nat with M by lia.
      replace (k + (M - k + 1))%nat with (M + 1)%nat by lia.
      replace (k + (M - k + 2))%nat with (M + 2)%nat by lia. rewrite E0, E1, E2. ring.
  Qed.

  Lemma fact_S l : INR (fact (l + 1)) = (INR l + 1) * INR (fact l).
  Proof. replace (l + 1)%nat with (S l) by lia. cbn [fact]. rewrite <- (S_INR l), <- mult_INR. reflexivity. Qed.
  Lemma fact_SS l : INR (fact (l + 2)) = (INR l + 2) * (INR l + 1) * INR (fact l).
  Proof. replace (l + 2)%nat with (l + 1 + 1)%nat by lia. rewrite fact_S, fact_S, plus_INR. simpl. ring. Qed.

  Section Vectors.
    Variables x x_n a a_n : vec.
    Hypothesis Hx : length x = (M * n)%nat.
    Hypothesis Hxn : length x_n = (M * n)%nat.
    Hypothesis Ha : length a = n.
    Hypothesis Han : length a_n = n.

    Lemma trapz_m_value c k j : tz_motion M n h x a a_n j c -> (k < M)%nat -> (j < n)%nat ->
      coord n (trapz_m_accel_restr M x x_n a a_n h) k j = coord n x_n k j - D k c h.
    Proof.
      intros Hc Hk Hj. rewrite trapz_m_comp by auto. rewrite (tz_motion_at _ _ _ _ _ k h Hc Hk).
      f_equal. rewrite Rplus_comm, Rplus_assoc. f_equal.
      set (l := (M - k)%nat). rewrite fact_S, pow_add, pow_1.
      pose proof (INR_fact_neq_0 l). pose proof (pos_INR l).
      field. repeat split; auto; lra.
    Qed.
    Variable a_c : vec.
    Hypothesis Hac : length a_c = n.
    Lemma hs_m_value c k j : hs_motion M n h x a a_c a_n j c -> (k < M)%nat -> (j < n)%nat ->
      coord n (hs_m_accel_restr M x x_n a a_n h a_c) k j = coord n x_n k j - D k c h.
    Proof.
      intros Hc Hk Hj. rewrite hs_m_comp by auto. rewrite (hs_motion_at _ _ _ _ _ _ k h Hc Hk).
      f_equal. rewrite Rplus_comm, !Rplus_assoc. f_equal.
      set (l := (M - k)%nat). rewrite fact_S, fact_SS, !pow_add, pow_1.
      pose proof (INR_fact_neq_0 l). pose proof (pos_INR l).
      field. repeat split; auto; lra.
    Qed.

    Lemma hs_m_half_value c k j : hs_motion M n h x a a_c a_n j c ->
      D (M - 1) c h = coord n x_n (M - 1) j -> (k < M)%nat -> (j < n)%nat ->
      coord n (hs_m_half_x M x x_n a a_n h) k j = D k c (h / 2).
    Proof.
      intros Hc Hv Hk Hj. rewrite hs_m_half_comp by auto. rewrite <- Hv. cbv zeta.
      rewrite (hs_motion_at _ _ _ _ _ _ (M - 1) h Hc) by lia.
      rewrite (hs_motion_at _ _ _ _ _ _ k (h / 2) Hc) by lia.
      replace (M - (M - 1))%nat with 1%nat by lia.
      remember (M - k)%nat as l eqn:El. destruct l as [|l]; [lia|].
      replace (S l - 1)%nat with l by lia. cbn [rsum]. rewrite Nat.add_0_r.
      replace (k + l)%nat with (M - 1)%nat by lia.
      rewrite (rsum_ext l (fun i => (h / 2) ^ i * _ * _)
                 (fun i => h ^ i * (1 / (2 ^ i * INR (fact i))) * coord n x (k + i) j)).
      2:{ intros i Hi. unfold Rdiv. rewrite Rpow_mult_distr. rewrite pow_inv. 
          pose proof (pow_nonzero 2 i ltac:(lra)). pose proof (INR_fact_neq_0 i). field. auto. }
      set (s := rsum l _). clearbody s.
      replace (S l + 2)%nat with (l + 2 + 1)%nat by lia.
      replace (S l + 1)%nat with (l + 2)%nat by lia.
      replace (S l) with (l + 1)%nat by lia.
      rewrite !(fact_S (l + 2)), !fact_SS, !fact_S. rewrite !plus_INR.
      unfold Rdiv. rewrite !Rpow_mult_distr, !pow_inv. rewrite !pow_add.
      simpl (INR 1). simpl (INR 2). simpl fact. simpl (INR 6).
      pose proof (INR_fact_neq_0 l). pose proof (pos_INR l).
      pose proof (pow_nonzero 2 l ltac:(lra)). pose proof (pow_nonzero h l Hh).
      simpl (_ ^ 1). simpl (_ ^ 2). simpl (_ ^ 3).
      change (INR 1) with 1; change (h ^ 0) with 1. field. repeat split; auto; lra.
    Qed.
  End Vectors.

  (** ** Interpolators *)
  Section Interp.
    Variables x x_n xd xdn : vec.
    Hypothesis Hx : length x = (M * n)%nat.
    Hypothesis Hxd : length xd = (M * n)%nat.
    Hypothesis Hxdn : length xdn = (M * n)%nat.
    Variable tau : R.

    Lemma last_accel (y : vec) j : length y = (M * n)%nat -> (j < n)%nat ->
      vnth (last (get_x_divisions y M) []) j = vnth (accel n y) j.
    Proof. intros Hy Hj. rewrite (last_block M n), (accel_coord M n); auto. Qed.

    Lemma ext_nth_low (tl : list vec) i : (i < M)%nat ->
      nth i (get_x_divisions x M ++ tl) [] = nth i (get_x_divisions x M) [].
    Proof. intros. rewrite app_nth1; auto. now rewrite get_x_divisions_length. Qed.
    Lemma ext_nth_high (tl : list vec) i : (M <= i)%nat ->
      nth i (get_x_divisions x M ++ tl) [] = nth (i - M) tl [].
    Proof. intros. rewrite app_nth2; rewrite get_x_divisions_length; auto. Qed.

    (** Any list of blocks giving the derivatives at the start interpolates. *)
    Lemma interp_value (tl : list vec) c (k d j top : nat) :
      (length c <= M + top)%nat ->
      (forall i, (i < M + top)%nat -> length (nth i (get_x_divisions x M ++ tl) []) = n) ->
      (forall i, (i < M + top)%nat -> vnth (nth i (get_x_divisions x M ++ tl) []) j = D i c 0) ->
      let l := (Z.of_nat M - Z.of_nat d - Z.of_nat k)%Z in
      vnth (interp_block M l (l + Z.of_nat top) n (get_x_divisions x M ++ tl) tau) j = D (k + d) c tau.
    Proof.
      intros Lc Hl Hv l.
      assert (EN : Z.to_nat (l + Z.of_nat top) = (M + top - (k + d))%nat) by (unfold l; lia).
      assert (Ei : forall i, Z.to_nat (Z.of_nat i + Z.of_nat M - l) = (k + d + i)%nat) by (unfold l; lia).
      rewrite (interp_block_comp M n).
      2:{ intros i Hi. rewrite EN in Hi. rewrite Ei. apply Hl. lia. }
      rewrite EN, (D_taylor (k + d) c tau (M + top - (k + d))) by lia.
      apply rsum_ext; intros i Hi. rewrite Ei, Hv by lia. reflexivity.
    Qed.
    Lemma interp_value_length (tl : list vec) (k d top : nat) :
      (forall i, (i < M + top)%nat -> length (nth i (get_x_divisions x M ++ tl) []) = n) ->
      let l := (Z.of_nat M - Z.of_nat d - Z.of_nat k)%Z in
      length (interp_block M l (l + Z.of_nat top) n (get_x_divisions x M ++ tl) tau) = n.
    Proof.
      intros Hl l.
      assert (EN : Z.to_nat (l + Z.of_nat top) = (M + top - (k + d))%nat) by (unfold l; lia).
      assert (Ei : forall i, Z.to_nat (Z.of_nat i + Z.of_nat M - l) = (k + d + i)%nat) by (unfold l; lia).
      apply (interp_block_length M n HM). intros i Hi. rewrite EN in Hi. rewrite Ei. apply Hl. lia.
    Qed.

    Lemma tz_ext_length i : (i < M + 2)%nat ->
      length (nth i (get_x_divisions x M ++
        [last (get_x_divisions xd M) [];
         ((-1) *v last (get_x_divisions xd M) [] +v last (get_x_divisions xdn M) []) /v h]) []) = n.
    Proof.
      intros Hi. pose proof (last_block_length M n HM xd Hxd) as L1.
      pose proof (last_block_length M n HM xdn Hxdn) as L2.
      destruct (Nat.lt_ge_cases i M).
      - rewrite ext_nth_low by auto. apply (block_length x M n); auto.
      - rewrite ext_nth_high by auto. destruct (i - M)%nat as [|[|]] eqn:E; cbn [nth]; [len|len|lia].
    Qed.
    Lemma tz_interp_length d : length (tz_interp M d x x_n xd xdn tau h) = (M * n)%nat.
    Proof.
      unfold tz_interp. rewrite (block_dim x M n) by auto. apply reunite_map_length; auto.
      intros k Hk. apply (interp_value_length _ k d 2). apply tz_ext_length.
    Qed.
    Lemma tz_interp_value c k d j :
      tz_motion M n h x (accel n xd) (accel n xdn) j c -> (k < M)%nat -> (j < n)%nat ->
      coord n (tz_interp M d x x_n xd xdn tau h) k j = D (k + d) c tau.
    Proof.
      intros Hc Hk Hj. unfold coord, tz_interp. rewrite (block_dim x M n) by auto.
      rewrite (vnth_reunite_map M n); auto.
      2:{ intros k' Hk'. apply (interp_value_length _ k' d 2). apply tz_ext_length. }
      apply (interp_value _ c k d j 2); [apply Hc|apply tz_ext_length|].
      intros i Hi. pose proof (tz_motion_top _ _ _ _ _ Hc) as E1.
      destruct Hc as (_ & Hs & E0 & _).
      pose proof (last_block_length M n HM xd Hxd) as L1.
      pose proof (last_block_length M n HM xdn Hxdn) as L2.
      destruct (Nat.lt_ge_cases i M).
      - rewrite ext_nth_low by auto. rewrite (vnth_block x M n) by auto. symmetry. now apply Hs.
      - rewrite ext_nth_high by auto. destruct (i - M)%nat as [|[|]] eqn:E; cbn [nth].
        + replace i with M by lia. rewrite E0. now apply last_accel.
        + replace i with (M + 1)%nat by lia. rewrite E1. comp. rewrite !last_accel by auto.
          unfold Rdiv. ring.
        + lia.
    Qed.

    Variable xdc : vec.
    Hypothesis Hxdc : length xdc = (M * n)%nat.
    Lemma hs_ext_length i : (i < M + 3)%nat ->
      length (nth i (get_x_divisions x M ++
        [last (get_x_divisions xd M) [];
         ((-3) *v last (get_x_divisions xd M) [] +v 4 *v last (get_x_divisions xdc M) []
            -v last (get_x_divisions xdn M) []) /v h;
         (4 *v last (get_x_divisions xd M) [] -v 8 *v last (get_x_divisions xdc M) []
            +v 4 *v last (get_x_divisions xdn M) []) /v (h ^ 2)]) []) = n.
    Proof.
      intros Hi. pose proof (last_block_length M n HM xd Hxd) as L1.
      pose proof (last_block_length M n HM xdn Hxdn) as L2.
      pose proof (last_block_length M n HM xdc Hxdc) as L3.
      destruct (Nat.lt_ge_cases i M).
      - rewrite ext_nth_low by auto. apply (block_length x M n); auto.
      - rewrite ext_nth_high by auto. destruct (i - M)%nat as [|[|[|]]] eqn:E; cbn [nth]; [len|len|len|lia].
    Qed.
    Lemma hs_interp_length d : length (hs_interp M d x x_n xd xdn tau h xdc) = (M * n)%nat.
    Proof.
      unfold hs_interp. rewrite (block_dim x M n) by auto. apply reunite_map_length; auto.
      intros k Hk. apply (interp_value_length _ k d 3). apply hs_ext_length.
    Qed.
    Lemma hs_interp_value c k d j :
      hs_motion M n h x (accel n xd) (accel n xdc) (accel n xdn) j c -> (k < M)%nat -> (j < n)%nat ->
      coord n (hs_interp M d x x_n xd xdn tau h xdc) k j = D (k + d) c tau.
    Proof.
      intros Hc Hk Hj. unfold coord, hs_interp. rewrite (block_dim x M n) by auto.
      rewrite (vnth_reunite_map M n); auto.
      2:{ intros k' Hk'. apply (interp_value_length _ k' d 3). apply hs_ext_length. }
      apply (interp_value _ c k d j 3); [apply Hc|apply hs_ext_length|].
      intros i Hi. destruct (hs_motion_top _ _ _ _ _ _ Hc) as [E1 E2].
      destruct Hc as (_ & Hs & E0 & _).
      pose proof (last_block_length M n HM xd Hxd) as L1.
      pose proof (last_block_length M n HM xdn Hxdn) as L2.
      pose proof (last_block_length M n HM xdc Hxdc) as L3.
      destruct (Nat.lt_ge_cases i M).
      - rewrite ext_nth_low by auto. rewrite (vnth_block x M n) by auto. symmetry. now apply Hs.
      - rewrite ext_nth_high by auto. destruct (i - M)%nat as [|[|[|]]] eqn:E; cbn [nth].
        + replace i with M by lia. rewrite E0. now apply last_accel.
        + replace i with (M + 1)%nat by lia. rewrite E1. comp. rewrite !last_accel by auto. reflexivity.
        + replace i with (M + 2)%nat by lia. rewrite E2. comp. rewrite !last_accel by auto. reflexivity.
        + lia.
    Qed.
  End Interp.
End Motions.

(** ** The "j" schemes: acceleration parabola through 0, 2h/5, h *)
Section HSJ.
  Variable n : nat.
  Variable h : R.
  Hypothesis Hh : h <> 0.

  Lemma hsj_motion_top x a a_c a_n j c : hsj_motion n h x a a_c a_n j c ->
    D 3 c 0 = (-21 * vnth a j + 25 * vnth a_c j - 4 * vnth a_n j) / (6 * h) /\
    D 4 c 0 = (15 * vnth a j - 25 * vnth a_c j + 10 * vnth a_n j) / (3 * h ^ 2).
  Proof.
    intros (Lc & _ & E0 & E1 & E2).
    rewrite (D_taylor 2 c (2 * h / 5) 3) in E1 by lia.
    rewrite (D_taylor 2 c h 3) in E2 by lia.
    rewrite rsum3 in E1, E2. cbn [Nat.add] in E1, E2. rewrite E0 in E1, E2. simpl in E1, E2.
    rewrite <- E1, <- E2. split; field; auto.
  Qed.
  Lemma hsj_motion_exists x a a_c a_n j : exists c, hsj_motion n h x a a_c a_n j c.
  Proof.
    set (d := fun k => match k with
       | 0%nat => coord n x 0 j | 1%nat => coord n x 1 j | 2%nat => vnth a j
       | 3%nat => (-21 * vnth a j + 25 * vnth a_c j - 4 * vnth a_n j) / (6 * h)
       | _ => (15 * vnth a j - 25 * vnth a_c j + 10 * vnth a_n j) / (3 * h ^ 2) end).
    exists (motion_of 5 d).
    assert (E : forall k, (k < 5)%nat -> D k (motion_of 5 d) 0 = d k) by (intros; now apply D_motion_of).
    repeat split.
    - rewrite motion_of_length. lia.
    - intros [|[|k]] Hk; [| |lia]; rewrite E by lia; reflexivity.
    - rewrite E by lia. reflexivity.
    - rewrite (D_taylor 2 _ _ 3) by (rewrite motion_of_length; lia).
      rewrite rsum3, !E by lia. simpl. field. auto.
    - rewrite (D_taylor 2 _ _ 3) by (rewrite motion_of_length; lia).
      rewrite rsum3, !E by lia. simpl. field. auto.
  Qed.

  Lemma hsj_motion_at x a a_c a_n j c t : hsj_motion n h x a a_c a_n j c ->
    let f := vnth a j in
    let d3 := (-21 * vnth a j + 25 * vnth a_c j - 4 * vnth a_n j) / (6 * h) in
    let d4 := (15 * vnth a j - 25 * vnth a_c j + 10 * vnth a_n j) / (3 * h ^ 2) in
    D 0 c t = coord n x 0 j + t * coord n x 1 j + t ^ 2 / 2 * f + t ^ 3 / 6 * d3 + t ^ 4 / 24 * d4 /\
    D 1 c t = coord n x 1 j + t * f + t ^ 2 / 2 * d3 + t ^ 3 / 6 * d4 /\
    D 2 c t = f + t * d3 + t ^ 2 / 2 * d4 /\
    D 3 c t = d3 + t * d4.
  Proof.
    intros Hc f d3 d4. destruct (hsj_motion_top _ _ _ _ _ _ Hc) as [E3 E4].
    destruct Hc as (Lc & Hs & E2 & _).
    pose proof (Hs 0%nat ltac:(lia)) as Eq. pose proof (Hs 1%nat ltac:(lia)) as Ev.
    fold d3 in E3. fold d4 in E4. fold f in E2. clearbody d3 d4 f.
    rewrite (D_taylor 0 c t 5), (D_taylor 1 c t 4), (D_taylor 2 c t 3), (D_taylor 3 c t 2) by lia.
    rewrite rsum5, rsum4, rsum3, rsum2. cbn [Nat.add].
    rewrite Eq, Ev, E2, E3, E4. simpl. repeat split; field.
  Qed.

    Lemma coord0 (y : vec) j : (j < n)%nat -> coord n y 0 j = vnth (firstn n y) j.
    Proof. intros. unfold coord. rewrite vnth_firstn. destruct (Nat.ltb_spec j n); [|lia]. f_equal. Qed.
    Lemma coord1 (y : vec) j : coord n y 1 j = vnth (skipn n y) j.
    Proof. unfold coord. rewrite vnth_skipn. f_equal. lia. Qed.
    Lemma coord0_app (A B : vec) j : length A = n -> (j < n)%nat -> coord n (A ++ B) 0 j = vnth A j.
    Proof. intros HA Hj. unfold coord. rewrite vnth_app, HA. destruct (Nat.ltb_spec (0 * n + j) n); [f_equal|lia]. Qed.
    Lemma coord1_app (A B : vec) j : length A = n -> coord n (A ++ B) 1 j = vnth B j.
    Proof. intros HA. unfold coord. rewrite vnth_app, HA. destruct (Nat.ltb_spec (1 * n + j) n); [lia|f_equal; lia]. Qed.

  Section V.
    Variables x x_n : vec.
    Hypothesis Hx : length x = (2 * n)%nat.
    Hypothesis Hxn : length x_n = (2 * n)%nat.
    Variables a a_n a_c : vec.
    Hypothesis Ha : length a = n.
    Hypothesis Han : length a_n = n.
    Hypothesis Hac : length a_c = n.

    Lemma hsj_value c k j : hsj_motion n h x a a_c a_n j c -> (k < 2)%nat -> (j < n)%nat ->
      coord n (hsj_accel_restr x x_n a a_n h a_c) k j = coord n x_n k j - D k c h.
    Proof.
      intros Hc Hk Hj. destruct (hsj_motion_at _ _ _ _ _ _ h Hc) as (E0 & E1 & _).
      rewrite (hsj_accel_nf n); auto.
      destruct k as [|[|]]; [| |lia].
      - rewrite coord0_app by (auto; len). rewrite E0. comp. rewrite !coord0, coord1 by auto.
        field. auto.
      - rewrite coord1_app by len. rewrite E1. comp. rewrite !coord1. field. auto.
    Qed.
    Lemma hsj_length : length (hsj_accel_restr x x_n a a_n h a_c) = (2 * n)%nat.
    Proof. rewrite (hsj_accel_nf n); auto. len. Qed.
    Lemma hsj_half_value c k j : hsj_motion n h x a a_c a_n j c ->
      passes_at 2 n c h x_n j -> (k < 2)%nat -> (j < n)%nat ->
      coord n (hsj_half_x x x_n a a_n h) k j = D k c (2 * h / 5).
    Proof.
      intros Hc Hp Hk Hj.
      destruct (hsj_motion_at _ _ _ _ _ _ h Hc) as (E0 & E1 & _).
      rewrite (Hp 0%nat ltac:(lia)) in E0. rewrite (Hp 1%nat ltac:(lia)) in E1.
      destruct (hsj_motion_at _ _ _ _ _ _ (2 * h / 5) Hc) as (F0 & F1 & _).
      rewrite (hsj_half_nf n); auto.
      rewrite coord0 in E0 by auto. rewrite coord1 in E1.
      destruct k as [|[|]]; [| |lia].
      - rewrite coord0_app by (auto; len). rewrite F0. comp. rewrite E0. rewrite !coord0, coord1 by auto. field. auto.
      - rewrite coord1_app by len. rewrite F1. comp. rewrite E1. rewrite !coord1. field. auto.
    Qed.
  End V.

  Section I.
    Variables x x_n xd xdn xdc : vec.
    Hypothesis Hx : length x = (2 * n)%nat.
    Hypothesis Hxd : length xd = (2 * n)%nat.
    Hypothesis Hxdn : length xdn = (2 * n)%nat.
    Hypothesis Hxdc : length xdc = (2 * n)%nat.
    Variable tau : R.
    Lemma accel2 (y : vec) : length y = (2 * n)%nat -> accel n y = skipn n y.
    Proof. intros H. unfold accel. rewrite H. f_equal. lia. Qed.

    Lemma hsj_interp_values c j :
      hsj_motion n h x (accel n xd) (accel n xdc) (accel n xdn) j c -> (j < n)%nat ->
      forall k, (k < 2)%nat ->
      coord n (hsj_interp x x_n xd xdn tau h xdc) k j = D k c tau /\
      coord n (hsj_dot_interp x x_n xd xdn tau h xdc) k j = D (k + 1) c tau /\
      coord n (hsj_dot_dot_interp x x_n xd xdn tau h xdc) k j = D (k + 2) c tau.
    Proof.
      intros Hc Hj k Hk. destruct (hsj_motion_at _ _ _ _ _ _ tau Hc) as (E0 & E1 & E2 & E3).
      unfold hsj_interp, hsj_dot_interp, hsj_dot_dot_interp. rewrite (half_dim n x Hx).
      rewrite !accel2 in E0, E1, E2, E3 by auto.
      assert (Lq : length (firstn n x) = n) by len. assert (Lv : length (skipn n x) = n) by len.
      assert (L1 : length (skipn n xd) = n) by len. assert (L2 : length (skipn n xdn) = n) by len.
      assert (L3 : length (skipn n xdc) = n) by len.
      destruct k as [|[|]]; [| |lia]; cbn [Nat.add].
      - rewrite !coord0_app by (auto; len). rewrite E0, E1, E2. comp. rewrite coord0, coord1 by auto.
        repeat split; field; auto.
      - rewrite !coord1_app by len. rewrite E1, E2, E3. comp. rewrite coord1.
        repeat split; field; auto.
    Qed.
    Lemma hsj_interp_lengths :
      length (hsj_interp x x_n xd xdn tau h xdc) = (2 * n)%nat /\
      length (hsj_dot_interp x x_n xd xdn tau h xdc) = (2 * n)%nat /\
      length (hsj_dot_dot_interp x x_n xd xdn tau h xdc) = (2 * n)%nat.
    Proof.
      unfold hsj_interp, hsj_dot_interp, hsj_dot_dot_interp. rewrite (half_dim n x Hx).
      repeat split; len.
    Qed.
  End I.
End HSJ.
