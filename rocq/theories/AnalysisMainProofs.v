(** What the interpolation of a solution with several segments shows. *)
From Coq Require Import String.
From Coquelicot Require Import Coquelicot.
From Verif Require Import Prelude PreludeFacts Poly PolyFacts PolyInterp Mat MatFacts PwModel PwFacts PwInterpModel PwInterpProofs
  PsModel JacobiFacts PsSpec PsPointsProofs PsBaryProofs PsNodesProofs PsProblemProofs PsApplyProofs PsInterpProofs PsMoreProofs
  UtilModel UtilSpec BuTdModel BuTdSpec BuTdFacts BuTdProofs BuTdApplyProofs BuTdInterpProofs
  PhModel PhSpec PhProofs PhSegProofs PhBtProofs PhMoreProofs PhJoinProofs
  AnalysisModel AnalysisSpec AnalysisProofs AnalysisPhProofs AnalysisSegProofs AnalysisSavedProofs AnalysisJoinProofs.
Open Scope R_scope.
Open Scope vec_scope.
Open Scope list_scope.

Lemma pyget_ends c a b : pyget (tau_to_t_points (with_ends true true c) a b) 0%Z = Ok a /\
  pyget (tau_to_t_points (with_ends true true c) a b) (-1)%Z = Ok b.
Proof.
  unfold with_ends, tau_to_t_points. rewrite !map_app. cbn [map app]. split.
  - rewrite pyget_0. f_equal. unfold tau_to_t. field.
  - rewrite app_comm_cons, pyget_last. f_equal. unfold tau_to_t. field.
Qed.

Lemma take_map {A B} (f : A -> B) i (l : list A) : take i (map f l) = map f (take i l).
Proof. unfold take. now rewrite map_length, skipn_map, firstn_map. Qed.

Lemma mod_mult n m : (1 <= n)%nat -> (n * m mod n =? 0)%nat = true.
Proof. intros H. apply Nat.eqb_eq. rewrite Nat.mul_comm. apply Nat.mod_mul. lia. Qed.

Section Main.
Variable rr : list R -> list R.
Hypothesis OK : real_roots_ok rr.
Variable lg : nat -> vec * vec.
Variable u_other : string -> R -> Res vec.
Variable hermite : list R -> list vec -> list vec -> R -> vec.
Variable dyn : vec -> vec -> vec -> vec -> vec.
Variables (p : ph_problem) (knots : vec) (ns : list nat) (w : ph_values) (nu : nat) (t : vec).
Hypothesis LK : length ns = (length knots + 1)%nat.
Hypothesis T : ph_t_start p < ph_t_end p.
Hypothesis GK : good_knots (ph_t_start p) (ph_t_end p) knots.
Hypothesis HE : Forall (enough_points (ph_scheme p)) ns.
Hypothesis HO : (1 <= ph_order p)%nat.
Hypothesis HQ : (1 <= ph_n_q p)%nat.
Hypothesis SX : shaped (ph_n_arr ns) (ph_order p * ph_n_q p) (hv_x w).
Hypothesis SD : shaped (ph_n_arr ns) (ph_order p * ph_n_q p) (hv_x_d w).
Hypothesis SU : shaped (ph_n_arr ns) nu (hv_u w).
Hypothesis Ht : ph_t_arr rr p knots ns = Ok t.
Notation tk := (knot_times (ph_t_start p) (ph_t_end p) knots).
Notation L := (length ns).
Notation M := (ph_order p).
Notation nq := (ph_n_q p).

(** The conclusion of the theorems. *)
Definition all_sampled (r : ph_result) (good : nat -> R -> row -> Prop) : Prop :=
  (forall n, (2 <= n)%nat -> all_reached tk n -> exists rows segs Tm,
    interpolation_ph rr lg u_other hermite r M M None None n None = Ok (rows, segs) /\ length segs = L /\
    sampled tk n good Tm rows /\ Tm 0%nat = ph_t_start p /\ Tm (n - 1)%nat = ph_t_end p) /\
  (forall n, (2 <= n)%nat -> ~ all_reached tk n -> exists e,
    interpolation_ph rr lg u_other hermite r M M None None n None = Err e) /\
  (forall n g, length g = L -> Forall (fun ts => (2 <= length ts)%nat) g -> exists segs,
    interpolation_ph rr lg u_other hermite r M M None None n (Some g) = Ok (concat segs, segs) /\ length segs = L /\
    forall s, (s < L)%nat -> length (nth s segs []) = length (nth s g []) /\
      forall i, (i < length (nth s g []))%nat -> good s (vnth (nth s g []) i) (nth i (nth s segs []) [])).

Lemma M0 : (M =? 0)%nat = false.
Proof. apply Nat.eqb_neq. lia. Qed.
Lemma n_arr_pos : (0 < ph_n_arr ns)%nat.
Proof. unfold ph_n_arr. lia. Qed.

Lemma kr_lt k : (k <= L)%nat -> (knot_row ns k < ph_n_arr ns)%nat.
Proof. apply knot_row_lt. Qed.

Lemma seg_x_shaped X s : In (ph_scheme p) all_schemes -> shaped (ph_n_arr ns) (M * nq) X -> (s < L)%nat ->
  shaped (1 - b2n (starts (ph_scheme p)) + nth s ns 0%nat + (1 - b2n (ends (ph_scheme p)))) (M * nq) (seg_x p ns X s).
Proof.
  intros HS S Hs. unfold seg_x. apply assemble_shaped.
  - apply (seg_part_shaped knots); auto.
  - apply (mrow_arr ns X); [exact S|]. apply kr_lt. lia.
  - apply (mrow_arr ns X); [exact S|]. apply kr_lt. lia.
Qed.
Lemma enough_pos s N : In s all_schemes -> enough_points s N -> (0 < 1 - b2n (starts s) + N + (1 - b2n (ends s)))%nat.
Proof.
  intros H E. unfold enough_points in E. destruct (starts s), (ends s); cbn [b2n]; lia.
Qed.
Lemma seg_x_width X s : In (ph_scheme p) all_schemes -> shaped (ph_n_arr ns) (M * nq) X -> (s < L)%nat -> mwidth (seg_x p ns X s) = (M * nq)%nat.
Proof.
  intros HS S Hs. apply (shaped_mwidth _ _ _ (seg_x_shaped X s HS S Hs)). apply enough_pos; [exact HS|].
  exact (nth_enough p ns HE s Hs).
Qed.

(** Rows of a segment on a motion. *)
Lemma seg_rows (f : R -> vec) (X : mat) s c : In (ph_scheme p) all_schemes -> (s < L)%nat ->
  seg_times t ns s = tau_to_t_points (with_ends (starts (ph_scheme p)) (ends (ph_scheme p)) c) (vnth tk s) (vnth tk (s + 1)) ->
  f (vnth tk s) = mrow (knot_row ns s) X -> f (vnth tk (s + 1)) = mrow (knot_row ns (s + 1)) X ->
  (forall k, (k < length (seg_times t ns s))%nat -> mrow (point_row ns s k) X = f (vnth (seg_times t ns s) k)) ->
  seg_part X ns s = map f (seg_times t ns s) /\
  seg_x p ns X s = map f (tau_to_t_points (with_ends true true c) (vnth tk s) (vnth tk (s + 1))).
Proof.
  intros HS Hs Et F0 F1 Fk.
  assert (E : seg_part X ns s = map f (seg_times t ns s)).
  { unfold seg_part, seg_times at 1. rewrite map_map. apply map_ext_in. intros i Hi. apply in_seq in Hi.
    assert (LS : length (seg_times t ns s) = nth s ns 0%nat) by (unfold seg_times; now rewrite map_length, seq_length).
    rewrite Fk by lia. unfold seg_times, vnth at 1. rewrite (nth_map' _ _ _ 0%nat), seq_nth by (rewrite ?seq_length; lia). reflexivity. }
  split; [exact E|]. unfold seg_x. rewrite E, Et, <- F0, <- F1. unfold assemble, with_ends, tau_to_t_points.
  assert (T0 : forall a b, tau_to_t (-1) a b = a) by (intros; unfold tau_to_t; field).
  assert (T1 : forall a b, tau_to_t 1 a b = b) by (intros; unfold tau_to_t; field).
  destruct (starts (ph_scheme p)), (ends (ph_scheme p)); rewrite ?map_app; cbn [map app]; rewrite ?T0, ?T1, ?app_nil_r; reflexivity.
Qed.

Lemma t_at k : In (ph_scheme p) all_schemes -> (k <= L)%nat -> vnth t (knot_row ns k) = vnth tk k.
Proof. intros HS Hk. destruct (arr_times p knots ns LK rr OK HS HE t Ht) as (_ & H & _). now apply H. Qed.

Lemma x_width : (mwidth (hv_x w) mod M =? 0)%nat = true.
Proof. rewrite (shaped_mwidth _ _ _ SX n_arr_pos). now apply mod_mult. Qed.

(** Top-down. *)
Theorem td_samples Ps Us : ph_kind p = Ph_td -> In (ph_scheme p) bt_schemes ->
  (forall s, (s < L)%nat -> shaped (nth s ns 0%nat + M) nq (nth s (hv_q_constr w) [])) ->
  (forall s, (s < L)%nat ->
    segment_motion dyn (nth s ns 0%nat + M) nq M t ns (hv_x w) (hv_x_d w) (hv_u w) (hv_lam w) s (nth s Ps []) /\
    forall i, (i < nth s ns 0 + M)%nat ->
      mrow i (nth s (hv_q_constr w) []) = state_at (nth s Ps [])
        (vnth (tau_to_t_points (LGL rr (nth s ns 0%nat + M)) (vnth t (knot_row ns s)) (vnth t (knot_row ns (s + 1)))) i)) ->
  segment_controls t ns (hv_u w) nu Us ->
  exists r, saved rr p knots ns w = Ok r /\ all_sampled r (motion_sample M Ps Us).
Proof.
  intros HK HB SQ HP HU. assert (HS := bt_all_schemes _ HB). assert (HC := bt_closed _ HB).
  destruct (saved_ok rr OK p knots ns w nu t LK HS HC HE HO HQ SX SD SU Ht) as (r & Er & _ & E2 & E3 & E4 & E5 & Hr).
  exists r. split; [exact Er|].
  pose (rf := fun s => row_td rr (ph_scheme p) M M (nth s (hv_q_constr w) []) (seg_x p ns (hv_x w) s) (seg_x p ns (hv_x_d w) s)
    (seg_part (hv_u w) ns s) (vnth tk s) (vnth tk (s + 1)) "pol" "pol").
  assert (EW : (mwidth (h_x r) mod M =? 0)%nat = true) by (rewrite E3; exact x_width).
  assert (RF : forall s, (s < L)%nat -> forall m g,
    interpolation1 rr lg u_other hermite (sub_problem r s) M M None None m g
    = (let ts := match g with None => linspace (vnth tk s) (vnth tk (s + 1)) m | Some a => a end in
       if (2 <=? length ts)%nat then mapm (rf s) ts else Err ValueError)).
  { intros s Hs m g. destruct (Hr s Hs) as (c & _ & _ & _ & _ & Es). rewrite Es, HK. unfold interpolation1.
    cbn [r_t r_x r_kind r_scheme r_solve_order r_x_d r_u]. destruct (pyget_ends c (vnth tk s) (vnth tk (s + 1))) as [A B]. rewrite A, B.
    cbn [rbind]. rewrite M0, (seg_x_width _ s HS SX Hs), mod_mult by exact HO. reflexivity. }
  assert (RG : forall s, (s < L)%nat -> forall tau, exists d, rf s tau = Ok d /\ motion_sample M Ps Us s tau d).
  { intros s Hs tau. destruct (Hr s Hs) as (c & _ & Ec & _ & Et & _). destruct (HP s Hs) as (Hm & Hq). destruct (HU s Hs) as (LU & TU).
    destruct Hm as (LP & BP & _). rewrite Et in TU. rewrite !t_at in Hq by (auto; lia).
    destruct (row_td_ok rr OK (ph_scheme p) (ph_scheme p) (nth s ns 0%nat) M nq nu (vnth tk s) (vnth tk (s + 1)) (nth s (hv_q_constr w) [])
      (seg_part (hv_u w) ns s) (nth s Ps []) (nth s Us []) _ HB (or_introl eq_refl) (nth_enough p ns HE s Hs) HO HQ
      (Rlt_not_eq _ _ (tk_lt p knots ns LK T GK s Hs)) Ec (SQ s Hs) LP BP Hq (seg_part_shaped knots ns LK _ _ s SU Hs) LU TU
      (seg_x p ns (hv_x w) s) (seg_x p ns (hv_x_d w) s) tau (seg_x_width _ s HS SX Hs)) as (d & E & Sh & Gx).
    exists d. split; [exact E|exact (conj Sh Gx)]. }
  split; [|split].
  - intros n Hn HR. exact (samples rr lg u_other hermite p knots ns t LK T GK HO HQ Ht r M None None rf _ M0 EW E2 E4 E5 RF RG n Hn HR).
  - intros n Hn HR. exact (refused rr lg u_other hermite p knots ns t LK T GK HO HQ Ht r M None None rf M0 EW E2 E4 E5 RF n Hn HR).
  - intros n g Hg HG. exact (samples_given rr lg u_other hermite p knots ns t LK HO HQ Ht r M None None rf _ M0 EW E2 E4 RF RG n g Hg HG).
Qed.
(** Bottom-up. *)
Theorem bu_samples Ps Us : leggauss_ok lg -> ph_kind p = Ph_bu -> In (ph_scheme p) bt_schemes ->
  (M = 2%nat \/ ~ In (ph_scheme p) jacobi_schemes) ->
  (forall s, (s < L)%nat ->
    segment_motion dyn (nth s ns 0%nat + M) nq M t ns (hv_x w) (hv_x_d w) (hv_u w) (hv_lam w) s (nth s Ps [])) ->
  segment_controls t ns (hv_u w) nu Us ->
  exists r, saved rr p knots ns w = Ok r /\ all_sampled r (motion_sample M Ps Us).
Proof.
  intros LG HK HB HJ HP HU. assert (HS := bt_all_schemes _ HB). assert (HC := bt_closed _ HB).
  destruct (saved_ok rr OK p knots ns w nu t LK HS HC HE HO HQ SX SD SU Ht) as (r & Er & _ & E2 & E3 & E4 & E5 & Hr).
  exists r. split; [exact Er|].
  pose (rf := fun s => row_bu rr lg (ph_scheme p) M M M (seg_x p ns (hv_x w) s) (seg_x p ns (hv_x_d w) s)
    (seg_part (hv_u w) ns s) (vnth tk s) (vnth tk (s + 1)) "pol" "pol").
  assert (EW : (mwidth (h_x r) mod M =? 0)%nat = true) by (rewrite E3; exact x_width).
  assert (RF : forall s, (s < L)%nat -> forall m g,
    interpolation1 rr lg u_other hermite (sub_problem r s) M M None None m g
    = (let ts := match g with None => linspace (vnth tk s) (vnth tk (s + 1)) m | Some a => a end in
       if (2 <=? length ts)%nat then mapm (rf s) ts else Err ValueError)).
  { intros s Hs m g. destruct (Hr s Hs) as (c & _ & _ & _ & _ & Es). rewrite Es, HK. unfold interpolation1.
    cbn [r_t r_x r_kind r_scheme r_solve_order r_x_d r_u]. destruct (pyget_ends c (vnth tk s) (vnth tk (s + 1))) as [A B]. rewrite A, B.
    cbn [rbind]. rewrite M0, (seg_x_width _ s HS SX Hs), mod_mult by exact HO. reflexivity. }
  assert (RG : forall s, (s < L)%nat -> forall tau, exists d, rf s tau = Ok d /\ motion_sample M Ps Us s tau d).
  { intros s Hs tau. destruct (HU s Hs) as (LU & TU). destruct (HP s Hs) as (LP & BP & F0 & F1 & Fk). rewrite !t_at in F0, F1 by (auto; lia).
    destruct (Hr s Hs) as (c' & IC' & Ec' & Lc' & Et & _).
    destruct (bt_points rr OK (ph_scheme p) (nth s ns 0%nat) M HB (nth_enough p ns HE s Hs)) as (c & IC & _ & Ec & Eb & _ & _ & Lc).
    assert (c' = c). { rewrite Ec in Ec'. apply Ok_inj in Ec'. revert Ec'. unfold with_ends.
      destruct (starts (ph_scheme p)), (ends (ph_scheme p)); cbn [app]; rewrite ?app_nil_r; intros E; try (injection E as E); try apply app_inv_tail in E; congruence. }
    subst c'. clear IC' Lc'.
    assert (Ec2 : coll_points rr (nth s ns 0%nat) (ph_scheme p) 2 = Ok (with_ends (starts (ph_scheme p)) (ends (ph_scheme p)) c)).
    { destruct HJ as [HJ|HJ]; [rewrite <- HJ; exact Ec|]. rewrite <- Ec. revert HB HJ. clear. generalize (ph_scheme p). intros q H NJ.
      bt_cases H; try reflexivity; exfalso; apply NJ; cbv; tauto. }
    assert (S1 := seg_rows (full_state M (nth s Ps [])) (hv_x w) s c HS Hs Et F0 F1 (fun k Hk => proj1 (Fk k Hk))).
    destruct S1 as [_ Ex].
    assert (Ed : seg_part (hv_x_d w) ns s = map (full_rate M (nth s Ps [])) (tau_to_t_points (with_ends (starts (ph_scheme p)) (ends (ph_scheme p)) c) (vnth tk s) (vnth tk (s + 1)))).
    { rewrite <- Et. unfold seg_part, seg_times at 1. rewrite map_map. apply map_ext_in. intros i Hi. apply in_seq in Hi.
      assert (LS : length (seg_times t ns s) = nth s ns 0%nat) by (unfold seg_times; now rewrite map_length, seq_length).
      destruct (Fk i ltac:(lia)) as (_ & -> & _). unfold seg_times, vnth at 1. rewrite (nth_map' _ _ _ 0%nat), seq_nth by (rewrite ?seq_length; lia). reflexivity. }
    rewrite Et in TU.
    destruct (row_bu_ok rr OK lg LG (ph_scheme p) (ph_scheme p) (nth s ns 0%nat) M nq nu (vnth tk s) (vnth tk (s + 1))
      (seg_part (hv_u w) ns s) (nth s Ps []) (nth s Us []) _ c HB (or_introl eq_refl) (nth_enough p ns HE s Hs) HO HQ
      (Rlt_not_eq _ _ (tk_lt p knots ns LK T GK s Hs)) Ec Ec2 Eb LP BP (seg_part_shaped knots ns LK _ _ s SU Hs) LU TU
      (mrow (knot_row ns s) (hv_x_d w)) (seg_part (hv_x_d w) ns s) (mrow (knot_row ns (s + 1)) (hv_x_d w)) tau
      (mrow_arr ns _ _ _ SD (kr_lt s ltac:(lia))) (mrow_arr ns _ _ _ SD (kr_lt (s + 1) ltac:(lia))) Ed) as (d & E & Sh & Gx).
    exists d. split; [|exact (conj Sh Gx)]. unfold rf. rewrite Ex. exact E. }
  split; [|split].
  - intros n Hn HR. exact (samples rr lg u_other hermite p knots ns t LK T GK HO HQ Ht r M None None rf _ M0 EW E2 E4 E5 RF RG n Hn HR).
  - intros n Hn HR. exact (refused rr lg u_other hermite p knots ns t LK T GK HO HQ Ht r M None None rf M0 EW E2 E4 E5 RF n Hn HR).
  - intros n g Hg HG. exact (samples_given rr lg u_other hermite p knots ns t LK HO HQ Ht r M None None rf _ M0 EW E2 E4 RF RG n g Hg HG).
Qed.

(** Pseudospectral, order 2. *)
Theorem ps_samples Ps Us : ph_kind p = Ph_ps -> M = 2%nat -> In (ph_scheme p) all_schemes -> ~ In (ph_scheme p) half_open ->
  (forall s, (s < L)%nat -> exists n, n_col_to_n_nodes (ph_scheme p) (nth s ns 0%nat) = Ok n /\
    segment_state_motion dyn n (M * nq) t ns (hv_x w) (hv_x_d w) (hv_u w) (hv_lam w) s (nth s Ps [])) ->
  segment_controls t ns (hv_u w) nu Us ->
  exists r, saved rr p knots ns w = Ok r /\ all_sampled r (state_sample nq Ps Us).
Proof.
  intros HK HM HS HC HP HU.
  destruct (saved_ok rr OK p knots ns w nu t LK HS HC HE HO HQ SX SD SU Ht) as (r & Er & _ & E2 & E3 & E4 & E5 & Hr).
  exists r. split; [exact Er|].
  pose (xn := fun s => take (1 - b2n (nstarts (ph_scheme p)), 1 - b2n (nends (ph_scheme p)))%nat (seg_x p ns (hv_x w) s)).
  pose (rf := fun s => row_pseudo rr (ph_scheme p) 2 2 (mcols 0 nq (xn s)) (mcols nq (nq * 2) (xn s)) (xn s)
    (seg_part (hv_u w) ns s) (vnth tk s) (vnth tk (s + 1)) "pol" "pol").
  assert (EW : (mwidth (h_x r) mod M =? 0)%nat = true) by (rewrite E3; exact x_width).
  assert (TM : forall i lo hi X, take i (mcols lo hi X) = mcols lo hi (take i X)) by (intros; unfold mcols; apply take_map).
  assert (RF : forall s, (s < L)%nat -> forall m g,
    interpolation1 rr lg u_other hermite (sub_problem r s) M M None None m g
    = (let ts := match g with None => linspace (vnth tk s) (vnth tk (s + 1)) m | Some a => a end in
       if (2 <=? length ts)%nat then mapm (rf s) ts else Err ValueError)).
  { intros s Hs m g. destruct (Hr s Hs) as (c & _ & _ & _ & _ & Es). rewrite Es, HK. unfold interpolation1.
    cbn [r_t r_x r_kind r_scheme r_solve_order r_x_d r_u]. destruct (pyget_ends c (vnth tk s) (vnth tk (s + 1))) as [A B]. rewrite A, B.
    cbn [rbind]. rewrite M0, (seg_x_width _ s HS SX Hs), mod_mult by exact HO. cbn [negb].
    replace (nq =? M * nq)%nat with false by (symmetry; apply Nat.eqb_neq; clear - HM HQ; lia). rewrite !TM, HM. reflexivity. }
  assert (RG : forall s, (s < L)%nat -> forall tau, exists d, rf s tau = Ok d /\ state_sample nq Ps Us s tau d).
  { intros s Hs tau. destruct (HU s Hs) as (LU & TU). destruct (HP s Hs) as (n & En & LP & BP & F0 & F1 & Fk). rewrite !t_at in F0, F1 by (auto; lia).
    destruct (Hr s Hs) as (c' & IC' & Ec' & Lc' & Et & _).
    destruct (nodes_shape rr OK (ph_scheme p) (nth s ns 0%nat) HS (nth_enough p ns HE s Hs)) as (c & IC & Ec & Enn & End).
    assert (c' = c). { rewrite HM, Ec in Ec'. apply Ok_inj in Ec'. revert Ec'. unfold with_ends.
      destruct (starts (ph_scheme p)), (ends (ph_scheme p)); cbn [app]; rewrite ?app_nil_r; intros E; try (injection E as E); try apply app_inv_tail in E; congruence. }
    subst c'. clear IC' Lc'. rewrite Enn in En. apply Ok_inj in En. subst n.
    destruct (seg_rows (state_at (nth s Ps [])) (hv_x w) s c HS Hs Et F0 F1 (fun k Hk => proj1 (Fk k Hk))) as [_ Ex].
    assert (Exn : xn s = map (state_at (nth s Ps [])) (tau_to_t_points (with_ends (nstarts (ph_scheme p)) (nends (ph_scheme p)) c) (vnth tk s) (vnth tk (s + 1)))).
    { unfold xn. rewrite Ex, take_map. f_equal. unfold tau_to_t_points. rewrite take_map. f_equal.
      exact (take_with_ends true true (nstarts (ph_scheme p)) (nends (ph_scheme p)) c (fun _ => eq_refl) (fun _ => eq_refl)). }
    assert (Lnd : length (tau_to_t_points (with_ends (nstarts (ph_scheme p)) (nends (ph_scheme p)) c) (vnth tk s) (vnth tk (s + 1))) = nodes_of (ph_scheme p) (nth s ns 0%nat)).
    { unfold tau_to_t_points. rewrite map_length, with_ends_length. destruct IC as [-> _]. reflexivity. }
    assert (Sxn : shaped (nodes_of (ph_scheme p) (nth s ns 0%nat)) (2 * nq) (xn s)).
    { rewrite Exn. split; [now rewrite map_length|]. apply Forall_forall. intros v Hv. apply in_map_iff in Hv. destruct Hv as (tt0 & <- & _).
      rewrite state_at_length, LP, HM. reflexivity. }
    assert (Rk : forall i, (i < nodes_of (ph_scheme p) (nth s ns 0%nat))%nat -> mrow i (xn s) = state_at (nth s Ps [])
       (vnth (tau_to_t_points (with_ends (nstarts (ph_scheme p)) (nends (ph_scheme p)) c) (vnth tk s) (vnth tk (s + 1))) i)).
    { intros i Hi. rewrite Exn. unfold mrow. now rewrite (nth_map' _ _ _ 0) by lia. }
    assert (LP2 : length (nth s Ps []) = (2 * nq)%nat) by (rewrite LP, HM; reflexivity).
    rewrite Forall_forall in BP.
    assert (Sub : forall lo hi, (lo <= hi <= 2 * nq)%nat -> traj_through (tau_to_t_points (with_ends (nstarts (ph_scheme p)) (nends (ph_scheme p)) c) (vnth tk s) (vnth tk (s + 1)))
        (mcols lo hi (xn s)) (slice lo hi (nth s Ps []))).
    { intros lo hi Hlh. apply (traj_of_rows _ _ (nodes_of (ph_scheme p) (nth s ns 0%nat)) (hi - lo)).
      - split; [unfold mcols; rewrite map_length; exact (shaped_length _ _ _ Sxn)|]. apply Forall_forall. intros v Hv. unfold mcols in Hv.
        apply in_map_iff in Hv. destruct Hv as (v0 & <- & Hv0). destruct Sxn as [_ F]. rewrite Forall_forall in F. specialize (F _ Hv0).
        unfold slice. rewrite firstn_length, skipn_length. clear - F Hlh. lia.
      - exact Lnd.
      - unfold slice. rewrite firstn_length, skipn_length, LP2. clear - Hlh. lia.
      - intros q Hq. apply BP. unfold slice in Hq. rewrite <- (firstn_skipn lo (nth s Ps [])). apply in_or_app. right.
        rewrite <- (firstn_skipn (hi - lo) (skipn lo (nth s Ps []))). apply in_or_app. now left.
      - intros i Hi. rewrite state_at_slice, <- Rk by exact Hi. unfold mcols, mrow. rewrite (nth_map' _ _ _ []) by (rewrite (shaped_length _ _ _ Sxn); lia). reflexivity. }
    rewrite Et in TU.
    destruct (row_pseudo_ok rr OK (ph_scheme p) (nth s ns 0%nat) nq nu (vnth tk s) (vnth tk (s + 1)) (xn s) (seg_part (hv_u w) ns s)
      (nth s Ps []) (nth s Us []) _ _ tau HS (nth_enough p ns HE s Hs) HQ (Rlt_not_eq _ _ (tk_lt p knots ns LK T GK s Hs)) Sxn
      (seg_part_shaped knots ns LK _ _ s SU Hs) End Ec LP2 LU
      (traj_of_rows _ _ _ _ _ Sxn Lnd LP2 BP Rk) TU (Sub 0%nat nq ltac:(lia)) (Sub nq (nq * 2)%nat ltac:(lia))) as (d & E & Sh & Gx).
    exists d. split; [exact E|exact (conj Sh Gx)]. }
  split; [|split].
  - intros n Hn HR. exact (samples rr lg u_other hermite p knots ns t LK T GK HO HQ Ht r M None None rf _ M0 EW E2 E4 E5 RF RG n Hn HR).
  - intros n Hn HR. exact (refused rr lg u_other hermite p knots ns t LK T GK HO HQ Ht r M None None rf M0 EW E2 E4 E5 RF n Hn HR).
  - intros n g Hg HG. exact (samples_given rr lg u_other hermite p knots ns t LK HO HQ Ht r M None None rf _ M0 EW E2 E4 RF RG n g Hg HG).
Qed.
End Main.
