(** The constraints of all the segments of a problem together (C39-C41). *)
From Coq Require Import String.
From Coquelicot Require Import Coquelicot.
From Verif Require Import Prelude PreludeFacts Poly PolyFacts PolyInterp Mat MatFacts
  PwInterpModel PsModel JacobiFacts PsSpec PsPointsProofs PsBaryProofs PsNodesProofs PsProblemProofs PsApplyProofs PsInterpProofs PsMoreProofs
  UtilModel UtilSpec GaussFacts UtilProofs BuTdModel BuTdSpec BuTdFacts BuTdProofs BuTdApplyProofs PhModel PhSpec PhProofs PhSegProofs PhBtProofs PhPsProofs.
Open Scope R_scope.
Open Scope vec_scope.
Open Scope list_scope.

Lemma finite_choice {A} (d : A) n (Q : nat -> A -> Prop) : (forall s, (s < n)%nat -> exists a, Q s a) ->
  exists l, length l = n /\ forall s, (s < n)%nat -> Q s (nth s l d).
Proof.
  induction n as [|n IH]; intros H.
  - exists []. split; [reflexivity|lia].
  - destruct IH as (l & L & F); [intros; apply H; lia|]. destruct (H n ltac:(lia)) as [a Ha].
    exists (l ++ [a]). split; [rewrite app_length; simpl; lia|]. intros s Hs.
    destruct (Nat.eq_dec s n) as [->|Ne].
    + rewrite app_nth2 by lia. rewrite L, Nat.sub_diag. exact Ha.
    + rewrite app_nth1 by lia. apply F. lia.
Qed.

Lemma motion_on_ext dyn n nq M t0 t1 xs xe tc tc' x x' x_d x_d' u u' lam P : tc = tc' ->
  (forall k, (k < length tc)%nat -> x k = x' k) -> (forall k, (k < length tc)%nat -> x_d k = x_d' k) ->
  (forall k, (k < length tc)%nat -> u k = u' k) ->
  motion_on dyn n nq M t0 t1 xs xe tc x x_d u lam P <-> motion_on dyn n nq M t0 t1 xs xe tc' x' x_d' u' lam P.
Proof.
  intros <- Hx Hd Hu. unfold motion_on.
  assert (E : (forall k, (k < length tc)%nat -> x k = full_state M P (vnth tc k) /\ x_d k = full_rate M P (vnth tc k) /\
      Forall (fun r => r = 0) (dyn (x k) (x_d k) (u k) (lam k))) <->
    (forall k, (k < length tc)%nat -> x' k = full_state M P (vnth tc k) /\ x_d' k = full_rate M P (vnth tc k) /\
      Forall (fun r => r = 0) (dyn (x' k) (x_d' k) (u' k) (lam k)))).
  { split; intros H k Hk; specialize (H k Hk); specialize (Hx k Hk); specialize (Hd k Hk); specialize (Hu k Hk); congruence. }
  tauto.
Qed.
Lemma state_motion_on_ext dyn n m t0 t1 xs xe tc tc' x x' x_d x_d' u u' lam P : tc = tc' ->
  (forall k, (k < length tc)%nat -> x k = x' k) -> (forall k, (k < length tc)%nat -> x_d k = x_d' k) ->
  (forall k, (k < length tc)%nat -> u k = u' k) ->
  state_motion_on dyn n m t0 t1 xs xe tc x x_d u lam P <-> state_motion_on dyn n m t0 t1 xs xe tc' x' x_d' u' lam P.
Proof.
  intros <- Hx Hd Hu. unfold state_motion_on.
  assert (E : (forall k, (k < length tc)%nat -> x k = state_at P (vnth tc k) /\ x_d k = rate_at P (vnth tc k) /\
      Forall (fun r => r = 0) (dyn (x k) (x_d k) (u k) (lam k))) <->
    (forall k, (k < length tc)%nat -> x' k = state_at P (vnth tc k) /\ x_d' k = rate_at P (vnth tc k) /\
      Forall (fun r => r = 0) (dyn (x' k) (x_d' k) (u' k) (lam k)))).
  { split; intros H k Hk; specialize (H k Hk); specialize (Hx k Hk); specialize (Hd k Hk); specialize (Hu k Hk); congruence. }
  tauto.
Qed.

Section Shapes.
Variables (p : ph_problem) (knots : vec) (ns : list nat) (w : ph_values) (nu : nat).
Hypothesis LK : length ns = (length knots + 1)%nat.
Hypothesis T : ph_t_start p < ph_t_end p.
Hypothesis GK : good_knots (ph_t_start p) (ph_t_end p) knots.
Hypothesis SX : shaped (ph_n_arr ns) (ph_order p * ph_n_q p) (hv_x w).
Hypothesis SD : shaped (ph_n_arr ns) (ph_order p * ph_n_q p) (hv_x_d w).
Hypothesis SU : shaped (ph_n_arr ns) nu (hv_u w).
Notation tk := (knot_times (ph_t_start p) (ph_t_end p) knots).
Notation seg := (ph_seg p knots ns w).

Lemma ns_pos : (0 < length ns)%nat. Proof. lia. Qed.
Lemma tk_length : length tk = (length ns + 1)%nat.
Proof. unfold knot_times. simpl. rewrite app_length. simpl. lia. Qed.
Lemma tk_lt s : (s < length ns)%nat -> vnth tk s < vnth tk (s + 1).
Proof.
  intros H. assert (I := knot_times_incr _ _ _ T GK). rewrite Nat.add_1_r. apply I. rewrite tk_length. lia.
Qed.

Lemma seg_part_eq X s : length X = ph_n_arr ns -> (s < length ns)%nat -> nth s (ph_col ns X) [] = seg_part X ns s.
Proof.
  intros L Hs. unfold seg_part. apply (nth_ext _ _ [] []).
  - rewrite map_length, seq_length. now apply ph_col_seg_length.
  - rewrite ph_col_seg_length by auto. intros i Hi. pose proof (ph_col_row ns X L s i Hs Hi) as E. unfold mrow at 1 in E. rewrite E.
    rewrite (nth_map' _ _ _ 0%nat) by (now rewrite seq_length). now rewrite seq_nth.
Qed.
Lemma mrow_arr X m r : shaped (ph_n_arr ns) m X -> (r < ph_n_arr ns)%nat -> length (mrow r X) = m.
Proof. intros S H. apply (shaped_row (ph_n_arr ns)); assumption. Qed.
Lemma point_row_bound s i : (s < length ns)%nat -> (i < nth s ns 0)%nat -> (point_row ns s i < ph_n_arr ns)%nat.
Proof. intros Hs Hi. pose proof (point_row_lt ns s i Hs Hi). pose proof (knot_row_lt ns (S s) ltac:(lia)). lia. Qed.
Lemma seg_part_shaped X m s : shaped (ph_n_arr ns) m X -> (s < length ns)%nat -> shaped (nth s ns 0%nat) m (seg_part X ns s).
Proof.
  intros S Hs. unfold seg_part. split; [now rewrite map_length, seq_length|].
  apply Forall_forall. intros r I. apply in_map_iff in I. destruct I as (i & <- & I). apply in_seq in I.
  apply (mrow_arr _ _ _ S). apply point_row_bound; lia.
Qed.

Lemma seg_fields s : (s < length ns)%nat ->
  sg_x (seg s) = seg_part (hv_x w) ns s /\ sg_x_d (seg s) = seg_part (hv_x_d w) ns s /\ sg_u (seg s) = seg_part (hv_u w) ns s /\
  sg_xs (seg s) = mrow (knot_row ns s) (hv_x w) /\ sg_xe (seg s) = mrow (knot_row ns (s + 1)) (hv_x w) /\
  sg_xds (seg s) = mrow (knot_row ns s) (hv_x_d w) /\ sg_xde (seg s) = mrow (knot_row ns (s + 1)) (hv_x_d w) /\
  sg_us (seg s) = mrow (knot_row ns s) (hv_u w).
Proof.
  intros Hs. assert (NP := ns_pos).
  assert (L1 := shaped_length _ _ _ SX). assert (L2 := shaped_length _ _ _ SD). assert (L3 := shaped_length _ _ _ SU).
  cbn [sg_x sg_x_d sg_u sg_xs sg_xe sg_xds sg_xde sg_us ph_seg].
  rewrite !seg_part_eq by auto. rewrite !ph_knot_ext_row by (auto; lia). auto 10.
Qed.
Lemma seg_good s : (s < length ns)%nat -> good_segment p (seg s) (vnth tk s) (vnth tk (s + 1)).
Proof.
  intros Hs. destruct (seg_fields s Hs) as (E1 & E2 & E3 & E4 & E5 & E6 & E7 & E8).
  pose proof (knot_row_lt ns s ltac:(lia)). pose proof (knot_row_lt ns (s + 1) ltac:(lia)).
  constructor.
  - cbn [ph_seg sg_h]. unfold ph_h. now rewrite knot_times_eq.
  - pose proof (tk_lt s Hs). lra.
  - rewrite E1. now apply seg_part_shaped.
  - rewrite E2. now apply seg_part_shaped.
  - rewrite E4. now apply mrow_arr.
  - rewrite E5. now apply mrow_arr.
  - rewrite E6. now apply mrow_arr.
  - rewrite E7. now apply mrow_arr.
Qed.

Lemma mrow_seg_part X s k : (k < nth s ns 0)%nat -> mrow k (seg_part X ns s) = mrow (point_row ns s k) X.
Proof.
  intros H. unfold seg_part. unfold mrow at 1. rewrite (nth_map' _ _ _ 0%nat) by (now rewrite seq_length). now rewrite seq_nth.
Qed.
Lemma ph_dyn_iff dyn : satisfied (ph_dyn dyn ns w) <->
  forall s, (s < length ns)%nat -> seg_dyn dyn (seg s) (fun k => mrow (point_number ns s k) (hv_lam w)).
Proof.
  assert (L1 := shaped_length _ _ _ SX). assert (L2 := shaped_length _ _ _ SD). assert (L3 := shaped_length _ _ _ SU).
  unfold ph_dyn. rewrite sat_map. cbn [fst snd].
  assert (Z : forall r : vec, [r] = [map (fun _ => 0) r] <-> Forall (fun a => a = 0) r).
  { intros r. split.
    - intros E. injection E as E. apply Forall_forall. intros a I. rewrite E in I. apply in_map_iff in I. now destruct I as (? & <- & _).
    - intros F. f_equal. induction F as [|a l E F IH]; [reflexivity|]. simpl. now rewrite <- IH, E. }
  split.
  - intros H s Hs k Hk. cbn [ph_seg sg_n] in Hk.
    destruct (seg_fields s Hs) as (E1 & E2 & E3 & _). rewrite E1, E2, E3, !mrow_seg_part by exact Hk.
    apply Z. specialize (H (point_number ns s k)). rewrite !like_u_row in H by auto. apply H.
    apply in_seq. pose proof (point_number_lt ns s k Hs Hk). lia.
  - intros H a I. apply in_seq in I. destruct (point_number_onto ns a ltac:(lia)) as (s & k & Hs & Hk & ->).
    rewrite !like_u_row by auto. apply Z. specialize (H s Hs k Hk).
    destruct (seg_fields s Hs) as (E1 & E2 & E3 & _). rewrite E1, E2, E3, !mrow_seg_part in H by exact Hk. exact H.
Qed.

(** ** Controls *)
Section Controls.
Variable rr : list R -> list R.
Hypothesis OK : real_roots_ok rr.
Hypothesis HS : In (ph_scheme p) all_schemes.
Hypothesis HE : Forall (enough_points (ph_scheme p)) ns.
Variable t : vec.
Hypothesis Ht : ph_t_arr rr p knots ns = Ok t.

Lemma arr_times : length t = ph_n_arr ns /\ (forall k, (k <= length ns)%nat -> vnth t (knot_row ns k) = vnth tk k) /\
  forall s, (s < length ns)%nat -> exists col, coll_points rr (nth s ns 0%nat) (ph_scheme p) (ph_order p) = Ok col /\
    length col = nth s ns 0%nat /\ NoDup col /\ seg_times t ns s = tau_to_t_points col (vnth tk s) (vnth tk (s + 1)).
Proof.
  destruct (ph_t_arr_ok rr OK p knots ns HS HE) as (taus & t' & L & Hc & Et & Lt & H1 & H2).
  rewrite Ht in Et. apply Ok_inj in Et. subst t'. split; [exact Lt|]. split; [exact H2|].
  intros s Hs. destruct (Hc s Hs) as (Ec & Lc & _). exists (nth s taus []). split; [exact Ec|]. split; [exact Lc|].
  split; [eapply coll_points_shape; eauto; now apply nth_enough|].
  apply vec_ext; unfold seg_times.
  - rewrite map_length, seq_length, times_length. lia.
  - rewrite map_length, seq_length. intros i Hi. rewrite vnth_map_seq by exact Hi. rewrite vnth_times by lia. now apply H1.
Qed.

Lemma extrapolates_run s col q f tq : (s < length ns)%nat -> length col = nth s ns 0%nat -> NoDup col ->
  (0 < length col)%nat ->
  seg_times t ns s = tau_to_t_points col (vnth tk s) (vnth tk (s + 1)) -> extreme_at col q f ->
  tq = tau_to_t q (vnth tk s) (vnth tk (s + 1)) ->
  exists v, run_extreme_cols f (seg_part (hv_u w) ns s) = Ok v /\
    forall a, a = v <-> extrapolates (seg_times t ns s) (seg_part (hv_u w) ns s) nu tq a.
Proof.
  intros Hs Lc ND Pc Et F ->. set (X := seg_part (hv_u w) ns s).
  assert (NDs : NoDup (seg_times t ns s)) by (rewrite Et; apply times_NoDup; [pose proof (tk_lt s Hs); lra|exact ND]).
  assert (Sh : shaped (length col) nu X) by (rewrite Lc; now apply seg_part_shaped).
  set (U := interp_traj (seg_times t ns s) nu X).
  assert (LU : length U = nu) by apply interp_traj_length.
  assert (TU : traj_through (seg_times t ns s) X U) by (now apply interp_traj_ok).
  exists (state_at U (tau_to_t q (vnth tk s) (vnth tk (s + 1)))). split.
  - apply (run_cols_ok col _ _ Pc X nu); auto. now rewrite <- Et.
  - intros a. split.
    + intros ->. exists U. auto.
    + intros (V & LV & TV & ->). apply (traj_unique (seg_times t ns s) X V U); auto. congruence.
Qed.

Lemma scheme_pts s : (s < length ns)%nat -> exists col c, coll_points rr (nth s ns 0%nat) (ph_scheme p) (ph_order p) = Ok col /\
   length col = nth s ns 0%nat /\ NoDup col /\ (0 < length col)%nat /\
   seg_times t ns s = tau_to_t_points col (vnth tk s) (vnth tk (s + 1)) /\
   col = with_ends (starts (ph_scheme p)) (ends (ph_scheme p)) c.
Proof.
  intros Hs. destruct arr_times as (_ & _ & A). destruct (A s Hs) as (col & Ec & Lc & ND & Et).
  destruct (coll_points_inner rr OK (ph_scheme p) (nth s ns 0%nat) (ph_order p) HS (nth_enough p ns HE s Hs)) as [c [E _]].
  rewrite Ec in E. apply Ok_inj in E. exists col, c. repeat (split; [assumption|]).
  split; [|auto]. rewrite Lc. apply (nth_enough p ns HE s Hs).
Qed.

Lemma u_start_iff s : (s < length ns)%nat ->
  exists c, ph_u_start rr p (seg s) = Ok c /\
    (fst c = snd c <-> extrapolates (seg_times t ns s) (seg_part (hv_u w) ns s) nu (vnth t (knot_row ns s)) (mrow (knot_row ns s) (hv_u w))).
Proof.
  intros Hs. destruct (scheme_pts s Hs) as (col & c & Ec & Lc & ND & Pc & Et & Ew).
  destruct arr_times as (_ & Hk & _).
  destruct (seg_fields s Hs) as (_ & _ & E3 & _ & _ & _ & _ & E8).
  assert (TQ : vnth t (knot_row ns s) = tau_to_t (-1) (vnth tk s) (vnth tk (s + 1))) by (rewrite tau_start; apply Hk; lia).
  assert (S1 : forall a b : vec, [a] = [b] <-> a = b) by (intros a b; split; [intros E; now injection E|now intros ->]).
  unfold ph_u_start. destruct (mem (ph_scheme p) (radau_like ++ lobato_like)) eqn:M.
  - assert (St : starts (ph_scheme p) = true).
    { pose proof (mem_starts (ph_scheme p) HS) as E. apply mem_In in M. rewrite <- E. apply mem_In.
      rewrite !in_app_iff in *. tauto. }
    eexists. split; [reflexivity|]. cbn [fst snd]. rewrite E3, E8, S1.
    rewrite St in Ew.
    assert (XF : extreme_at col (-1) Coef_first) by (rewrite Ew; apply extreme_first).
    destruct (extrapolates_run s col (-1) Coef_first _ Hs Lc ND Pc Et XF TQ) as (v & Ev & Iv).
    assert (Fv : v = mrow 0 (seg_part (hv_u w) ns s)).
    { symmetry. apply Iv. set (X := seg_part (hv_u w) ns s).
      assert (NDs : NoDup (seg_times t ns s)) by (rewrite Et; apply times_NoDup; [pose proof (tk_lt s Hs); lra|exact ND]).
      exists (interp_traj (seg_times t ns s) nu X). split; [apply interp_traj_length|]. split; [now apply interp_traj_ok|].
      rewrite (traj_row (seg_times t ns s) X (nth s ns 0%nat) nu (interp_traj (seg_times t ns s) nu X) 0).
      + f_equal. rewrite Et, vnth_times, Ew, TQ by lia. reflexivity.
      + now apply seg_part_shaped.
      + rewrite Et, times_length. lia.
      + apply interp_traj_length.
      + now apply interp_traj_ok.
      + lia. }
    rewrite <- Fv. apply Iv.
  - destruct (extreme_u_start rr OK (ph_scheme p) (nth s ns 0%nat) (ph_order p) HS (nth_enough p ns HE s Hs)) as (ts & f & Ec' & Ef & Xf).
    rewrite Ec in Ec'. apply Ok_inj in Ec'. subst ts. cbn [sg_n ph_seg]. rewrite Ef. cbn [rbind]. fold (seg s). rewrite E3.
    destruct (extrapolates_run s col (-1) f _ Hs Lc ND Pc Et Xf TQ) as (v & Ev & Iv). rewrite Ev. cbn [rbind].
    eexists. split; [reflexivity|]. cbn [fst snd]. rewrite E8, S1. apply Iv.
Qed.
Lemma u_end_iff : let s := (length ns - 1)%nat in
  exists c, ph_u_end rr p (seg s) (mrow (length (hv_u w) - 1) (hv_u w)) = Ok c /\
    (fst c = snd c <-> extrapolates (seg_times t ns s) (seg_part (hv_u w) ns s) nu
       (vnth t (knot_row ns (length ns))) (mrow (knot_row ns (length ns)) (hv_u w))).
Proof.
  cbv zeta. set (s := (length ns - 1)%nat). assert (Hs : (s < length ns)%nat) by (unfold s; lia).
  destruct (scheme_pts s Hs) as (col & c & Ec & Lc & ND & Pc & Et & Ew).
  destruct arr_times as (_ & Hk & _).
  destruct (seg_fields s Hs) as (_ & _ & E3 & _).
  assert (E8 : mrow (length (hv_u w) - 1) (hv_u w) = mrow (knot_row ns (length ns)) (hv_u w)).
  { rewrite knot_row_end, (shaped_length _ _ _ SU). reflexivity. }
  assert (TQ : vnth t (knot_row ns (length ns)) = tau_to_t 1 (vnth tk s) (vnth tk (s + 1))).
  { rewrite tau_end. replace (s + 1)%nat with (length ns) by (unfold s; lia). apply Hk; lia. }
  assert (S1 : forall a b : vec, [a] = [b] <-> a = b) by (intros a b; split; [intros E; now injection E|now intros ->]).
  unfold ph_u_end. rewrite E8. destruct (mem (ph_scheme p) (radau_inv ++ lobato_like)) eqn:M.
  - assert (St : ends (ph_scheme p) = true).
    { pose proof (mem_ends (ph_scheme p) HS) as E. apply mem_In in M. rewrite <- E. apply mem_In.
      rewrite !in_app_iff in *. tauto. }
    eexists. split; [reflexivity|]. cbn [fst snd]. rewrite E3, S1.
    rewrite St in Ew.
    assert (XF : extreme_at col 1 Coef_last) by (rewrite Ew; apply extreme_last).
    destruct (extrapolates_run s col 1 Coef_last _ Hs Lc ND Pc Et XF TQ) as (v & Ev & Iv).
    assert (Fv : v = mrow (length (seg_part (hv_u w) ns s) - 1) (seg_part (hv_u w) ns s)).
    { symmetry. apply Iv. set (X := seg_part (hv_u w) ns s).
      assert (NDs : NoDup (seg_times t ns s)) by (rewrite Et; apply times_NoDup; [pose proof (tk_lt s Hs); lra|exact ND]).
      exists (interp_traj (seg_times t ns s) nu X). split; [apply interp_traj_length|]. split; [now apply interp_traj_ok|].
      rewrite (mrow_last_state col (vnth tk s) (vnth tk (s + 1)) X nu (interp_traj (seg_times t ns s) nu X) (starts (ph_scheme p)) c).
      + rewrite TQ, tau_end. reflexivity.
      + exact Ew.
      + rewrite Lc. now apply seg_part_shaped.
      + apply interp_traj_length.
      + rewrite <- Et. now apply interp_traj_ok. }
    rewrite <- Fv. apply Iv.
  - destruct (extreme_u_end rr OK (ph_scheme p) (nth s ns 0%nat) (ph_order p) HS (nth_enough p ns HE s Hs)) as (ts & f & Ec' & Ef & Xf).
    rewrite Ec in Ec'. apply Ok_inj in Ec'. subst ts. cbn [sg_n ph_seg]. rewrite Ef. cbn [rbind]. fold (seg s). rewrite E3.
    destruct (extrapolates_run s col 1 f _ Hs Lc ND Pc Et Xf TQ) as (v & Ev & Iv). rewrite Ev. cbn [rbind].
    eexists. split; [reflexivity|]. cbn [fst snd]. rewrite S1. apply Iv.
Qed.

(** ** All the constraints *)
Variable lg : nat -> vec * vec.
Variable dyn : vec -> vec -> vec -> vec -> vec.
Notation lam s := (fun k => mrow (point_number ns s k) (hv_lam w)).

Lemma apply_iff (idx : slice_idx) (segf : nat -> Res (list constr)) (Q : nat -> Prop) :
  get_coll_indices (ph_scheme p) = Ok idx ->
  (forall k, segf k = match ph_kind p with Ph_td => td_segment rr p idx (seg k) | Ph_bu => bu_segment rr lg p idx (seg k)
                      | Ph_ps => ps_segment rr p (seg k) end) ->
  (forall s, (s < length ns)%nat -> exists cs, segf s = Ok cs /\ (satisfied cs /\ seg_dyn dyn (seg s) (lam s) <-> Q s)) ->
  exists cs, ph_apply_scheme rr lg dyn p knots ns w = Ok cs /\
    (satisfied cs <-> (forall s, (s < length ns)%nat -> Q s) /\ knot_controls t ns (hv_u w) nu).
Proof.
  intros Ei Eg H. unfold ph_apply_scheme. rewrite Ei. cbn [rbind].
  rewrite (mapm_ext _ segf) by (intros a _; now rewrite Eg).
  destruct (PwLiveProofs.mapm_succeeds segf (seq 0 (length ns))) as [css E1].
  { intros s I. apply in_seq in I. destruct (H s ltac:(lia)) as (cs & E & _). eauto. }
  destruct (PwLiveProofs.mapm_succeeds (fun k => ph_u_start rr p (seg k)) (seq 0 (length ns))) as [cus E2].
  { intros s I. apply in_seq in I. destruct (u_start_iff s ltac:(lia)) as (c & E & _). eauto. }
  destruct u_end_iff as (ce & E3 & I3).
  rewrite E1. cbn [rbind]. rewrite E2. cbn [rbind]. rewrite E3. cbn [rbind].
  eexists. split; [reflexivity|].
  destruct (PwInterpProofs.mapm_ok _ _ _ E1) as [L1 H1]. destruct (PwInterpProofs.mapm_ok _ _ _ E2) as [L2 H2].
  rewrite seq_length in L1, L2, H1, H2.
  assert (H1' : forall s, (s < length ns)%nat -> segf s = Ok (nth s css [])).
  { intros s Hs. specialize (H1 s 0%nat [] Hs). now rewrite seq_nth in H1 by exact Hs. }
  assert (H2' : forall s, (s < length ns)%nat -> ph_u_start rr p (seg s) = Ok (nth s cus ([], []))).
  { intros s Hs. specialize (H2 s 0%nat ([], []) Hs). now rewrite seq_nth in H2 by exact Hs. }
  rewrite !satisfied_app, ph_dyn_iff, sat_concat.
  assert (A : (forall cs, In cs css -> satisfied cs) <-> forall s, (s < length ns)%nat -> satisfied (nth s css [])).
  { split.
    - intros F s Hs. apply F. apply nth_In. lia.
    - intros F cs I. destruct (In_nth _ _ [] I) as (s & Hs & <-). apply F. lia. }
  assert (B : satisfied cus <-> forall s, (s < length ns)%nat ->
     extrapolates (seg_times t ns s) (seg_part (hv_u w) ns s) nu (vnth t (knot_row ns s)) (mrow (knot_row ns s) (hv_u w))).
  { unfold satisfied. rewrite Forall_forall. split.
    - intros F s Hs. destruct (u_start_iff s Hs) as (c & E & I). rewrite (H2' s Hs) in E. apply Ok_inj in E. subst c.
      apply I. apply F. apply nth_In. lia.
    - intros F c I. destruct (In_nth _ _ ([], []) I) as (s & Hs0 & <-). assert (Hs : (s < length ns)%nat) by (rewrite <- L2; exact Hs0).
      destruct (u_start_iff s Hs) as (c & E & I'). rewrite (H2' s Hs) in E. apply Ok_inj in E. subst c. exact (proj2 I' (F s Hs)). }
  assert (C : satisfied [ce] <-> fst ce = snd ce).
  { unfold satisfied. split; [intros F; now inversion F|]. intros E. constructor; [exact E|constructor]. }
  rewrite A, B, C, I3. unfold knot_controls.
  assert (D : (forall s, (s < length ns)%nat -> satisfied (nth s css [])) /\
     (forall s, (s < length ns)%nat -> seg_dyn dyn (seg s) (lam s)) <-> forall s, (s < length ns)%nat -> Q s).
  { split.
    - intros [F1 F2] s Hs. destruct (H s Hs) as (cs & E & I). rewrite (H1' s Hs) in E. apply Ok_inj in E. subst cs. apply I. auto.
    - intros F. split; intros s Hs; destruct (H s Hs) as (cs & E & I); rewrite (H1' s Hs) in E; apply Ok_inj in E; subst cs; apply I; auto. }
  tauto.
Qed.
End Controls.
End Shapes.
