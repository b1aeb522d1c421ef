(** What the constraints of a multi-segment problem say (C40). *)
From Coq Require Import String.
From Coquelicot Require Import Coquelicot.
From Verif Require Import Prelude PreludeFacts Poly PolyFacts PolyInterp Mat MatFacts
  PwInterpModel PsModel JacobiFacts PsSpec PsPointsProofs PsBaryProofs PsNodesProofs PsProblemProofs PsApplyProofs PsInterpProofs PsMoreProofs
  UtilModel UtilSpec GaussFacts UtilProofs BuTdModel BuTdSpec BuTdFacts BuTdProofs BuTdApplyProofs PhModel PhSpec PhProofs PhSegProofs PhBtProofs PhPsProofs PhMoreProofs.
Open Scope R_scope.
Open Scope vec_scope.
Open Scope list_scope.

Lemma full_rate_iff M nq P t (x x_d : vec) : (1 <= M)%nat -> (1 <= nq)%nat -> length P = nq -> x = full_state M P t -> length x_d = (M * nq)%nat ->
  (skipn nq x = butlastn nq x_d /\ lastn nq x_d = rate_n_at M P t <-> x_d = full_rate M P t).
Proof.
  intros HM HN LP -> L. destruct M as [|M]; [lia|]. rewrite full_rate_split, LP.
  assert (LS : length (skipn nq (full_state (S M) P t)) = (M * nq)%nat).
  { rewrite skipn_length, full_state_length, LP. simpl. lia. }
  assert (LR : length (rate_n_at (S M) P t) = nq) by (rewrite rate_n_length; exact LP).
  assert (E : butlastn nq x_d ++ lastn nq x_d = x_d) by (unfold butlastn, lastn; destruct nq; [lia|]; apply firstn_skipn).
  split.
  - intros [-> <-]. now rewrite E.
  - intros Hx. unfold butlastn, lastn. replace (nq =? 0)%nat with false by (destruct nq; [lia|reflexivity]).
    rewrite Hx, app_length, LS, LR.
    replace (M * nq + nq - nq)%nat with (M * nq)%nat by lia. split.
    + rewrite firstn_app, firstn_all2 by lia. rewrite LS, Nat.sub_diag. simpl. now rewrite app_nil_r.
    + rewrite skipn_app, skipn_all2 by lia. rewrite LS, Nat.sub_diag. reflexivity.
Qed.

Lemma bt_all_schemes s : In s bt_schemes -> In s all_schemes.
Proof. intros H. bt_cases H; cbv; tauto. Qed.

Lemma ph_get_indices s : In s all_schemes -> exists idx, get_coll_indices s = Ok idx.
Proof. intros H. scheme_cases H; rewrite <- ?H; eexists; reflexivity. Qed.

Section Join.
Variable rr : list R -> list R.
Hypothesis OK : real_roots_ok rr.
Variable lg : nat -> vec * vec.
Hypothesis LGOK : leggauss_ok lg.
Variable dyn : vec -> vec -> vec -> vec -> vec.
Variables (p : ph_problem) (knots : vec) (ns : list nat) (w : ph_values) (nu : nat) (t : vec).
Hypothesis LK : length ns = (length knots + 1)%nat.
Hypothesis T : ph_t_start p < ph_t_end p.
Hypothesis GK : good_knots (ph_t_start p) (ph_t_end p) knots.
Hypothesis HE : Forall (enough_points (ph_scheme p)) ns.
Hypothesis HO : (1 <= ph_order p)%nat.
Hypothesis HQ : (1 <= ph_n_q p)%nat.
Hypothesis SX : shaped (ph_n_arr ns) (ph_order p * ph_n_q p) (hv_x w).
Hypothesis SD : shaped (ph_n_arr ns) (ph_order p * ph_n_q p) (hv_x_d w).
Hypothesis SU : shaped (ph_n_arr ns) nu (hv_u w).
Hypothesis Ht : ph_t_arr rr p knots ns = Ok t.
Notation tk := (knot_times (ph_t_start p) (ph_t_end p) knots).
Notation seg := (ph_seg p knots ns w).
Notation lam s := (fun k => mrow (point_number ns s k) (hv_lam w)).
Notation kr := (knot_row ns).

Lemma seg_motion_eq s n col P : In (ph_scheme p) all_schemes -> (s < length ns)%nat ->
  coll_points rr (nth s ns 0%nat) (ph_scheme p) (ph_order p) = Ok col -> length col = nth s ns 0%nat ->
  seg_motion dyn p (seg s) n (lam s) (vnth tk s) (vnth tk (s + 1)) (tau_to_t_points col (vnth tk s) (vnth tk (s + 1))) P <->
  segment_motion dyn n (ph_n_q p) (ph_order p) t ns (hv_x w) (hv_x_d w) (hv_u w) (hv_lam w) s P.
Proof.
  intros HS Hs Ec Lc. destruct (arr_times p knots ns LK rr OK HS HE t Ht) as (_ & Hk & Hc).
  destruct (Hc s Hs) as (col' & Ec' & _ & _ & Et). rewrite Ec in Ec'. apply Ok_inj in Ec'. subst col'.
  destruct (seg_fields p knots ns w nu LK SX SD SU s Hs) as (E1 & E2 & E3 & E4 & E5 & _).
  unfold seg_motion, segment_motion. rewrite E1, E2, E3, E4, E5, !Hk by lia.
  apply motion_on_ext; [now rewrite Et| | |]; rewrite times_length, Lc; intros k H; now apply mrow_seg_part.
Qed.

Lemma knot_lt k : (k <= length ns)%nat -> length (mrow (kr k) (hv_x_d w)) = (ph_order p * ph_n_q p)%nat.
Proof. intros H. apply (shaped_row (ph_n_arr ns)); [exact SD|]. now apply knot_row_lt. Qed.

(** Top-down: the rates of both segments at a knot are the row of the knot. *)
Theorem td_join : ph_kind p = Ph_td -> In (ph_scheme p) bt_schemes ->
  residual_has_chain (ph_n_q p) (ph_order p) dyn ->
  (forall s, (s < length ns)%nat -> shaped (nth s ns 0%nat + ph_order p) (ph_n_q p) (nth s (hv_q_constr w) [])) ->
  exists cs, ph_apply_scheme rr lg dyn p knots ns w = Ok cs /\
    (satisfied cs <->
     (exists Ps, length Ps = length ns /\ forall s, (s < length ns)%nat ->
        segment_motion dyn (nth s ns 0%nat + ph_order p) (ph_n_q p) (ph_order p) t ns (hv_x w) (hv_x_d w) (hv_u w) (hv_lam w) s (nth s Ps []) /\
        mrow (kr s) (hv_x_d w) = full_rate (ph_order p) (nth s Ps []) (vnth t (kr s)) /\
        mrow (kr (s + 1)) (hv_x_d w) = full_rate (ph_order p) (nth s Ps []) (vnth t (kr (s + 1))) /\
        forall i, (i < nth s ns 0 + ph_order p)%nat ->
          mrow i (nth s (hv_q_constr w) []) = state_at (nth s Ps [])
            (vnth (tau_to_t_points (LGL rr (nth s ns 0%nat + ph_order p)) (vnth t (kr s)) (vnth t (kr (s + 1)))) i)) /\
     knot_controls t ns (hv_u w) nu).
Proof.
  intros K HB C SQ. assert (HS := bt_all_schemes _ HB).
  destruct (arr_times p knots ns LK rr OK HS HE t Ht) as (_ & Hk & _).
  set (Q0 := fun s P =>
        segment_motion dyn (nth s ns 0%nat + ph_order p) (ph_n_q p) (ph_order p) t ns (hv_x w) (hv_x_d w) (hv_u w) (hv_lam w) s P /\
        (lastn (ph_n_q p) (sg_xds (seg s)) = rate_n_at (ph_order p) P (vnth tk s) /\
         lastn (ph_n_q p) (sg_xde (seg s)) = rate_n_at (ph_order p) P (vnth tk (s + 1))) /\ knot_chain p (seg s) /\
        forall i, (i < nth s ns 0 + ph_order p)%nat ->
          mrow i (nth s (hv_q_constr w) []) = state_at P
            (vnth (tau_to_t_points (LGL rr (nth s ns 0%nat + ph_order p)) (vnth tk s) (vnth tk (s + 1))) i)).
  destruct (bt_points rr OK (ph_scheme p) (nth 0 ns 0%nat) (ph_order p) HB (nth_enough p ns HE 0 ltac:(lia))) as (_ & _ & _ & _ & _ & _ & Ei & _).
  destruct (apply_iff p knots ns w nu LK T GK SX SD SU rr OK HS HE t Ht lg dyn _
     (fun k => td_segment rr p (1 - b2n (starts (ph_scheme p)), 1 - b2n (ends (ph_scheme p)))%nat (seg k))
     (fun s => exists P, Q0 s P) Ei) as (cs & Ecs & I).
  { intros k. now rewrite K. }
  { intros s Hs.
    destruct (td_segment_iff rr OK dyn p (seg s) (vnth tk s) (vnth tk (s + 1)) (lam s) HB (nth_enough p ns HE s Hs) HO HQ C
      (seg_good p knots ns w nu LK T GK SX SD SU s Hs) (SQ s Hs)) as (idx & col & cs & Ei' & Ec & Lc & Ecs & Iff).
    rewrite Ei in Ei'. apply Ok_inj in Ei'. subst idx. exists cs. split; [exact Ecs|]. rewrite Iff.
    split; intros (P & H1 & H2); exists P; unfold Q0; [rewrite <- (seg_motion_eq s _ col P HS Hs Ec Lc)|rewrite (seg_motion_eq s _ col P HS Hs Ec Lc)];
      exact (conj H1 H2). }
  exists cs. split; [exact Ecs|]. rewrite I. clear I.
  assert (D : (forall s, (s < length ns)%nat -> exists P, Q0 s P) <->
     exists Ps, length Ps = length ns /\ forall s, (s < length ns)%nat -> Q0 s (nth s Ps [])).
  { split; [apply finite_choice|]. intros (Ps & _ & F) s Hs. eauto. }
  rewrite D. clear D.
  apply and_iff_compat_r.
  assert (SF : forall s, (s < length ns)%nat -> sg_xs (seg s) = mrow (kr s) (hv_x w) /\ sg_xe (seg s) = mrow (kr (s + 1)) (hv_x w) /\
      sg_xds (seg s) = mrow (kr s) (hv_x_d w) /\ sg_xde (seg s) = mrow (kr (s + 1)) (hv_x_d w)).
  { intros s Hs. destruct (seg_fields p knots ns w nu LK SX SD SU s Hs) as (_ & _ & _ & E4 & E5 & E6 & E7 & _). auto. }
  assert (KC : (forall s, (s < length ns)%nat -> knot_chain p (seg s)) <->
     forall k, (k <= length ns)%nat -> skipn (ph_n_q p) (mrow (kr k) (hv_x w)) = butlastn (ph_n_q p) (mrow (kr k) (hv_x_d w))).
  { unfold knot_chain. split.
    - intros F k Hkk. destruct k as [|k].
      + destruct (F 0%nat ltac:(lia)) as [_ F2]. specialize (F2 eq_refl). destruct (SF 0%nat ltac:(lia)) as (A1 & _ & A3 & _).
        now rewrite A1, A3 in F2.
      + destruct (F k ltac:(lia)) as [F1 _]. destruct (SF k ltac:(lia)) as (_ & A2 & _ & A4). rewrite A2, A4 in F1.
        now rewrite Nat.add_1_r in F1.
    - intros F s Hs. destruct (SF s Hs) as (A1 & A2 & A3 & A4). rewrite A1, A2, A3, A4. split; [|intros _]; apply F; lia. }
  split; intros (Ps & LP & F); exists Ps; (split; [exact LP|]); intros s Hs.
  - assert (F' : forall s, (s < length ns)%nat -> knot_chain p (seg s)) by (intros s' Hs'; apply (F s' Hs')).
    pose proof (proj1 KC F') as Ch. destruct (F s Hs) as (M1 & (R1 & R2) & _ & Qc).
    destruct (SF s Hs) as (A1 & A2 & A3 & A4). rewrite A3 in R1. rewrite A4 in R2. rewrite !Hk by lia.
    split; [exact M1|]. destruct M1 as (LPs & _ & Xs & Xe & _). rewrite Hk in Xs, Xe by lia.
    split; [|split; [|exact Qc]].
    + apply (full_rate_iff _ (ph_n_q p) _ _ (mrow (kr s) (hv_x w))); auto. { apply knot_lt. lia. } split; [apply Ch; lia|exact R1].
    + apply (full_rate_iff _ (ph_n_q p) _ _ (mrow (kr (s + 1)) (hv_x w))); auto. { apply knot_lt. lia. } split; [apply Ch; lia|exact R2].
  - assert (Fr : forall s, (s < length ns)%nat ->
        (skipn (ph_n_q p) (mrow (kr s) (hv_x w)) = butlastn (ph_n_q p) (mrow (kr s) (hv_x_d w)) /\
         lastn (ph_n_q p) (mrow (kr s) (hv_x_d w)) = rate_n_at (ph_order p) (nth s Ps []) (vnth tk s)) /\
        (skipn (ph_n_q p) (mrow (kr (s + 1)) (hv_x w)) = butlastn (ph_n_q p) (mrow (kr (s + 1)) (hv_x_d w)) /\
         lastn (ph_n_q p) (mrow (kr (s + 1)) (hv_x_d w)) = rate_n_at (ph_order p) (nth s Ps []) (vnth tk (s + 1)))).
    { intros s' Hs'. destruct (F s' Hs') as ((LPs & _ & Xs & Xe & _) & R1 & R2 & _). rewrite Hk in Xs, Xe, R1, R2 by lia.
      split; apply (full_rate_iff (ph_order p) (ph_n_q p)); auto; apply knot_lt; lia. }
    unfold Q0. destruct (F s Hs) as (M1 & _ & _ & Qc). destruct (SF s Hs) as (A1 & A2 & A3 & A4). rewrite !Hk in Qc by lia.
    split; [exact M1|]. destruct (Fr s Hs) as ((C1 & R1) & (C2 & R2)).
    split; [rewrite A3, A4; split; [exact R1|exact R2]|]. split; [|exact Qc].
    unfold knot_chain. rewrite A1, A2, A3, A4. split; [exact C2|intros _; exact C1].
Qed.

(** Bottom-up: the rate of a knot is the one of the segment that starts there. *)
Theorem bu_join : ph_kind p = Ph_bu -> In (ph_scheme p) bt_schemes -> Forall (bu_sized (ph_scheme p)) ns ->
  residual_has_chain (ph_n_q p) (ph_order p) dyn ->
  exists cs, ph_apply_scheme rr lg dyn p knots ns w = Ok cs /\
    (satisfied cs <->
     (exists Ps, length Ps = length ns /\ forall s, (s < length ns)%nat ->
        segment_motion dyn (nth s ns 0%nat + ph_order p) (ph_n_q p) (ph_order p) t ns (hv_x w) (hv_x_d w) (hv_u w) (hv_lam w) s (nth s Ps []) /\
        mrow (kr s) (hv_x_d w) = full_rate (ph_order p) (nth s Ps []) (vnth t (kr s)) /\
        (s + 1 = length ns -> mrow (kr (s + 1)) (hv_x_d w) = full_rate (ph_order p) (nth s Ps []) (vnth t (kr (s + 1))))%nat) /\
     knot_controls t ns (hv_u w) nu).
Proof.
  intros K HB BS C. assert (HS := bt_all_schemes _ HB).
  destruct (arr_times p knots ns LK rr OK HS HE t Ht) as (_ & Hk & _).
  set (Q0 := fun s P =>
        segment_motion dyn (nth s ns 0%nat + ph_order p) (ph_n_q p) (ph_order p) t ns (hv_x w) (hv_x_d w) (hv_u w) (hv_lam w) s P /\
        (lastn (ph_n_q p) (sg_xds (seg s)) = rate_n_at (ph_order p) P (vnth tk s) /\
         (sg_last (seg s) = true -> lastn (ph_n_q p) (sg_xde (seg s)) = rate_n_at (ph_order p) P (vnth tk (s + 1)))) /\ knot_chain p (seg s)).
  destruct (bt_points rr OK (ph_scheme p) (nth 0 ns 0%nat) (ph_order p) HB (nth_enough p ns HE 0 ltac:(lia))) as (_ & _ & _ & _ & _ & _ & Ei & _).
  destruct (apply_iff p knots ns w nu LK T GK SX SD SU rr OK HS HE t Ht lg dyn _
     (fun k => bu_segment rr lg p (1 - b2n (starts (ph_scheme p)), 1 - b2n (ends (ph_scheme p)))%nat (seg k))
     (fun s => exists P, Q0 s P) Ei) as (cs & Ecs & I).
  { intros k. now rewrite K. }
  { intros s Hs.
    assert (BSs : bu_sized (ph_scheme p) (nth s ns 0%nat)) by (exact (proj1 (Forall_forall _ _) BS _ (nth_In _ _ Hs))).
    destruct (bu_segment_iff rr OK lg LGOK dyn p (seg s) (vnth tk s) (vnth tk (s + 1)) (lam s) HB (nth_enough p ns HE s Hs) BSs HO HQ C
      (seg_good p knots ns w nu LK T GK SX SD SU s Hs)) as (idx & col & cs & Ei' & Ec & Lc & Ecs & Iff).
    rewrite Ei in Ei'. apply Ok_inj in Ei'. subst idx. exists cs. split; [exact Ecs|]. rewrite Iff.
    split; intros (P & H1 & H2); exists P; unfold Q0; [rewrite <- (seg_motion_eq s _ col P HS Hs Ec Lc)|rewrite (seg_motion_eq s _ col P HS Hs Ec Lc)];
      exact (conj H1 H2). }
  exists cs. split; [exact Ecs|]. rewrite I. clear I.
  assert (D : (forall s, (s < length ns)%nat -> exists P, Q0 s P) <->
     exists Ps, length Ps = length ns /\ forall s, (s < length ns)%nat -> Q0 s (nth s Ps [])).
  { split; [apply finite_choice|]. intros (Ps & _ & F) s Hs. eauto. }
  rewrite D. clear D.
  apply and_iff_compat_r.
  assert (SF : forall s, (s < length ns)%nat -> sg_xs (seg s) = mrow (kr s) (hv_x w) /\ sg_xe (seg s) = mrow (kr (s + 1)) (hv_x w) /\
      sg_xds (seg s) = mrow (kr s) (hv_x_d w) /\ sg_xde (seg s) = mrow (kr (s + 1)) (hv_x_d w)).
  { intros s Hs. destruct (seg_fields p knots ns w nu LK SX SD SU s Hs) as (_ & _ & _ & E4 & E5 & E6 & E7 & _). auto. }
  assert (LS : forall s, (s < length ns)%nat -> sg_last (seg s) = true <-> (s + 1 = length ns)%nat).
  { intros s Hs. cbn [sg_last ph_seg]. rewrite Nat.eqb_eq. clear - Hs. lia. }
  assert (KC : (forall s, (s < length ns)%nat -> knot_chain p (seg s)) <->
     forall k, (k <= length ns)%nat -> skipn (ph_n_q p) (mrow (kr k) (hv_x w)) = butlastn (ph_n_q p) (mrow (kr k) (hv_x_d w))).
  { unfold knot_chain. split.
    - intros F k Hkk. destruct k as [|k].
      + destruct (F 0%nat ltac:(lia)) as [_ F2]. specialize (F2 eq_refl). destruct (SF 0%nat ltac:(lia)) as (A1 & _ & A3 & _).
        now rewrite A1, A3 in F2.
      + destruct (F k ltac:(lia)) as [F1 _]. destruct (SF k ltac:(lia)) as (_ & A2 & _ & A4). rewrite A2, A4 in F1.
        now rewrite Nat.add_1_r in F1.
    - intros F s Hs. destruct (SF s Hs) as (A1 & A2 & A3 & A4). rewrite A1, A2, A3, A4. split; [|intros _]; apply F; lia. }
  split; intros (Ps & LP & F); exists Ps; (split; [exact LP|]); intros s Hs.
  - assert (F' : forall s, (s < length ns)%nat -> knot_chain p (seg s)) by (intros s' Hs'; apply (F s' Hs')).
    pose proof (proj1 KC F') as Ch. destruct (F s Hs) as (M1 & (R1 & R2) & _).
    destruct (SF s Hs) as (A1 & A2 & A3 & A4). rewrite A3 in R1. rewrite A4 in R2. rewrite !Hk by lia.
    split; [exact M1|]. destruct M1 as (LPs & _ & Xs & Xe & _). rewrite Hk in Xs, Xe by lia.
    split; [|intros El].
    + apply (full_rate_iff _ (ph_n_q p) _ _ (mrow (kr s) (hv_x w))); auto. { apply knot_lt. lia. } split; [apply Ch; lia|exact R1].
    + apply (full_rate_iff _ (ph_n_q p) _ _ (mrow (kr (s + 1)) (hv_x w))); auto. { apply knot_lt. lia. }
      split; [apply Ch; lia|]. apply R2. now apply LS.
  - assert (Fr : forall s, (s < length ns)%nat ->
        (skipn (ph_n_q p) (mrow (kr s) (hv_x w)) = butlastn (ph_n_q p) (mrow (kr s) (hv_x_d w)) /\
         lastn (ph_n_q p) (mrow (kr s) (hv_x_d w)) = rate_n_at (ph_order p) (nth s Ps []) (vnth tk s)) /\
        (s + 1 = length ns -> skipn (ph_n_q p) (mrow (kr (s + 1)) (hv_x w)) = butlastn (ph_n_q p) (mrow (kr (s + 1)) (hv_x_d w)) /\
         lastn (ph_n_q p) (mrow (kr (s + 1)) (hv_x_d w)) = rate_n_at (ph_order p) (nth s Ps []) (vnth tk (s + 1)))%nat).
    { intros s' Hs'. destruct (F s' Hs') as ((LPs & _ & Xs & Xe & _) & R1 & R2). rewrite Hk in Xs, Xe, R1, R2 by lia.
      split; [|intros El; specialize (R2 El)]; apply (full_rate_iff (ph_order p) (ph_n_q p)); auto; apply knot_lt; lia. }
    unfold Q0. destruct (F s Hs) as (M1 & _). destruct (SF s Hs) as (A1 & A2 & A3 & A4).
    split; [exact M1|]. destruct (Fr s Hs) as ((C1 & R1) & R2).
    split; [rewrite A3, A4; split; [exact R1|intros El; apply R2; now apply LS]|].
    unfold knot_chain. rewrite A1, A2, A3, A4. split; [|intros _; exact C1].
    destruct (Nat.eq_dec (s + 1) (length ns)) as [El|Nl]; [apply R2; exact El|].
    apply (Fr (s + 1)%nat). lia.
Qed.
(** Pseudospectral. *)
Lemma seg_state_motion_eq s n col P : In (ph_scheme p) all_schemes -> (ph_order p = 2%nat \/ ~ In (ph_scheme p) jacobi_schemes) ->
  (s < length ns)%nat ->
  coll_points rr (nth s ns 0%nat) (ph_scheme p) 2 = Ok col -> length col = nth s ns 0%nat ->
  state_motion_on dyn n (ph_order p * ph_n_q p) (vnth tk s) (vnth tk (s + 1)) (sg_xs (seg s)) (sg_xe (seg s))
    (tau_to_t_points col (vnth tk s) (vnth tk (s + 1)))
    (fun k => mrow k (sg_x (seg s))) (fun k => mrow k (sg_x_d (seg s))) (fun k => mrow k (sg_u (seg s))) (lam s) P <->
  segment_state_motion dyn n (ph_order p * ph_n_q p) t ns (hv_x w) (hv_x_d w) (hv_u w) (hv_lam w) s P.
Proof.
  intros HS HJ Hs Ec Lc. destruct (arr_times p knots ns LK rr OK HS HE t Ht) as (_ & Hk & Hc).
  destruct (Hc s Hs) as (col' & Ec' & _ & _ & Et).
  assert (EO : coll_points rr (nth s ns 0%nat) (ph_scheme p) (ph_order p) = coll_points rr (nth s ns 0%nat) (ph_scheme p) 2).
  { destruct HJ as [->|HJ]; [reflexivity|]. now apply coll_points_order. }
  rewrite EO, Ec in Ec'. apply Ok_inj in Ec'. subst col'.
  destruct (seg_fields p knots ns w nu LK SX SD SU s Hs) as (E1 & E2 & E3 & E4 & E5 & _).
  unfold segment_state_motion. rewrite E1, E2, E3, E4, E5, !Hk by lia.
  apply state_motion_on_ext; [now rewrite Et| | |]; rewrite times_length, Lc; intros k H; now apply mrow_seg_part.
Qed.

Theorem ps_join : ph_kind p = Ph_ps -> In (ph_scheme p) all_schemes -> ph_scheme p <> "D2"%string ->
  (In (ph_scheme p) (gauss_schemes ++ gauss_inv_schemes) -> (ph_order p <= 2)%nat) ->
  (ph_order p = 2%nat \/ ~ In (ph_scheme p) jacobi_schemes) ->
  exists cs, ph_apply_scheme rr lg dyn p knots ns w = Ok cs /\
    (satisfied cs <->
     (exists Ps, length Ps = length ns /\ forall s, (s < length ns)%nat ->
        (exists n, n_col_to_n_nodes (ph_scheme p) (nth s ns 0%nat) = Ok n /\
           segment_state_motion dyn n (ph_order p * ph_n_q p) t ns (hv_x w) (hv_x_d w) (hv_u w) (hv_lam w) s (nth s Ps [])) /\
        knot_rates p (seg s) (nth s Ps []) (vnth tk s) (vnth tk (s + 1))) /\
     knot_controls t ns (hv_u w) nu).
Proof.
  intros K HS ND HG HJ.
  set (Q0 := fun s P => (exists n, n_col_to_n_nodes (ph_scheme p) (nth s ns 0%nat) = Ok n /\
           segment_state_motion dyn n (ph_order p * ph_n_q p) t ns (hv_x w) (hv_x_d w) (hv_u w) (hv_lam w) s P) /\
        knot_rates p (seg s) P (vnth tk s) (vnth tk (s + 1))).
  destruct (ph_get_indices (ph_scheme p) HS) as [idx Ei].
  destruct (apply_iff p knots ns w nu LK T GK SX SD SU rr OK HS HE t Ht lg dyn idx
     (fun k => ps_segment rr p (seg k)) (fun s => exists P, Q0 s P) Ei) as (cs & Ecs & I).
  { intros k. now rewrite K. }
  { intros s Hs.
    destruct (ps_segment_iff rr OK dyn p (seg s) (vnth tk s) (vnth tk (s + 1)) (lam s) HS ND (nth_enough p ns HE s Hs) HO HQ HG
      (seg_good p knots ns w nu LK T GK SX SD SU s Hs)) as (col & n & cs & Ec & Lc & En & Ecs & Iff).
    exists cs. split; [exact Ecs|]. rewrite Iff. unfold Q0. cbn [sg_n ph_seg] in En.
    split.
    - intros (P & H1 & H2). exists P. split; [|exact H2]. exists n. split; [exact En|].
      now apply (seg_state_motion_eq s n col P HS HJ Hs Ec Lc).
    - intros (P & (n' & En' & H1) & H2). rewrite En in En'. apply Ok_inj in En'. subst n'. exists P.
      split; [|exact H2]. now apply (seg_state_motion_eq s n col P HS HJ Hs Ec Lc). }
  exists cs. split; [exact Ecs|]. rewrite I. clear I. apply and_iff_compat_r.
  split; [exact (finite_choice [] (length ns) Q0)|]. intros (Ps & _ & F) s Hs. exists (nth s Ps []). now apply F.
Qed.

Theorem ps_join_sound : ph_kind p = Ph_ps -> In (ph_scheme p) all_schemes -> ph_scheme p <> "D2"%string ->
  (In (ph_scheme p) (gauss_schemes ++ gauss_inv_schemes) -> (ph_order p <= 2)%nat) ->
  (ph_order p = 2%nat \/ ~ In (ph_scheme p) jacobi_schemes) ->
  exists cs, ph_apply_scheme rr lg dyn p knots ns w = Ok cs /\
    (satisfied cs ->
     (exists Ps, length Ps = length ns /\ (forall s, (s < length ns)%nat ->
        exists n, n_col_to_n_nodes (ph_scheme p) (nth s ns 0%nat) = Ok n /\
           segment_state_motion dyn n (ph_order p * ph_n_q p) t ns (hv_x w) (hv_x_d w) (hv_u w) (hv_lam w) s (nth s Ps [])) /\
        (forall k, (k <= length ns)%nat -> exists s, (s < length ns /\ (s = k \/ s + 1 = k))%nat /\
           lastn (ph_n_q p) (mrow (kr k) (hv_x_d w)) = lastn (ph_n_q p) (rate_at (nth s Ps []) (vnth t (kr k))))) /\
     knot_controls t ns (hv_u w) nu).
Proof.
  intros K HS ND HG HJ. destruct (ps_join K HS ND HG HJ) as (cs & Ecs & I). exists cs. split; [exact Ecs|].
  intros H. apply I in H. destruct H as ((Ps & LP & F) & C). split; [|exact C].
  exists Ps. split; [exact LP|]. split; [intros s Hs; apply (F s Hs)|].
  destruct (arr_times p knots ns LK rr OK HS HE t Ht) as (_ & Hk & _).
  intros k Hkk. rewrite Hk by exact Hkk.
  assert (SF : forall s, (s < length ns)%nat ->
      sg_xds (seg s) = mrow (kr s) (hv_x_d w) /\ sg_xde (seg s) = mrow (kr (s + 1)) (hv_x_d w)).
  { intros s Hs. destruct (seg_fields p knots ns w nu LK SX SD SU s Hs) as (_ & _ & _ & E4 & E5 & E6 & E7 & _). auto. }
  assert (RS : forall s, (s < length ns)%nat -> starts (ph_scheme p) = false \/ s = 0%nat ->
     lastn (ph_n_q p) (mrow (kr s) (hv_x_d w)) = lastn (ph_n_q p) (rate_at (nth s Ps []) (vnth tk s))).
  { intros s Hs Hc. destruct (F s Hs) as (_ & K1 & _ & K3 & _ & _). rewrite <- (proj1 (SF s Hs)).
    destruct (nstarts (ph_scheme p)); [|now apply K3]. f_equal. apply K1; [reflexivity|].
    destruct Hc as [Hc|Hc]; [now left|right]. cbn [sg_first ph_seg]. now rewrite Hc. }
  assert (RE : forall s, (s < length ns)%nat -> starts (ph_scheme p) = true \/ (s + 1 = length ns)%nat ->
     lastn (ph_n_q p) (mrow (kr (s + 1)) (hv_x_d w)) = lastn (ph_n_q p) (rate_at (nth s Ps []) (vnth tk (s + 1)))).
  { intros s Hs Hc. destruct (F s Hs) as (_ & _ & K2 & _ & K4 & _). rewrite <- (proj2 (SF s Hs)).
    destruct (nends (ph_scheme p)); [|now apply K4]. f_equal. apply K2; [reflexivity|].
    destruct Hc as [Hc|Hc]; [now left|right; right]. cbn [sg_last ph_seg]. apply Nat.eqb_eq. clear - Hc. lia. }
  destruct (Nat.eq_dec k (length ns)) as [->|Nl].
  - exists (length ns - 1)%nat. assert (P1 := ns_pos knots ns LK). split; [clear - P1; lia|].
    assert (E : (length ns - 1 + 1 = length ns)%nat) by (clear - P1; lia).
    specialize (RE (length ns - 1)%nat ltac:(clear - P1; lia) (or_intror E)). now rewrite E in RE.
  - destruct (starts (ph_scheme p)) eqn:St.
    + destruct k as [|k].
      * exists 0%nat. split; [clear - Nl; lia|]. apply RS; [clear - Nl; lia|now right].
      * exists k. split; [clear - Hkk; lia|]. specialize (RE k ltac:(clear - Hkk; lia) (or_introl eq_refl)).
        now rewrite Nat.add_1_r in RE.
    + exists k. split; [clear - Hkk Nl; lia|]. apply RS; [clear - Hkk Nl; lia|now left].
Qed.

Theorem ps_join_complete : ph_kind p = Ph_ps -> In (ph_scheme p) all_schemes -> ph_scheme p <> "D2"%string ->
  (In (ph_scheme p) (gauss_schemes ++ gauss_inv_schemes) -> (ph_order p <= 2)%nat) ->
  (ph_order p = 2%nat \/ ~ In (ph_scheme p) jacobi_schemes) ->
  exists cs, ph_apply_scheme rr lg dyn p knots ns w = Ok cs /\
    forall Ps, (forall s, (s < length ns)%nat ->
        (exists n, n_col_to_n_nodes (ph_scheme p) (nth s ns 0%nat) = Ok n /\
           segment_state_motion dyn n (ph_order p * ph_n_q p) t ns (hv_x w) (hv_x_d w) (hv_u w) (hv_lam w) s (nth s Ps [])) /\
        mrow (kr s) (hv_x_d w) = rate_at (nth s Ps []) (vnth t (kr s)) /\
        mrow (kr (s + 1)) (hv_x_d w) = rate_at (nth s Ps []) (vnth t (kr (s + 1)))) ->
      (forall k, (k <= length ns)%nat -> skipn (ph_n_q p) (mrow (kr k) (hv_x w)) = butlastn (ph_n_q p) (mrow (kr k) (hv_x_d w))) ->
      knot_controls t ns (hv_u w) nu -> satisfied cs.
Proof.
  intros K HS ND HG HJ. destruct (ps_join K HS ND HG HJ) as (cs & Ecs & I). exists cs. split; [exact Ecs|].
  intros Ps F Ch C. apply I. split; [|exact C].
  destruct (arr_times p knots ns LK rr OK HS HE t Ht) as (_ & Hk & _).
  destruct (finite_choice [] (length ns) (fun s P => P = nth s Ps [])) as (Ps' & LP & EP); [eauto|].
  exists Ps'. split; [exact LP|]. intros s Hs. rewrite (EP s Hs). destruct (F s Hs) as (M & R1 & R2). split; [exact M|].
  rewrite Hk in R1, R2 by (clear - Hs; lia).
  destruct (seg_fields p knots ns w nu LK SX SD SU s Hs) as (_ & _ & _ & E4 & E5 & E6 & E7 & _).
  unfold knot_rates. cbv zeta. rewrite E4, E5, E6, E7, R1, R2.
  assert (C1 := Ch s ltac:(clear - Hs; lia)). assert (C2 := Ch (s + 1)%nat ltac:(clear - Hs; lia)). rewrite R1 in C1. rewrite R2 in C2.
  tauto.
Qed.
End Join.

(** Consecutive motions meet at the knot. *)
Lemma motions_meet dyn n n' nq M t ns x x_d u lam s P P' :
  segment_motion dyn n nq M t ns x x_d u lam s P -> segment_motion dyn n' nq M t ns x x_d u lam (s + 1) P' ->
  full_state M P (vnth t (knot_row ns (s + 1))) = full_state M P' (vnth t (knot_row ns (s + 1))).
Proof. intros (_ & _ & _ & E & _) (_ & _ & E' & _). congruence. Qed.
Lemma state_motions_meet dyn n n' m t ns x x_d u lam s P P' :
  segment_state_motion dyn n m t ns x x_d u lam s P -> segment_state_motion dyn n' m t ns x x_d u lam (s + 1) P' ->
  state_at P (vnth t (knot_row ns (s + 1))) = state_at P' (vnth t (knot_row ns (s + 1))).
Proof. intros (_ & _ & _ & E & _) (_ & _ & E' & _). congruence. Qed.
