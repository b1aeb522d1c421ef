(** Bottom-up and top-down problems from the constraints to the interpolated
    solution, and values that satisfy the constraints. *)
From Coq Require Import String.
From Coquelicot Require Import Coquelicot.
From Verif Require Import Prelude PreludeFacts Poly PolyFacts PolyInterp Mat MatFacts PwModel PwFacts
  PwInterpModel PsModel JacobiFacts PsSpec PsPointsProofs PsBaryProofs PsNodesProofs PsProblemProofs PsApplyProofs PsInterpProofs
  PsMoreProofs PsFinalProofs UtilModel UtilSpec GaussFacts UtilProofs BuTdModel BuTdSpec BuTdFacts BuTdProofs BuTdApplyProofs BuTdInterpProofs
  BuTdMoreProofs.
Open Scope R_scope.
Open Scope vec_scope.
Open Scope list_scope.

(** The defects vanish exactly when the trajectory obeys the dynamics. *)
Lemma vsub_zero (a b : vec) : length a = length b -> (a -v b = repeat 0 (length a) <-> a = b).
Proof.
  revert b. induction a as [|x a IH]; intros [|y b] L; simpl in L; try discriminate; [tauto|].
  specialize (IH b ltac:(lia)). unfold vsub in *. simpl. split; intros H.
  - injection H as H1 H2. f_equal; [lra|now apply IH].
  - injection H as -> ->. f_equal; [ring|now apply IH].
Qed.
Lemma defects_zero M nq P f t errs : (1 <= M)%nat -> length P = nq -> length f = nq -> defects M nq P f t errs ->
  (Forall (Forall (fun e => e = repeat 0 nq)) errs <-> rate_n_at M P t = f).
Proof.
  intros HM LP Lf (L & D). split.
  - intros A. destruct (D (M - 1)%nat ltac:(lia)) as [L1 D1]. specialize (D1 0%nat ltac:(lia)).
    replace (0 + (M - 1) + 1)%nat with M in D1 by lia. rewrite Nat.eqb_refl in D1.
    pose proof (proj1 (Forall_forall _ _) A (nth (M - 1) errs []) ltac:(apply nth_In; lia)) as A1.
    pose proof (proj1 (Forall_forall _ _) A1 (nth 0 (nth (M - 1) errs []) []) ltac:(apply nth_In; lia)) as A2.
    rewrite A2 in D1. symmetry in D1.
    apply vsub_zero; [now rewrite rate_n_length, LP, Lf|]. now rewrite rate_n_length, LP.
  - intros E. apply Forall_forall. intros r Hr. destruct (In_nth _ _ [] Hr) as (jj & Hj & <-). rewrite L in Hj.
    destruct (D jj Hj) as [L1 D1]. apply Forall_forall. intros e He. destruct (In_nth _ _ [] He) as (ii & Hi & <-).
    rewrite L1 in Hi. rewrite (D1 ii Hi). destruct (ii + jj + 1 =? M)%nat; [|reflexivity].
    rewrite E. rewrite vsub_self. now rewrite Lf.
Qed.

Section Final.
Variable rr : list R -> list R.
Hypothesis OK : real_roots_ok rr.
Variable lg : nat -> vec * vec.
Hypothesis LGOK : leggauss_ok lg.

(** Values that satisfy all the constraints of a bottom-up problem interpolate
    to a trajectory that obeys the dynamics at the collocation points. *)
Lemma bu_solution dyn p w st cs nu name : bt_valid p -> bu_sized (ps_scheme p) (ps_n_coll p) ->
  residual_has_chain (ps_n_q p) (ps_order p) dyn ->
  (In (ps_scheme p) jacobi_schemes -> ps_order p = 2%nat) ->
  In name [ps_scheme p; ("BU_" ++ ps_scheme p)%string] ->
  bu_opti_setup rr p = Ok st -> bu_apply_scheme rr lg dyn p w = Ok cs ->
  shaped (bset_n_arr st) (ps_order p * ps_n_q p) (pv_x w) ->
  shaped (bset_n_arr st) (ps_order p * ps_n_q p) (pv_x_d w) ->
  shaped (ps_n_coll p) nu (pv_u w) ->
  satisfied cs ->
  exists P U, order_solution dyn (ps_n_coll p + ps_order p) (ps_n_q p) (ps_order p)
      (t_of p (bset_tau st)) (t_of p (bset_tau_col st)) (pv_x w) (pv_x_d w) (pv_u w) (pv_lam w) P /\
    traj_through (t_of p (bset_tau_col st)) (pv_u w) U /\ length U = nu /\
    forall t,
      interpolations_BU_pseudospectral rr lg (pv_x w) (pv_x_d w) (pv_u w) name (ps_order p)
        (ps_t_start p) (ps_t_end p) (ps_order p) "pol" "pol" t
      = Ok (full_state (ps_order p) P t, full_rate (ps_order p) P t, state_at U t) /\
      forall F, length (F (full_state (ps_order p) P t) (state_at U t)) = (ps_order p * ps_n_q p)%nat ->
        exists errs, dynamic_error_BU rr lg F (pv_x w) (pv_x_d w) (pv_u w) name (ps_t_start p) (ps_t_end p)
            (ps_order p) (ps_order p) "pol" "pol" t = Ok errs /\
          (Forall (Forall (fun e => e = repeat 0 (ps_n_q p))) errs <->
           rate_n_at (ps_order p) P t = lastn (ps_n_q p) (F (full_state (ps_order p) P t) (state_at U t))).
Proof.
  intros V B C J HN Es Ea Sx Sd Su Sat.
  destruct (bu_apply rr OK lg LGOK dyn p w V B C) as (st' & cs' & E1 & E2 & E3 & L1 & L2 & E4 & IFF).
  rewrite Es in E1. injection E1 as <-. rewrite Ea in E4. injection E4 as <-.
  destruct (proj1 (IFF Sx Sd) Sat) as (P & OS).
  destruct V as (H & E & O & Q & T).
  set (s := ps_scheme p) in *. set (N := ps_n_coll p) in *. set (M := ps_order p) in *. set (nq := ps_n_q p) in *.
  assert (Es' := Es). unfold bu_opti_setup in Es'. fold s N M in Es'.
  rewrite E2 in Es'. cbn [rbind] in Es'.
  destruct (BU_construction_points rr N s M) as [cn|] eqn:En; [|discriminate]. cbn [rbind] in Es'.
  destruct (BU_coll_points rr N s M) as [tc|] eqn:Ec; [|discriminate]. cbn [rbind] in Es'.
  injection Es' as Es'. 
  assert (T1 : bset_tau st = [-1] ++ cn) by now rewrite <- Es'.
  assert (T2 : bset_tau_col st = tc) by now rewrite <- Es'.
  rewrite T1, T2 in *.
  rewrite BU_coll_points_eq in Ec by exact H.
  assert (Ec2 : coll_points rr N s 2 = Ok tc).
  { destruct (in_dec string_dec s jacobi_schemes) as [I|I]; [rewrite <- (J I); exact Ec|].
    rewrite (coll_points_order rr s N 2 M I). exact Ec. }
  destruct OS as (LP & BP & RX & RD & RC & DY).
  assert (LT : length (t_of p ([-1] ++ cn)) = bset_n_arr st) by (unfold t_of, tau_to_t_points; now rewrite map_length).
  assert (ND : NoDup tc).
  { destruct (coll_points_ok rr OK s N M (bt_all s H) E) as (c' & E' & _ & I' & _). assert (c' = tc) by congruence. subst c'.
    now apply increasing_NoDup. }
  set (U := interp_traj (t_of p tc) nu (pv_u w)).
  assert (TU : traj_through (t_of p tc) (pv_u w) U).
  { apply interp_traj_ok. now apply times_NoDup. }
  assert (LU : length U = nu) by apply interp_traj_length.
  exists P, U. split; [now repeat split|]. split; [exact TU|]. split; [exact LU|]. intros t.
  assert (IN := bu_interp rr OK lg LGOK s name N M nq nu (ps_t_start p) (ps_t_end p) (pv_x w) (pv_x_d w) (pv_u w) P U tc cn
    H HN E O Q T Ec Ec2 En).
  assert (SD' : shaped (length (t_of p ([-1] ++ cn))) (M * nq) (pv_x_d w)) by (rewrite LT; exact Sd).
  split.
  - exact (IN SD' LP BP RX RD Su LU TU t).
  - intros F LF. destruct (bu_error rr OK lg LGOK s name N M nq nu (ps_t_start p) (ps_t_end p) (pv_x w) (pv_x_d w) (pv_u w) P U tc cn
      H HN E O Q T Ec Ec2 En SD' LP BP RX RD Su LU TU F t LF) as (errs & EE & DD).
    exists errs. split; [exact EE|].
    apply (defects_zero M nq P _ t errs O LP); [|exact DD].
    rewrite lastn_slice by exact Q. rewrite LF. unfold slice. rewrite firstn_length, skipn_length, LF.
    assert (1 * nq <= M * nq)%nat by (apply Nat.mul_le_mono_r; exact O). lia.
Qed.

Lemma td_solution dyn p w q_constr st cs nu name : bt_valid p ->
  residual_has_chain (ps_n_q p) (ps_order p) dyn ->
  In name [ps_scheme p; ("TD_" ++ ps_scheme p)%string] ->
  td_opti_setup rr p = Ok st -> td_apply_scheme rr dyn p w q_constr = Ok cs ->
  shaped (bset_n_arr st) (ps_order p * ps_n_q p) (pv_x w) ->
  shaped (bset_n_arr st) (ps_order p * ps_n_q p) (pv_x_d w) ->
  shaped (ps_n_coll p + ps_order p) (ps_n_q p) q_constr ->
  shaped (ps_n_coll p) nu (pv_u w) ->
  satisfied cs ->
  exists P U, order_solution dyn (ps_n_coll p + ps_order p) (ps_n_q p) (ps_order p)
      (t_of p (bset_tau st)) (t_of p (bset_tau_col st)) (pv_x w) (pv_x_d w) (pv_u w) (pv_lam w) P /\
    traj_through (t_of p (bset_tau_col st)) (pv_u w) U /\ length U = nu /\
    forall t,
      interpolations_TD_pseudospectral rr q_constr (pv_x w) (pv_x_d w) (pv_u w) name
        (ps_t_start p) (ps_t_end p) (ps_order p) "pol" "pol" t
      = Ok (full_state (ps_order p) P t, full_rate (ps_order p) P t, state_at U t) /\
      forall F, length (F (full_state (ps_order p) P t) (state_at U t)) = (ps_order p * ps_n_q p)%nat ->
        exists errs, dynamic_error_TD rr F q_constr (pv_x w) (pv_x_d w) (pv_u w) name (ps_t_start p) (ps_t_end p)
            (ps_order p) (ps_order p) "pol" "pol" t = Ok errs /\
          (Forall (Forall (fun e => e = repeat 0 (ps_n_q p))) errs <->
           rate_n_at (ps_order p) P t = lastn (ps_n_q p) (F (full_state (ps_order p) P t) (state_at U t))).
Proof.
  intros V C HN Es Ea Sx Sd Sq Su Sat.
  destruct (td_apply rr OK dyn p w q_constr V C) as (st' & cs' & E1 & E2 & E3 & L1 & L2 & E4 & IFF).
  rewrite Es in E1. injection E1 as <-. rewrite Ea in E4. injection E4 as <-.
  destruct (proj1 (IFF Sx Sd Sq) Sat) as (P & OS & QC).
  destruct V as (H & E & O & Q & T).
  set (s := ps_scheme p) in *. set (N := ps_n_coll p) in *. set (M := ps_order p) in *. set (nq := ps_n_q p) in *.
  assert (Es' := Es). unfold td_opti_setup in Es'. fold s N M in Es'.
  rewrite E2 in Es'. cbn [rbind] in Es'.
  destruct (TD_construction_points rr N s M) as [cn|] eqn:En; [|discriminate]. cbn [rbind] in Es'.
  destruct (BU_coll_points rr N s M) as [tc|] eqn:Ec; [|discriminate]. cbn [rbind] in Es'.
  injection Es' as Es'. 
  assert (T2 : bset_tau_col st = tc) by now rewrite <- Es'.
  rewrite T2 in *.
  rewrite BU_coll_points_eq in Ec by exact H.
  assert (OS' := OS). destruct OS' as (LP & BP & RX & RD & RC & DY).
  assert (ND : NoDup tc).
  { destruct (coll_points_ok rr OK s N M (bt_all s H) E) as (c' & E' & _ & I' & _). assert (c' = tc) by congruence. subst c'.
    now apply increasing_NoDup. }
  set (U := interp_traj (t_of p tc) nu (pv_u w)).
  assert (TU : traj_through (t_of p tc) (pv_u w) U).
  { apply interp_traj_ok. now apply times_NoDup. }
  assert (LU : length U = nu) by apply interp_traj_length.
  exists P, U. split; [exact OS|]. split; [exact TU|]. split; [exact LU|]. intros t.
  assert (W : mwidth (pv_x w) = (M * nq)%nat).
  { assert (P1 : (0 < length (pv_x w))%nat).
    { rewrite (shaped_length _ _ _ Sx), <- L1. destruct E as [E _]. rewrite <- Es'. cbn.
      apply f_equal with (f := @length R) in E3. rewrite L2, <- Es' in E3. cbn in E3.
      unfold take, slice in E3. rewrite firstn_length, skipn_length in E3. fold N in E3. unfold N in *. lia. }
    apply (shaped_mwidth _ _ _ Sx). rewrite <- (shaped_length _ _ _ Sx). exact P1. }
  split.
  - exact (td_interp rr OK s name N M nq nu (ps_t_start p) (ps_t_end p) q_constr (pv_u w) P U tc
      H HN E O Q T Ec Sq LP BP QC Su LU TU (pv_x w) (pv_x_d w) t W).
  - intros F LF. destruct (td_error rr OK s name N M nq nu (ps_t_start p) (ps_t_end p) q_constr (pv_u w) P U tc
      H HN E O Q T Ec Sq LP BP QC Su LU TU F (pv_x w) (pv_x_d w) t W LF) as (errs & EE & DD).
    exists errs. split; [exact EE|].
    apply (defects_zero M nq P _ t errs O LP); [|exact DD].
    rewrite lastn_slice by exact Q. rewrite LF. unfold slice. rewrite firstn_length, skipn_length, LF.
    assert (1 * nq <= M * nq)%nat by (apply Nat.mul_le_mono_r; exact O). lia.
Qed.

(** ** Values that satisfy the constraints *)
(** Constant acceleration 2 from rest, in [0, 3]. *)
Definition ex_acc (s : string) (n : nat) : ps_problem := Build_ps_problem s n 2 1 0 3.
Definition ex_acc_dyn (x x_d u lam : vec) : vec := x_d -v [vnth x 1; vnth u 0].
Definition ex_acc_P : list (list R) := [[0; 0; 1]].
Definition ex_acc_w (ts : vec) (n : nat) : ps_values :=
  Build_ps_values (map (full_state 2 ex_acc_P) ts) (map (full_rate 2 ex_acc_P) ts) (repeat [2] n) (repeat [] n).
Lemma ex_acc_chain : residual_has_chain 1 2 ex_acc_dyn.
Proof.
  intros x x_d u lam Lx Ld Z. destruct x as [|a [|b [|]]]; try discriminate Lx.
  destruct x_d as [|c [|d [|]]]; try discriminate Ld. unfold ex_acc_dyn, vsub in Z. simpl in Z.
  apply Forall_inv in Z. unfold vnth in Z. simpl in *. f_equal. lra.
Qed.
Lemma ex_acc_state t : full_state 2 ex_acc_P t = [t * t; 2 * t] /\ full_rate 2 ex_acc_P t = [2 * t; 2] /\
  rate_n_at 2 ex_acc_P t = [2].
Proof.
  assert (D0 : Derive_n (peval [0; 0; 1]) 0 t = t * t) by (simpl; ring).
  assert (D1 : Derive_n (peval [0; 0; 1]) 1 t = 2 * t).
  { rewrite Derive_n_peval. simpl. ring. }
  assert (D2 : Derive_n (peval [0; 0; 1]) 2 t = 2).
  { rewrite Derive_n_peval. simpl. ring. }
  unfold full_state, full_rate, rate_n_at, ex_acc_P. cbn [seq flat_map map app]. now rewrite D0, D1, D2.
Qed.
Lemma ex_acc_valid s n : In s bt_schemes -> enough_points s n -> bt_valid (ex_acc s n).
Proof. intros H E. split; [exact H|]. split; [exact E|]. simpl. repeat split; try lia; lra. Qed.
Lemma mrow_map_fun (f : R -> vec) ts i : (i < length ts)%nat -> mrow i (map f ts) = f (vnth ts i).
Proof. intros Hi. unfold mrow, vnth. now rewrite (nth_map' _ _ _ 0). Qed.
Lemma ex_acc_solution n ts tc : (1 <= n)%nat -> length tc = n ->
  order_solution ex_acc_dyn (n + 2) 1 2 ts tc (pv_x (ex_acc_w ts n)) (pv_x_d (ex_acc_w ts n)) (pv_u (ex_acc_w ts n))
    (pv_lam (ex_acc_w ts n)) ex_acc_P.
Proof.
  intros Hn L. cbn [ex_acc_w pv_x pv_x_d pv_u pv_lam].
  split; [reflexivity|]. split; [constructor; [simpl; lia|constructor]|].
  split; [intros i Hi; now apply mrow_map_fun|].
  split. { intros i Hi. rewrite mrow_map_fun by exact Hi. destruct (ex_acc_state (vnth ts i)) as (_ & -> & ->). reflexivity. }
  split. { intros i k Hi Hk E. rewrite mrow_map_fun by exact Hi. now rewrite E. }
  intros k Hk. destruct (ex_acc_state (vnth tc k)) as (-> & -> & _).
  unfold mrow. rewrite (nth_indep _ [] [2]) by (rewrite repeat_length; lia). rewrite nth_repeat.
  unfold ex_acc_dyn, vsub, vnth. simpl. repeat constructor; ring.
Qed.
Lemma shaped_map_fun (f : R -> vec) ts m : (forall t, length (f t) = m) -> shaped (length ts) m (map f ts).
Proof. intros Hf. split; [apply map_length|]. apply Forall_forall. intros r Hr. apply in_map_iff in Hr. destruct Hr as (t & <- & _). apply Hf. Qed.

Lemma ex_bu_solved s n : In s bt_schemes -> enough_points s n -> bu_sized s n ->
  bt_valid (ex_acc s n) /\ residual_has_chain 1 2 ex_acc_dyn /\
  exists st w cs, bu_opti_setup rr (ex_acc s n) = Ok st /\ bu_apply_scheme rr lg ex_acc_dyn (ex_acc s n) w = Ok cs /\
    shaped (bset_n_arr st) 2 (pv_x w) /\ shaped (bset_n_arr st) 2 (pv_x_d w) /\ shaped n 1 (pv_u w) /\ satisfied cs /\
    mrow 0 (pv_x w) = [0; 0] /\ mrow (bset_n_arr st - 1) (pv_x w) = [9; 6].
Proof.
  intros H E B. pose proof (ex_acc_valid s n H E) as V. split; [exact V|]. split; [exact ex_acc_chain|].
  assert (Hn : (1 <= n)%nat) by apply E.
  assert (X := fun w => bu_apply rr OK lg LGOK ex_acc_dyn (ex_acc s n) w V B ex_acc_chain).
  destruct (X (Build_ps_values [] [] [] [])) as (st & _ & Es & _ & _ & L1 & L2 & _).
  set (ts := t_of (ex_acc s n) (bset_tau st)). set (tc := t_of (ex_acc s n) (bset_tau_col st)).
  destruct (X (ex_acc_w ts n)) as (st' & cs & Es' & _ & _ & _ & _ & Ea & IFF).
  rewrite Es in Es'. injection Es' as <-.
  assert (Lt : length ts = bset_n_arr st) by (unfold ts, t_of, tau_to_t_points; rewrite map_length; exact L1).
  assert (S1 : shaped (bset_n_arr st) (2 * 1) (pv_x (ex_acc_w ts n))).
  { rewrite <- Lt. apply shaped_map_fun. intros t. now rewrite (proj1 (ex_acc_state t)). }
  assert (S2 : shaped (bset_n_arr st) (2 * 1) (pv_x_d (ex_acc_w ts n))).
  { rewrite <- Lt. apply shaped_map_fun. intros t. now rewrite (proj1 (proj2 (ex_acc_state t))). }
  exists st, (ex_acc_w ts n), cs. split; [exact Es|]. split; [exact Ea|].
  split; [exact S1|]. split; [exact S2|].
  split. { split; [apply repeat_length|]. apply Forall_forall. intros r Hr. now apply repeat_spec in Hr; subst r. }
  split. { apply (IFF S1 S2). exists ex_acc_P. apply ex_acc_solution; [exact Hn|].
    unfold t_of, tau_to_t_points. rewrite map_length. exact L2. }
  assert (EN : exists c, bset_tau st = with_ends true true c).
  { assert (Es' := Es). unfold bu_opti_setup in Es'. cbn [ex_acc ps_scheme ps_n_coll ps_order] in Es'.
    destruct (get_coll_indices s); [|discriminate]. cbn [rbind] in Es'.
    destruct (BU_construction_points rr n s 2) as [cn|] eqn:En; [|discriminate]. cbn [rbind] in Es'.
    destruct (BU_coll_points rr n s 2) as [tc'|] eqn:Ec; [|discriminate]. cbn [rbind] in Es'.
    injection Es' as <-. cbn [bset_tau].
    destruct (bt_points rr OK s n 2 H E) as (c & Hc & B1 & B1' & B2 & _). rewrite B2 in En. injection En as <-. now exists c. }
  destruct EN as (c & EN). cbn [ex_acc_w pv_x]. rewrite <- Lt. unfold ts. rewrite EN.
  unfold t_of, tau_to_t_points, with_ends. rewrite !map_app. cbn [map app ex_acc ps_t_start ps_t_end].
  split.
  - unfold mrow. cbn [nth]. rewrite (proj1 (ex_acc_state _)). unfold tau_to_t. f_equal; [field|]. f_equal; field.
  - set (L := map (fun tau : R => tau_to_t tau 0 3) c).
    replace (length (tau_to_t (-1) 0 3 :: L ++ [tau_to_t 1 0 3]) - 1)%nat with (S (length c)).
    2:{ cbn [length]. rewrite app_length. unfold L. rewrite map_length. cbn [length]. lia. }
    unfold mrow. unfold L.
    cbn [nth]. rewrite app_nth2 by (rewrite !map_length; lia). rewrite !map_length, Nat.sub_diag. cbn [nth].
    rewrite (proj1 (ex_acc_state _)). unfold tau_to_t. f_equal; [field|]. f_equal; field.
Qed.

Lemma ex_td_solved s n : In s bt_schemes -> enough_points s n ->
  bt_valid (ex_acc s n) /\ residual_has_chain 1 2 ex_acc_dyn /\
  exists st w qc cs, td_opti_setup rr (ex_acc s n) = Ok st /\ td_apply_scheme rr ex_acc_dyn (ex_acc s n) w qc = Ok cs /\
    shaped (bset_n_arr st) 2 (pv_x w) /\ shaped (bset_n_arr st) 2 (pv_x_d w) /\ shaped (n + 2) 1 qc /\ shaped n 1 (pv_u w) /\
    satisfied cs /\ mrow 0 qc = [0] /\ mrow (n + 1) qc = [9].
Proof.
  intros H E. pose proof (ex_acc_valid s n H E) as V. split; [exact V|]. split; [exact ex_acc_chain|].
  assert (Hn : (1 <= n)%nat) by apply E.
  assert (X := fun w qc => td_apply rr OK ex_acc_dyn (ex_acc s n) w qc V ex_acc_chain).
  destruct (X (Build_ps_values [] [] [] []) []) as (st & _ & Es & _ & _ & L1 & L2 & _).
  set (ts := t_of (ex_acc s n) (bset_tau st)). set (tc := t_of (ex_acc s n) (bset_tau_col st)).
  destruct (matrix_D_nu_ok rr OK (n + 2) ltac:(lia)) as (c & _ & EL & LL & _ & _).
  set (tq := t_of (ex_acc s n) (LGL rr (n + 2))).
  assert (Lq : length tq = (n + 2)%nat) by (unfold tq, t_of, tau_to_t_points; rewrite map_length; exact LL).
  destruct (X (ex_acc_w ts n) (map (state_at ex_acc_P) tq)) as (st' & cs & Es' & _ & _ & _ & _ & Ea & IFF).
  rewrite Es in Es'. injection Es' as <-.
  assert (Lt : length ts = bset_n_arr st) by (unfold ts, t_of, tau_to_t_points; rewrite map_length; exact L1).
  assert (S1 : shaped (bset_n_arr st) (2 * 1) (pv_x (ex_acc_w ts n))).
  { rewrite <- Lt. apply shaped_map_fun. intros t. now rewrite (proj1 (ex_acc_state t)). }
  assert (S2 : shaped (bset_n_arr st) (2 * 1) (pv_x_d (ex_acc_w ts n))).
  { rewrite <- Lt. apply shaped_map_fun. intros t. now rewrite (proj1 (proj2 (ex_acc_state t))). }
  assert (S3 : shaped (n + 2) 1 (map (state_at ex_acc_P) tq)).
  { rewrite <- Lq. apply shaped_map_fun. reflexivity. }
  exists st, (ex_acc_w ts n), (map (state_at ex_acc_P) tq), cs. split; [exact Es|]. split; [exact Ea|].
  split; [exact S1|]. split; [exact S2|]. split; [exact S3|].
  split. { split; [apply repeat_length|]. apply Forall_forall. intros r Hr. now apply repeat_spec in Hr; subst r. }
  split. { apply (IFF S1 S2 S3). exists ex_acc_P. split.
    - apply ex_acc_solution; [exact Hn|]. unfold t_of, tau_to_t_points. rewrite map_length. exact L2.
    - intros i Hi. rewrite mrow_map_fun by (rewrite Lq; exact Hi). reflexivity. }
  assert (LC : length c = n).
  { apply (f_equal (@length R)) in EL. rewrite LL in EL. unfold with_ends in EL. rewrite !app_length in EL. simpl in EL. lia. }
  unfold tq. rewrite EL. unfold t_of, tau_to_t_points, with_ends. rewrite !map_app. cbn [map app ex_acc ps_t_start ps_t_end].
  split.
  - unfold mrow. cbn [nth]. unfold state_at, ex_acc_P, tau_to_t. simpl. f_equal. field.
  - unfold mrow. rewrite Nat.add_1_r. cbn [nth]. rewrite app_nth2 by (rewrite !map_length; lia). rewrite !map_length, LC, Nat.sub_diag. cbn [nth].
    unfold state_at, ex_acc_P, tau_to_t. simpl. f_equal. field.
Qed.
End Final.
