(** Cases where the "Hermite" interpolations are not those of the motion, and
    cases that meet the hypotheses of C94. *)
From Coq Require Import String.
From Coquelicot Require Import Coquelicot.
From Verif Require Import Prelude PreludeFacts Poly PolyFacts PolyInterp Mat MatFacts PwModel PwFacts
  PwInterpModel PsModel JacobiFacts PsSpec PsPointsProofs PsBaryProofs PsNodesProofs PsProblemProofs PsApplyProofs PsInterpProofs PsMoreProofs PsFinalProofs
  BuTdModel BuTdSpec BuTdFacts BuTdInterpProofs SplineModel SplineSpec SplineProofs SplineBtProofs.
Open Scope R_scope.
Open Scope list_scope.

Lemma CG_2 : CG 2 = [- (1 / sqrt 2); 1 / sqrt 2].
Proof.
  rewrite CG_closed. simpl. f_equal; [|f_equal].
  - replace (PI * (2 * 0 + 1) / (1 + 1) / 2) with (PI / 4) by field. now rewrite cos_PI4.
  - replace (PI * (2 * 1 + 1) / (1 + 1) / 2) with (3 * (PI / 4)) by field. rewrite cos_3PI4. field.
    intros K. assert (0 < sqrt 2) by (apply sqrt_lt_R0; lra). lra.
Qed.
Lemma half_root : let s := 1 / sqrt 2 in 0 < s /\ s < 1 /\ s * s = 1 / 2.
Proof.
  intros s. assert (P : 0 < sqrt 2) by (apply sqrt_lt_R0; lra). assert (Q : sqrt 2 * sqrt 2 = 2) by (apply sqrt_sqrt; lra).
  assert (S2 : s * s = 1 / 2) by (unfold s; replace (1 / sqrt 2 * (1 / sqrt 2)) with (1 / (sqrt 2 * sqrt 2)) by (field; lra); rewrite Q; field).
  assert (S0 : 0 < s) by (apply Rdiv_lt_0_compat; lra). split; [exact S0|]. split; [nra|exact S2].
Qed.

Section Wrong.
Variable rr : list R -> list R.
Hypothesis OK : real_roots_ok rr.

Ltac node_names := cbv [node_points coll_points mem existsb String.eqb Ascii.eqb Bool.eqb orb gauss_like gauss_inv gauss_2 radau_like radau_inv lobato_like other_schemes map app String.append]; cbn [Nat.sub rbind].
Ltac two := split; [simpl; lia|]; intros [|[|i]] Hi; unfold vnth; simpl; [lra|lra|simpl in Hi; lia].

Lemma node_CG_2 : node_points rr 2 "CG" = Ok [-1; 0].
Proof. node_names. now rewrite CG_1. Qed.
Lemma node_CG_3 : node_points rr 3 "CG" = Ok [-1; - (1 / sqrt 2); 1 / sqrt 2].
Proof. node_names. now rewrite CG_2. Qed.
Lemma node_CG_inv_3 : node_points rr 3 "CG_inv" = Ok [- (1 / sqrt 2); 1 / sqrt 2; 1].
Proof. node_names. now rewrite CG_2. Qed.
Lemma enough_CG s : In s ["CG"; "CG_inv"]%string -> enough_points s 1.
Proof.
  intros H. split; [lia|]. intros K. exfalso. cbv [lobatto_schemes In] in K. destruct H as [<-|[<-|[]]];
  repeat (destruct K as [K|K]; [discriminate|]); destruct K.
Qed.
Lemma D3 nd : length nd = 3%nat -> forall j, shaped 3 1 (mmul (Dmat nd) [[vnth j 0]; [vnth j 1]; [vnth j 2]]).
Proof.
  intros L j. rewrite <- L at 1. apply (mmul_shaped (length nd) (length nd) 1); [apply Dmat_shaped| |lia].
  rewrite L. split; [reflexivity|]. repeat constructor.
Qed.

(** With CG, the accelerations at the nodes come from the differentiation
    matrix of another set of points: the speed is the time, and its derivative
    in the middle is 7/sqrt 2 - 2 instead of 1. *)
Lemma CG_acceleration : exists q qd v qdd u,
  interpolations_pseudospectral rr [[1 / 2]; [0]] [[-1]; [0]] [[1]] "CG" (-1) 1 "pol" "Hermite" 0
    = Ok (q, qd, v, [7 / sqrt 2 - 2], qdd, u).
Proof.
  assert (HA : In "CG"%string all_schemes) by (cbv; tauto).
  assert (HE : enough_points "CG" 1) by (apply enough_CG; now left).
  unfold interpolations_pseudospectral. cbn [String.eqb Ascii.eqb Bool.eqb].
  unfold get_pol_u. cbn [length].
  assert (Ec : coll_points rr 1 "CG" 2 = Ok [0]).
  { cbv [coll_points mem existsb String.eqb Ascii.eqb Bool.eqb orb]. now rewrite CG_1. }
  rewrite Ec. cbn [rbind].
  destruct (extreme_x_end rr OK "CG" 1 2 HA HE (fun _ => le_n 2)) as (ts & f & Et & Ef & F).
  change (nodes_of "CG" 1) with 2%nat in *. rewrite node_CG_2 in Et. injection Et as <-.
  unfold extend_x_arrays. cbn [length].
  change (mem "CG" ["LG"; "CG"]%string) with true. cbv iota.
  rewrite node_CG_2. cbn [rbind]. rewrite Ef. cbn [rbind].
  assert (I1 : interpolates [-1; 0] [1 / 2; 0] [0; - (1 / 2)]) by two.
  assert (I2 : interpolates [-1; 0] [-1; 0] [0; 1]) by two.
  unfold run_extreme_cols. cbn [mwidth hd length seq mapm mcol map vnth nth].
  rewrite (F [1 / 2; 0] [0; - (1 / 2)] eq_refl I1). cbn [rbind].
  rewrite (F [-1; 0] [0; 1] eq_refl I2). cbn [rbind app length].
  rewrite (matrix_D_bary_ok rr 3 "CG" _ node_CG_3 eq_refl). cbn [rbind].
  set (nd := [-1; - (1 / sqrt 2); 1 / sqrt 2]).
  destruct half_root as (S0 & S1 & S2). set (s := 1 / sqrt 2) in *.
  assert (S3 : s * s * s = s / 2) by (rewrite S2; field).
  assert (S7 : 7 / sqrt 2 = 7 * s) by (unfold s; field; intros K; assert (0 < sqrt 2) by (apply sqrt_lt_R0; lra); lra).
  rewrite S7. clearbody s.
  assert (P1 : peval [0; 1] 1 = 1) by (simpl; ring). rewrite P1.
  assert (CP : map (fun x => -1 + (1 + x) * (1 - -1) / 2) [-1; 0; 1] = [-1; 0; 1]) by (simpl; repeat (f_equal; try lra)).
  rewrite CP.
  assert (I3 : increasing [-1; 0; 1]).
  { intros [|[|[|i]]] [|[|[|j]]] Hij; cbn [length] in Hij; unfold vnth; simpl; try lia; lra. }
  assert (SC : 2 / (1 - -1) = 1) by field. rewrite SC, mmul_mscale.
  assert (SV : shaped 3 1 [[-1]; [0]; [1]]) by (split; [reflexivity|repeat constructor]).
  assert (SA : shaped 3 1 (mscale 1 (mmul (Dmat nd) [[-1]; [0]; [1]]))).
  { apply mscale_shaped. exact (D3 nd eq_refl [-1; 0; 1]). }
  assert (SQ : shaped 3 1 [[1 / 2]; [0]; [peval [0; - (1 / 2)] 1]]) by (split; [reflexivity|repeat constructor]).
  rewrite (hermite_ok [-1; 0; 1] _ _ 3 1 ltac:(lia) eq_refl SQ SV I3). cbn [rbind].
  rewrite (hermite_ok [-1; 0; 1] _ _ 3 1 ltac:(lia) eq_refl SV SA I3). cbn [rbind].
  destruct (the_smooth [-1; 0; 1] _ _ 3 1 ltac:(lia) eq_refl SV SA I3) as (TH & _).
  destruct (TH 1%nat ltac:(simpl; lia)) as [_ TH1]. unfold vnth in TH1. cbn [nth] in TH1. rewrite TH1.
  assert (ND : NoDup nd) by (unfold nd; repeat constructor; simpl; intuition; lra).
  assert (IC : interpolates nd (mcol 0 [[-1]; [0]; [1]]) [1 / 2 - (-3 + 2 * s) / 2; s; -3 + 2 * s]).
  { split; [simpl; lia|]. intros [|[|[|i]]] Hi; unfold nd, vnth; simpl; [| | |simpl in Hi; lia]; unfold vnth; simpl; nra. }
  assert (VM := Dmat_mmul nd [[-1]; [0]; [1]] 1 0 _ 1 ND ltac:(simpl; lia) SV ltac:(lia) ltac:(simpl; lia) IC).
  assert (EV : mrow 1 (mscale 1 (mmul (Dmat nd) [[-1]; [0]; [1]])) = [7 * s - 2]).
  { assert (LR := row_len 3 1 _ 1 SA ltac:(lia)).
    assert (V0 : mget (mscale 1 (mmul (Dmat nd) [[-1]; [0]; [1]])) 1 0 = 7 * s - 2).
    { rewrite mget_mscale, VM. unfold nd, vnth, pderiv. simpl. nra. }
    unfold mget in V0. destruct (mrow 1 (mscale 1 (mmul (Dmat nd) [[-1]; [0]; [1]]))) as [|a [|b l]]; try discriminate.
    f_equal. exact V0. }
  rewrite EV. repeat eexists.
Qed.

(** With CG_inv the value extrapolated to the start is put at the end. *)
Lemma CG_inv_end : exists qd v vd qdd u,
  interpolations_pseudospectral rr [[0]; [1]] [[1]; [1]] [[0]] "CG_inv" (-1) 1 "pol" "Hermite" 1
    = Ok ([-1], qd, v, vd, qdd, u).
Proof.
  assert (HA : In "CG_inv"%string all_schemes) by (cbv; tauto).
  assert (HE : enough_points "CG_inv" 1) by (apply enough_CG; right; now left).
  unfold interpolations_pseudospectral. cbn [String.eqb Ascii.eqb Bool.eqb].
  unfold get_pol_u. cbn [length].
  assert (Ec : coll_points rr 1 "CG_inv" 2 = Ok [0]).
  { cbv [coll_points mem existsb String.eqb Ascii.eqb Bool.eqb orb]. now rewrite CG_1. }
  rewrite Ec. cbn [rbind].
  destruct (extreme_x_start rr OK "CG_inv" 1 2 HA HE (fun _ => le_n 2)) as (ts & f & Et & Ef & F).
  change (nodes_of "CG_inv" 1) with 2%nat in *. rewrite (node_CG_inv rr) in Et. injection Et as <-.
  unfold extend_x_arrays. cbn [length].
  change (mem "CG_inv" ["LG"; "CG"]%string) with false. change (mem "CG_inv" ["LG_inv"; "CG_inv"]%string) with true. cbv iota.
  rewrite (node_CG_inv rr). cbn [rbind]. rewrite Ef. cbn [rbind].
  assert (I1 : interpolates [0; 1] [0; 1] [0; 1]) by two.
  assert (I2 : interpolates [0; 1] [1; 1] [1; 0]) by two.
  unfold run_extreme_cols. cbn [mwidth hd length seq mapm mcol map vnth nth].
  rewrite (F [0; 1] [0; 1] eq_refl I1). cbn [rbind].
  rewrite (F [1; 1] [1; 0] eq_refl I2). cbn [rbind app length].
  rewrite (matrix_D_bary_ok rr 3 "CG_inv" _ node_CG_inv_3 eq_refl). cbn [rbind].
  set (nd := [- (1 / sqrt 2); 1 / sqrt 2; 1]).
  assert (CP : map (fun x => -1 + (1 + x) * (1 - -1) / 2) [-1; 0; 1] = [-1; 0; 1]) by (simpl; repeat (f_equal; try lra)).
  rewrite CP.
  assert (I3 : increasing [-1; 0; 1]).
  { intros [|[|[|i]]] [|[|[|j]]] Hij; cbn [length] in Hij; unfold vnth; simpl; try lia; lra. }
  rewrite mmul_mscale.
  set (VV := [[1]; [1]; [peval [1; 0] (-1)]]). set (QQ := [[0]; [1]; [peval [0; 1] (-1)]]).
  assert (SV : shaped 3 1 VV) by (split; [reflexivity|repeat constructor]).
  assert (SA : shaped 3 1 (mscale (2 / (1 - -1)) (mmul (Dmat nd) VV))).
  { apply mscale_shaped. exact (D3 nd eq_refl [1; 1; peval [1; 0] (-1)]). }
  assert (SQ : shaped 3 1 QQ) by (split; [reflexivity|repeat constructor]).
  rewrite (hermite_ok [-1; 0; 1] _ _ 3 1 ltac:(lia) eq_refl SQ SV I3). cbn [rbind].
  rewrite (hermite_ok [-1; 0; 1] _ _ 3 1 ltac:(lia) eq_refl SV SA I3). cbn [rbind].
  destruct (the_smooth [-1; 0; 1] _ _ 3 1 ltac:(lia) eq_refl SQ SV I3) as (TH & _).
  destruct (TH 2%nat ltac:(simpl; lia)) as [TH1 _]. unfold vnth in TH1. cbn [nth] in TH1. rewrite TH1.
  assert (EV : mrow 2 QQ = [-1]) by (unfold QQ, mrow; simpl; f_equal; ring). rewrite EV. repeat eexists.
Qed.

(** The second derivative of t^2, asked for by itself, is -18 at the start. *)
Lemma CGL_second : node_points rr 3 "CGL" = Ok [-1; 0; 1] /\
  traj_through (tau_to_t_points [-1; 0; 1] (-1) 1) [[1]; [0]; [1]] [[0; 0; 1]] /\
  rate_n_at 2 [[0; 0; 1]] (-1) = [2] /\
  interpolations_deriv_pseudospectral rr [[1]; [0]; [1]] "CGL" 2 (-1) 1 "Hermite" (-1) = Ok [-18].
Proof.
  assert (E : node_points rr 3 "CGL" = Ok [-1; 0; 1]) by (node_names; now rewrite CGL_3).
  assert (TS : tau_to_t_points [-1; 0; 1] (-1) 1 = [-1; 0; 1]) by (unfold tau_to_t_points, tau_to_t; simpl; repeat (f_equal; try lra)).
  assert (TT : traj_through (tau_to_t_points [-1; 0; 1] (-1) 1) [[1]; [0]; [1]] [[0; 0; 1]]).
  { rewrite TS. intros [|j] Hj; [|simpl in Hj; lia]. split; [simpl; lia|].
    intros [|[|[|i]]] Hi; unfold vnth; simpl; [| | |simpl in Hi; lia]; unfold vnth; simpl; lra. }
  split; [exact E|]. split; [exact TT|]. split.
  { rewrite <- rate_n_state. unfold state_at, pderiv_n, pderiv. simpl. f_equal. ring. }
  assert (HA : In "CGL"%string all_schemes) by (cbv; tauto).
  assert (HE : enough_points "CGL" 3) by (split; [lia|intros _; lia]).
  assert (SX : shaped 3 1 [[1]; [0]; [1]]) by (split; [reflexivity|repeat constructor]).
  destruct (ps_hermite_deriv rr OK "CGL" 3 (-1) 1 [[1]; [0]; [1]] 1 [-1; 0; 1] [[0; 0; 1]] 2 HA HE ltac:(lra)
    ltac:(change (nodes_of "CGL" 3) with 3%nat; lia) SX E eq_refl TT) as (Ps & X & [LP HC] & HF & _ & ER).
  rewrite ER. rewrite TS in *. cbn [length] in *.
  rewrite (HF 2%nat 0%nat (-1)) by (unfold vnth; simpl; try lia; try lra; left; lra).
  destruct (HC 0%nat ltac:(lia)) as (B & H1 & H2 & H3 & H4).
  cbn [Nat.add] in *. unfold vnth, mrow in H1, H2, H3, H4. cbn [nth map] in H1, H2, H3, H4.
  rewrite <- !(rate_n_state 2 [[0; 0; 1]]) in H3, H4. rewrite <- !rate_n_state in H3, H4 |- *.
  unfold state_at in *. rewrite !map_map in *. cbn [map] in H3, H4.
  destruct (nth 0 Ps []) as [|c [|c2 l]]; try discriminate. cbn [map] in *.
  injection H1 as H1. injection H2 as H2. injection H3 as H3. injection H4 as H4.
  inversion B as [|? ? B1 _]; subst. do 2 f_equal.
  destruct c as [|c0 [|c1 [|c2 [|c3 [|c4 c]]]]]; cbn [length] in B1; try lia; unfold pderiv_n, pderiv in *; simpl in *; lra.
Qed.
End Wrong.

(** Cases for every scheme: a body with position t^2. *)
Section Cases.
Variable rr : list R -> list R.
Hypothesis OK : real_roots_ok rr.
Definition fall_x (ts : vec) : mat := map (fun t => [t * t; 2 * t]) ts.
Definition fall_x_d (ts : vec) : mat := map (fun t => [2 * t; 2]) ts.
Lemma shaped_map n m (f : R -> vec) ts : length ts = n -> (forall t, length (f t) = m) -> shaped n m (map f ts).
Proof. intros L H. split; [now rewrite map_length|]. apply Forall_map, Forall_forall. auto. Qed.

Lemma bt_case s N so : In s bt_schemes -> enough_points s N -> exists cb ct,
  BU_construction_points rr N s so = Ok cb /\ TD_construction_points rr N s so = Ok ct /\
  (let ts := tau_to_t_points ([-1] ++ cb) 0 3 in shaped (length ts) (2 * 1) (fall_x ts) /\ shaped (length ts) (2 * 1) (fall_x_d ts)) /\
  (let ts := tau_to_t_points ct 0 3 in shaped (length ts) (2 * 1) (fall_x ts) /\ shaped (length ts) (2 * 1) (fall_x_d ts)) /\
  shaped (N + 2) 1 (repeat [0] (N + 2)).
Proof.
  intros H E. destruct (bt_points rr OK s N so H E) as (c & S & _ & _ & En & Et & _ & LN).
  do 2 eexists. split; [exact En|]. split; [exact Et|].
  split; [split; apply shaped_map; auto|]. split; [split; apply shaped_map; auto|].
  split; [apply repeat_length|]. apply Forall_forall. intros v I. apply repeat_spec in I. now subst.
Qed.
Lemma ps_case s n : In s not_extended -> enough_points s n -> exists k nd,
  n_col_to_n_nodes s n = Ok k /\ node_points rr k s = Ok nd /\
  let ts := tau_to_t_points nd 0 3 in let qq := map (fun t => [2 * t]) ts in let vv := map (fun _ => [2]) ts in
  shaped k 1 qq /\ shaped k 1 vv /\ traj_through ts vv [[2]].
Proof.
  intros HN E.
  assert (H : In s all_schemes) by (cbv in HN; cbv; tauto).
  destruct (nodes_shape rr OK s n H E) as (c & S & _ & Ek & En). do 2 eexists. split; [exact Ek|]. split; [exact En|]. cbv zeta.
  assert (Ln : length (with_ends (nstarts s) (nends s) c) = nodes_of s n).
  { rewrite with_ends_length. unfold nodes_of. destruct S as [-> _]. reflexivity. }
  set (ts := tau_to_t_points (with_ends (nstarts s) (nends s) c) 0 3).
  assert (LT : length ts = nodes_of s n) by (unfold ts; now rewrite times_length).
  split; [apply shaped_map; auto|]. split; [apply shaped_map; auto|].
  assert (PN := nodes_of_pos s n H E).
  intros [|j] Hj; [|simpl in Hj; lia]. split; [simpl; lia|]. intros i Hi.
  unfold mcol. rewrite map_map. unfold vnth at 2. rewrite (nth_map' _ _ _ 0) by exact Hi. unfold vnth. simpl. ring.
Qed.
End Cases.
