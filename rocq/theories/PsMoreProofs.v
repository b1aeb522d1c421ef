(** Piecewise linear interpolation of pseudospectral solutions, failures of the
    code, and concrete instances. *)
From Coq Require Import String.
From Coquelicot Require Import Coquelicot.
From Verif Require Import Prelude PreludeFacts Poly PolyFacts PolyInterp Mat MatFacts
  PwInterpModel PwInterpSpec PwMoreProofs
  PsModel JacobiFacts PsSpec PsPointsProofs PsBaryProofs PsNodesProofs PsProblemProofs PsApplyProofs PsInterpProofs.
Open Scope R_scope.
Open Scope list_scope.

Lemma increasing_cons_from a l : increasing (a :: l) -> increasing_from a l.
Proof.
  revert a. induction l as [|b l IH]; intros a H; simpl; [exact I|]. split.
  - apply (H 0 1)%nat. simpl. lia.
  - apply IH. intros i j Hij. apply (H (S i) (S j)). simpl in *. lia.
Qed.
Lemma interp_2d_node ts Y m i : increasing ts -> shaped (length ts) m Y -> (i < length ts)%nat ->
  interp_2d ts Y (vnth ts i) = Ok (mrow i Y).
Proof.
  intros I S Hi. unfold interp_2d. rewrite (shaped_length _ _ _ S), Nat.eqb_refl. cbn [negb].
  unfold np_interp_rows. destruct ts as [|t0 ts]; [simpl in Hi; lia|].
  destruct Y as [|y0 Y]; [destruct S; discriminate|]. cbn [combine]. f_equal.
  destruct S as [L F]. simpl in L. injection L as L.
  apply (np_interp_node t0 y0 (combine ts Y) m).
  - now inversion F.
  - intros t y K. apply in_combine_r in K. inversion F as [|? ? _ F']; subst. rewrite Forall_forall in F'. auto.
  - replace (map fst (combine ts Y)) with ts; [now apply increasing_cons_from|].
    clear - L. revert Y L. induction ts; intros [|y Y] L; simpl in *; try discriminate; auto.
    f_equal. apply IHts. lia.
  - change ((t0, y0) :: combine ts Y) with (combine (t0 :: ts) (y0 :: Y)).
    unfold vnth, mrow. rewrite <- (combine_nth (t0 :: ts) (y0 :: Y) i 0 []) by (simpl; lia).
    apply nth_In. rewrite combine_length. simpl in *. lia.
Qed.

Lemma count_below (l : vec) i : increasing l -> (i < length l)%nat ->
  length (filter (fun s => if Rlt_dec s (vnth l i) then true else false) l) = i.
Proof.
  revert i. induction l as [|a l IH]; intros i I Hi; [simpl in Hi; lia|].
  assert (Il : increasing l) by (intros j k H; apply (I (S j) (S k)); simpl in *; lia).
  destruct i as [|i].
  - simpl. unfold vnth at 1. simpl. destruct (Rlt_dec a a) as [K|_]; [lra|].
    assert (Z : forall s, In s l -> a < s).
    { intros s Hs. destruct (In_nth _ _ 0 Hs) as (k & Hk & <-). apply (I 0 (S k))%nat. simpl. lia. }
    clear IH Hi Il I. induction l as [|b l IH]; [reflexivity|]. simpl. unfold vnth; simpl.
    destruct (Rlt_dec b a) as [K|_]; [specialize (Z b (or_introl eq_refl)); lra|].
    apply IH. intros s Hs. apply Z. now right.
  - simpl. change (vnth (a :: l) (S i)) with (vnth l i).
    destruct (Rlt_dec a (vnth l i)) as [_|K].
    + simpl. f_equal. apply IH; [exact Il|simpl in Hi; lia].
    + exfalso. apply K. apply (I 0 (S i))%nat. simpl in *. lia.
Qed.

Section Scheme.
Variable rr : list R -> list R.
Hypothesis OK : real_roots_ok rr.

Lemma find_der_ok xp yp m i : increasing xp -> shaped (length xp) m yp -> (2 <= length xp)%nat -> (i < length xp)%nat ->
  exists d, find_der_polyline (vnth xp i) xp yp = Ok d.
Proof.
  intros I S L Hi. unfold find_der_polyline, searchsorted. rewrite (count_below xp i I Hi).
  rewrite (shaped_length _ _ _ S), Nat.eqb_refl. cbn [negb].
  destruct (Nat.leb_spec (length xp - 1) (i - 1)); [lia|]. eauto.
Qed.

Lemma times_incr taus t0 tf : t0 < tf -> increasing taus -> increasing (tau_to_t_points taus t0 tf).
Proof.
  intros H I i j Hij. rewrite times_length in Hij. rewrite !vnth_times by lia. rewrite !tau_to_t_affine.
  specialize (I i j Hij). apply Rplus_lt_compat_l, Rmult_lt_compat_l; lra.
Qed.
(** Linear interpolation of the states returns the node values at the node
    times, whenever the arrays are not extended. *)
Lemma lin_nodes s n t0 t1 qq vv uu m1 m3 U nd cl i :
  In s not_extended -> enough_points s n -> t0 < t1 -> (2 <= nodes_of s n)%nat ->
  shaped (nodes_of s n) m1 qq -> shaped (nodes_of s n) m1 vv -> shaped n m3 uu ->
  node_points rr (nodes_of s n) s = Ok nd -> coll_points rr n s 2 = Ok cl ->
  length U = m3 -> traj_through (tau_to_t_points cl t0 t1) uu U -> (i < nodes_of s n)%nat ->
  exists qd vd z, interpolations_pseudospectral rr qq vv uu s t0 t1 "pol" "lin" (vnth (tau_to_t_points nd t0 t1) i)
    = Ok (mrow i qq, qd, mrow i vv, vd, z, state_at U (vnth (tau_to_t_points nd t0 t1) i)).
Proof.
  intros HN E T L2 Sq Sv Su En Ec LU TU Hi.
  assert (H : In s all_schemes) by (cbv in HN; cbv; tauto).
  destruct (nodes_shape rr OK s n H E) as (c & S & Ec' & _ & En').
  rewrite En in En'. injection En' as ->. rewrite Ec in Ec'. injection Ec' as ->.
  assert (Ln : length (with_ends (nstarts s) (nends s) c) = nodes_of s n).
  { rewrite with_ends_length. unfold nodes_of. destruct S as [-> _]. reflexivity. }
  assert (Lc : length (with_ends (starts s) (ends s) c) = n).
  { rewrite with_ends_length. destruct S as [-> _]. now apply enough_length. }
  assert (I1 := with_ends_incr (nstarts s) (nends s) _ _ S).
  assert (N2 := with_ends_NoDup (starts s) (ends s) _ _ S).
  assert (Pn : (0 < n)%nat) by (destruct E; lia).
  unfold interpolations_pseudospectral. cbn [String.eqb Ascii.eqb Bool.eqb].
  unfold get_pol_u. rewrite (shaped_length _ _ _ Su), Ec. cbn [rbind].
  assert (X : extend_x_arrays rr qq vv s = Ok (with_ends (nstarts s) (nends s) c, qq, vv)).
  { unfold extend_x_arrays. rewrite (shaped_length _ _ _ Sq), En.
    cbv [not_extended In] in HN.
    repeat (destruct HN as [<-|HN]; [reflexivity|]). destruct HN. }
  rewrite X. cbn [rbind].
  set (nd := with_ends (nstarts s) (nends s) c) in *. set (cl := with_ends (starts s) (ends s) c) in *.
  rewrite <- Ln in Sq, Sv, Hi, L2. rewrite <- Lc in Su, Pn.
  rewrite (bary_time cl t0 t1 N2 Pn ltac:(lra) uu m3 U _ Su LU TU).
  rewrite vnth_times by exact Hi. rewrite tau_to_t_back by lra.
  rewrite (interp_2d_node nd qq m1 i I1 Sq Hi), (interp_2d_node nd vv m1 i I1 Sv Hi). cbn [rbind].
  assert (CP : map (fun x => t0 + (1 + x) * (t1 - t0) / 2) nd = tau_to_t_points nd t0 t1).
  { unfold tau_to_t_points. apply map_ext. intros a. unfold tau_to_t. field. }
  rewrite CP. rewrite <- (vnth_times nd t0 t1 i Hi).
  assert (I3 := times_incr nd t0 t1 T I1). rewrite <- (times_length nd t0 t1) in Sq, Sv, L2, Hi.
  destruct (find_der_ok _ qq m1 i I3 Sq L2 Hi) as [qd ->]. cbn [rbind].
  destruct (find_der_ok _ vv m1 i I3 Sv L2 Hi) as [vd ->]. cbn [rbind].
  repeat eexists.
Qed.

(** Linear interpolation of the controls fails for every scheme that has more
    nodes than collocation points. *)
Lemma run_cols_total f X : (exists g, forall coefs, length coefs = length X -> run_extreme f coefs = Ok (g coefs)) ->
  exists r, run_extreme_cols f X = Ok r.
Proof.
  intros [g G]. unfold run_extreme_cols. exists (map (fun j => g (mcol j X)) (seq 0 (mwidth X))).
  apply mapm_some. intros j _. apply G. apply mcol_length.
Qed.
Lemma extreme_total ts p f X : NoDup ts -> extreme_at ts p f -> length X = length ts -> exists r, run_extreme_cols f X = Ok r.
Proof.
  intros ND F L. apply run_cols_total. exists (fun coefs => peval (lagr_interp ts coefs) p).
  intros coefs Lc. apply F; [lia|]. now apply lagr_interp_ok.
Qed.
Lemma coll_points_shape s N o ts : In s all_schemes -> enough_points s N -> coll_points rr N s o = Ok ts ->
  NoDup ts /\ length ts = N.
Proof.
  intros H E Ec. destruct (coll_points_ok rr OK s N o H E) as (c & Ec' & L & I & _).
  rewrite Ec in Ec'. injection Ec' as ->. split; [now apply increasing_NoDup|exact L].
Qed.
Lemma lin_controls_fail s n t0 t1 qq vv uu m1 m3 x_interp t :
  In s all_schemes -> enough_points s n -> nodes_of s n <> n ->
  shaped (nodes_of s n) m1 qq -> shaped n m3 uu ->
  interpolations_pseudospectral rr qq vv uu s t0 t1 "lin" x_interp t = Err ValueError.
Proof.
  intros H E D Sq Su. unfold interpolations_pseudospectral. cbn [String.eqb Ascii.eqb Bool.eqb].
  rewrite (shaped_length _ _ _ Sq).
  destruct (extreme_u_start rr OK s n 2 H E) as (ts & f & Et & Ef & F).
  destruct (extreme_u_end rr OK s n 2 H E) as (ts' & f' & Et' & Ef' & F').
  rewrite Et in Et'. injection Et' as <-.
  destruct (coll_points_shape s n 2 ts H E Et) as [ND Lt].
  assert (Lu := shaped_length _ _ _ Su).
  destruct (extreme_total ts (-1) f uu ND F ltac:(lia)) as [r0 R0].
  destruct (extreme_total ts 1 f' uu ND F' ltac:(lia)) as [r1 R1].
  assert (PN := nodes_of_pos s n H E).
  assert (E2 : enough_points s (nodes_of s n)).
  { split; [lia|]. intros Hl. exfalso. apply D. unfold nodes_of. destruct E as [_ E]. specialize (E Hl).
    cbv in Hl. destruct Hl as [<-|[<-|[<-|[<-|[]]]]]; cbn; lia. }
  destruct (coll_points_ok rr OK s (nodes_of s n) 2 H E2) as (tu & Eu & Ltu & _).
  unfold extend_u_array. rewrite Eu. cbn [rbind]. rewrite Lu, Ef. cbn [rbind]. rewrite R0. cbn [rbind].
  rewrite Ef'. cbn [rbind]. rewrite R1. cbn [rbind].
  assert (N1 : forall a b : list R, forall x y : mat, (length a + length b = length x + length y)%nat ->
    length (a ++ tu ++ b) <> length (x ++ uu ++ y)).
  { intros. rewrite !app_length. lia. }
  assert (N2 : interp_2d ([-1] ++ tu ++ [1]) ([r0] ++ uu ++ [r1]) (t_to_tau t t0 t1) = Err ValueError).
  { unfold interp_2d. rewrite (proj2 (Nat.eqb_neq _ _) (N1 [-1] [1] [r0] [r1] eq_refl)). reflexivity. }
  assert (N3 : interp_2d (tu ++ [1]) (uu ++ [r1]) (t_to_tau t t0 t1) = Err ValueError).
  { assert (K := N1 [] [1] [] [r1] eq_refl). cbn [app] in K.
    unfold interp_2d. rewrite (proj2 (Nat.eqb_neq _ _) K). reflexivity. }
  assert (N4 : interp_2d ([-1] ++ tu) ([r0] ++ uu) (t_to_tau t t0 t1) = Err ValueError).
  { assert (K := N1 [-1] [] [r0] [] eq_refl). rewrite !app_nil_r in K.
    unfold interp_2d. rewrite (proj2 (Nat.eqb_neq _ _) K). reflexivity. }
  assert (N5 : interp_2d tu uu (t_to_tau t t0 t1) = Err ValueError).
  { assert (K := N1 [] [] [] [] eq_refl). rewrite !app_nil_r in K. cbn [app] in K.
    unfold interp_2d. rewrite (proj2 (Nat.eqb_neq _ _) K). reflexivity. }
  destruct (mem s ["LG2"; "LG"; "JG"; "LG_inv"; "LGLm"; "CG"; "CG_inv"]%string);
    [cbn [rbind]; now rewrite N2|].
  destruct (mem s ["LGR"; "JGR"; "CGR"]%string); [cbn [rbind]; now rewrite N3|].
  destruct (mem s ["LGR_inv"; "JGR_inv"; "CGR_inv"]%string); [cbn [rbind]; now rewrite N4|].
  destruct (mem s ["LGL"; "D2"; "JGL"; "CGL"]%string); [cbn [rbind]; now rewrite N5|].
  reflexivity.
Qed.

(** Problems of order 3 or more cannot be transcribed with the Gauss schemes. *)
Lemma apply_order3_fails dyn p w : In (ps_scheme p) (gauss_schemes ++ gauss_inv_schemes) ->
  enough_points (ps_scheme p) (ps_n_coll p) -> (2 < ps_order p)%nat ->
  apply_scheme rr dyn p w = Err ValueError.
Proof.
  intros H E O.
  assert (HA : In (ps_scheme p) all_schemes) by (cbv in H; cbv; tauto).
  assert (N2 : In (ps_scheme p) second_order_schemes -> ps_order p = 2%nat).
  { intros K. exfalso. cbv [second_order_schemes In] in K. cbv [gauss_schemes gauss_inv_schemes app In] in H.
    repeat (destruct K as [K|K]; [rewrite <- K in H; repeat (destruct H as [H|H]; [discriminate|]); destruct H|]). destruct K. }
  destruct (setup_shape rr OK p HA E N2) as (c & S & Ec & Ep & L & Es).
  assert (PN := nodes_of_pos _ _ HA E).
  unfold apply_scheme. rewrite Es. cbn [rbind pset_n_nodes pset_n_arr pset_D pset_tau pset_tau_node pset_tau_col pset_node].
  destruct (extreme_x_order3 rr (ps_scheme p) (nodes_of (ps_scheme p) (ps_n_coll p)) (ps_order p) O PN) as [X1 X2].
  apply in_app_or in H. destruct H as [H|H].
  - assert (M : mem (ps_scheme p) gauss_inv = false).
    { cbv [gauss_schemes In] in H. repeat (destruct H as [<-|H]; [reflexivity|]). destruct H. }
    rewrite M. cbn [rbind]. change (mem (ps_scheme p) gauss_like) with (mem (ps_scheme p) gauss_schemes).
    rewrite (proj2 (mem_In _ _) H), (X2 H). reflexivity.
  - change (mem (ps_scheme p) gauss_inv) with (mem (ps_scheme p) gauss_inv_schemes).
    rewrite (proj2 (mem_In _ _) H), (X1 H). reflexivity.
Qed.

(** ** Concrete sets *)
Lemma CGL_2 : CGL 2 = [-1; 1].
Proof.
  rewrite CGL_closed by lia. simpl. f_equal; [|f_equal].
  - replace (PI * 0 / (1 + 1 - 1)) with 0 by field. rewrite cos_0. ring.
  - replace (PI * 1 / (1 + 1 - 1)) with PI by field. rewrite cos_PI. ring.
Qed.
Lemma CGL_3 : CGL 3 = [-1; 0; 1].
Proof.
  rewrite CGL_closed by lia. simpl. f_equal; [|f_equal; [|f_equal]].
  - replace (PI * 0 / (1 + 1 + 1 - 1)) with 0 by field. rewrite cos_0. ring.
  - replace (PI * 1 / (1 + 1 + 1 - 1)) with (PI / 2) by field. rewrite cos_PI2. ring.
  - replace (PI * (1 + 1) / (1 + 1 + 1 - 1)) with PI by field. rewrite cos_PI. ring.
Qed.
Lemma CG_1 : CG 1 = [0].
Proof.
  rewrite CG_closed. simpl. f_equal. replace (PI * (2 * 0 + 1) / 1 / 2) with (PI / 2) by field.
  rewrite cos_PI2. ring.
Qed.
Lemma jacobi_1 a b x : peval (jacobi 1 a b) x = INR (a + 1) + INR (a + b + 2) * ((x - 1) / 2).
Proof.
  assert (B0 : forall n, binom n 0 = 1%nat) by (intros [|n]; reflexivity).
  assert (B1 : forall n, binom n 1 = n).
  { induction n as [|n IH]; [reflexivity|]. cbn [binom]. rewrite B0, IH. lia. }
  unfold jacobi. cbn [seq map fold_right]. rewrite !peval_padd, !peval_pscale, !peval_pmul.
  replace (1 - 0)%nat with 1%nat by lia. replace (1 - 1)%nat with 0%nat by lia.
  rewrite !B0, !B1, !Nat.mul_1_r, !Nat.mul_1_l. cbn [ppow]. rewrite !peval_pmul.
  replace (a + b + 2)%nat with ((1 + a) + (1 + b))%nat by lia. rewrite (plus_INR (1 + a)).
  replace (a + 1)%nat with (1 + a)%nat by lia. simpl peval. field.
Qed.
Lemma rr_linear (c : list R) r k : (length c <= 2)%nat -> k <> 0 -> (forall x, peval c x = k * (x - r)) -> rr c = [r].
Proof.
  intros L K E. apply real_roots_char; [exact OK| | |simpl; lia|].
  - intros i j H. simpl in H. lia.
  - intros x [<-|[]]. rewrite E. ring.
  - exists (r + 1). rewrite E. replace (k * (r + 1 - r)) with k by ring. exact K.
Qed.
Lemma JGR_2 : JGR rr 2 1 = [-1; 1 / 3] /\ JGR rr 2 2 = [-1; 0].
Proof.
  unfold JGR. split; cbn [Nat.sub].
  - rewrite (rr_linear (jacobi 1 0 1) (1 / 3) (3 / 2)); [reflexivity| |lra|].
    + rewrite jacobi_length. lia.
    + intros x. rewrite jacobi_1. simpl. field.
  - rewrite (rr_linear (jacobi 1 1 1) 0 2); [reflexivity| |lra|].
    + rewrite jacobi_length. lia.
    + intros x. rewrite jacobi_1. simpl. field.
Qed.

(** With a Jacobi scheme and an order other than 2, the control at the end is
    not the value of the polynomial through the collocation controls. *)
Definition ex_jacobi : ps_problem :=
  {| ps_scheme := "JGR"; ps_n_coll := 2; ps_order := 1; ps_n_q := 1; ps_t_start := 0; ps_t_end := 1 |}.
Lemma interp_line a b ya yb c : a <> b -> interpolates [a; b] [ya; yb] c ->
  forall x, peval c x = ya + (yb - ya) / (b - a) * (x - a).
Proof.
  intros H I x. rewrite (interpolates_unique [a; b] [ya; yb] c [ya - (yb - ya) / (b - a) * a; (yb - ya) / (b - a)]).
  - simpl. ring.
  - constructor; [|constructor; [easy|constructor]]. intros [K|[]]. now apply H.
  - exact I.
  - split; [simpl; lia|]. intros [|[|i]] Hi; unfold vnth; simpl; [ring|field; lra|simpl in Hi; lia].
Qed.
Lemma jacobi_end_control : exists s, opti_setup rr ex_jacobi = Ok s /\
  u_e rr ex_jacobi [[0]; [1]] = Ok [3 / 2] /\
  forall U, interpolates (t_of ex_jacobi (pset_tau_col s)) [0; 1] U -> peval U 1 = 2.
Proof.
  assert (HA : In "JGR"%string all_schemes) by (cbv; tauto).
  assert (HE : enough_points "JGR" 2).
  { split; [lia|]. intros _. lia. }
  destruct (setup_shape rr OK ex_jacobi HA HE) as (c & S & Ec & Ep & L & Es).
  { intros K. exfalso. cbv [ex_jacobi ps_scheme second_order_schemes In] in K. repeat (destruct K as [K|K]; [discriminate|]). destruct K. }
  eexists. split; [exact Es|]. split.
  - unfold u_e. change (mem (ps_scheme ex_jacobi) (radau_inv ++ lobato_like ++ ["D2"%string])) with false. cbv iota.
    destruct (extreme_u_end rr OK "JGR" 2 1 HA HE) as (ts & f & Et & Ef & F).
    change (ps_scheme ex_jacobi) with "JGR"%string. change (ps_n_coll ex_jacobi) with 2%nat. change (ps_order ex_jacobi) with 1%nat.
    rewrite Ef. cbn [rbind].
    assert (Ets : ts = [-1; 1 / 3]).
    { cbv [coll_points mem existsb String.eqb Ascii.eqb Bool.eqb orb] in Et. rewrite (proj1 JGR_2) in Et. now injection Et as <-. }
    subst ts. unfold run_extreme_cols. cbn [mwidth hd length seq mapm mcol map].
    assert (I : interpolates [-1; 1 / 3] [0; 1] [3 / 4; 3 / 4]).
    { split; [simpl; lia|]. intros [|[|i]] Hi; unfold vnth; simpl; [lra|lra|simpl in Hi; lia]. }
    unfold vnth. cbn [nth]. rewrite (F [0; 1] [3 / 4; 3 / 4] eq_refl I). cbn [rbind].
    do 2 f_equal. simpl. lra.
  - cbn [pset_tau_col]. intros U I.
    assert (Ew : coll_points rr 2 "JGR" 2 = Ok [-1; 0]).
    { cbv [coll_points mem existsb String.eqb Ascii.eqb Bool.eqb orb]. now rewrite (proj2 JGR_2). }
    change (ps_n_coll ex_jacobi) with 2%nat in Ec. change (ps_scheme ex_jacobi) with "JGR"%string in *.
    rewrite Ew in Ec.
    assert (Ew2 : with_ends (starts "JGR") (ends "JGR") c = [-1; 0]) by congruence.
    rewrite Ew2 in I. unfold t_of, tau_to_t_points in I.
    cbn [map ex_jacobi ps_t_start ps_t_end] in I.
    replace (tau_to_t (-1) 0 1) with 0 in I by (unfold tau_to_t; field).
    replace (tau_to_t 0 0 1) with (1 / 2) in I by (unfold tau_to_t; field).
    rewrite (interp_line 0 (1/2) 0 1 U ltac:(lra) I). field.
Qed.

(** The start derivative is taken at the middle. *)
Lemma diff_start_wrong : exists coefs c, node_points rr 3 "CGL" = Ok [-1; 0; 1] /\
  interpolates [-1; 0; 1] coefs c /\ diff_start_p_fun rr 3 "CGL" coefs = Ok 0 /\ Derive (peval c) (-1) = -2.
Proof.
  assert (E : node_points rr 3 "CGL" = Ok [-1; 0; 1]).
  { cbv [node_points coll_points mem existsb String.eqb Ascii.eqb Bool.eqb orb gauss_like gauss_inv gauss_2 radau_like radau_inv lobato_like other_schemes map app String.append].
    now rewrite CGL_3. }
  assert (I : interpolates [-1; 0; 1] [1; 0; 1] [0; 0; 1]).
  { split; [simpl; lia|]. intros [|[|[|i]]] Hi; unfold vnth; simpl; [lra|lra|lra|simpl in Hi; lia]. }
  assert (ND : NoDup [-1; 0; 1]).
  { repeat constructor; simpl; intuition; lra. }
  exists [1; 0; 1], [0; 0; 1]. split; [exact E|]. split; [exact I|]. split.
  - rewrite (diff_start_at_0 rr 3 "CGL" [-1; 0; 1] [1; 0; 1] [0; 0; 1] E ND eq_refl I). f_equal. rewrite Derive_peval. unfold pderiv. simpl. ring.
  - rewrite Derive_peval. unfold pderiv. simpl. ring.
Qed.

(** Linear interpolation with CG_inv: the last sample is replaced by the value
    extrapolated to the start. *)
Lemma node_CG_inv : node_points rr 2 "CG_inv" = Ok [0; 1].
Proof.
  cbv [node_points coll_points mem existsb String.eqb Ascii.eqb Bool.eqb orb gauss_like gauss_inv gauss_2 radau_like radau_inv lobato_like other_schemes map app String.append].
  cbn [Nat.sub rbind]. now rewrite CG_1.
Qed.
Lemma lin_inv_wrong : exists qd v vd z u,
  interpolations_pseudospectral rr [[0]; [1]] [[0]; [0]] [[0]] "CG_inv" 0 1 "pol" "lin" 1
    = Ok ([-1], qd, v, vd, z, u).
Proof.
  assert (HA : In "CG_inv"%string all_schemes) by (cbv; tauto).
  assert (HE : enough_points "CG_inv" 1).
  { split; [lia|]. intros K. exfalso. cbv [lobatto_schemes In] in K. repeat (destruct K as [K|K]; [discriminate|]). destruct K. }
  unfold interpolations_pseudospectral. cbn [String.eqb Ascii.eqb Bool.eqb].
  unfold get_pol_u. cbn [length].
  assert (Ec : coll_points rr 1 "CG_inv" 2 = Ok [0]).
  { cbv [coll_points mem existsb String.eqb Ascii.eqb Bool.eqb orb]. now rewrite CG_1. }
  rewrite Ec. cbn [rbind].
  destruct (extreme_x_start rr OK "CG_inv" 1 2 HA HE (fun _ => le_n 2)) as (ts & f & Et & Ef & F).
  change (nodes_of "CG_inv" 1) with 2%nat in *. rewrite node_CG_inv in Et. injection Et as <-.
  unfold extend_x_arrays. cbn [length].
  change (mem "CG_inv" ["LG"; "CG"]%string) with false. change (mem "CG_inv" ["LG_inv"; "CG_inv"]%string) with true. cbv iota.
  rewrite node_CG_inv. cbn [rbind]. rewrite Ef. cbn [rbind].
  assert (I1 : interpolates [0; 1] [0; 1] [0; 1]).
  { split; [simpl; lia|]. intros [|[|i]] Hi; unfold vnth; simpl; [lra|lra|simpl in Hi; lia]. }
  assert (I2 : interpolates [0; 1] [0; 0] [0; 0]).
  { split; [simpl; lia|]. intros [|[|i]] Hi; unfold vnth; simpl; [lra|lra|simpl in Hi; lia]. }
  unfold run_extreme_cols. cbn [mwidth hd length seq mapm mcol map vnth nth].
  rewrite (F [0; 1] [0; 1] eq_refl I1). cbn [rbind].
  rewrite (F [0; 0] [0; 0] eq_refl I2). cbn [rbind app].
  replace (t_to_tau 1 0 1) with 1 by (unfold t_to_tau; field).
  unfold interp_2d. cbn [length Nat.eqb negb]. unfold np_interp_rows. cbn [combine np_interp].
  destruct (Rle_dec 1 (-1)) as [K|_]; [lra|]. destruct (Rle_dec 1 0) as [K|_]; [lra|].
  destruct (Rle_dec 1 1) as [_|K]; [|lra]. cbn [rbind].
  unfold find_der_polyline, searchsorted. cbn [map filter].
  destruct (Rlt_dec (0 + (1 + -1) * (1 - 0) / 2) 1) as [_|K]; [|lra].
  destruct (Rlt_dec (0 + (1 + 0) * (1 - 0) / 2) 1) as [_|K]; [|lra].
  destruct (Rlt_dec (0 + (1 + 1) * (1 - 0) / 2) 1) as [K|_]; [lra|].
  cbn [length Nat.sub Nat.eqb negb Nat.leb rbind].
  assert (R : [1] +v ((1 - 0) / (1 - 0)) *v ([peval [0; 1] (-1)] -v [1]) = [-1]).
  { unfold vadd, vsub, vscale. simpl. f_equal. field. }
  rewrite R. repeat eexists.
Qed.

(** The slope returned for linear interpolation is per unit of tau. *)
Lemma lin_slope_wrong :
  interpolations_deriv_pseudospectral rr [[0]; [1]] "CGL" 0 0 1 "lin" 0 = Ok [0] /\
  interpolations_deriv_pseudospectral rr [[0]; [1]] "CGL" 0 0 1 "lin" 1 = Ok [1] /\
  interpolations_deriv_pseudospectral rr [[0]; [1]] "CGL" 1 0 1 "lin" (1 / 2) = Ok [1 / 2].
Proof.
  assert (E : node_points rr 2 "CGL" = Ok [-1; 1]).
  { cbv [node_points coll_points mem existsb String.eqb Ascii.eqb Bool.eqb orb gauss_like gauss_inv gauss_2 radau_like radau_inv lobato_like other_schemes map app String.append].
    now rewrite CGL_2. }
  unfold interpolations_deriv_pseudospectral. cbn [length]. rewrite E. cbn [rbind String.eqb Ascii.eqb Bool.eqb].
  replace (t_to_tau 0 0 1) with (-1) by (unfold t_to_tau; field).
  replace (t_to_tau 1 0 1) with 1 by (unfold t_to_tau; field).
  replace (t_to_tau (1 / 2) 0 1) with 0 by (unfold t_to_tau; field).
  split; [|split].
  - unfold interp_2d. cbn [length Nat.eqb negb]. unfold np_interp_rows. cbn [combine np_interp].
    destruct (Rle_dec (-1) (-1)) as [_|K]; [reflexivity|lra].
  - unfold interp_2d. cbn [length Nat.eqb negb]. unfold np_interp_rows. cbn [combine np_interp].
    destruct (Rle_dec 1 (-1)) as [K|_]; [lra|]. destruct (Rle_dec 1 1) as [_|K]; [|lra].
    f_equal. unfold vadd, vsub, vscale. simpl. f_equal. field.
  - unfold find_der_polyline, searchsorted. cbn [filter].
    destruct (Rlt_dec (-1) 0) as [_|K]; [|lra]. destruct (Rlt_dec 1 0) as [K|_]; [lra|].
    cbn [length Nat.sub Nat.eqb negb Nat.leb]. unfold mrow, vsub, vdivs, vnth. simpl. do 2 f_equal. field.
Qed.

(** dynamic_error_pseudospectral looks at the single time t = n_interp: here a
    trajectory that obeys the dynamics all over the horizon [0, 1] gets an error. *)
Definition ex_g (q v u : vec) : vec := [Rmax (vnth q 0 - 1) 0].
Lemma dynamic_error_wrong :
  (forall t, 0 <= t <= 1 ->
     interpolations_pseudospectral rr [[0]; [1]] [[1]; [1]] [[0]; [0]] "CGL" 0 1 "pol" "pol" t
       = Ok ([t], [1], [1], [0], [0], [0]) /\ ex_g [t] [1] [0] = [0]) /\
  dynamic_error_pseudospectral rr [[0]; [1]] [[1]; [1]] [[0]; [0]] "CGL" 0 1 "pol" "pol" ex_g 2
    = Ok ([0], [-1], [-1]).
Proof.
  assert (HA : In "CGL"%string all_schemes) by (cbv; tauto).
  assert (HE : enough_points "CGL" 2) by (split; intros; lia).
  assert (En : node_points rr 2 "CGL" = Ok [-1; 1]).
  { cbv [node_points coll_points mem existsb String.eqb Ascii.eqb Bool.eqb orb gauss_like gauss_inv gauss_2 radau_like radau_inv lobato_like other_schemes map app String.append].
    now rewrite CGL_2. }
  assert (Ec : coll_points rr 2 "CGL" 2 = Ok [-1; 1]).
  { cbv [coll_points mem existsb String.eqb Ascii.eqb Bool.eqb orb]. now rewrite CGL_2. }
  assert (TT : tau_to_t_points [-1; 1] 0 1 = [0; 1]).
  { unfold tau_to_t_points, tau_to_t. simpl. f_equal; [field|f_equal; field]. }
  assert (A : forall t, interpolations_pseudospectral rr [[0]; [1]] [[1]; [1]] [[0]; [0]] "CGL" 0 1 "pol" "pol" t
       = Ok ([t], [1], [1], [0], [0], [0])).
  { intros t.
    rewrite (interp_pol_ok rr OK "CGL" 2 0 1 _ _ _ 1 1 [[0; 1]] [[1]] [[0]] [-1; 1] [-1; 1] t HA HE); auto; try lra.
    - unfold state_at, rate_at, rate_n_at. cbn [map]. rewrite !Derive_n_peval, !Derive_peval. unfold pderiv. simpl.
      unfold pderiv. simpl. repeat (f_equal; try ring).
    - split; [reflexivity|]. repeat constructor.
    - split; [reflexivity|]. repeat constructor.
    - split; [reflexivity|]. repeat constructor.
    - rewrite TT. intros [|j] Hj; [|simpl in Hj; lia]. split; [simpl; lia|].
      intros [|[|i]] Hi; unfold vnth; simpl; unfold vnth; simpl; [ring|ring|simpl in Hi; lia].
    - rewrite TT. intros [|j] Hj; [|simpl in Hj; lia]. split; [simpl; lia|].
      intros [|[|i]] Hi; unfold vnth; simpl; unfold vnth; simpl; [ring|ring|simpl in Hi; lia].
    - rewrite TT. intros [|j] Hj; [|simpl in Hj; lia]. split; [simpl; lia|].
      intros [|[|i]] Hi; unfold vnth; simpl; unfold vnth; simpl; [ring|ring|simpl in Hi; lia]. }
  split.
  - intros t Ht. split; [apply A|]. unfold ex_g, vnth. simpl. rewrite Rmax_right by lra. reflexivity.
  - unfold dynamic_error_pseudospectral. rewrite A. cbn [rbind]. unfold ex_g, vnth, vsub. simpl.
    rewrite !Rmax_left by lra. repeat (f_equal; try ring).
Qed.
End Scheme.

(** ** A problem with a solution, for every scheme that takes order 1 *)
Definition ex_line (s : string) (n : nat) : ps_problem :=
  {| ps_scheme := s; ps_n_coll := n; ps_order := 1; ps_n_q := 1; ps_t_start := 1; ps_t_end := 3 |}.
Definition ex_dyn (x x_d u lam : vec) : vec := x_d -v u.
Lemma ex_line_solved rr s n : real_roots_ok rr -> In s all_schemes -> ~ In s second_order_schemes ->
  enough_points s n ->
  ps_valid (ex_line s n) /\
  exists st w cs, opti_setup rr (ex_line s n) = Ok st /\
    shaped (pset_n_arr st) 1 (pv_x w) /\ shaped (pset_n_arr st) 1 (pv_x_d w) /\
    apply_scheme rr ex_dyn (ex_line s n) w = Ok cs /\ satisfied cs /\ (n <= length cs)%nat /\
    mrow 0 (pv_x w) <> mrow (pset_n_arr st - 1) (pv_x w).
Proof.
  intros OK H NS E.
  assert (V : ps_valid (ex_line s n)).
  { split; [exact H|]. split; [exact E|]. cbn [ex_line ps_order ps_n_q ps_t_start ps_t_end ps_scheme].
    split; [lia|]. split; [lia|]. split; [lra|]. split; [contradiction|]. intros _. lia. }
  split; [exact V|].
  destruct (setup_shape rr OK (ex_line s n) H E ltac:(contradiction)) as (c & S & Ec & Ep & L & Es).
  cbn [ex_line ps_scheme ps_n_coll] in *.
  set (ts := t_of (ex_line s n) (with_ends true true c)).
  assert (Lt : length ts = (2 + length c)%nat).
  { unfold ts, t_of. rewrite times_length, with_ends_length. simpl. lia. }
  set (w := {| pv_x := map (fun t => [t]) ts; pv_x_d := map (fun _ => [1]) ts;
               pv_u := map (fun _ => [1]) (seq 0 n); pv_lam := [] |}).
  assert (Sx : shaped (2 + length c) 1 (pv_x w)).
  { split; [cbn [pv_x w]; now rewrite map_length|]. apply Forall_forall. intros r I.
    cbn [pv_x w] in I. apply in_map_iff in I. destruct I as (? & <- & _). reflexivity. }
  assert (Sd : shaped (2 + length c) 1 (pv_x_d w)).
  { split; [cbn [pv_x_d w]; now rewrite map_length|]. apply Forall_forall. intros r I.
    cbn [pv_x_d w] in I. apply in_map_iff in I. destruct I as (? & <- & _). reflexivity. }
  assert (RX : forall i, (i < 2 + length c)%nat -> mrow i (pv_x w) = [vnth ts i]).
  { intros i Hi. unfold mrow. cbn [pv_x w]. rewrite (nth_map' _ _ _ 0) by lia. reflexivity. }
  assert (RD : forall i, (i < 2 + length c)%nat -> mrow i (pv_x_d w) = [1]).
  { intros i Hi. unfold mrow. cbn [pv_x_d w]. rewrite (nth_map' _ _ _ 0) by lia. reflexivity. }
  assert (PS : forall t, state_at [[0; 1]] t = [t]) by (intros; unfold state_at; simpl; f_equal; ring).
  assert (PR : forall t, rate_at [[0; 1]] t = [1]).
  { intros. unfold rate_at. cbn [map]. rewrite Derive_peval. unfold pderiv. simpl. f_equal. ring. }
  destruct (apply_complete rr OK ex_dyn (ex_line s n) w _ [[0; 1]] V Es) as (cs & Ecs & Sat).
  - exact Sx.
  - exact Sd.
  - reflexivity.
  - cbn [pset_n_nodes pset_tau pset_tau_col ex_line ps_n_q ps_scheme]. fold ts.
    assert (NP : (2 <= nodes_of s n)%nat).
    { unfold nodes_of. destruct E as [E1 E2]. clear - H NS E1 E2.
      scheme_cases H; try (exfalso; apply NS; cbv; tauto);
        try (assert (2 <= n)%nat by (apply E2; cbv; tauto)); cbn; lia. }
    split; [repeat constructor; simpl; lia|]. split; [|split].
    + rewrite Lt. intros i Hi. rewrite RX, PS by exact Hi. reflexivity.
    + rewrite Lt. intros i Hi. rewrite PR. rewrite mrow_lastcols.
      * now rewrite RD by exact Hi.
      * rewrite (shaped_length _ _ _ Sd). exact Hi.
    + intros k Hk. rewrite PR. unfold t_of in Hk. rewrite times_length, with_ends_length in Hk.
      destruct S as [Sl _]. rewrite Sl in Hk. rewrite (enough_length s n H E) in Hk.
      assert (RU : mrow k (pv_u w) = [1]).
      { unfold mrow. cbn [pv_u w]. rewrite (nth_map' _ _ _ 0%nat) by now rewrite seq_length. reflexivity. }
      rewrite RU. unfold ex_dyn, vsub. simpl. constructor; [ring|constructor].
  - cbn [pset_n_arr pset_tau]. intros i Hi. rewrite PR. now apply RD.
  - intros K. contradiction.
  - eexists. exists w, cs. split; [exact Es|]. cbn [pset_n_arr]. split; [exact Sx|]. split; [exact Sd|].
    split; [exact Ecs|]. split; [exact Sat|]. split.
    + unfold apply_scheme in Ecs. rewrite Es in Ecs. cbn [rbind] in Ecs.
      destruct (if mem s gauss_inv then _ else _) as [c2|] in Ecs; [|discriminate]. cbn [rbind] in Ecs.
      destruct (if mem s gauss_like then _ else _) as [c3|] in Ecs; [|discriminate]. cbn [rbind] in Ecs.
      injection Ecs as <-. rewrite !app_length, map_length, seq_length. cbn [ex_line ps_n_coll]. lia.
    + rewrite !RX by lia. intros K. injection K as K.
      unfold ts, t_of in K. rewrite !vnth_times in K by (rewrite with_ends_length; simpl; lia).
      apply tau_to_t_inj in K; [|cbn; lra]. rewrite with_ends_first in K.
      replace (Datatypes.S (length c)) with (length (with_ends true true c) - 1)%nat in K
        by (rewrite with_ends_length; simpl; lia).
      rewrite with_ends_last in K. lra.
Qed.
