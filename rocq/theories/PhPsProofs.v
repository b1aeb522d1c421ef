(** The constraints of one pseudospectral segment (C40). *)
From Coq Require Import String.
From Coquelicot Require Import Coquelicot.
From Verif Require Import Prelude PreludeFacts Poly PolyFacts PolyInterp Mat MatFacts
  PwInterpModel PsModel JacobiFacts PsSpec PsPointsProofs PsBaryProofs PsNodesProofs PsProblemProofs PsApplyProofs PsInterpProofs
  UtilModel UtilSpec GaussFacts UtilProofs BuTdModel BuTdSpec BuTdFacts BuTdProofs BuTdApplyProofs PhModel PhSpec PhProofs PhSegProofs PhBtProofs.
Open Scope R_scope.
Open Scope vec_scope.
Open Scope list_scope.

Lemma pick_head_last (b1 b2 : bool) (a : vec) (col : mat) (e : vec) : (1 <= length col)%nat ->
  let X := (if b1 then [a] else []) ++ col ++ (if b2 then [e] else [] : mat) in
  mrow 0 X = (if b1 then a else mrow 0 col) /\ mrow (length X - 1) X = (if b2 then e else mrow (length col - 1) col).
Proof.
  intros L. cbv zeta. split.
  - destruct b1; [reflexivity|]. cbn [app]. unfold mrow. now rewrite app_nth1 by lia.
  - unfold mrow. rewrite app_assoc. destruct b2.
    + rewrite app_length. cbn [length]. rewrite app_nth2 by lia.
      match goal with |- nth ?k _ _ = _ => replace k with 0%nat by lia end. reflexivity.
    + rewrite app_nil_r, app_length. rewrite app_nth2; destruct b1; cbn [length]; try lia; f_equal; lia.
Qed.
Lemma with_ends_nest (l r l' r' : bool) c : (l = true -> l' = true) -> (r = true -> r' = true) ->
  with_ends l' r' c = with_ends (l' && negb l) (r' && negb r) (with_ends l r c).
Proof.
  intros Hl Hr. destruct l, l'; try (specialize (Hl eq_refl); discriminate);
  destruct r, r'; try (specialize (Hr eq_refl); discriminate);
  unfold with_ends; cbn [negb andb app]; rewrite ?app_nil_r, <- ?app_assoc; reflexivity.
Qed.

(** The rows of the node array follow [f] when the points do and so do the ends. *)
Lemma node_rows_iff (f : R -> vec) (b1 b2 : bool) (taus : vec) (s e : vec) (col : mat) t0 t1 : length col = length taus ->
  let X := (if b1 then [s] else []) ++ col ++ (if b2 then [e] else [] : mat) in
  let ts := tau_to_t_points (with_ends b1 b2 taus) t0 t1 in
  (forall i, (i < length (with_ends b1 b2 taus))%nat -> mrow i X = f (vnth ts i)) <->
  (forall k, (k < length taus)%nat -> mrow k col = f (vnth (tau_to_t_points taus t0 t1) k)) /\
  (b1 = true -> s = f t0) /\ (b2 = true -> e = f t1).
Proof.
  intros L. cbv zeta.
  assert (T : forall i, (i < length (with_ends b1 b2 taus))%nat ->
    vnth (tau_to_t_points (with_ends b1 b2 taus) t0 t1) i = tau_to_t (vnth (with_ends b1 b2 taus) i) t0 t1) by (intros; now apply vnth_times).
  assert (LW : length (with_ends b1 b2 taus) = (b2n b1 + length taus + b2n b2)%nat) by apply with_ends_length.
  assert (V : forall k, (k < length taus)%nat -> vnth (with_ends b1 b2 taus) (b2n b1 + k) = vnth taus k).
  { intros k Hk. unfold with_ends, vnth. destruct b1; cbn [b2n app Nat.add nth]; now rewrite app_nth1. }
  assert (RX : forall k, (k < length taus)%nat ->
    mrow (b2n b1 + k) ((if b1 then [s] else []) ++ col ++ (if b2 then [e] else [] : mat)) = mrow k col).
  { intros k Hk. unfold mrow. destruct b1; cbn [b2n app Nat.add nth]; rewrite app_nth1 by lia; reflexivity. }
  split.
  - intros H. split; [|split].
    + intros k Hk. rewrite <- RX by exact Hk. rewrite H, T, V by lia. now rewrite vnth_times.
    + intros ->. specialize (H 0%nat ltac:(simpl; lia)). rewrite T in H by (simpl; lia).
      cbn in H. unfold mrow in H. cbn [nth] in H. rewrite H. f_equal. apply tau_start.
    + intros ->. specialize (H (length (with_ends b1 true taus) - 1)%nat ltac:(rewrite LW; simpl; lia)).
      rewrite T, with_ends_last, tau_end in H by (rewrite LW; simpl; lia). rewrite <- H. unfold mrow.
      rewrite app_assoc, app_nth2; rewrite app_length, LW; destruct b1; cbn [b2n length]; try lia;
      match goal with |- _ = nth ?k _ _ => replace k with 0%nat by lia end; reflexivity.
  - intros (H & H1 & H2) i Hi. rewrite T by exact Hi. rewrite LW in Hi.
    destruct (Nat.lt_ge_cases i (b2n b1)) as [C|C].
    + destruct b1; cbn [b2n] in C; [|lia]. assert (i = 0)%nat by lia. subst i.
      unfold mrow, with_ends, vnth. cbn [app nth]. rewrite tau_start. now apply H1.
    + destruct (Nat.lt_ge_cases (i - b2n b1) (length taus)) as [C2|C2].
      * replace i with (b2n b1 + (i - b2n b1))%nat by lia. rewrite RX, V by exact C2. rewrite H by exact C2. now rewrite vnth_times.
      * destruct b2; cbn [b2n] in Hi; [|lia]. assert (i = length (with_ends b1 true taus) - 1)%nat by (rewrite LW; simpl; lia).
        subst i. rewrite with_ends_last, tau_end, <- H2 by reflexivity. unfold mrow.
        rewrite app_assoc, app_nth2; rewrite app_length, LW; destruct b1; cbn [b2n length]; try lia;
        match goal with |- nth ?k _ _ = _ => replace k with 0%nat by lia end; reflexivity.
Qed.

(** The interpolation of the last derivatives is the derivative of the
    interpolation. *)
Lemma hi_state ts dn n m nq P PH t : NoDup ts -> length ts = n -> shaped n m dn -> (0 < nq)%nat -> (nq <= m)%nat ->
  length P = m -> length PH = nq -> (forall c, In c P -> (length c <= n)%nat) ->
  (forall i, (i < n)%nat -> mrow i dn = rate_at P (vnth ts i)) ->
  traj_through ts (mlastcols nq dn) PH -> state_at PH t = lastn nq (rate_at P t).
Proof.
  intros ND L S Q Mq LP LH B H TH.
  assert (LS : length (slice (m - nq) m P) = nq) by (rewrite slice_length; lia).
  destruct (traj_unique ts (mlastcols nq dn) PH (map pderiv (slice (m - nq) m P)) ND) with (t := t) as [K _].
  - now rewrite map_length, LS.
  - exact TH.
  - apply (traj_of_rows _ _ n nq); auto.
    + now apply (mlastcols_shaped _ m).
    + now rewrite map_length.
    + intros q I. apply in_map_iff in I. destruct I as (q' & <- & I). rewrite pderiv_length.
      assert (I' : In q' P).
      { unfold slice in I. rewrite <- (firstn_skipn (m - nq) P). apply in_or_app. right.
        rewrite <- (firstn_skipn (m - (m - nq)) (skipn (m - nq) P)). apply in_or_app. now left. }
      specialize (B q' I'). lia.
    + intros i Hi. rewrite mrow_lastcols by (destruct S; lia). rewrite H by exact Hi.
      rewrite rate_as_state, rate_at_slice, lastn_slice by exact Q. now rewrite rate_at_length, LP.
  - rewrite K, rate_as_state, rate_at_slice, lastn_slice by exact Q. now rewrite rate_at_length, LP.
Qed.
Lemma hi_traj ts dn n m nq P : length ts = n -> shaped n m dn -> (0 < nq)%nat -> (nq <= m)%nat ->
  length P = m -> (forall c, In c P -> (length c <= n)%nat) ->
  (forall i, (i < n)%nat -> mrow i dn = rate_at P (vnth ts i)) ->
  traj_through ts (mlastcols nq dn) (map pderiv (slice (m - nq) m P)).
Proof.
  intros L S Q Mq LP B H.
  assert (LS : length (slice (m - nq) m P) = nq) by (rewrite slice_length; lia).
  apply (traj_of_rows _ _ n nq); auto.
  - now apply (mlastcols_shaped _ m).
  - now rewrite map_length.
  - intros q I. apply in_map_iff in I. destruct I as (q' & <- & I). rewrite pderiv_length.
    assert (I' : In q' P).
    { unfold slice in I. rewrite <- (firstn_skipn (m - nq) P). apply in_or_app. right.
      rewrite <- (firstn_skipn (m - (m - nq)) (skipn (m - nq) P)). apply in_or_app. now left. }
    specialize (B q' I'). lia.
  - intros i Hi. rewrite mrow_lastcols by (destruct S; lia). rewrite H by exact Hi.
    rewrite rate_as_state, rate_at_slice, lastn_slice by exact Q. now rewrite rate_at_length, LP.
Qed.

Lemma sat_if (b : bool) cs : satisfied (if b then cs else []) <-> (b = true -> satisfied cs).
Proof. destruct b; [intuition|]. rewrite sat_nil. intuition discriminate. Qed.

(** What the constraints say about x_d at the two knots. *)
Definition knot_rates (p : ph_problem) (g : ph_segment) (P : mat) (t0 t1 : R) : Prop :=
  let s := ph_scheme p in let nq := ph_n_q p in
  let chain := fun x x_d : vec => skipn nq x = butlastn nq x_d in
  (nstarts s = true -> starts s = false \/ sg_first g = true -> sg_xds g = rate_at P t0) /\
  (nends s = true -> starts s = true \/ ends s = false \/ sg_last g = true -> sg_xde g = rate_at P t1) /\
  (nstarts s = false -> lastn nq (sg_xds g) = lastn nq (rate_at P t0) /\ (sg_first g = true -> chain (sg_xs g) (sg_xds g))) /\
  (nends s = false -> lastn nq (sg_xde g) = lastn nq (rate_at P t1) /\ (sg_last g = true -> chain (sg_xe g) (sg_xde g))) /\
  (In s second_order_schemes -> chain (sg_xs g) (sg_xds g) /\ (sg_last g = true -> chain (sg_xe g) (sg_xde g))).

Section Ps.
Variable rr : list R -> list R.
Hypothesis OK : real_roots_ok rr.
Variable dyn : vec -> vec -> vec -> vec -> vec.

Theorem ps_segment_iff p g t0 t1 lam : In (ph_scheme p) all_schemes -> ph_scheme p <> "D2"%string ->
  enough_points (ph_scheme p) (sg_n g) -> (1 <= ph_order p)%nat -> (1 <= ph_n_q p)%nat ->
  (In (ph_scheme p) (gauss_schemes ++ gauss_inv_schemes) -> (ph_order p <= 2)%nat) ->
  good_segment p g t0 t1 ->
  exists col n cs, coll_points rr (sg_n g) (ph_scheme p) 2 = Ok col /\ length col = sg_n g /\
    n_col_to_n_nodes (ph_scheme p) (sg_n g) = Ok n /\ ps_segment rr p g = Ok cs /\
    (satisfied cs /\ seg_dyn dyn g lam <->
     exists P, state_motion_on dyn n (ph_order p * ph_n_q p) t0 t1 (sg_xs g) (sg_xe g) (tau_to_t_points col t0 t1)
         (fun k => mrow k (sg_x g)) (fun k => mrow k (sg_x_d g)) (fun k => mrow k (sg_u g)) lam P /\
       knot_rates p g P t0 t1).
Proof.
  intros H ND2 E O Q O3 G. destruct G as [Gh Gt Gx Gd G1 G2 G3 G4].
  unfold knot_rates. cbv zeta.
  set (s := ph_scheme p) in *. set (N := sg_n g) in *. set (m := (ph_order p * ph_n_q p)%nat) in *. set (nq := ph_n_q p) in *.
  destruct (nodes_shape rr OK s N H E) as (c & S & Ec & En & Ep).
  set (col := with_ends (starts s) (ends s) c) in *. set (taus := with_ends (nstarts s) (nends s) c) in *.
  assert (Lcol : length col = N).
  { unfold col. rewrite with_ends_length. destruct S as [-> _]. now apply enough_length. }
  assert (Ltaus : length taus = nodes_of s N).
  { unfold taus. rewrite with_ends_length. unfold nodes_of. destruct S as [-> _]. reflexivity. }
  assert (PL : (0 < length taus)%nat) by (rewrite Ltaus; now apply nodes_of_pos).
  assert (NDt : NoDup taus) by apply (with_ends_NoDup _ _ _ _ S).
  destruct (in_enough_starts_nodes s H) as [S1 S2].
  set (b1 := (nstarts s && negb (starts s))%bool). set (b2 := (nends s && negb (ends s))%bool).
  assert (Nest : taus = with_ends b1 b2 col) by (now apply with_ends_nest).
  assert (N1 : (1 <= N)%nat) by apply E.
  assert (LGX : length (sg_x g) = N) by apply Gx. assert (LGD : length (sg_x_d g) = N) by apply Gd.
  set (X := (if b1 then [sg_xs g] else []) ++ sg_x g ++ (if b2 then [sg_xe g] else [])).
  set (XD := (if b1 then [sg_xds g] else []) ++ sg_x_d g ++ (if b2 then [sg_xde g] else [])).
  assert (Mq : (nq <= m)%nat) by (unfold m; nia).
  assert (LW : length taus = (b2n b1 + N + b2n b2)%nat) by (rewrite Nest, with_ends_length, Lcol; reflexivity).
  assert (SX : shaped (length taus) m X).
  { rewrite LW. split; [unfold X; rewrite !app_length, LGX; destruct b1, b2; simpl; lia|].
    unfold X. rewrite !Forall_app. destruct Gx as [_ F]. destruct b1, b2; auto. }
  assert (SXD : shaped (length taus) m XD).
  { rewrite LW. split; [unfold XD; rewrite !app_length, LGD; destruct b1, b2; simpl; lia|].
    unfold XD. rewrite !Forall_app. destruct Gd as [_ F]. destruct b1, b2; auto. }
  assert (SH : shaped (length taus) nq (mlastcols nq XD)) by (apply (mlastcols_shaped _ m); auto; lia).
  set (ts := tau_to_t_points taus t0 t1).
  assert (NDs : NoDup ts) by (now apply times_NoDup).
  assert (Lts : length ts = length taus) by apply times_length.
  set (chain := fun x x_d : vec => ([skipn nq x], [butlastn nq x_d]) : constr).
  set (K := fun P PH : mat =>
    [(XD, mscale (2 / sg_h g) (mmul (Dmat taus) X))]
    ++ (if mem s second_order_schemes then [chain (sg_xs g) (sg_xds g)] ++ (if sg_last g then [chain (sg_xe g) (sg_xde g)] else []) else [])
    ++ (if starts s then [([sg_xs g], [mrow 0 X])] ++ (if sg_first g then [([sg_xds g], [mrow 0 XD])] else []) else [])
    ++ (if ends s then [([sg_xe g], [mrow (length X - 1) X])] else [])
    ++ (if starts s && ends s then [([sg_xde g], [mrow (length XD - 1) XD])] else [])
    ++ (if negb (starts s) && ends s && sg_last g then [([sg_xde g], [mrow (length XD - 1) XD])] else [])
    ++ (if negb (nstarts s) then [([sg_xs g], [state_at P t0]); ([lastn nq (sg_xds g)], [state_at PH t0])]
          ++ (if sg_first g then [chain (sg_xs g) (sg_xds g)] else []) else [])
    ++ (if negb (nends s) then [([sg_xe g], [state_at P t1]); ([lastn nq (sg_xde g)], [state_at PH t1])]
          ++ (if sg_last g then [chain (sg_xe g) (sg_xde g)] else []) else []) : list constr).
  assert (Shape : forall P PH, length P = m -> length PH = nq -> traj_through ts X P -> traj_through ts (mlastcols nq XD) PH ->
    ps_segment rr p g = Ok (K P PH)).
  { intros P PH LP LH TP TH. unfold ps_segment. fold s N nq. rewrite En. cbn [rbind].
    rewrite (matrix_D_bary_ok rr _ _ _ Ep Ltaus). cbn [rbind]. fold taus.
    assert (B1 : mem s (gauss_like ++ radau_inv ++ gauss_2) = b1).
    { unfold b1. clear - H ND2. revert H ND2. generalize s. intros s' H ND2. scheme_cases H; rewrite <- ?H; try reflexivity; congruence. }
    assert (B2 : mem s (gauss_inv ++ radau_like ++ gauss_2) = b2).
    { unfold b2. clear - H ND2. revert H ND2. generalize s. intros s' H ND2. scheme_cases H; rewrite <- ?H; try reflexivity; congruence. }
    assert (B3 : mem s gauss_2 = mem s second_order_schemes).
    { clear - H ND2. revert H ND2. generalize s. intros s' H ND2. scheme_cases H; rewrite <- ?H; try reflexivity; congruence. }
    assert (B4 : mem s (lobato_like ++ radau_like) = starts s).
    { clear - H ND2. revert H ND2. generalize s. intros s' H ND2. scheme_cases H; rewrite <- ?H; try reflexivity; congruence. }
    assert (B5 : mem s (lobato_like ++ radau_inv) = ends s).
    { clear - H ND2. revert H ND2. generalize s. intros s' H ND2. scheme_cases H; rewrite <- ?H; try reflexivity; congruence. }
    assert (B6 : mem s lobato_like = (starts s && ends s)%bool).
    { clear - H ND2. revert H ND2. generalize s. intros s' H ND2. scheme_cases H; rewrite <- ?H; try reflexivity; congruence. }
    assert (B7 : mem s radau_inv = (negb (starts s) && ends s)%bool).
    { clear - H ND2. revert H ND2. generalize s. intros s' H ND2. scheme_cases H; rewrite <- ?H; try reflexivity; congruence. }
    assert (B8 : mem s gauss_inv = negb (nstarts s)) by (unfold nstarts; rewrite Bool.negb_involutive; reflexivity).
    assert (B9 : mem s gauss_like = negb (nends s)) by (unfold nends; rewrite Bool.negb_involutive; reflexivity).
    rewrite B1, B2, B3, B4, B5, B6, B7, B8, B9. fold X XD.
    set (R7 := if negb (nstarts s) then _ else _).
    assert (E7 : R7 = Ok (if negb (nstarts s) then [([sg_xs g], [state_at P t0]); ([lastn nq (sg_xds g)], [state_at PH t0])]
          ++ (if sg_first g then [chain (sg_xs g) (sg_xds g)] else []) else [] : list constr)).
    { unfold R7. destruct (nstarts s) eqn:Z; cbn [negb]; [reflexivity|].
      destruct (extreme_x_start rr OK s N (ph_order p) H E) as (ts' & f & Et & Ef & F).
      { intros I. apply O3. apply in_or_app. now right. }
      rewrite Ep in Et. apply Ok_inj in Et. subst ts'. rewrite Ef. cbn [rbind].
      rewrite (run_cols_ok taus t0 t1 PL X m P _ f SX LP TP F). cbn [rbind].
      rewrite (run_cols_ok taus t0 t1 PL _ _ PH _ f SH LH TH F). cbn [rbind].
      rewrite tau_start. reflexivity. }
    rewrite E7. cbn [rbind].
    set (R8 := if negb (nends s) then _ else _).
    assert (E8 : R8 = Ok (if negb (nends s) then [([sg_xe g], [state_at P t1]); ([lastn nq (sg_xde g)], [state_at PH t1])]
          ++ (if sg_last g then [chain (sg_xe g) (sg_xde g)] else []) else [] : list constr)).
    { unfold R8. destruct (nends s) eqn:Z; cbn [negb]; [reflexivity|].
      destruct (extreme_x_end rr OK s N (ph_order p) H E) as (ts' & f & Et & Ef & F).
      { intros I. apply O3. apply in_or_app. now left. }
      rewrite Ep in Et. apply Ok_inj in Et. subst ts'. rewrite Ef. cbn [rbind].
      rewrite (run_cols_ok taus t0 t1 PL X m P _ f SX LP TP F). cbn [rbind].
      rewrite (run_cols_ok taus t0 t1 PL _ _ PH _ f SH LH TH F). cbn [rbind].
      rewrite tau_end. reflexivity. }
    rewrite E8. reflexivity. }
  destruct (pick_head_last b1 b2 (sg_xs g) (sg_x g) (sg_xe g) ltac:(lia)) as [HX0 HX1].
  destruct (pick_head_last b1 b2 (sg_xds g) (sg_x_d g) (sg_xde g) ltac:(lia)) as [HD0 HD1].
  fold X in HX0, HX1. fold XD in HD0, HD1. rewrite LGX in HX1. rewrite LGD in HD1.
  set (P0 := interp_traj ts m X). set (PH0 := interp_traj ts nq (mlastcols nq XD)).
  exists col, (nodes_of s N), (K P0 PH0).
  split; [exact Ec|]. split; [exact Lcol|]. split; [exact En|]. split.
  { apply Shape; [apply interp_traj_length|apply interp_traj_length|now apply interp_traj_ok|now apply interp_traj_ok]. }
  assert (NR : forall f, (forall i, (i < length taus)%nat -> mrow i X = f (vnth ts i)) <->
     (forall k, (k < N)%nat -> mrow k (sg_x g) = f (vnth (tau_to_t_points col t0 t1) k)) /\
     (b1 = true -> sg_xs g = f t0) /\ (b2 = true -> sg_xe g = f t1)).
  { intros f. pose proof (node_rows_iff f b1 b2 col (sg_xs g) (sg_xe g) (sg_x g) t0 t1 ltac:(lia)) as NI. cbv zeta in NI.
    rewrite <- Nest, Lcol in NI. exact NI. }
  assert (DR : forall f, (forall i, (i < length taus)%nat -> mrow i XD = f (vnth ts i)) <->
     (forall k, (k < N)%nat -> mrow k (sg_x_d g) = f (vnth (tau_to_t_points col t0 t1) k)) /\
     (b1 = true -> sg_xds g = f t0) /\ (b2 = true -> sg_xde g = f t1)).
  { intros f. pose proof (node_rows_iff f b1 b2 col (sg_xds g) (sg_xde g) (sg_x_d g) t0 t1 ltac:(lia)) as NI. cbv zeta in NI.
    rewrite <- Nest, Lcol in NI. exact NI. }
  assert (Vts : forall i, (i < length taus)%nat -> vnth ts i = tau_to_t (vnth taus i) t0 t1).
  { intros i Hi. now apply vnth_times. }
  assert (C0 : starts s = true -> vnth (tau_to_t_points col t0 t1) 0 = t0).
  { intros Z. rewrite vnth_times by lia. unfold col. rewrite Z, with_ends_first. apply tau_start. }
  assert (C1 : ends s = true -> vnth (tau_to_t_points col t0 t1) (N - 1) = t1).
  { intros Z. rewrite vnth_times by lia. rewrite <- Lcol. unfold col. rewrite Z, with_ends_last. apply tau_end. }
  assert (LTC : length (tau_to_t_points col t0 t1) = N) by (rewrite times_length; exact Lcol).
  assert (B1s : starts s = true -> b1 = false) by (intros Z; unfold b1; rewrite Z; apply Bool.andb_false_r).
  assert (B2s : ends s = true -> b2 = false) by (intros Z; unfold b2; rewrite Z; apply Bool.andb_false_r).
  (* the constraints, for polynomials through the nodes *)
  assert (Main : forall P PH, length P = m -> length PH = nq -> traj_through ts X P -> traj_through ts (mlastcols nq XD) PH ->
    (satisfied (K P PH) <->
     (forall k, (k < N)%nat -> mrow k (sg_x_d g) = rate_at P (vnth (tau_to_t_points col t0 t1) k)) /\
     (sg_xs g = state_at P t0 /\ sg_xe g = state_at P t1) /\
  (nstarts s = true -> starts s = false \/ sg_first g = true -> sg_xds g = rate_at P t0) /\
  (nends s = true -> starts s = true \/ ends s = false \/ sg_last g = true -> sg_xde g = rate_at P t1) /\
  (nstarts s = false -> lastn nq (sg_xds g) = lastn nq (rate_at P t0) /\ (sg_first g = true -> skipn nq (sg_xs g) = butlastn nq (sg_xds g))) /\
  (nends s = false -> lastn nq (sg_xde g) = lastn nq (rate_at P t1) /\ (sg_last g = true -> skipn nq (sg_xe g) = butlastn nq (sg_xde g))) /\
  (In s second_order_schemes -> skipn nq (sg_xs g) = butlastn nq (sg_xds g) /\ (sg_last g = true -> skipn nq (sg_xe g) = butlastn nq (sg_xde g))))).
  { intros P PH LP LH TP TH.
    assert (BP : forall q, In q P -> (length q <= length taus)%nat).
    { intros q I. rewrite <- Lts. now apply (traj_bound ts X P). }
    assert (RX : forall i, (i < length taus)%nat -> mrow i X = state_at P (vnth ts i)).
    { intros i Hi. now apply (traj_row ts X (length taus) m). }
    destruct (proj1 (NR (state_at P)) RX) as (RX1 & RX2 & RX3).
    assert (BF : XD = mscale (2 / sg_h g) (mmul (Dmat taus) X) <-> forall i, (i < length taus)%nat -> mrow i XD = rate_at P (vnth ts i)).
    { rewrite Gh. rewrite (block_first taus t0 t1 m X XD P NDt PL Gt SX SXD LP TP).
      split; intros A i Hi; specialize (A i Hi); rewrite Vts in * by exact Hi; exact A. }
    unfold K. rewrite !satisfied_app, sat_one, BF, DR. rewrite !sat_if. rewrite !satisfied_app, !sat_if.
    assert (SN : satisfied []) by constructor. assert (SN' : @Forall (mat * mat) (fun c => fst c = snd c) []) by constructor.
    rewrite !satisfied_cons. unfold chain. cbn [fst snd]. rewrite !single_eq.
    rewrite !Bool.andb_true_iff, !Bool.negb_true_iff. rewrite mem_In.
    rewrite HX0, HX1, HD0, HD1.
    assert (HS : (forall i, (i < length taus)%nat -> mrow i XD = rate_at P (vnth ts i)) -> forall t, state_at PH t = lastn nq (rate_at P t)).
    { intros A t. apply (hi_state ts XD (length taus) m nq P PH t); auto. }
    destruct (Bool.bool_dec (starts s) true) as [Zs|Zs]; destruct (Bool.bool_dec (ends s) true) as [Ze|Ze].
    all: try (apply Bool.not_true_is_false in Zs); try (apply Bool.not_true_is_false in Ze).
    all: try (assert (Hb1 := B1s Zs)); try (assert (Hb2 := B2s Ze)).
    all: try (assert (Hn1 := S1 Zs)); try (assert (Hn2 := S2 Ze)).
    all: try (assert (Hc0 := C0 Zs)); try (assert (Hc1 := C1 Ze)).
    all: try (assert (Hb1 : b1 = nstarts s) by (unfold b1; rewrite Zs; apply Bool.andb_true_r)).
    all: try (assert (Hb2 : b2 = nends s) by (unfold b2; rewrite Ze; apply Bool.andb_true_r)).
    all: rewrite Hb1, Hb2 in *; rewrite ?Zs, ?Ze, ?Hn1, ?Hn2 in *.
    (* lobatto *)
    - assert (X0 : mrow 0 (sg_x g) = state_at P t0) by (rewrite RX1, Hc0 by lia; reflexivity).
      assert (X1 : mrow (N - 1) (sg_x g) = state_at P t1) by (rewrite RX1, Hc1 by lia; reflexivity).
      rewrite X0, X1. split.
      + intros ((A & _) & B & D & F & F' & _). specialize (F' (conj eq_refl eq_refl)). specialize (F eq_refl).
        destruct (D eq_refl) as [D1 D2].
        assert (Y0 : mrow 0 (sg_x_d g) = rate_at P t0) by (rewrite A, Hc0 by lia; reflexivity).
        assert (Y1 : mrow (N - 1) (sg_x_d g) = rate_at P t1) by (rewrite A, Hc1 by lia; reflexivity).
        rewrite Y0 in D2. rewrite Y1 in F'. intuition (try discriminate).
      + intros (A & (B & B') & D & F & F1 & F2 & F3).
        assert (Y0 : mrow 0 (sg_x_d g) = rate_at P t0) by (rewrite A, Hc0 by lia; reflexivity).
        assert (Y1 : mrow (N - 1) (sg_x_d g) = rate_at P t1) by (rewrite A, Hc1 by lia; reflexivity).
        rewrite Y0, Y1. intuition (try discriminate).
    (* radau *)
    - assert (X0 : mrow 0 (sg_x g) = state_at P t0) by (rewrite RX1, Hc0 by lia; reflexivity).
      rewrite X0. split.
      + intros ((A & A1 & A2) & B & D & F & F' & F'' & _ & U).
        assert (HS' := HS (proj2 (DR (rate_at P)) (conj A (conj A1 A2)))).
        destruct (D eq_refl) as [D1 D2].
        assert (Y0 : mrow 0 (sg_x_d g) = rate_at P t0) by (rewrite A, Hc0 by lia; reflexivity).
        rewrite Y0 in D2. rewrite HS' in U. 
        assert (XEe : sg_xe g = state_at P t1) by (destruct (nends s); [now apply RX3|now apply U]).
        intuition (try discriminate).
      + intros (A & (B & B') & D & F & F1 & F2 & F3).
        assert (HS' : nends s = false -> state_at PH t1 = lastn nq (rate_at P t1)).
        { intros Z. apply HS, DR. repeat split; auto; rewrite ?Z; discriminate. }
        assert (Y0 : mrow 0 (sg_x_d g) = rate_at P t0) by (rewrite A, Hc0 by lia; reflexivity).
        rewrite Y0. intuition (try discriminate; try congruence).
    (* radau_inv *)
    - assert (X1 : mrow (N - 1) (sg_x g) = state_at P t1) by (rewrite RX1, Hc1 by lia; reflexivity).
      rewrite X1. split.
      + intros ((A & A1 & A2) & B & D & F & F' & F'' & U & _).
        assert (HS' := HS (proj2 (DR (rate_at P)) (conj A (conj A1 A2)))).
        assert (Y1 : mrow (N - 1) (sg_x_d g) = rate_at P t1) by (rewrite A, Hc1 by lia; reflexivity).
        rewrite Y1 in F''. rewrite HS' in U.
        assert (XEe : sg_xs g = state_at P t0) by (destruct (nstarts s); [now apply RX2|now apply U]).
        intuition (try discriminate).
      + intros (A & (B & B') & D & F & F1 & F2 & F3).
        assert (HS' : nstarts s = false -> state_at PH t0 = lastn nq (rate_at P t0)).
        { intros Z. apply HS, DR. repeat split; auto; rewrite ?Z; discriminate. }
        assert (Y1 : mrow (N - 1) (sg_x_d g) = rate_at P t1) by (rewrite A, Hc1 by lia; reflexivity).
        rewrite Y1. intuition (try discriminate; try congruence).
    (* gauss *)
    - split.
      + intros ((A & A1 & A2) & B & D & F & F' & F'' & U & U').
        assert (HS' := HS (proj2 (DR (rate_at P)) (conj A (conj A1 A2)))).
        rewrite HS' in U, U'.
        assert (XSs : sg_xs g = state_at P t0) by (destruct (nstarts s); [now apply RX2|now apply U]).
        assert (XEe : sg_xe g = state_at P t1) by (destruct (nends s); [now apply RX3|now apply U']).
        intuition (try discriminate).
      + intros (A & (B & B') & D & F & F1 & F2 & F3).
        assert (HS' : forall t, state_at PH t = lastn nq (rate_at P t)).
        { apply HS, DR. repeat split; auto. }
        rewrite !HS'. intuition (try discriminate). }
  split.
  - intros [Sat SD].
    assert (TP : traj_through ts X P0) by now apply interp_traj_ok.
    assert (TH : traj_through ts (mlastcols nq XD) PH0) by now apply interp_traj_ok.
    assert (LP : length P0 = m) by apply interp_traj_length. assert (LH : length PH0 = nq) by apply interp_traj_length.
    destruct (proj1 (Main P0 PH0 LP LH TP TH) Sat) as (A & (B & B') & Rest).
    exists P0. split; [|exact Rest].
    split; [exact LP|]. split; [apply Forall_forall; intros q I; rewrite <- Ltaus, <- Lts; now apply (traj_bound ts X P0)|].
    split; [now symmetry|]. split; [now symmetry|]. rewrite LTC. intros k Hk.
    assert (RX : forall i, (i < length taus)%nat -> mrow i X = state_at P0 (vnth ts i)).
    { intros i Hi. now apply (traj_row ts X (length taus) m). }
    destruct (proj1 (NR (state_at P0)) RX) as (RX1 & _ & _).
    split; [now apply RX1|]. split; [now apply A|]. now apply SD.
  - intros (P & (LP & BP & B & B' & A) & Rest). rewrite LTC in A.
    rewrite Forall_forall in BP. rewrite <- Ltaus in BP.
    assert (RX : forall i, (i < length taus)%nat -> mrow i X = state_at P (vnth ts i)).
    { apply NR. split; [intros k Hk; now apply A|]. split; intros _; now symmetry. }
    assert (TP : traj_through ts X P) by (apply (traj_of_rows _ _ (length taus) m); auto).
    assert (TP0 : traj_through ts X P0) by now apply interp_traj_ok.
    assert (TH : traj_through ts (mlastcols nq XD) PH0) by now apply interp_traj_ok.
    assert (LH : length PH0 = nq) by apply interp_traj_length.
    assert (LP0 : length P0 = m) by apply interp_traj_length.
    assert (EQ : K P0 PH0 = K P PH0).
    { assert (X1 := Shape P0 PH0 LP0 LH TP0 TH). assert (X2 := Shape P PH0 LP LH TP TH). congruence. }
    split.
    + rewrite EQ. apply (Main P PH0 LP LH TP TH). split; [intros k Hk; now apply A|]. split; [split; now symmetry|]. exact Rest.
    + intros k Hk. now apply A.
Qed.
End Ps.
