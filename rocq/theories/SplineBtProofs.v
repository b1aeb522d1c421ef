(** The "Hermite" interpolations of the pseudospectral families (C94). *)
From Coq Require Import String.
From Coquelicot Require Import Coquelicot.
From Verif Require Import Prelude PreludeFacts Poly PolyFacts PolyInterp Mat MatFacts PwModel PwFacts
  PwInterpModel PsModel JacobiFacts PsSpec PsPointsProofs PsBaryProofs PsNodesProofs PsProblemProofs PsApplyProofs PsInterpProofs PsMoreProofs PsFinalProofs
  UtilModel UtilSpec GaussFacts UtilProofs BuTdModel BuTdSpec BuTdFacts BuTdProofs BuTdApplyProofs BuTdInterpProofs
  SplineModel SplineSpec SplineProofs.
Open Scope R_scope.
Open Scope list_scope.

(** One statement for all the uses. *)
Lemma hermite_curve x y d n m : (2 <= n)%nat -> length x = n -> shaped n m y -> shaped n m d -> increasing x ->
  exists s Ps, hermite x y d = Ok s /\ hermite_cubics x y d Ps /\
    follows_cubics x Ps (fun k t => sp_eval (Nat.iter k sp_derivative s) t) /\
    smooth_through x y d m (sp_eval s) (sp_eval (sp_derivative s)).
Proof.
  intros Hn LX SY SD I. exists (the_spline x y d), (pieces_of (the_spline x y d)).
  split; [exact (hermite_ok x y d n m Hn LX SY SD I)|]. split; [exact (the_pieces x y d n m Hn LX SY SD I)|].
  split; [exact (the_follows x y d n Hn LX I)|exact (the_smooth x y d n m Hn LX SY SD I)].
Qed.

Lemma row_len n m A i : shaped n m A -> (i < n)%nat -> length (mrow i A) = m.
Proof. intros [L F] H. unfold mrow. rewrite Forall_forall in F. apply F. apply nth_In. lia. Qed.

Lemma interp_total ts Y m t : (0 < length ts)%nat -> shaped (length ts) m Y -> exists v, interp_2d ts Y t = Ok v.
Proof.
  intros L S. unfold interp_2d. rewrite (shaped_length _ _ _ S), Nat.eqb_refl. cbn [negb]. unfold np_interp_rows.
  assert (LY := shaped_length _ _ _ S).
  destruct ts as [|a ts]; [simpl in L; lia|]. destruct Y as [|y Y]; [discriminate LY|]. cbn [combine]. eauto.
Qed.

Section Families.
Variable rr : list R -> list R.
Hypothesis OK : real_roots_ok rr.
Variable lg : nat -> vec * vec.

Lemma bu_hermite s name N M nq t0 tf xx xx_dot cn so :
  In s bt_schemes -> In name [s; ("BU_" ++ s)%string] -> enough_points s N -> (1 <= M)%nat -> (1 <= nq)%nat -> t0 < tf ->
  BU_construction_points rr N s so = Ok cn ->
  let ts := tau_to_t_points ([-1] ++ cn) t0 tf in
  shaped (length ts) (M * nq) xx -> shaped (length ts) (M * nq) xx_dot ->
  exists Ps X, hermite_cubics ts xx xx_dot Ps /\ follows_cubics ts Ps X /\ smooth_through ts xx xx_dot (M * nq) (X 0%nat) (X 1%nat) /\
    (forall k t, interpolations_deriv_BU_pseudospectral rr lg xx xx_dot name M k t0 tf so "Hermite" t = Ok (X k t)) /\
    (forall uu u_interp t,
      interpolations_BU_pseudospectral rr lg xx xx_dot uu name M t0 tf so u_interp "Hermite" t
        = match interpolations_BU_pseudospectral rr lg xx xx_dot uu name M t0 tf so u_interp "lin" t with
          | Ok (_, _, u) => Ok (X 0%nat t, X 1%nat t, u)
          | Err e => Err e
          end).
Proof.
  intros H HN E HM HQ T En ts SX SD.
  destruct (bt_points rr OK s N so H E) as (c & S & _ & _ & En' & _ & Ei & LN).
  rewrite En in En'. injection En' as ->.
  assert (Ex : [-1] ++ with_ends false true c = with_ends true true c) by reflexivity.
  assert (I : increasing ts) by (apply times_incr; [exact T|rewrite Ex; exact (with_ends_incr true true _ _ S)]).
  assert (LT : length ts = (length c + 2)%nat) by (unfold ts; rewrite times_length, Ex, with_ends_length; simpl; lia).
  destruct (hermite_curve ts xx xx_dot (length ts) (M * nq) ltac:(lia) eq_refl SX SD I) as (sp & Ps & EH & HC & HF & HS).
  exists Ps, (fun k t => sp_eval (Nat.iter k sp_derivative sp) t).
  split; [exact HC|]. split; [exact HF|]. split; [exact HS|].
  assert (X0 : length (mrow 0 xx) = (M * nq)%nat) by (apply (row_len (length ts)); [exact SX|lia]).
  assert (NQ : (length (mrow 0 xx) / M)%nat = nq) by (rewrite X0, Nat.mul_comm, Nat.div_mul; lia).
  assert (NC : length (take (1 - b2n (starts s), 1 - b2n (ends s))%nat (mlastcols nq xx_dot)) = N).
  { rewrite take_length. unfold mlastcols. rewrite map_length. rewrite (shaped_length _ _ _ SD), LT, <- LN, with_ends_length.
    destruct (starts s), (ends s); simpl; lia. }
  split.
  - intros k t. unfold interpolations_deriv_BU_pseudospectral.
    rewrite (strip_name "BU_" s name H ltac:(now left) HN), NQ, Ei. cbn [rbind]. rewrite NC, En. cbn [rbind].
    fold ts. rewrite EH. reflexivity.
  - intros uu ui t. unfold interpolations_BU_pseudospectral.
    rewrite (strip_name "BU_" s name H ltac:(now left) HN), NQ, Ei. cbn [rbind]. rewrite NC, En. cbn [rbind].
    fold ts. change (mem "pol"%string ["lin"%string; ui]) with (mem "pol"%string ["Hermite"%string; ui]).
    destruct (if mem "pol"%string ["Hermite"%string; ui] then _ else _) as [[up qp]|e]; cbn [rbind]; [|reflexivity].
    match goal with |- rbind ?a _ = _ => destruct a as [u0|e] end; cbn [rbind]; [|reflexivity].
    cbn [String.eqb Ascii.eqb Bool.eqb]. rewrite EH. cbn [rbind].
    destruct (interp_total ts xx (M * nq) t ltac:(lia) SX) as [? ->]. cbn [rbind].
    destruct (interp_total ts xx_dot (M * nq) t ltac:(lia) SD) as [? ->]. reflexivity.
Qed.

Lemma td_hermite s name N M nq t0 tf q_constr xx xx_dot cn so :
  In s bt_schemes -> In name [s; ("TD_" ++ s)%string] -> enough_points s N -> (1 <= M)%nat -> (1 <= nq)%nat -> t0 < tf ->
  TD_construction_points rr N s so = Ok cn -> shaped (N + M) nq q_constr ->
  let ts := tau_to_t_points cn t0 tf in
  shaped (length ts) (M * nq) xx -> shaped (length ts) (M * nq) xx_dot ->
  exists Ps X, hermite_cubics ts xx xx_dot Ps /\ follows_cubics ts Ps X /\ smooth_through ts xx xx_dot (M * nq) (X 0%nat) (X 1%nat) /\
    (forall k t, interpolations_deriv_TD_pseudospectral rr q_constr xx xx_dot name k t0 tf N so "Hermite" t = Ok (X k t)) /\
    (forall uu u_interp t, length uu = N ->
      interpolations_TD_pseudospectral rr q_constr xx xx_dot uu name t0 tf so u_interp "Hermite" t
        = match interpolations_TD_pseudospectral rr q_constr xx xx_dot uu name t0 tf so u_interp "lin" t with
          | Ok (_, _, u) => Ok (X 0%nat t, X 1%nat t, u)
          | Err e => Err e
          end).
Proof.
  intros H HN E HM HQ T En SQ ts SX SD.
  destruct (bt_points rr OK s N so H E) as (c & S & _ & _ & _ & En' & Ei & LN).
  rewrite En in En'. injection En' as ->.
  assert (I : increasing ts) by (apply times_incr; [exact T|exact (with_ends_incr true true _ _ S)]).
  assert (LT : length ts = (length c + 2)%nat) by (unfold ts; rewrite times_length, with_ends_length; simpl; lia).
  destruct (hermite_curve ts xx xx_dot (length ts) (M * nq) ltac:(lia) eq_refl SX SD I) as (sp & Ps & EH & HC & HF & HS).
  exists Ps, (fun k t => sp_eval (Nat.iter k sp_derivative sp) t).
  split; [exact HC|]. split; [exact HF|]. split; [exact HS|].
  assert (W : mwidth xx = (M * nq)%nat) by (apply (shaped_mwidth (length ts)); [exact SX|lia]).
  assert (E2 : (length q_constr =? mwidth xx / mwidth q_constr + N)%nat = true).
  { rewrite (shaped_mwidth _ _ _ SQ), (shaped_length _ _ _ SQ), W by (destruct E; lia).
    rewrite Nat.div_mul by lia. apply Nat.eqb_eq. lia. }
  split.
  - intros k t. unfold interpolations_deriv_TD_pseudospectral.
    rewrite (strip_name "TD_" s name H ltac:(right; now left) HN). rewrite E2. cbn [negb]. rewrite En. cbn [rbind].
    fold ts. rewrite EH. reflexivity.
  - intros uu ui t LU. unfold interpolations_TD_pseudospectral.
    rewrite (strip_name "TD_" s name H ltac:(right; now left) HN). rewrite LU, E2. cbn [negb]. rewrite En. cbn [rbind].
    fold ts. change (mem "pol"%string ["lin"%string; ui]) with (mem "pol"%string ["Hermite"%string; ui]).
    destruct (if mem "pol"%string ["Hermite"%string; ui] then _ else _) as [[up qp]|e]; cbn [rbind]; [|reflexivity].
    match goal with |- rbind ?a _ = _ => destruct a as [u0|e] end; cbn [rbind]; [|reflexivity].
    cbn [String.eqb Ascii.eqb Bool.eqb]. rewrite EH. cbn [rbind].
    destruct (interp_total ts xx (M * nq) t ltac:(lia) SX) as [? ->]. cbn [rbind].
    destruct (interp_total ts xx_dot (M * nq) t ltac:(lia) SD) as [? ->]. reflexivity.
Qed.

End Families.

Section Pseudo.
Variable rr : list R -> list R.
Hypothesis OK : real_roots_ok rr.

(** The pseudospectral family, for the schemes whose arrays are not extended:
    the accelerations are those of the polynomial through the velocities. *)
Lemma ps_hermite s n t0 t1 qq vv m nd V :
  In s not_extended -> enough_points s n -> t0 < t1 -> (2 <= nodes_of s n)%nat ->
  shaped (nodes_of s n) m qq -> shaped (nodes_of s n) m vv -> node_points rr (nodes_of s n) s = Ok nd ->
  let ts := tau_to_t_points nd t0 t1 in
  length V = m -> traj_through ts vv V ->
  let aa := map (rate_at V) ts in
  exists Qs Vs Q W, hermite_cubics ts qq vv Qs /\ follows_cubics ts Qs Q /\ smooth_through ts qq vv m (Q 0%nat) (Q 1%nat) /\
    hermite_cubics ts vv aa Vs /\ follows_cubics ts Vs W /\ smooth_through ts vv aa m (W 0%nat) (W 1%nat) /\
    (forall uu u_interp t,
      interpolations_pseudospectral rr qq vv uu s t0 t1 u_interp "Hermite" t
        = match interpolations_pseudospectral rr qq vv uu s t0 t1 u_interp "pol" t with
          | Ok (_, _, _, _, _, u) => Ok (Q 0%nat t, Q 1%nat t, W 0%nat t, W 1%nat t, Q 2%nat t, u)
          | Err e => Err e
          end).
Proof.
  intros HN E T L2 Sq Sv En ts LV TV aa.
  assert (H : In s all_schemes) by (cbv in HN; cbv; tauto).
  destruct (nodes_shape rr OK s n H E) as (c & S & _ & _ & En').
  rewrite En in En'. injection En' as ->.
  assert (Ln : length (with_ends (nstarts s) (nends s) c) = nodes_of s n).
  { rewrite with_ends_length. unfold nodes_of. destruct S as [-> _]. reflexivity. }
  assert (I1 := with_ends_incr (nstarts s) (nends s) _ _ S).
  assert (N1 := with_ends_NoDup (nstarts s) (nends s) _ _ S).
  assert (X : extend_x_arrays rr qq vv s = Ok (with_ends (nstarts s) (nends s) c, qq, vv)).
  { unfold extend_x_arrays. rewrite (shaped_length _ _ _ Sq), En.
    cbv [not_extended In] in HN.
    repeat (destruct HN as [<-|HN]; [reflexivity|]). destruct HN. }
  assert (ED := matrix_D_bary_ok rr _ _ _ En Ln).
  set (nd := with_ends (nstarts s) (nends s) c) in *.
  assert (LT : length ts = nodes_of s n) by (unfold ts; now rewrite times_length).
  assert (I : increasing ts) by (now apply times_incr).
  assert (Sv' := Sv). rewrite <- Ln in Sv'.
  destruct (D_traj nd t0 t1 N1 ltac:(lia) ltac:(lra) vv m V Sv' LV TV) as [SA TA].
  assert (EA : mmul (mscale (2 / (t1 - t0)) (Dmat nd)) vv = aa).
  { rewrite mmul_mscale.
    apply nth_ext with (d := []) (d' := []).
    - unfold aa. rewrite map_length, LT, (shaped_length _ _ _ SA). exact Ln.
    - rewrite (shaped_length _ _ _ SA). intros i Hi.
      change (mrow i (mscale (2 / (t1 - t0)) (mmul (Dmat nd) vv)) = nth i aa []).
      rewrite (traj_row _ _ _ _ _ i SA (times_length _ t0 t1) (eq_trans (map_length _ _) LV) TA Hi).
      unfold aa. rewrite (nth_map' _ _ _ 0) by lia. rewrite <- rate_as_state. reflexivity. }
  rewrite mmul_mscale in EA.
  assert (Saa : shaped (nodes_of s n) m aa) by (rewrite <- EA, <- Ln; exact SA).
  destruct (hermite_curve ts qq vv (nodes_of s n) m L2 LT Sq Sv I) as (sq & Qs & EHq & Cq & Fq & Hq).
  destruct (hermite_curve ts vv aa (nodes_of s n) m L2 LT Sv Saa I) as (sv & Vs & EHv & Cv & Fv & Hv).
  exists Qs, Vs, (fun k t => sp_eval (Nat.iter k sp_derivative sq) t), (fun k t => sp_eval (Nat.iter k sp_derivative sv) t).
  split; [exact Cq|]. split; [exact Fq|]. split; [exact Hq|].
  split; [exact Cv|]. split; [exact Fv|]. split; [exact Hv|].
  intros uu ui t. unfold interpolations_pseudospectral.
  match goal with |- rbind ?a _ = _ => destruct a as [u0|e] end; cbn [rbind]; [|reflexivity].
  cbn [String.eqb Ascii.eqb Bool.eqb]. rewrite X. cbn [rbind]. rewrite (shaped_length _ _ _ Sv), ED. cbn [rbind].
  rewrite mmul_mscale, EA.
  assert (CP : map (fun x => t0 + (1 + x) * (t1 - t0) / 2) nd = ts).
  { unfold ts, tau_to_t_points. apply map_ext. intros a. unfold tau_to_t. field. }
  rewrite CP, EHq. cbn [rbind]. rewrite EHv. cbn [rbind].
  unfold get_pol_x. rewrite (shaped_length _ _ _ Sq), En, ED. reflexivity.
Qed.

(** Derivatives asked for by themselves: the slopes of the spline are the
    derivatives of order [k], so only [k = 1] is the derivative of the curve
    through the values with its own slopes. *)
Lemma ps_hermite_deriv s n t0 t1 xx m nd P k :
  In s all_schemes -> enough_points s n -> t0 < t1 -> (2 <= nodes_of s n)%nat ->
  shaped (nodes_of s n) m xx -> node_points rr (nodes_of s n) s = Ok nd ->
  let ts := tau_to_t_points nd t0 t1 in
  length P = m -> traj_through ts xx P ->
  let dd := map (rate_n_at k P) ts in
  exists Ps X, hermite_cubics ts xx dd Ps /\ follows_cubics ts Ps X /\ smooth_through ts xx dd m (X 0%nat) (X 1%nat) /\
    forall t, interpolations_deriv_pseudospectral rr xx s k t0 t1 "Hermite" t = Ok (X k t).
Proof.
  intros H E T L2 Sx En ts LP TP dd.
  destruct (nodes_shape rr OK s n H E) as (c & S & _ & _ & En').
  rewrite En in En'. injection En' as ->.
  assert (Ln : length (with_ends (nstarts s) (nends s) c) = nodes_of s n).
  { rewrite with_ends_length. unfold nodes_of. destruct S as [-> _]. reflexivity. }
  assert (I1 := with_ends_incr (nstarts s) (nends s) _ _ S).
  assert (N1 := with_ends_NoDup (nstarts s) (nends s) _ _ S).
  assert (ED := matrix_D_bary_ok rr _ _ _ En Ln).
  set (nd := with_ends (nstarts s) (nends s) c) in *.
  assert (LT : length ts = nodes_of s n) by (unfold ts; now rewrite times_length).
  assert (I : increasing ts) by (now apply times_incr).
  assert (Sx' := Sx). rewrite <- Ln in Sx'.
  destruct (D_pow_traj nd t0 t1 N1 ltac:(lia) ltac:(lra) xx m P k Sx' LP TP) as [SA TA].
  assert (EA : mscale ((2 / (t1 - t0)) ^ k) (mmul (mpow (Dmat nd) k) xx) = dd).
  { apply nth_ext with (d := []) (d' := []).
    - unfold dd. rewrite map_length, LT, (shaped_length _ _ _ SA). exact Ln.
    - rewrite (shaped_length _ _ _ SA). intros i Hi.
      change (mrow i (mscale ((2 / (t1 - t0)) ^ k) (mmul (mpow (Dmat nd) k) xx)) = nth i dd []).
      rewrite (traj_row _ _ _ _ _ i SA (times_length _ t0 t1) (eq_trans (map_length _ _) LP) TA Hi).
      unfold dd. rewrite (nth_map' _ _ _ 0) by lia. apply rate_n_state. }
  assert (Sdd : shaped (nodes_of s n) m dd) by (rewrite <- EA, <- Ln; exact SA).
  destruct (hermite_curve ts xx dd (nodes_of s n) m L2 LT Sx Sdd I) as (sq & Qs & EHq & Cq & Fq & Hq).
  exists Qs, (fun j t => sp_eval (Nat.iter j sp_derivative sq) t).
  split; [exact Cq|]. split; [exact Fq|]. split; [exact Hq|].
  intros t. unfold interpolations_deriv_pseudospectral. rewrite (shaped_length _ _ _ Sx), En. cbn [rbind].
  cbn [String.eqb Ascii.eqb Bool.eqb]. rewrite ED. cbn [rbind]. rewrite EA. fold ts. rewrite EHq. reflexivity.
Qed.

Lemma ps_hermite_n s N n t0 t1 qq vv m nd V :
  In s not_extended -> enough_points s N -> n_col_to_n_nodes s N = Ok n -> t0 < t1 -> (2 <= n)%nat ->
  shaped n m qq -> shaped n m vv -> node_points rr n s = Ok nd ->
  let ts := tau_to_t_points nd t0 t1 in
  length V = m -> traj_through ts vv V ->
  let aa := map (rate_at V) ts in
  exists Qs Vs Q W, hermite_cubics ts qq vv Qs /\ follows_cubics ts Qs Q /\ smooth_through ts qq vv m (Q 0%nat) (Q 1%nat) /\
    hermite_cubics ts vv aa Vs /\ follows_cubics ts Vs W /\ smooth_through ts vv aa m (W 0%nat) (W 1%nat) /\
    (forall uu u_interp t,
      interpolations_pseudospectral rr qq vv uu s t0 t1 u_interp "Hermite" t
        = match interpolations_pseudospectral rr qq vv uu s t0 t1 u_interp "pol" t with
          | Ok (_, _, _, _, _, u) => Ok (Q 0%nat t, Q 1%nat t, W 0%nat t, W 1%nat t, Q 2%nat t, u)
          | Err e => Err e
          end).
Proof.
  intros H E En. rewrite (nodes_get rr OK s N n ltac:(cbv in H; cbv; tauto) E En). now apply ps_hermite.
Qed.

Lemma ps_hermite_deriv_n s N n t0 t1 xx m nd P k :
  In s all_schemes -> enough_points s N -> n_col_to_n_nodes s N = Ok n -> t0 < t1 -> (2 <= n)%nat ->
  shaped n m xx -> node_points rr n s = Ok nd ->
  let ts := tau_to_t_points nd t0 t1 in
  length P = m -> traj_through ts xx P ->
  let dd := map (rate_n_at k P) ts in
  exists Ps X, hermite_cubics ts xx dd Ps /\ follows_cubics ts Ps X /\ smooth_through ts xx dd m (X 0%nat) (X 1%nat) /\
    forall t, interpolations_deriv_pseudospectral rr xx s k t0 t1 "Hermite" t = Ok (X k t).
Proof.
  intros H E En. rewrite (nodes_get rr OK s N n H E En). now apply ps_hermite_deriv.
Qed.

(** "smooth" controls. *)
Lemma smooth_fails qq vv uu s t0 t1 xi t r :
  interpolations_pseudospectral rr qq vv uu s t0 t1 "smooth" xi t = Ok r -> False.
Proof.
  unfold interpolations_pseudospectral. cbn [String.eqb Ascii.eqb Bool.eqb].
  destruct (extend_u_array rr uu s (length qq) 2) as [[? ?]|e]; cbn [rbind]; discriminate.
Qed.
Lemma smooth_fails_bu lg xx xd uu s M t0 tf so xi t r :
  interpolations_BU_pseudospectral rr lg xx xd uu s M t0 tf so "smooth" xi t = Ok r -> False.
Proof.
  unfold interpolations_BU_pseudospectral.
  destruct (get_coll_indices _); cbn [rbind]; [|discriminate].
  destruct (BU_construction_points _ _ _ _); cbn [rbind]; [|discriminate].
  match goal with |- rbind ?a _ = _ -> _ => destruct a as [[? ?]|e] end; cbn [rbind]; [|discriminate].
  cbn [String.eqb Ascii.eqb Bool.eqb]. unfold smooth_u. destruct (extend_u_array _ _ _ _ _) as [[? ?]|e]; cbn [rbind]; discriminate.
Qed.
Lemma smooth_fails_td qc xx xd uu s t0 tf so xi t r :
  interpolations_TD_pseudospectral rr qc xx xd uu s t0 tf so "smooth" xi t = Ok r -> False.
Proof.
  unfold interpolations_TD_pseudospectral. destruct (negb _); [discriminate|].
  destruct (TD_construction_points _ _ _ _); cbn [rbind]; [|discriminate].
  match goal with |- rbind ?a _ = _ -> _ => destruct a as [[? ?]|e] end; cbn [rbind]; [|discriminate].
  cbn [String.eqb Ascii.eqb Bool.eqb]. unfold smooth_u. destruct (extend_u_array _ _ _ _ _) as [[? ?]|e]; cbn [rbind]; discriminate.
Qed.
End Pseudo.
