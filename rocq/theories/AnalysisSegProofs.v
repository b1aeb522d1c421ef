(** One sample of a segment: what each key of the dictionary holds. *)
From Coq Require Import String.
From Coquelicot Require Import Coquelicot.
From Verif Require Import Prelude PreludeFacts Poly PolyFacts PolyInterp Mat MatFacts PwModel PwFacts PwInterpModel
  PsModel JacobiFacts PsSpec PsPointsProofs PsBaryProofs PsNodesProofs PsProblemProofs PsApplyProofs PsInterpProofs
  UtilModel UtilSpec BuTdModel BuTdSpec BuTdFacts BuTdProofs BuTdApplyProofs BuTdInterpProofs
  PhModel PhSpec PhProofs PhSegProofs PhBtProofs AnalysisModel AnalysisSpec AnalysisProofs.
Open Scope R_scope.
Open Scope vec_scope.
Open Scope list_scope.

Lemma divisions_flat' (f : nat -> vec) M nq : (forall k, (k < M)%nat -> length (f k) = nq) ->
  get_x_divisions (flat_map f (seq 0 M)) M = map f (seq 0 M).
Proof.
  intros H. set (g := fun k => if (k <? M)%nat then f k else repeat 0 nq).
  assert (E : forall k, In k (seq 0 M) -> f k = g k).
  { intros k I. apply in_seq in I. unfold g. destruct (Nat.ltb_spec k M); [reflexivity|lia]. }
  rewrite (flat_map_ext_in f g _ E), (map_ext_in f g _ E). apply (divisions_flat g M nq).
  intros k. unfold g. destruct (Nat.ltb_spec k M); [now apply H|apply repeat_length].
Qed.
Lemma nth_blocks (f : nat -> vec) M nq j : (forall k, (k < M)%nat -> length (f k) = nq) -> (j < M)%nat ->
  nth j (get_x_divisions (flat_map f (seq 0 M)) M) [] = f j.
Proof.
  intros H Hj. rewrite (divisions_flat' f M nq H). rewrite (nth_map' _ _ _ 0%nat) by now rewrite seq_length. now rewrite seq_nth.
Qed.

(** Rows whose blocks are the derivatives of [P]. *)
Lemma motion_row M nq P u t (xs : list vec) : (1 <= M)%nat -> length P = nq -> length xs = (M + 1)%nat ->
  (forall i, (i <= M)%nat -> exists f, nth i xs [] = flat_map f (seq 0 M) /\ (forall k, (k < M)%nat -> length (f k) = nq) /\
     forall k, (k < M)%nat -> (k + i <= M)%nat -> f k = rate_n_at (k + i) P t) ->
  exists d, make_row M xs u t = Ok d /\ shows M (fun j i => rate_n_at (j + i) P t) u t d /\
    forall i, (i <= M)%nat -> get (KX i) d = Ok (nth i xs []).
Proof.
  intros HM LP LX H. destruct (make_row_ok M xs u t HM LX) as (d & E & S & X). exists d. split; [exact E|]. split; [|exact X].
  revert S. apply shows_ext; [exact HM|]. intros j i Hj Hi. unfold div.
  destruct (H i ltac:(lia)) as (f & -> & L & F). rewrite (nth_blocks f M nq j L Hj). now apply F.
Qed.

(** ** Top-down *)
Section Td.
Variable rr : list R -> list R.
Hypothesis OK : real_roots_ok rr.
Variables (s name : string) (N M nq nu : nat) (t0 tf : R) (q_constr uu : mat) (P U : list (list R)) (tc : vec).
Hypothesis H : In s bt_schemes.
Hypothesis HN : In name [s; ("TD_" ++ s)%string].
Hypothesis E : enough_points s N.
Hypothesis HM : (1 <= M)%nat.
Hypothesis HQ : (1 <= nq)%nat.
Hypothesis T : t0 <> tf.
Hypothesis Ec : coll_points rr N s M = Ok tc.
Hypothesis SQ : shaped (N + M) nq q_constr.
Hypothesis LP : length P = nq.
Hypothesis BP : Forall (fun c => (length c <= N + M)%nat) P.
Hypothesis RQ : forall i, (i < N + M)%nat -> mrow i q_constr = state_at P (vnth (tau_to_t_points (LGL rr (N + M)) t0 tf) i).
Hypothesis SU : shaped N nu uu.
Hypothesis LU : length U = nu.
Hypothesis TU : traj_through (tau_to_t_points tc t0 tf) uu U.

Lemma row_td_ok xx xx_d t : mwidth xx = (M * nq)%nat ->
  exists d, row_td rr name M M q_constr xx xx_d uu t0 tf "pol" "pol" t = Ok d /\
    shows M (fun j i => rate_n_at (j + i) P t) (state_at U t) t d /\ get (KX 0) d = Ok (full_state M P t).
Proof.
  intros W. unfold row_td. rewrite (shaped_length _ _ _ SU).
  rewrite (td_interp rr OK s name N M nq nu t0 tf q_constr uu P U tc) by assumption. cbn [rbind].
  rewrite (mapm_some _ (fun ii => flat_map (fun i => rate_n_at (i + ii) P t) (seq 0 M))).
  2:{ intros k _. apply (td_interp_deriv rr OK s name N M nq nu t0 tf q_constr uu P U tc); assumption. }
  cbn [rbind].
  destruct (motion_row M nq P (state_at U t) t
    (full_state M P t :: full_rate M P t :: map (fun ii => flat_map (fun i => rate_n_at (i + ii) P t) (seq 0 M)) (seq 2 (M - 1)))) as (d & Ed & Sd & Xd).
  - exact HM.
  - exact LP.
  - cbn [length]. rewrite map_length, seq_length. lia.
  - intros i Hi. exists (fun k => rate_n_at (k + i) P t). split; [|split].
    + destruct i as [|[|i]]; cbn [nth].
      * apply flat_map_ext. intros k. now rewrite Nat.add_0_r.
      * apply flat_map_ext. intros k. f_equal. lia.
      * rewrite (nth_map' _ _ _ 0%nat) by (rewrite seq_length; lia). rewrite seq_nth by lia. apply flat_map_ext. intros k. reflexivity.
    + intros k _. rewrite rate_n_length. exact LP.
    + reflexivity.
  - exists d. split; [exact Ed|]. split; [exact Sd|]. apply (Xd 0%nat). lia.
Qed.
End Td.

(** ** Bottom-up *)
Lemma bary_poly_2d_length ts Y t : length (bary_poly_2d ts Y t) = mwidth Y.
Proof. unfold bary_poly_2d. now rewrite map_length, seq_length. Qed.
Lemma mmul_width D X : D <> [] -> mwidth (mmul D X) = mwidth X.
Proof. intros N. destruct D as [|r D]; [congruence|]. unfold mwidth, mmul. cbn [map hd]. now rewrite map_length, seq_length. Qed.
Lemma derive_highest_lengths D ts n : D <> [] -> forall X,
  length (derive_highest D ts X n) = n /\
  forall i t, (i < n)%nat -> length (nth i (derive_highest D ts X n) (fun _ => []) t) = mwidth X.
Proof.
  intros ND. induction n as [|n IH]; intros X.
  - split; [reflexivity|]. intros; lia.
  - cbn [derive_highest length]. destruct (IH (mmul D X)) as [L K]. rewrite L. split; [reflexivity|].
    intros [|i] t Hi; cbn [nth].
    + rewrite bary_poly_2d_length. now apply mmul_width.
    + rewrite K by lia. now apply mmul_width.
Qed.

Section Bu.
Variable rr : list R -> list R.
Hypothesis OK : real_roots_ok rr.
Variable lg : nat -> vec * vec.
Hypothesis LGOK : leggauss_ok lg.
Variables (s name : string) (N M nq nu : nat) (t0 tf : R) (uu : mat) (P U : list (list R)) (tc c : vec).
Hypothesis H : In s bt_schemes.
Hypothesis HN : In name [s; ("BU_" ++ s)%string].
Hypothesis E : enough_points s N.
Hypothesis HM : (1 <= M)%nat.
Hypothesis HQ : (1 <= nq)%nat.
Hypothesis T : t0 <> tf.
Hypothesis Ec : coll_points rr N s M = Ok tc.
Hypothesis E2 : coll_points rr N s 2 = Ok tc.
Hypothesis En : BU_construction_points rr N s M = Ok (with_ends false true c).
Let ts := tau_to_t_points (with_ends true true c) t0 tf.
Hypothesis LP : length P = nq.
Hypothesis BP : Forall (fun c => (length c <= N + M)%nat) P.
Hypothesis SU : shaped N nu uu.
Hypothesis LU : length U = nu.
Hypothesis TU : traj_through (tau_to_t_points tc t0 tf) uu U.

(** The rates at the ends of the segment that are not collocation points are
    not used, except for derivatives beyond the order. *)
Lemma row_bu_ok xds cold xde t : length xds = (M * nq)%nat -> length xde = (M * nq)%nat ->
  cold = map (full_rate M P) (tau_to_t_points tc t0 tf) ->
  exists d, row_bu rr lg name M M M (map (full_state M P) ts) (assemble (starts s) (ends s) xds cold xde) uu t0 tf "pol" "pol" t = Ok d /\
    shows M (fun j i => rate_n_at (j + i) P t) (state_at U t) t d /\ get (KX 0) d = Ok (full_state M P t).
Proof.
  intros L1 L2 EC.
  set (X := map (full_state M P) ts). set (XD := assemble (starts s) (ends s) xds cold xde).
  set (XI := map (full_rate M P) ts).
  destruct (bt_points rr OK s N M H E) as (c' & IS & _ & Ec' & En' & _ & Ei & LN).
  rewrite En in En'. assert (c' = c) by (apply (f_equal (fun r => match r with Ok v => v | Err _ => [] end)) in En'; unfold with_ends in En'; cbn [app] in En'; now apply app_inj_tail in En'). subst c'.
  rewrite Ec in Ec'. assert (ET : tc = with_ends (starts s) (ends s) c) by congruence. clear Ec' En'.
  assert (LT : length ts = (2 + length c)%nat) by (unfold ts; rewrite times_length, with_ends_length; cbn; lia).
  assert (GT : ts = tau_to_t_points ([-1] ++ with_ends false true c) t0 tf) by reflexivity.
  assert (SX : shaped (length ts) (M * nq) X).
  { unfold X. split; [apply map_length|]. apply Forall_forall. intros r I. apply in_map_iff in I. destruct I as (a & <- & _). now rewrite full_state_length, LP. }
  assert (FR : forall a, length (full_rate M P a) = (M * nq)%nat).
  { intros a. unfold full_rate. rewrite (flat_map_const_length _ nq) by (intros; now rewrite rate_n_length). reflexivity. }
  assert (SI : shaped (length ts) (M * nq) XI).
  { unfold XI. split; [apply map_length|]. apply Forall_forall. intros r I. apply in_map_iff in I. destruct I as (a & <- & _). apply FR. }
  assert (RX : forall i, (i < length ts)%nat -> mrow i X = full_state M P (vnth ts i)).
  { intros i Hi. unfold X, mrow. now rewrite (nth_map' _ _ _ 0). }
  assert (RI : forall i, (i < length ts)%nat -> lastn nq (mrow i XI) = rate_n_at M P (vnth ts i)).
  { intros i Hi. unfold XI, mrow. rewrite (nth_map' _ _ _ 0) by exact Hi. now apply lastn_full_rate. }
  (* the collocation rows are the same *)
  assert (TI : take (1 - b2n (starts s), 1 - b2n (ends s))%nat XI = cold).
  { rewrite EC, ET. unfold XI, ts. unfold tau_to_t_points.
    rewrite !map_map. rewrite <- (take_with_ends true true (starts s) (ends s) c) by auto.
    unfold take. rewrite !map_length. rewrite <- firstn_map, skipn_map. reflexivity. }
  assert (TX : take (1 - b2n (starts s), 1 - b2n (ends s))%nat XD = cold) by apply take_assemble.
  assert (TM : forall A B : mat, take (1 - b2n (starts s), 1 - b2n (ends s))%nat A = take (1 - b2n (starts s), 1 - b2n (ends s))%nat B ->
     take (1 - b2n (starts s), 1 - b2n (ends s))%nat (mlastcols nq A) = take (1 - b2n (starts s), 1 - b2n (ends s))%nat (mlastcols nq B)).
  { intros A B. unfold take, mlastcols. cbn [fst snd]. rewrite !map_length, !skipn_map, !firstn_map. intros ->. reflexivity. }
  assert (EQ := TM XD XI ltac:(now rewrite TX, TI)).
  assert (X0 : mrow 0 X = full_state M P t0 /\ (length (mrow 0 X) / M)%nat = nq).
  { assert (A : mrow 0 X = full_state M P (vnth ts 0)) by (apply RX; lia). 
    assert (B : vnth ts 0 = t0). { unfold ts. rewrite vnth_times by (rewrite with_ends_length; cbn; lia). unfold with_ends, vnth. cbn [app nth]. unfold tau_to_t. field. }
    rewrite A, B. split; [reflexivity|]. rewrite full_state_length, LP, Nat.mul_comm. apply Nat.div_mul. lia. }
  destruct X0 as [X0 NQ].
  assert (SX' : shaped (length (tau_to_t_points ([-1] ++ with_ends false true c) t0 tf)) (M * nq) X) by (rewrite <- GT; exact SX).
  assert (PE : forall u, Polynomial_interpolations_BU rr lg XD (mrow 0 X) u s M t0 tf 2 = Polynomial_interpolations_BU rr lg XI (mrow 0 X) u s M t0 tf 2).
  { intros u. unfold Polynomial_interpolations_BU. rewrite (strip_name "BU_" s s H ltac:(now left) ltac:(now left)), NQ, Ei. cbn [rbind].
    now rewrite EQ. }
  (* values *)
  assert (I1 : interpolations_BU_pseudospectral rr lg X XD uu name M t0 tf M "pol" "pol" t = Ok (full_state M P t, full_rate M P t, state_at U t)).
  { rewrite <- (bu_interp rr OK lg LGOK s name N M nq nu t0 tf X XI uu P U tc (with_ends false true c)) by assumption.
    unfold interpolations_BU_pseudospectral. rewrite (strip_name "BU_" s name H ltac:(now left) HN), NQ, Ei. cbn [rbind].
    rewrite EQ. change (mem "pol"%string ["pol"; "pol"]%string) with true. cbn match. rewrite PE. reflexivity. }
  destruct (bu_polys rr OK lg LGOK s N M nq nu t0 tf X XI uu P U tc (with_ends false true c) H E HM HQ T Ec E2 En SI LP BP RX RI SU LU TU []) as (fu & polys & EP & LNp & KP & _).
  assert (LTI : length (take (1 - b2n (starts s), 1 - b2n (ends s))%nat (mlastcols nq XI)) = N).
  { unfold take, mlastcols. cbn [fst snd]. rewrite skipn_map, firstn_map, !map_length.
    change (length (take (1 - b2n (starts s), 1 - b2n (ends s))%nat XI) = N). rewrite TI, EC, map_length, times_length, ET. exact LN. }
  assert (NDt : ts <> []) by (intros Z; rewrite Z in LT; cbn in LT; lia).
  assert (WD : mwidth (mlastcols nq XD) = nq).
  { unfold mlastcols, mwidth. assert (SD : shaped (length XD) (M * nq) XD).
    { unfold XD. rewrite assemble_length.
      assert (SC : shaped (length cold) (M * nq) cold).
      { rewrite EC. split; [reflexivity|]. apply Forall_forall. intros r I. apply in_map_iff in I. destruct I as (a & <- & _). apply FR. }
      exact (assemble_shaped (starts s) (ends s) xds cold xde _ _ SC L1 L2). }
    assert (P0 : (0 < length XD)%nat).
    { unfold XD. rewrite assemble_length, EC, map_length, times_length, ET, with_ends_length. destruct (starts s), (ends s); cbn; lia. }
    destruct XD as [|r0 XD'] eqn:EX; [cbn in P0; lia|]. destruct SD as [_ SD]. apply Forall_inv in SD. cbn [map hd].
    unfold lastn. replace (nq =? 0)%nat with false by (destruct nq; [lia|reflexivity]). rewrite skipn_length, SD. clear - HM. destruct M; [lia|]. nia. }
  assert (I2 : forall k, (2 <= k <= M)%nat -> exists f,
     interpolations_deriv_BU_pseudospectral rr lg X XD name M k t0 tf M "pol" t = Ok (flat_map f (seq 0 M)) /\
     (forall i, (i < M)%nat -> length (f i) = nq) /\ (forall i, (i < M)%nat -> (i + k <= M)%nat -> f i = rate_n_at (i + k) P t)).
  { intros k Hk. unfold interpolations_deriv_BU_pseudospectral. rewrite (strip_name "BU_" s name H ltac:(now left) HN), NQ, Ei. cbn [rbind].
    rewrite EQ, LTI, En. cbn [rbind]. change (("pol" =? "pol")%string) with true. cbn match. rewrite PE, EP. cbn [rbind].
    rewrite <- GT.
    assert (DN : matrix_D_bary_bu ts <> []).
    { unfold matrix_D_bary_bu, D_diag. intros Z. apply (f_equal (@length vec)) in Z. cbn [length] in Z.
      rewrite ?map_length, ?seq_length in Z. unfold D_offdiag in Z. rewrite ?map_length, ?seq_length in Z. lia. }
    destruct (derive_highest_lengths (matrix_D_bary_bu ts) ts (k - 1) DN (mlastcols nq XD)) as [LD KD]. rewrite WD in KD.
    eexists. split; [reflexivity|]. split.
    - intros i Hi. destruct (Nat.le_gt_cases (i + k) M) as [B|B].
      + rewrite app_nth1 by lia. rewrite KP by exact B. now rewrite rate_n_length.
      + rewrite app_nth2 by lia. apply KD. lia.
    - intros i Hi B. rewrite app_nth1 by lia. now apply KP. }
  unfold row_bu. rewrite I1. cbn [rbind].
  set (g := fun k => match interpolations_deriv_BU_pseudospectral rr lg X XD name M k t0 tf M "pol" t with Ok v => v | Err _ => [] end).
  rewrite (mapm_some _ g).
  2:{ intros k I. apply in_seq in I. destruct (I2 k ltac:(lia)) as (f & Ef & _). unfold g. now rewrite Ef. }
  cbn [rbind].
  destruct (motion_row M nq P (state_at U t) t (full_state M P t :: full_rate M P t :: map g (seq 2 (M - 1)))) as (d & Ed & Sd & Xd).
  - exact HM.
  - exact LP.
  - cbn [length]. rewrite map_length, seq_length. lia.
  - intros i Hi. destruct i as [|[|i]]; cbn [nth].
    + exists (fun k => rate_n_at k P t). split; [reflexivity|]. split; [intros; rewrite rate_n_length; exact LP|]. intros. f_equal. lia.
    + exists (fun k => rate_n_at (S k) P t). split; [reflexivity|]. split; [intros; rewrite rate_n_length; exact LP|]. intros. f_equal. lia.
    + rewrite (nth_map' _ _ _ 0%nat) by (rewrite seq_length; lia). rewrite seq_nth by lia.
      destruct (I2 (2 + i)%nat ltac:(lia)) as (f & Ef & Lf & Kf). exists f. unfold g. rewrite Ef. split; [reflexivity|]. split; [exact Lf|exact Kf].
  - exists d. split; [exact Ed|]. split; [exact Sd|]. apply (Xd 0%nat). lia.
Qed.
End Bu.

(** ** Pseudospectral, order 2 *)
Section Ps.
Variable rr : list R -> list R.
Hypothesis OK : real_roots_ok rr.

Lemma row_pseudo_ok s N nq nu t0 tf xx uu P U nd cl t :
  In s all_schemes -> enough_points s N -> (1 <= nq)%nat -> t0 <> tf ->
  shaped (nodes_of s N) (2 * nq) xx -> shaped N nu uu ->
  node_points rr (nodes_of s N) s = Ok nd -> coll_points rr N s 2 = Ok cl ->
  length P = (2 * nq)%nat -> length U = nu ->
  traj_through (tau_to_t_points nd t0 tf) xx P -> traj_through (tau_to_t_points cl t0 tf) uu U ->
  traj_through (tau_to_t_points nd t0 tf) (mcols 0 nq xx) (slice 0 nq P) ->
  traj_through (tau_to_t_points nd t0 tf) (mcols nq (nq * 2) xx) (slice nq (nq * 2) P) ->
  exists d, row_pseudo rr s 2 2 (mcols 0 nq xx) (mcols nq (nq * 2) xx) xx uu t0 tf "pol" "pol" t = Ok d /\
    shows 2 (fun j i => slice (nq * j) (nq * (j + 1)) (rate_n_at i P t)) (state_at U t) t d /\ get (KX 0) d = Ok (state_at P t).
Proof.
  intros H E HQ T Sx Su En Ec LP LU TP TU TQ TV.
  assert (SC : forall lo, (lo = 0 \/ lo = nq)%nat -> shaped (nodes_of s N) nq (mcols lo (lo + nq) xx)).
  { intros lo Hlo. destruct Sx as [L F]. split; [unfold mcols; now rewrite map_length|].
    apply Forall_forall. intros r I. apply in_map_iff in I. destruct I as (a & <- & I). rewrite Forall_forall in F. specialize (F _ I).
    unfold slice. rewrite firstn_length, skipn_length, F. lia. }
  assert (LS : forall lo, (lo = 0 \/ lo = nq)%nat -> length (slice lo (lo + nq) P) = nq).
  { intros lo Hlo. unfold slice. rewrite firstn_length, skipn_length, LP. lia. }
  replace (nq * 2)%nat with (nq + nq)%nat in * by lia.
  assert (S0 := SC 0%nat ltac:(now left)). assert (S1 := SC nq ltac:(now right)). cbn [Nat.add] in S0.
  assert (L0 := LS 0%nat ltac:(now left)). assert (L1 := LS nq ltac:(now right)). cbn [Nat.add] in L0.
  unfold row_pseudo.
  rewrite (interp_pol_ok rr OK s N t0 tf _ _ uu nq nu (slice 0 nq P) (slice nq (nq + nq) P) U nd cl t) by assumption.
  cbn [rbind Nat.eqb].
  rewrite (mapm_some _ (fun ii => rate_n_at ii P t)).
  2:{ intros k _. apply (interp_deriv_pol_ok rr OK s N t0 tf xx (2 * nq) P nd); assumption. }
  cbn [rbind Nat.sub seq map].
  assert (JOIN : forall (f : list R -> R), map f (slice 0 nq P) ++ map f (slice nq (nq + nq) P) = map f P).
  { intros f. rewrite <- map_app. f_equal. replace (nq + nq)%nat with (length P) by lia. apply slice_split. lia. }
  unfold state_at at 1 2, rate_at. rewrite !JOIN.
  change (map (fun c => peval c t) P) with (state_at P t).
  destruct (make_row_ok 2 [state_at P t; map (fun c => Derive (peval c) t) P; rate_n_at 2 P t] (state_at U t) t ltac:(lia) eq_refl) as (d & Ed & Sd & Xd).
  exists d. split; [exact Ed|]. split; [|apply (Xd 0%nat); lia].
  revert Sd. apply shows_ext; [lia|]. intros j i Hj Hi. unfold div.
  assert (EX : nth i [state_at P t; map (fun c => Derive (peval c) t) P; rate_n_at 2 P t] [] = rate_n_at i P t).
  { destruct i as [|[|[|i]]]; try reflexivity. lia. }
  rewrite EX. rewrite (nth_get_x_divisions _ 2 nq) by (auto; rewrite rate_n_length; exact LP). reflexivity.
Qed.
End Ps.
