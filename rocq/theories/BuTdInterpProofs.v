(** The bottom-up and top-down interpolations return the polynomial
    trajectory of the solution (C28, C29), and their dynamic errors are the
    defect of that trajectory (C53). *)
From Coq Require Import String.
From Coquelicot Require Import Coquelicot.
From Verif Require Import Prelude PreludeFacts Poly PolyFacts PolyInterp Mat MatFacts PwModel PwFacts
  PwInterpModel PsModel JacobiFacts PsSpec PsPointsProofs PsBaryProofs PsNodesProofs PsProblemProofs PsApplyProofs PsInterpProofs PsFinalProofs
  UtilModel UtilSpec GaussFacts UtilProofs BuTdModel BuTdSpec BuTdFacts BuTdProofs BuTdApplyProofs.
Open Scope R_scope.
Open Scope vec_scope.
Open Scope list_scope.

Lemma vdot_scal a (r c : vec) : vdot (a *v r) c = a * vdot r c.
Proof.
  revert c. unfold vdot, vscale, vmul. induction r as [|x r IH]; intros [|y c]; try (simpl; ring).
  cbn [map map2]. change (fold_right Rplus 0 (?a :: ?l)) with (a + fold_right Rplus 0 l).
  unfold vsum in *. cbn [fold_right]. rewrite IH. ring.
Qed.
Lemma mmul_mscale a A B : mmul (mscale a A) B = mscale a (mmul A B).
Proof.
  unfold mmul, mscale. rewrite !map_map. apply map_ext. intros r. unfold vscale. rewrite map_map. apply map_ext.
  intros j. apply vdot_scal.
Qed.

(** Names with and without the prefix of the family. *)
Lemma strip_name pre s name : In s bt_schemes -> In pre ["BU_"%string; "TD_"%string] ->
  In name [s; (pre ++ s)%string] -> strip pre name = s.
Proof.
  intros H [<-|[<-|[]]] [<-|[<-|[]]]; bt_cases H; reflexivity.
Qed.

(** ** Shifted states: the k-th derivative of the state *)
Lemma divisions_flat (f : nat -> vec) M nq : (forall k, length (f k) = nq) -> get_x_divisions (flat_map f (seq 0 M)) M = map f (seq 0 M).
Proof.
  intros L. assert (LF := flat_map_const_length f nq M 0 L).
  apply nth_ext with (d := []) (d' := []).
  - now rewrite get_x_divisions_length, map_length, seq_length.
  - rewrite get_x_divisions_length. intros k Hk. rewrite (nth_get_x_divisions _ M nq k LF Hk).
    rewrite (nth_map' _ _ _ 0%nat) by (now rewrite seq_length). rewrite seq_nth by exact Hk. rewrite Nat.add_0_l.
    now apply (proj1 (blocks_iff f nq M _ LF L) eq_refl).
Qed.
Lemma flat_map_ext_in {A B} (f g : A -> list B) l : (forall a, In a l -> f a = g a) -> flat_map f l = flat_map g l.
Proof. induction l as [|a l IH]; intros H; [reflexivity|]. simpl. rewrite H by (now left). rewrite IH; auto with datatypes. Qed.
Lemma shifted_flat k M P t : flat_map (fun i => rate_n_at (i + k) P t) (seq 0 M) = flat_map (fun i => rate_n_at i P t) (seq k M).
Proof.
  rewrite !flat_map_concat_map. f_equal.
  apply nth_ext with (d := []) (d' := []); [now rewrite !map_length, !seq_length|].
  rewrite map_length, seq_length. intros i Hi. rewrite !(nth_map' _ _ _ 0%nat) by (now rewrite seq_length).
  rewrite !seq_nth by exact Hi. now rewrite Nat.add_comm.
Qed.
(** q and its derivatives up to order M: all but the last block, all but the first. *)
Lemma blocks_split M nq (f : nat -> vec) : (1 <= nq)%nat -> (forall k, length (f k) = nq) ->
  butlastn nq (flat_map f (seq 0 (M + 1))) = flat_map f (seq 0 M) /\
  skipn nq (flat_map f (seq 0 (M + 1))) = flat_map (fun k => f (S k)) (seq 0 M).
Proof.
  intros Q L. split.
  - replace (M + 1)%nat with (S M) by lia. rewrite seq_S, flat_map_app. cbn [flat_map]. rewrite app_nil_r, Nat.add_0_l.
    unfold butlastn. rewrite app_length, L.
    assert (nq =? 0 = false)%nat as E by (apply Nat.eqb_neq; lia). rewrite ?E.
    replace (length (flat_map f (seq 0 M)) + nq - nq)%nat with (length (flat_map f (seq 0 M))) by lia.
    rewrite firstn_app, Nat.sub_diag, firstn_all. cbn [firstn]. apply app_nil_r.
  - replace (M + 1)%nat with (S M) by lia. cbn [seq flat_map].
    rewrite skipn_app, L, Nat.sub_diag. rewrite skipn_all2 by (rewrite L; lia). cbn [skipn app].
    rewrite <- seq_shift, !flat_map_concat_map, map_map. reflexivity.
Qed.

(** ** Dynamic errors *)
Lemma vsub_self (v : vec) : v -v v = repeat 0 (length v).
Proof. unfold vsub. induction v as [|a v IH]; [reflexivity|]. simpl. rewrite IH. f_equal. ring. Qed.
Lemma errors_are_defects M nq P f t : (1 <= M)%nat -> length P = nq -> length f = nq ->
  let all := map (fun k => map (fun i => rate_n_at (i + k) P t) (seq 0 M)) (seq 0 (M + 1)) in
  let x0 := map (fun i => rate_n_at i P t) (seq 0 M) ++ [f] in
  defects M nq P f t (map (fun jj => map (fun ii =>
        nth ii (nth (jj + 1) all []) [] -v nth (ii + jj + 1) x0 [])
        (seq 0 (M - jj))) (seq 0 M)).
Proof.
  intros HM LP Lf all x0. split; [now rewrite map_length, seq_length|].
  intros jj Hj. rewrite (nth_map' _ _ _ 0%nat) by (now rewrite seq_length). rewrite seq_nth by exact Hj. rewrite Nat.add_0_l.
  split; [now rewrite map_length, seq_length|]. intros ii Hi.
  rewrite (nth_map' _ _ _ 0%nat) by (now rewrite seq_length). rewrite seq_nth by exact Hi. rewrite Nat.add_0_l.
  unfold all. rewrite (nth_map' _ _ _ 0%nat) by (rewrite seq_length; lia). rewrite seq_nth by lia. rewrite Nat.add_0_l.
  rewrite (nth_map' _ _ _ 0%nat) by (rewrite seq_length; lia). rewrite seq_nth by lia. rewrite Nat.add_0_l.
  unfold x0. destruct (Nat.eqb_spec (ii + jj + 1) M) as [E|NE].
  - rewrite app_nth2 by (rewrite map_length, seq_length; lia). rewrite map_length, seq_length, E, Nat.sub_diag. cbn [nth].
    do 2 f_equal. lia.
  - rewrite app_nth1 by (rewrite map_length, seq_length; lia).
    rewrite (nth_map' _ _ _ 0%nat) by (rewrite seq_length; lia). rewrite seq_nth by lia. rewrite Nat.add_0_l.
    replace (ii + (jj + 1))%nat with (ii + jj + 1)%nat by lia. rewrite vsub_self, rate_n_length. now rewrite LP.
Qed.

Lemma item_nth {A} (l : list A) i d : (i < length l)%nat -> item l i = Ok (nth i l d).
Proof. intros Hi. unfold item. now rewrite (List.nth_error_nth' l d Hi). Qed.
Lemma row_sub_same a b : length a = length b -> row_sub a b = Ok (a -v b).
Proof. intros L. unfold row_sub. now rewrite L, Nat.eqb_refl. Qed.
Lemma dyn_errs_eq M nq P f t : (1 <= M)%nat -> length P = nq -> length f = nq ->
  let all := map (fun k => map (fun i => rate_n_at (i + k) P t) (seq 0 M)) (seq 0 (M + 1)) in
  let x0 := map (fun i => rate_n_at i P t) (seq 0 M) ++ [f] in
  dyn_errs M all f = Ok (map (fun jj => map (fun ii =>
        nth ii (nth (jj + 1) all []) [] -v nth (ii + jj + 1) x0 [])
        (seq 0 (M - jj))) (seq 0 M)).
Proof.
  intros HM LP Lf all x0. unfold dyn_errs.
  assert (Z : nth 0 all [] ++ [f] = x0).
  { unfold all, x0. rewrite (nth_map' _ _ _ 0%nat) by (rewrite seq_length; lia). rewrite seq_nth by lia.
    f_equal. apply map_ext. intros i. f_equal. lia. }
  rewrite Z. cbv zeta.
  rewrite (mapm_ext _ (fun jj => Ok (map (fun ii =>
        nth ii (nth (jj + 1) all []) [] -v nth (ii + jj + 1) x0 []) (seq 0 (M - jj))))).
  { apply mapm_Ok. }
  intros jj Hj. apply in_seq in Hj.
  rewrite (mapm_ext _ (fun ii => Ok (nth ii (nth (jj + 1) all []) [] -v nth (ii + jj + 1) x0 []))).
  { apply mapm_Ok. }
  intros ii Hi. apply in_seq in Hi.
  assert (La : length all = (M + 1)%nat) by (unfold all; now rewrite map_length, seq_length).
  assert (Lx : length x0 = (M + 1)%nat) by (unfold x0; rewrite app_length, map_length, seq_length; reflexivity).
  rewrite (item_nth all _ []) by lia. cbn [rbind].
  assert (Ld : nth (jj + 1) all [] = map (fun i => rate_n_at (i + (jj + 1)) P t) (seq 0 M)).
  { unfold all. rewrite (nth_map' _ _ _ 0%nat) by (rewrite seq_length; lia). now rewrite seq_nth by lia. }
  rewrite (item_nth (nth (jj + 1) all []) _ []) by (rewrite Ld, map_length, seq_length; lia). cbn [rbind].
  rewrite (item_nth x0 _ []) by lia. cbn [rbind].
  apply row_sub_same. rewrite Ld. rewrite (nth_map' _ _ _ 0%nat) by (rewrite seq_length; lia).
  rewrite rate_n_length, LP. unfold x0.
  destruct (Nat.eq_dec (ii + jj + 1) M) as [E|NE].
  - rewrite app_nth2 by (rewrite map_length, seq_length; lia). rewrite map_length, seq_length, E, Nat.sub_diag. cbn [nth]. now rewrite Lf.
  - rewrite app_nth1 by (rewrite map_length, seq_length; lia).
    rewrite (nth_map' _ _ _ 0%nat) by (rewrite seq_length; lia). now rewrite rate_n_length.
Qed.
Lemma q_and_d_eq M nq P t : (1 <= M)%nat -> length P = nq ->
  q_and_d_interp nq M (map (fun k => map (fun i => rate_n_at (i + k) P t) (seq 0 M)) (seq 0 (M + 1)))
    = Ok (full_state M P t).
Proof.
  intros HM LP. unfold q_and_d_interp.
  rewrite (mapm_ext _ (fun jj => Ok (rate_n_at jj P t))).
  - rewrite mapm_Ok. cbn [rbind]. unfold full_state. now rewrite flat_map_concat_map.
  - intros jj Hj. apply in_seq in Hj.
    rewrite (item_nth _ _ []) by (rewrite map_length, seq_length; lia). cbn [rbind].
    rewrite (nth_map' _ _ _ 0%nat) by (rewrite seq_length; lia). rewrite seq_nth by lia.
    rewrite (item_nth _ _ []) by (rewrite map_length, seq_length; lia). cbn [rbind].
    rewrite (nth_map' _ _ _ 0%nat) by (rewrite seq_length; lia). rewrite seq_nth by lia.
    rewrite !Nat.add_0_l. unfold row_assign. now rewrite rate_n_length, LP, Nat.eqb_refl.
Qed.

(** ** Top-down *)
Section Td.
Variable rr : list R -> list R.
Hypothesis OK : real_roots_ok rr.

Variables (s name : string) (N M nq nu : nat) (t0 tf : R) (q_constr uu : mat) (P U : list (list R)) (tc : vec).
Hypothesis H : In s bt_schemes.
Hypothesis HN : In name [s; ("TD_" ++ s)%string].
Hypothesis E : enough_points s N.
Hypothesis HM : (1 <= M)%nat.
Hypothesis HQ : (1 <= nq)%nat.
Hypothesis T : t0 <> tf.
Hypothesis Ec : coll_points rr N s M = Ok tc.
Hypothesis SQ : shaped (N + M) nq q_constr.
Hypothesis LP : length P = nq.
Hypothesis BP : Forall (fun c => (length c <= N + M)%nat) P.
Hypothesis RQ : forall i, (i < N + M)%nat -> mrow i q_constr = state_at P (vnth (tau_to_t_points (LGL rr (N + M)) t0 tf) i).
Hypothesis SU : shaped N nu uu.
Hypothesis LU : length U = nu.
Hypothesis TU : traj_through (tau_to_t_points tc t0 tf) uu U.

Lemma td_poly_block k t :
  bary_poly_2d (tau_to_t_points (LGL rr (N + M)) t0 tf)
    (mmul (mscale ((2 / (tf - t0)) ^ k) (mpow (Dmat (LGL rr (N + M))) k)) q_constr) t = rate_n_at k P t.
Proof.
  destruct (matrix_D_nu_ok rr OK (N + M)) as (c & _ & _ & LL & ND & _); [destruct E; lia|].
  assert (NE : (0 < length (LGL rr (N + M)))%nat) by lia.
  assert (SQ' := SQ). rewrite <- LL in SQ'.
  assert (TP : traj_through (tau_to_t_points (LGL rr (N + M)) t0 tf) q_constr P).
  { apply (traj_of_rows _ _ (N + M) nq); auto.
    - rewrite times_length. exact LL.
    - intros a Ia. rewrite Forall_forall in BP. now apply BP. }
  destruct (D_pow_traj (LGL rr (N + M)) t0 tf ND NE T q_constr nq P k SQ' LP TP) as [SM TM].
  rewrite mmul_mscale, <- rate_n_state.
  apply (bary_poly_2d_correct _ _ nq); rewrite ?times_length, ?map_length; auto.
  now apply times_NoDup.
Qed.

Lemma td_polys uu' : exists fu polys, Polynomial_interpolations_TD rr q_constr uu' t0 tf N s M = Ok (fu, polys) /\
  length polys = (M + 1)%nat /\ (forall k t, (k <= M)%nat -> (nth k polys (fun _ => [])) t = rate_n_at k P t) /\
  (uu' = uu -> forall t, fu t = state_at U t).
Proof.
  assert (ES : strip "TD_" s = s) by (apply (strip_name _ s s); [exact H|right; now left|now left]).
  assert (ND : NoDup tc /\ length tc = N).
  { destruct (BU_unit_ok rr OK s N 0 M H E) as (tc' & Ec' & A & B & _). rewrite BU_coll_points_eq, Ec in Ec' by exact H.
    injection Ec' as <-. auto. }
  destruct ND as [ND LC].
  unfold Polynomial_interpolations_TD. rewrite ES, BU_coll_points_eq, Ec by exact H. cbn [rbind].
  rewrite (shaped_length _ _ _ SQ).
  destruct (matrix_D_nu_ok rr OK (N + M)) as (c & _ & _ & LL & _ & ED); [destruct E; lia|]. rewrite ED. cbn [rbind].
  do 2 eexists. split; [reflexivity|]. replace (N + M - N)%nat with M by lia.
  split; [now rewrite map_length, seq_length|]. split.
  - intros k t Hk. rewrite (nth_map' _ _ _ 0%nat) by (rewrite seq_length; lia). rewrite seq_nth by lia. apply td_poly_block.
  - intros -> t. apply (bary_poly_2d_correct _ _ nu); rewrite ?times_length; auto.
    + now apply times_NoDup.
    + destruct E. lia.
    + now rewrite LC.
Qed.

Lemma td_guard (xx : mat) : mwidth xx = (M * nq)%nat ->
  (mwidth xx / mwidth q_constr)%nat = M /\ (length q_constr =? mwidth xx / mwidth q_constr + N)%nat = true.
Proof.
  intros W. rewrite (shaped_mwidth _ _ _ SQ), (shaped_length _ _ _ SQ), W by (destruct E; lia).
  rewrite Nat.div_mul by lia. split; [reflexivity|]. apply Nat.eqb_eq. lia.
Qed.
Lemma td_constr : exists tx, TD_construction_points rr N s M = Ok tx.
Proof. destruct (bt_points rr OK s N M H E) as (c & _ & _ & _ & _ & Ex & _). eauto. Qed.

Lemma td_interp xx xx_dot t : mwidth xx = (M * nq)%nat ->
  interpolations_TD_pseudospectral rr q_constr xx xx_dot uu name t0 tf M "pol" "pol" t
  = Ok (full_state M P t, full_rate M P t, state_at U t).
Proof.
  intros W. destruct (td_guard xx W) as [E1 E2].
  unfold interpolations_TD_pseudospectral. rewrite (strip_name "TD_" s name H ltac:(right; now left) HN).
  rewrite (shaped_length _ _ _ SU), E1 in *. rewrite E2. cbn [negb].
  destruct td_constr as [tx Ex]. rewrite Ex. cbn [rbind]. change (mem "pol"%string ["pol"; "pol"]%string) with true. cbn match.
  destruct (td_polys uu) as (fu & polys & EP & _ & KP & FU). rewrite EP. cbn [rbind].
  change (("pol" =? "pol")%string) with true. cbn match. cbn [rbind].
  rewrite (shaped_mwidth _ _ _ SQ) by (destruct E; lia).
  rewrite (flat_map_ext_in _ (fun k => rate_n_at k P t)).
  2:{ intros k Hk. apply in_seq in Hk. apply KP. lia. }
  destruct (blocks_split M nq (fun k => rate_n_at k P t) HQ) as [B1 B2]; [intros; rewrite rate_n_length; exact LP|].
  rewrite B1, B2, FU by reflexivity. reflexivity.
Qed.

Lemma td_interp_deriv xx xx_dot k t : mwidth xx = (M * nq)%nat ->
  interpolations_deriv_TD_pseudospectral rr q_constr xx xx_dot name k t0 tf N M "pol" t
  = Ok (flat_map (fun i => rate_n_at (i + k) P t) (seq 0 M)).
Proof.
  intros W. destruct (td_guard xx W) as [E1 E2].
  unfold interpolations_deriv_TD_pseudospectral. rewrite (strip_name "TD_" s name H ltac:(right; now left) HN).
  rewrite E1 in *. rewrite E2. cbn [negb].
  destruct td_constr as [tx Ex]. rewrite Ex. cbn [rbind].
  change (("pol" =? "pol")%string) with true. cbn match.
  destruct (td_polys []) as (fu & polys & EP & LN & KP & _). rewrite EP. cbn [rbind].
  rewrite (shaped_length _ _ _ SQ).
  destruct (matrix_D_nu_ok rr OK (N + M)) as (c & _ & _ & LL & _ & ED); [destruct E; lia|]. rewrite ED. cbn [rbind].
  f_equal. apply flat_map_ext_in. intros i Hi. apply in_seq in Hi.
  destruct (Nat.le_gt_cases (i + k) M) as [B|B].
  - rewrite app_nth1 by lia. apply KP. exact B.
  - rewrite app_nth2 by lia. rewrite LN.
    rewrite (nth_map' _ _ _ 0%nat) by (rewrite seq_length; lia). rewrite seq_nth by lia.
    replace (0 + (i + k - (M + 1)) + M + 1)%nat with (i + k)%nat by lia. apply td_poly_block.
Qed.

Lemma td_error F xx xx_dot t : mwidth xx = (M * nq)%nat ->
  length (F (full_state M P t) (state_at U t)) = (M * nq)%nat ->
  exists errs, dynamic_error_TD rr F q_constr xx xx_dot uu name t0 tf M M "pol" "pol" t = Ok errs /\
    defects M nq P (lastn nq (F (full_state M P t) (state_at U t))) t errs.
Proof.
  intros W LF. unfold dynamic_error_TD, dynamic_error_TD_interp.
  rewrite (strip_name "TD_" s name H ltac:(right; now left) HN).
  assert (HN' : In s [s; ("TD_" ++ s)%string]) by now left.
  assert (IT := td_interp xx xx_dot t W). assert (ID := fun k => td_interp_deriv xx xx_dot k t W).
  revert IT ID. unfold interpolations_TD_pseudospectral, interpolations_deriv_TD_pseudospectral.
  rewrite (strip_name "TD_" s name H ltac:(right; now left) HN).
  rewrite (strip_name "TD_" s s H ltac:(right; now left) HN').
  intros IT ID. rewrite IT. cbn [rbind]. rewrite (shaped_length _ _ _ SU).
  rewrite (mapm_ext _ (fun jj => Ok (map (fun i => rate_n_at (i + jj) P t) (seq 0 M)))).
  2:{ intros jj Hj. rewrite ID. cbn [rbind]. f_equal. apply (divisions_flat _ M nq). intros. now rewrite rate_n_length. }
  rewrite mapm_Ok. cbn [rbind].
  assert (D0 : get_x_divisions (full_state M P t) M = map (fun i => rate_n_at i P t) (seq 0 M)).
  { apply (divisions_flat _ M nq). intros. now rewrite rate_n_length. }
  rewrite D0, W, Nat.mul_comm, Nat.div_mul by lia.
  assert (EA : map (fun i => rate_n_at i P t) (seq 0 M) :: map (fun jj => map (fun i => rate_n_at (i + jj) P t) (seq 0 M)) (seq 1 M)
    = map (fun k => map (fun i => rate_n_at (i + k) P t) (seq 0 M)) (seq 0 (M + 1))).
  { replace (M + 1)%nat with (S M) by lia. cbn [seq map]. f_equal. apply map_ext. intros i. now rewrite Nat.add_0_r. }
  rewrite EA.
  rewrite (q_and_d_eq M nq P t HM LP). cbn [rbind].
  assert (Lf : length (lastn nq (F (full_state M P t) (state_at U t))) = nq).
  { rewrite lastn_slice by exact HQ. rewrite LF. unfold slice. rewrite firstn_length, skipn_length, LF.
    assert (1 * nq <= M * nq)%nat by (apply Nat.mul_le_mono_r; exact HM). lia. }
  rewrite (dyn_errs_eq M nq P _ t HM LP Lf). eexists. split; [reflexivity|].
  apply errors_are_defects; [exact HM|exact LP|exact Lf].
Qed.
End Td.

(** ** Bottom-up *)
(** The module's own differentiation matrix is the barycentric one. *)
Lemma v_sum_bu_eq ts i : (i < length ts)%nat -> v_sum_bu ts i = 1 / fold_right Rmult 1 (map (fun s => vnth ts i - s) (pop_at i ts)).
Proof.
  intros Hi. unfold v_sum_bu. do 2 f_equal.
  transitivity (map (fun s => vnth ts i - s) (map (vnth ts) (pop_at i (seq 0 (length ts))))); [now rewrite map_map|].
  now rewrite map_pop_at, map_vnth_seq.
Qed.
Lemma D_bu_eq ts : NoDup ts -> (0 < length ts)%nat -> matrix_D_bary_bu ts = Dmat ts.
Proof.
  intros ND NE. unfold matrix_D_bary_bu, Dmat. f_equal. unfold D_offdiag.
  apply map_ext_in. intros i Hi. apply map_ext_in. intros j Hj. apply in_seq in Hi, Hj.
  destruct (j =? i)%nat eqn:B; [reflexivity|]. f_equal.
  destruct (PsFinalProofs.v_sum_common ts ND NE) as (k & K0 & K).
  rewrite !vnth_map_seq by lia. rewrite !Nat.add_0_l.
  rewrite !v_sum_bu_eq by lia. pose proof (K i ltac:(lia)) as Ki. pose proof (K j ltac:(lia)) as Kj.
  set (a := fold_right Rmult 1 (map (fun s => vnth ts i - s) (pop_at i ts))) in *.
  set (b := fold_right Rmult 1 (map (fun s => vnth ts j - s) (pop_at j ts))) in *.
  assert (a <> 0) by (intros Z; rewrite Z, Rmult_0_r in Ki; auto).
  assert (b <> 0) by (intros Z; rewrite Z, Rmult_0_r in Kj; auto).
  assert (v_sum ts i = k / a) as -> by (rewrite <- Ki; now field).
  assert (v_sum ts j = k / b) as -> by (rewrite <- Kj; now field).
  field. auto.
Qed.
Lemma D_time_traj ts X m Q : NoDup ts -> (0 < length ts)%nat -> shaped (length ts) m X -> length Q = m -> traj_through ts X Q ->
  shaped (length ts) m (mmul (Dmat ts) X) /\ traj_through ts (mmul (Dmat ts) X) (map pderiv Q).
Proof.
  intros ND NE S L T.
  assert (SM : shaped (length ts) m (mmul (Dmat ts) X)) by (apply (mmul_shaped _ (length ts)); auto using Dmat_shaped).
  split; [exact SM|]. intros j Hj. rewrite map_length in Hj. rewrite (nth_map' _ _ _ []) by exact Hj. split.
  - rewrite pderiv_length. pose proof (proj1 (T j Hj)). lia.
  - intros i Hi. rewrite vnth_mcol by (rewrite (shaped_length _ _ _ SM); exact Hi).
    rewrite (Dmat_mmul ts X m j (nth j Q []) i); auto; lia.
Qed.
Lemma derive_highest_ok ts m n : NoDup ts -> (0 < length ts)%nat -> forall X Q, shaped (length ts) m X -> length Q = m -> traj_through ts X Q ->
  length (derive_highest (Dmat ts) ts X n) = n /\
  forall i t, (i < n)%nat -> (nth i (derive_highest (Dmat ts) ts X n) (fun _ => [])) t = rate_n_at (S i) Q t.
Proof.
  intros ND NE. induction n as [|n IH]; intros X Q S L T; [split; [reflexivity|intros; lia]|].
  destruct (D_time_traj ts X m Q ND NE S L T) as [S' T'].
  destruct (IH _ _ S' (eq_trans (map_length _ _) L) T') as [L' V']. cbn [derive_highest]. split; [cbn [length]; now rewrite L'|].
  intros [|i] t Hi.
  - cbn [nth]. rewrite (bary_poly_2d_correct ts _ m (map pderiv Q)); auto; [|now rewrite map_length].
    rewrite <- rate_n_state. reflexivity.
  - cbn [nth]. rewrite V' by lia. rewrite !rate_n_eval, map_map. reflexivity.
Qed.

Section Bu.
Variable rr : list R -> list R.
Hypothesis OK : real_roots_ok rr.
Variable lg : nat -> vec * vec.
Hypothesis LGOK : leggauss_ok lg.

Variables (s name : string) (N M nq nu : nat) (t0 tf : R) (xx xx_dot uu : mat) (P U : list (list R)) (tc cn : vec).
Hypothesis H : In s bt_schemes.
Hypothesis HN : In name [s; ("BU_" ++ s)%string].
Hypothesis E : enough_points s N.
Hypothesis HM : (1 <= M)%nat.
Hypothesis HQ : (1 <= nq)%nat.
Hypothesis T : t0 <> tf.
Hypothesis Ec : coll_points rr N s M = Ok tc.
(** Polynomial_interpolations_BU is called with order 2. *)
Hypothesis E2 : coll_points rr N s 2 = Ok tc.
Hypothesis En : BU_construction_points rr N s M = Ok cn.
Let ts := tau_to_t_points ([-1] ++ cn) t0 tf.
Hypothesis SX : shaped (length ts) (M * nq) xx.
Hypothesis SD : shaped (length ts) (M * nq) xx_dot.
Hypothesis LP : length P = nq.
Hypothesis BP : Forall (fun c => (length c <= N + M)%nat) P.
Hypothesis RX : forall i, (i < length ts)%nat -> mrow i xx = full_state M P (vnth ts i).
Hypothesis RD : forall i, (i < length ts)%nat -> lastn nq (mrow i xx_dot) = rate_n_at M P (vnth ts i).
Hypothesis SU : shaped N nu uu.
Hypothesis LU : length U = nu.
Hypothesis TU : traj_through (tau_to_t_points tc t0 tf) uu U.

Lemma bu_grid : exists c, cn = with_ends false true c /\ tc = with_ends (starts s) (ends s) c /\
  length tc = N /\ NoDup tc /\ NoDup ts /\ length ts = (2 + length c)%nat /\ vnth ts 0 = t0 /\
  get_coll_indices s = Ok (1 - b2n (starts s), 1 - b2n (ends s))%nat /\
  (N <= length ts)%nat.
Proof.
  destruct (bt_points rr OK s N M H E) as (c & S & Eb & Ec' & Ex & _ & Ei & L).
  rewrite Ec in Ec'. injection Ec' as Et. rewrite En in Ex. injection Ex as Ex. exists c.
  assert (LT : length ts = (2 + length c)%nat).
  { unfold ts. rewrite times_length, Ex. cbn [length app]. rewrite with_ends_length. simpl. lia. }
  split; [exact Ex|]. split; [exact Et|]. split; [now rewrite Et|].
  split; [rewrite Et; now apply (with_ends_NoDup _ _ _ _ S)|].
  split.
  { unfold ts. apply times_NoDup; [exact T|]. rewrite Ex. change ([-1] ++ with_ends false true c) with (with_ends true true c).
    now apply (with_ends_NoDup _ _ _ _ S). }
  split; [exact LT|].
  split; [unfold ts; rewrite vnth_times by (simpl; lia); apply tau_start|].
  split; [exact Ei|]. rewrite LT, <- L, with_ends_length. destruct (starts s), (ends s); simpl; lia.
Qed.

Lemma bu_x0 : mrow 0 xx = full_state M P t0 /\ (length (mrow 0 xx) / M)%nat = nq.
Proof.
  destruct bu_grid as (c & _ & _ & _ & _ & _ & LT & T0 & _).
  assert (A : mrow 0 xx = full_state M P t0) by (rewrite RX, T0 by lia; reflexivity).
  split; [exact A|]. rewrite A, full_state_length, LP, Nat.mul_comm. apply Nat.div_mul. lia.
Qed.

Lemma bu_highest : exists idx, get_coll_indices s = Ok idx /\
  shaped (length ts) nq (mlastcols nq xx_dot) /\ traj_through ts (mlastcols nq xx_dot) (map (pderiv_n M) P) /\
  shaped N nq (take idx (mlastcols nq xx_dot)) /\
  traj_through (tau_to_t_points tc t0 tf) (take idx (mlastcols nq xx_dot)) (map (pderiv_n M) P).
Proof.
  destruct bu_grid as (c & Ex & Et & LC & NDC & NDT & LT & T0 & Ei & LN). eexists. split; [exact Ei|].
  assert (BQ : forall c0, In c0 (map (pderiv_n M) P) -> (length c0 <= N)%nat).
  { intros c0 I. apply in_map_iff in I. destruct I as (a & <- & I). rewrite pderiv_n_length.
    rewrite Forall_forall in BP. specialize (BP _ I). lia. }
  assert (SL : shaped (length ts) nq (mlastcols nq xx_dot)).
  { apply (mlastcols_shaped _ (M * nq)); auto. assert (1 * nq <= M * nq)%nat by (apply Nat.mul_le_mono_r; exact HM). lia. }
  assert (RL : forall i, (i < length ts)%nat -> mrow i (mlastcols nq xx_dot) = state_at (map (pderiv_n M) P) (vnth ts i)).
  { intros i Hi. rewrite mrow_lastcols by (rewrite (shaped_length _ _ _ SD); exact Hi). rewrite RD by exact Hi. now rewrite rate_n_state. }
  split; [exact SL|]. split.
  { apply (traj_of_rows _ _ (length ts) nq); auto; [now rewrite map_length|]. intros c0 I. specialize (BQ _ I). lia. }
  assert (EN : (length ts - (1 - b2n (starts s)) - (1 - b2n (ends s)))%nat = N).
  { rewrite LT, <- LC, Et, with_ends_length. destruct (starts s), (ends s); simpl; lia. }
  assert (ST : shaped N nq (take (1 - b2n (starts s), 1 - b2n (ends s))%nat (mlastcols nq xx_dot))).
  { rewrite <- EN at 1. now apply take_shaped. }
  split; [exact ST|].
  apply (traj_of_rows _ _ N nq); auto; [now rewrite times_length|now rewrite map_length|].
  intros k Hk. assert (Hk' : (k < b2n (starts s) + length c + b2n (ends s))%nat).
  { rewrite <- LC, Et, with_ends_length in Hk. exact Hk. }
  destruct (times_coll (starts s) (ends s) c t0 tf k Hk') as [B1 B2].
  rewrite mrow_take by (rewrite (shaped_length _ _ _ SL), EN; exact Hk).
  rewrite RL by (rewrite LT; exact B1). f_equal. rewrite Et, B2. unfold ts. now rewrite Ex.
Qed.

Lemma state_rate0 t : rate_n_at 0 P t = state_at P t.
Proof. reflexivity. Qed.

(** The loop of integrations: the polynomial of each derivative. *)
Lemma bu_integrate : forall left ii f polys, (left + ii = M)%nat -> (forall t, f t = rate_n_at left P t) ->
  exists new, integrate_polys lg N t0 tf (map (fun k => rate_n_at k P t0) (seq 0 M)) left ii (f :: polys) = Ok (new ++ f :: polys) /\
    length new = left /\ forall k t, (k < left)%nat -> (nth k new (fun _ => [])) t = rate_n_at k P t.
Proof.
  assert (HN1 : (1 <= N)%nat) by apply E.
  induction left as [|left IH]; intros ii f polys LM F.
  - exists []. split; [reflexivity|]. split; [reflexivity|]. intros; lia.
  - cbn [integrate_polys hd]. rewrite map_length, seq_length.
    assert (Y0 : nth (M - ii - 1) (map (fun k => rate_n_at k P t0) (seq 0 M)) [] = rate_n_at left P t0).
    { rewrite (nth_map' _ _ _ 0%nat) by (rewrite seq_length; lia). rewrite seq_nth by lia. f_equal. lia. }
    rewrite Y0.
    destruct (poly_integral_2d_exact lg LGOK f (map (pderiv_n (S left)) P) (N - 1 + ii) t0 tf (rate_n_at left P t0)) as (G & EG & _ & PG).
    { exact T. } { rewrite map_length. lia. }
    { split.
      - apply Forall_map. eapply Forall_impl; [|exact BP]. intros a Ha. cbn beta in *. rewrite pderiv_n_length. lia.
      - intros t. rewrite F. now rewrite rate_n_state. }
    { now rewrite rate_n_length, map_length. }
    rewrite EG. cbn [rbind].
    assert (FG : forall t, G t = rate_n_at left P t).
    { intros t. rewrite PG. unfold antiderivs. rewrite rate_n_eval at 1. rewrite rate_n_eval. unfold state_at.
      clear. induction P as [|c Q IH]; [reflexivity|]. cbn [map map2]. rewrite IH. f_equal.
      apply (peval_same_deriv _ _ t0).
      - intros x. rewrite pint_at_deriv. now rewrite <- pderiv_n_S.
      - apply pint_at_val. }
    destruct (IH (S ii) G (f :: polys)) as (new & E1 & L1 & K1); [lia|exact FG|].
    exists (new ++ [G]). split; [rewrite E1, <- app_assoc; reflexivity|]. split; [rewrite app_length, L1; simpl; lia|].
    intros k t Hk. destruct (Nat.eq_dec k left) as [->|NE].
    + rewrite app_nth2 by lia. rewrite L1, Nat.sub_diag. apply FG.
    + rewrite app_nth1 by lia. apply K1. lia.
Qed.

Lemma bu_polys uu' : exists fu polys, Polynomial_interpolations_BU rr lg xx_dot (mrow 0 xx) uu' s M t0 tf 2 = Ok (fu, polys) /\
  length polys = (M + 1)%nat /\ (forall k t, (k <= M)%nat -> (nth k polys (fun _ => [])) t = rate_n_at k P t) /\
  (uu' = uu -> forall t, fu t = state_at U t).
Proof.
  destruct bu_grid as (c & Ex & Et & LC & NDC & NDT & LT & T0 & _ & LN).
  destruct bu_x0 as [X0 NQ]. destruct bu_highest as (idx & Ei & _ & _ & ST & TT).
  assert (HN1 : (1 <= N)%nat) by apply E.
  unfold Polynomial_interpolations_BU.
  rewrite (strip_name "BU_" s s H ltac:(now left) ltac:(now left)), NQ, Ei. cbn [rbind].
  rewrite (shaped_length _ _ _ ST), BU_coll_points_eq, E2 by exact H. cbn [rbind].
  rewrite X0.
  assert (QD : map (fun ii => slice (nq * ii) (nq * (ii + 1)) (full_state M P t0)) (seq 0 M) = map (fun k => rate_n_at k P t0) (seq 0 M)).
  { apply map_ext_in. intros k Hk. apply in_seq in Hk.
    apply (proj1 (blocks_iff (fun k => rate_n_at k P t0) nq M (full_state M P t0)
      ltac:(now rewrite full_state_length, LP) ltac:(intros; cbn beta; now rewrite rate_n_length)) eq_refl). lia. }
  rewrite QD.
  assert (NT : NoDup (tau_to_t_points tc t0 tf)) by (now apply times_NoDup).
  set (f := bary_poly_2d (tau_to_t_points tc t0 tf) (take idx (mlastcols nq xx_dot))).
  assert (F : forall t, f t = rate_n_at M P t).
  { intros t. unfold f. rewrite <- rate_n_state. apply (bary_poly_2d_correct _ _ nq); rewrite ?times_length, ?map_length; auto; try lia.
    now rewrite LC. }
  destruct (bu_integrate M 0 f [] ltac:(lia) F) as (new & EI & LNw & KN). rewrite EI. cbn [rbind].
  do 2 eexists. split; [reflexivity|]. split; [rewrite app_length, LNw; reflexivity|]. split.
  - intros k t Hk. destruct (Nat.eq_dec k M) as [->|NE].
    + rewrite app_nth2 by lia. rewrite LNw, Nat.sub_diag. apply F.
    + rewrite app_nth1 by lia. apply KN. lia.
  - intros -> t. apply (bary_poly_2d_correct _ _ nu); rewrite ?times_length; auto; try lia. now rewrite LC.
Qed.

Lemma bu_interp t :
  interpolations_BU_pseudospectral rr lg xx xx_dot uu name M t0 tf M "pol" "pol" t
  = Ok (full_state M P t, full_rate M P t, state_at U t).
Proof.
  destruct bu_x0 as [X0 NQ]. destruct bu_highest as (idx & Ei & _ & _ & ST & _).
  unfold interpolations_BU_pseudospectral. rewrite (strip_name "BU_" s name H ltac:(now left) HN), NQ, Ei. cbn [rbind].
  rewrite (shaped_length _ _ _ ST), En. cbn [rbind]. change (mem "pol"%string ["pol"; "pol"]%string) with true. cbn match.
  destruct (bu_polys uu) as (fu & polys & EP & _ & KP & FU). rewrite EP. cbn [rbind].
  change (("pol" =? "pol")%string) with true. cbn match. cbn [rbind].
  rewrite (flat_map_ext_in _ (fun k => rate_n_at k P t)).
  2:{ intros k Hk. apply in_seq in Hk. apply KP. lia. }
  destruct (blocks_split M nq (fun k => rate_n_at k P t) HQ) as [B1 B2]; [intros; rewrite rate_n_length; exact LP|].
  rewrite B1, B2, FU by reflexivity. reflexivity.
Qed.

Lemma bu_interp_deriv k t :
  interpolations_deriv_BU_pseudospectral rr lg xx xx_dot name M k t0 tf M "pol" t
  = Ok (flat_map (fun i => rate_n_at (i + k) P t) (seq 0 M)).
Proof.
  destruct bu_grid as (c & Ex & Et & LC & NDC & NDT & LT & T0 & _ & LN).
  destruct bu_x0 as [X0 NQ]. destruct bu_highest as (idx & Ei & SH & TH & ST & _).
  unfold interpolations_deriv_BU_pseudospectral. rewrite (strip_name "BU_" s name H ltac:(now left) HN), NQ, Ei. cbn [rbind].
  rewrite (shaped_length _ _ _ ST), En. cbn [rbind]. change (("pol" =? "pol")%string) with true. cbn match.
  destruct (bu_polys []) as (fu & polys & EP & LNp & KP & _). rewrite EP. cbn [rbind]. fold ts.
  rewrite D_bu_eq by (auto; lia).
  destruct (derive_highest_ok ts nq (k - 1) NDT ltac:(lia) _ _ SH (eq_trans (map_length _ _) LP) TH) as [LD KD].
  f_equal. apply flat_map_ext_in. intros i Hi. apply in_seq in Hi.
  destruct (Nat.le_gt_cases (i + k) M) as [B|B].
  - rewrite app_nth1 by lia. apply KP. exact B.
  - rewrite app_nth2 by lia. rewrite LNp. rewrite KD by lia.
    rewrite !rate_n_eval, map_map. apply map_ext. intros a. rewrite <- pderiv_n_add. do 2 f_equal. lia.
Qed.

Lemma bu_error F t :
  length (F (full_state M P t) (state_at U t)) = (M * nq)%nat ->
  exists errs, dynamic_error_BU rr lg F xx xx_dot uu name t0 tf M M "pol" "pol" t = Ok errs /\
    defects M nq P (lastn nq (F (full_state M P t) (state_at U t))) t errs.
Proof.
  intros LF. destruct bu_x0 as [X0 NQ]. unfold dynamic_error_BU, dynamic_error_BU_interp.
  rewrite (strip_name "BU_" s name H ltac:(now left) HN).
  assert (HN' : In s [s; ("BU_" ++ s)%string]) by now left.
  assert (IT := bu_interp t). assert (ID := fun k => bu_interp_deriv k t).
  revert IT ID. unfold interpolations_BU_pseudospectral, interpolations_deriv_BU_pseudospectral.
  rewrite (strip_name "BU_" s name H ltac:(now left) HN).
  rewrite (strip_name "BU_" s s H ltac:(now left) HN').
  intros IT ID. rewrite IT. cbn [rbind].
  rewrite (mapm_ext _ (fun jj => Ok (map (fun i => rate_n_at (i + jj) P t) (seq 0 M)))).
  2:{ intros jj Hj. rewrite ID. cbn [rbind]. f_equal. apply (divisions_flat _ M nq). intros. now rewrite rate_n_length. }
  rewrite mapm_Ok. cbn [rbind].
  assert (D0 : get_x_divisions (full_state M P t) M = map (fun i => rate_n_at i P t) (seq 0 M)).
  { apply (divisions_flat _ M nq). intros. now rewrite rate_n_length. }
  rewrite D0, NQ.
  assert (EA : map (fun i => rate_n_at i P t) (seq 0 M) :: map (fun jj => map (fun i => rate_n_at (i + jj) P t) (seq 0 M)) (seq 1 M)
    = map (fun k => map (fun i => rate_n_at (i + k) P t) (seq 0 M)) (seq 0 (M + 1))).
  { replace (M + 1)%nat with (S M) by lia. cbn [seq map]. f_equal. apply map_ext. intros i. now rewrite Nat.add_0_r. }
  rewrite EA.
  rewrite (q_and_d_eq M nq P t HM LP). cbn [rbind].
  assert (Lf : length (lastn nq (F (full_state M P t) (state_at U t))) = nq).
  { rewrite lastn_slice by exact HQ. rewrite LF. unfold slice. rewrite firstn_length, skipn_length, LF.
    assert (1 * nq <= M * nq)%nat by (apply Nat.mul_le_mono_r; exact HM). lia. }
  rewrite (dyn_errs_eq M nq P _ t HM LP Lf). eexists. split; [reflexivity|].
  apply errors_are_defects; [exact HM|exact LP|exact Lf].
Qed.
End Bu.
