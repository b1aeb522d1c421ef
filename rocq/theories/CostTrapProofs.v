(** More proofs for the cost functions: the trapezoidal cost of any array and
    the quadrature of several segments. *)
From Coquelicot Require Import Coquelicot.
From Coq Require Import String.
From Verif Require Import Prelude PreludeFacts Poly PolyFacts PolyInterp Mat MatFacts PwInterpModel PsModel PsSpec
  PsPointsProofs PsProblemProofs PsNodesProofs PsBaryProofs UtilModel UtilSpec GaussFacts UtilProofs UtilMoreProofs BuTdModel BuTdSpec BuTdFacts
  CostModel CostSpec CostFacts CostProofs CostPsProofs CostPhProofs PsApplyProofs BuTdApplyProofs.
Open Scope R_scope.
Open Scope vec_scope.
Open Scope list_scope.

Section Trap.
Variable rr : list R -> list R.
Hypothesis OK : real_roots_ok rr.

Lemma values_at_ends (f : R -> R) l r c : map f (with_ends l r c) = (if l then [f (-1)] else []) ++ map f c ++ (if r then [f 1] else []).
Proof. unfold with_ends. rewrite !map_app. destruct l, r; reflexivity. Qed.

Lemma trap_int_value s N order exp co q : In s bt_schemes -> ~ In s ["CG"; "CGR"; "CGR_inv"; "CGL"]%string -> enough_points s N ->
  forall c, inner_set (N - b2n (starts s) - b2n (ends s)) c -> coll_points rr N s order = Ok (with_ends (starts s) (ends s) c) ->
  BU_construction_points rr N s order = Ok (with_ends false true c) ->
  length co = N -> interpolates (with_ends (starts s) (ends s) c) co q ->
  trap_int rr s N order exp co = Ok (rsum (length c + 1) (fun k =>
    (pow_exp exp (peval q (vnth (-1 :: c ++ [1; 1]) k)) + pow_exp exp (peval q (vnth (-1 :: c ++ [1; 1]) (S k)))) / 2 *
    (vnth (-1 :: c ++ [1; 1]) (S (S k)) - vnth (-1 :: c ++ [1; 1]) (S k)))).
Proof.
  intros B NC E c IS Ec Eb LC I. assert (H := bt_all s B).
  destruct (extreme_u_start rr OK s N order H E) as (ts & f & Et & Ef & Xf).
  destruct (extreme_u_end rr OK s N order H E) as (ts' & g & Et' & Eg & Xg).
  assert (ts' = ts) by congruence. subst ts'. assert (ts = with_ends (starts s) (ends s) c) by congruence. subst ts.
  assert (L : length c = (N - b2n (starts s) - b2n (ends s))%nat) by apply IS.
  assert (EL := enough_length s N H E).
  assert (LT : length (with_ends (starts s) (ends s) c) = N) by (rewrite with_ends_length; lia).
  unfold trap_int. rewrite Eb. cbn [rbind]. rewrite Ef. cbn [rbind]. rewrite Eg. cbn [rbind].
  rewrite (Xf co q) by (congruence || exact I). rewrite (Xg co q) by (congruence || exact I). cbn [rbind].
  assert (V : co = map (peval q) (with_ends (starts s) (ends s) c)).
  { apply (nth_ext _ _ 0 0); [rewrite map_length; lia|]. intros i Hi. destruct I as (_ & I).
    rewrite (nth_indep (map _ _) 0 (peval q 0)) by (rewrite map_length; lia). rewrite map_nth. symmetry. apply (I i). lia. }
  assert (G : forall W, W = [peval q (-1)] ++ map (peval q) c ++ [peval q 1] ->
    (if (length W <? length (with_ends false true c ++ [1%R]))%nat then Err IndexError
     else Ok (rsum (length (with_ends false true c ++ [1%R]) - 1) (fun jj =>
            (pow_exp exp (vnth W jj) + pow_exp exp (vnth W (S jj)))
            * (vnth (with_ends false true c ++ [1]) (S jj) - vnth (with_ends false true c ++ [1]) jj) / 2)))
    = Ok (rsum (length c + 1) (fun k =>
       (pow_exp exp (peval q (vnth (-1 :: c ++ [1; 1]) k)) + pow_exp exp (peval q (vnth (-1 :: c ++ [1; 1]) (S k)))) / 2 *
       (vnth (-1 :: c ++ [1; 1]) (S (S k)) - vnth (-1 :: c ++ [1; 1]) (S k))))).
  { intros W ->. assert (TE : with_ends false true c ++ [1] = c ++ [1; 1]) by (unfold with_ends; cbn [app]; now rewrite <- app_assoc).
    rewrite TE.
    assert (LW : length ([peval q (-1)] ++ map (peval q) c ++ [peval q 1]) = (length c + 2)%nat) by (rewrite !app_length, map_length; cbn; lia).
    assert (LT2 : length (c ++ [1; 1]) = (length c + 2)%nat) by (rewrite app_length; cbn; lia).
    rewrite LW, LT2. destruct (Nat.ltb_spec (length c + 2) (length c + 2)); [lia|]. f_equal.
    replace (length c + 2 - 1)%nat with (length c + 1)%nat by lia.
    assert (WE : forall k, (k < length c + 2)%nat -> vnth ([peval q (-1)] ++ map (peval q) c ++ [peval q 1]) k = peval q (vnth (-1 :: c ++ [1; 1]) k)).
    { intros [|k] Hk; [reflexivity|]. unfold vnth. cbn [app nth]. destruct (Nat.lt_ge_cases k (length c)) as [A|A].
      - rewrite !app_nth1 by (rewrite ?map_length; exact A). rewrite (nth_indep _ 0 (peval q 0)) by (now rewrite map_length). apply map_nth.
      - rewrite !app_nth2 by (rewrite ?map_length; lia). rewrite map_length. replace (k - length c)%nat with 0%nat by lia. reflexivity. }
    apply rsum_ext. intros k Hk. rewrite !WE by lia. assert (Ev : forall k, vnth (-1 :: c ++ [1; 1]) (S k) = vnth (c ++ [1; 1]) k) by reflexivity.
    rewrite !Ev. field. }
  assert (D : In s ["LG"; "JG"]%string \/ In s ["LGR"; "JGR"]%string \/ In s ["LGR_inv"; "JGR_inv"]%string \/ In s ["LGL"; "JGL"]%string).
  { bt_cases B; cbv in NC |- *; tauto. }
  rewrite V. clear Xf Xg Ef Eg Ec Eb I Et Et'.
  destruct D as [D|[D|[D|D]]]; cbv [In] in D; repeat (destruct D as [D|D]; [subst s|]); try contradiction;
    cbn [mem String.eqb Ascii.eqb Bool.eqb existsb orb rbind]; apply G; rewrite values_at_ends; unfold starts, ends;
    cbv [mem schemes_with_start schemes_with_end existsb String.eqb Ascii.eqb Bool.eqb orb]; cbn [app]; rewrite ?app_nil_r, <- ?app_assoc; reflexivity.
Qed.

Lemma trapz_value p n_arr arr exp m : In (ps_scheme p) bt_schemes -> ~ In (ps_scheme p) ["CG"; "CGR"; "CGR_inv"; "CGL"]%string ->
  enough_points (ps_scheme p) (ps_n_coll p) -> shaped (ps_n_coll p) m arr ->
  exists tc c, coll_points rr (ps_n_coll p) (ps_scheme p) (ps_order p) = Ok tc /\
    c = filter (fun x => if Rlt_dec (-1) x then if Rlt_dec x 1 then true else false else false) tc /\
    forall C, length C = m -> cols_through (ps_n_coll p) tc false arr C ->
    let e := vnth (-1 :: c ++ [1; 1]) in
    trapz_cost rr p n_arr arr exp = Ok ((ps_t_end p - ps_t_start p) * rsum m (fun j => rsum (length c + 1) (fun k =>
      (pow_exp exp (peval (nth j C []) (e k)) + pow_exp exp (peval (nth j C []) (e (S k)))) / 2 * (e (S (S k)) - e (S k))))).
Proof.
  intros B NC E SA. destruct (bt_points rr OK _ _ (ps_order p) B E) as (c & IS & _ & Ec & Eb & _ & _ & LT).
  exists (with_ends (starts (ps_scheme p)) (ends (ps_scheme p)) c), c. split; [exact Ec|]. split.
  { destruct IS as (_ & _ & F). unfold with_ends.
    assert (FC : filter (fun x => if Rlt_dec (-1) x then if Rlt_dec x 1 then true else false else false) c = c).
    { clear - F. induction F as [|x c A F IH]; [reflexivity|]. cbn [filter]. destruct (Rlt_dec (-1) x) as [_|N]; [|lra].
      destruct (Rlt_dec x 1) as [_|N]; [|lra]. now rewrite IH. }
    assert (F1 : filter (fun x => if Rlt_dec (-1) x then if Rlt_dec x 1 then true else false else false) [-1] = []).
    { cbn [filter]. destruct (Rlt_dec (-1) (-1)) as [N|_]; [lra|reflexivity]. }
    assert (F2 : filter (fun x => if Rlt_dec (-1) x then if Rlt_dec x 1 then true else false else false) [1] = []).
    { cbn [filter]. destruct (Rlt_dec (-1) 1) as [_|_]; [|reflexivity]. destruct (Rlt_dec 1 1) as [N|_]; [lra|reflexivity]. }
    rewrite !filter_app, FC. destruct (starts (ps_scheme p)), (ends (ps_scheme p)); rewrite ?F1, ?F2; cbn [filter app]; now rewrite ?app_nil_r. }
  intros C LC T e. unfold trapz_cost. rewrite (proj1 SA), Nat.eqb_refl. cbn [rbind].
  unfold trap_int_cas. assert (SS : strip "BU_" (ps_scheme p) = ps_scheme p).
  { clear - B. destruct p as [s ? ? ? ? ?]. cbn [ps_scheme] in *. bt_cases B; reflexivity. }
  rewrite SS. cbn [String.eqb Ascii.eqb Bool.eqb rbind]. rewrite (proj1 SA), Nat.eqb_refl.
  assert (W : mwidth arr = m) by (apply (shaped_mwidth (ps_n_coll p)); [exact SA|apply E]).
  rewrite W.
  rewrite (mapm_ext _ (fun j => Ok (rsum (length c + 1) (fun k =>
      (pow_exp exp (peval (nth j C []) (e k)) + pow_exp exp (peval (nth j C []) (e (S k)))) / 2 * (e (S (S k)) - e (S k)))))).
  - rewrite mapm_Ok. cbn [rbind]. f_equal. f_equal. unfold sum2. now rewrite vsum_map_seq.
  - intros j Hj. apply in_seq in Hj. destruct (T j ltac:(lia)) as (D & V). unfold e.
    apply (trap_int_value (ps_scheme p) (ps_n_coll p) (ps_order p) exp (mcol j arr) (nth j C []) B NC E c IS Ec Eb).
    + rewrite mcol_length. apply SA.
    + split; [rewrite LT; exact D|]. intros i Hi. rewrite V by exact Hi. symmetry. apply vnth_mcol. rewrite (proj1 SA). lia.
Qed.
End Trap.

(** ** Several segments *)
Lemma seg_rows_u {A} ps : forall a (arr : list A) i, (i < length ps)%nat ->
  nth i (seg_rows 0 0 a ps arr) [] = slice (a + list_sum (firstn i ps)) (a + list_sum (firstn i ps) + nth i ps O) arr.
Proof.
  induction ps as [|n ps IH]; intros a arr i Hi; [cbn in Hi; lia|]. cbn [seg_rows]. destruct i as [|i].
  - cbn [nth firstn list_sum fold_right]. now rewrite !Nat.add_0_r.
  - cbn [nth firstn]. rewrite IH by (cbn in Hi; lia). unfold list_sum. cbn [fold_right]. f_equal; lia.
Qed.
Lemma slice_shaped a n m M arr : shaped M m arr -> (a + n <= M)%nat -> shaped n m (slice a (a + n) arr).
Proof.
  intros (L & F) H. unfold slice. replace (a + n - a)%nat with n by lia. split.
  - rewrite firstn_length, skipn_length. lia.
  - apply Forall_forall. intros r Hr. rewrite Forall_forall in F. apply F.
    assert (X : In r (skipn a arr)) by (rewrite <- (firstn_skipn n (skipn a arr)); apply in_or_app; now left).
    rewrite <- (firstn_skipn a arr). apply in_or_app. now right.
Qed.
Lemma sum_firstn ps i : (i < length ps)%nat -> (list_sum (firstn i ps) + nth i ps O <= list_sum ps)%nat.
Proof.
  revert i. induction ps as [|n ps IH]; intros i Hi; [cbn in Hi; lia|]. unfold list_sum in *. destruct i as [|i]; cbn [firstn fold_right nth].
  - lia.
  - specialize (IH i). cbn in Hi. lia.
Qed.
Section Ph.
Variable rr : list R -> list R.
Variable lg : nat -> vec * vec.
Hypothesis OK : real_roots_ok rr.
Hypothesis LGOK : leggauss_ok lg.

Lemma ph_quad_value s name n_arr knots ps arr (squared : bool) m C : In s all_schemes -> In name (CostPhProofs.prefixed s) ->
  shaped (list_sum ps) m arr ->
  (forall i, (i < length ps)%nat -> enough_points s (nth i ps O) /\ length (nth i C []) = m /\
     exists tc, coll_points rr (nth i ps O) s (if squared then 1 else 0)%nat = Ok tc /\
       cols_through (nth i ps O) (tau_to_t_points tc (vnth knots i) (vnth knots (S i))) true
         (slice (list_sum (firstn i ps)) (list_sum (firstn i ps) + nth i ps O) arr) (nth i C [])) ->
  ph_quad_cost rr lg name n_arr (map (fun i => vnth knots (S i) - vnth knots i) (seq 0 (length ps))) ps arr squared
  = Ok (2 * rsum (length ps) (fun i => rsum m (fun j => RInt (peval (nth j (nth i C []) [])) (vnth knots i) (vnth knots (S i))))).
Proof.
  intros H P SA HS. unfold ph_quad_cost. rewrite (proj1 SA), Nat.eqb_refl. cbn [rbind].
  rewrite (mapm_ext _ (fun i => Ok (2 * rsum m (fun j => RInt (peval (nth j (nth i C []) [])) (vnth knots i) (vnth knots (S i)))))).
  - rewrite mapm_Ok. cbn [rbind]. f_equal. rewrite rsum_list, rsum_scal. reflexivity.
  - intros i Hi. apply in_seq in Hi. destruct (HS i ltac:(lia)) as (E & LC & tc & Ec & T).
    rewrite (quad_int_name rr lg s name) by assumption. rewrite seg_rows_u by lia. cbn [plus].
    destruct (get_weights_u_full rr OK lg LGOK _ _ (if squared then 1 else 0)%nat H E) as (tc' & w & Ec' & Ew & Lc & Q & _).
    assert (tc' = tc) by congruence. subst tc'.
    assert (SI : shaped (nth i ps O) m (slice (list_sum (firstn i ps)) (list_sum (firstn i ps) + nth i ps O) arr)).
    { apply (slice_shaped _ _ _ (list_sum ps)); [exact SA|]. apply sum_firstn. lia. }
    rewrite (quad_int_gen rr lg _ _ _ _ _ w _ m H Ew SI (proj1 E)). cbn [rbind]. f_equal.
    rewrite vnth_map_seq by lia. apply (cols_core (nth i ps O) m tc w true); [exact Q|rewrite Lc; exact SI|exact LC|exact T].
Qed.
End Ph.
