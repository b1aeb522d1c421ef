(** Proofs for the cost functions of the multi-segment problems. *)
From Coquelicot Require Import Coquelicot.
From Coq Require Import String.
From Verif Require Import Prelude PreludeFacts Poly PolyFacts PolyInterp Mat MatFacts PwInterpModel PsModel PsSpec
  PsPointsProofs PsProblemProofs PsNodesProofs PsBaryProofs UtilModel UtilSpec GaussFacts UtilProofs UtilMoreProofs BuTdModel BuTdSpec BuTdFacts
  CostModel CostSpec CostFacts CostProofs CostPsProofs PsApplyProofs BuTdApplyProofs.
Open Scope R_scope.
Open Scope vec_scope.
Open Scope list_scope.

Definition prefixed (s : string) : list string := [s; ("BU_" ++ s)%string; ("TD_" ++ s)%string].
Lemma strip_any s name : In s all_schemes -> In name (prefixed s) -> strip "TD_" (strip "BU_" name) = s.
Proof.
  intros H P. destruct (strip_prefixed s H) as [A B]. pose proof (strip_all s H) as C.
  destruct P as [<-|[<-|[<-|[]]]]; assumption.
Qed.
Lemma rsum_list n (f : nat -> R) : vsum (map f (seq 0 n)) = rsum n f.
Proof. apply vsum_map_seq. Qed.

Section Ph.
Variable rr : list R -> list R.
Variable lg : nat -> vec * vec.

Lemma quad_int_name s name N order exp mode A : In s all_schemes -> In name (prefixed s) ->
  quad_int rr lg name N order exp mode A = quad_int rr lg s N order exp mode A.
Proof. intros H P. unfold quad_int. rewrite (strip_any s name H P), (strip_all s H). reflexivity. Qed.

(** one segment is the one-interval problem *)
Lemma ph_single s name p u : In s all_schemes -> In name (prefixed s) -> ps_scheme p = s ->
  ph_u_sq_cost rr lg name [ps_t_end p - ps_t_start p] [ps_n_coll p] [u] = bt_u_sq_cost rr lg p u.
Proof.
  intros H P E. unfold ph_u_sq_cost, bt_u_sq_cost. cbn [length seq mapm nth vnth]. rewrite (quad_int_name s name) by assumption.
  rewrite E. destruct (quad_int rr lg s (ps_n_coll p) 2 true "u" u) as [r|e]; [|reflexivity]. cbn [rbind]. f_equal. cbn. unfold vnth. cbn. ring.
Qed.
(** and several are the sum of one-interval problems *)
Lemma ph_sum name h ps us :
  ph_u_sq_cost rr lg name h ps us
  = rbind (mapm (fun i => ph_u_sq_cost rr lg name [vnth h i] [nth i ps O] [nth i us []]) (seq 0 (length ps)))
          (fun l => Ok (vsum l)).
Proof.
  unfold ph_u_sq_cost at 1.
  rewrite (mapm_ext (fun i => ph_u_sq_cost rr lg name [vnth h i] [nth i ps O] [nth i us []])
    (fun i => rbind (quad_int rr lg name (nth i ps O) 2 true "u" (nth i us [])) (fun r => Ok (vnth h i * sum2 r)))); [reflexivity|].
  intros i _. unfold ph_u_sq_cost. cbn [length seq mapm nth vnth].
  destruct (quad_int rr lg name (nth i ps O) 2 true "u" (nth i us [])) as [r|e]; [|reflexivity]. cbn. f_equal. unfold vnth. cbn. ring.
Qed.

Hypothesis OK : real_roots_ok rr.
Hypothesis LGOK : leggauss_ok lg.

Lemma ph_u_cost s name knots ps us m C : In s all_schemes -> In name (prefixed s) ->
  (forall i, (i < length ps)%nat -> enough_points s (nth i ps O) /\ shaped (nth i ps O) m (nth i us []) /\
     length (nth i C []) = m /\ exists tc, coll_points rr (nth i ps O) s 2 = Ok tc /\
       cols_through (nth i ps O) (tau_to_t_points tc (vnth knots i) (vnth knots (S i))) true (nth i us []) (nth i C [])) ->
  ph_u_sq_cost rr lg name (map (fun i => vnth knots (S i) - vnth knots i) (seq 0 (length ps))) ps us
  = Ok (2 * rsum (length ps) (fun i => rsum m (fun j => RInt (peval (nth j (nth i C []) [])) (vnth knots i) (vnth knots (S i))))).
Proof.
  intros H P HS. unfold ph_u_sq_cost.
  rewrite (mapm_ext _ (fun i => Ok (2 * rsum m (fun j => RInt (peval (nth j (nth i C []) [])) (vnth knots i) (vnth knots (S i)))))).
  - rewrite mapm_Ok. cbn [rbind]. f_equal. rewrite rsum_list, rsum_scal. reflexivity.
  - intros i Hi. apply in_seq in Hi. destruct (HS i ltac:(lia)) as (E & SA & LC & tc & Ec & T).
    rewrite (quad_int_name s name) by assumption.
    destruct (get_weights_u_full rr OK lg LGOK _ _ 2%nat H E) as (tc' & w & Ec' & Ew & Lc & Q & _).
    assert (tc' = tc) by congruence. subst tc'.
    rewrite (quad_int_gen rr lg _ _ _ _ _ w (nth i us []) m H Ew SA (proj1 E)). cbn [rbind]. f_equal.
    rewrite vnth_map_seq by lia. apply (cols_core (nth i ps O) m tc w true); [exact Q|rewrite Lc; exact SA|exact LC|exact T].
Qed.

(** ** [quad_cost]: always the squares *)
Lemma seg_rows_const {A} (x : A) a ps M i : (a + list_sum ps <= M)%nat -> (i < length ps)%nat ->
  nth i (seg_rows 0 0 a ps (repeat x M)) [] = repeat x (nth i ps O).
Proof.
  revert a i. induction ps as [|n ps IH]; intros a i HM Hi; [simpl in Hi; lia|]. cbn [seg_rows].
  unfold list_sum in HM. cbn [fold_right] in HM. fold (list_sum ps) in HM.
  destruct i as [|i]; cbn [nth].
  - unfold slice. replace (a + n + 0)%nat with (a + n)%nat by lia.
    clear - HM. assert (L : (a + n <= M)%nat) by lia. clear HM. revert M L. induction a as [|a IH]; intros M L.
    + cbn [skipn]. replace (0 + n - 0)%nat with n by lia. clear - L. revert M L. induction n as [|n IH]; intros [|M] L; try lia; [reflexivity|reflexivity|].
      cbn [repeat firstn]. f_equal. apply IH. lia.
    + destruct M as [|M]; [lia|]. cbn [repeat skipn]. replace (S a + n - S a)%nat with (a + n - a)%nat by lia. apply IH. lia.
  - apply IH; simpl in Hi; lia.
Qed.

Lemma coll_order s N o o' : In s all_schemes -> ~ In s jacobi_schemes -> coll_points rr N s o = coll_points rr N s o'.
Proof. intros H J. scheme_cases H; try reflexivity; exfalso; apply J; cbv; tauto. Qed.
Lemma ph_quad_order s name n_arr h ps arr : In s all_schemes -> ~ In s jacobi_schemes -> In name (prefixed s) ->
  ph_quad_cost rr lg name n_arr h ps arr false = ph_quad_cost rr lg name n_arr h ps arr true.
Proof.
  intros H J P. unfold ph_quad_cost.
  destruct (length arr =? list_sum ps)%nat; cbn [rbind]; [|destruct (length arr =? n_arr)%nat; cbn [rbind]; [|reflexivity]].
  all: f_equal; apply mapm_ext; intros i _; rewrite !(quad_int_name s name) by assumption;
    unfold quad_int; rewrite (strip_all s H); unfold get_weights, Lag_pol_2d;
    rewrite (coll_order s _ 0 1 H J); reflexivity.
Qed.
Lemma ph_quad_const s name n_arr knots ps k squared : In s all_schemes -> In name (prefixed s) ->
  (forall i, (i < length ps)%nat -> enough_points s (nth i ps O)) ->
  ph_quad_cost rr lg name n_arr (map (fun i => vnth knots (S i) - vnth knots i) (seq 0 (length ps))) ps
    (repeat [k] (list_sum ps)) squared
  = Ok (2 * (k ^ 2 * (vnth knots (length ps) - vnth knots 0))).
Proof.
  intros H P E. unfold ph_quad_cost. rewrite repeat_length, Nat.eqb_refl. cbn [rbind].
  rewrite (mapm_ext _ (fun i => Ok (2 * (k ^ 2 * (vnth knots (S i) - vnth knots i))))).
  - rewrite mapm_Ok. cbn [rbind]. f_equal. rewrite rsum_list, rsum_scal, rsum_scal, rsum_telescope. reflexivity.
  - intros i Hi. apply in_seq in Hi. rewrite seg_rows_const by lia. specialize (E i ltac:(lia)).
    rewrite (quad_int_name s name) by assumption.
    set (o := if squared then 1%nat else 0%nat).
    destruct (get_weights_u_full rr OK lg LGOK _ _ o H E) as (tc & w & Ec & Ew & Lc & Q & _).
    assert (SA : shaped (nth i ps O) 1 (repeat [k] (nth i ps O))).
    { split; [apply repeat_length|]. apply Forall_forall. intros r Hr. apply repeat_spec in Hr. now rewrite Hr. }
    rewrite (quad_int_gen rr lg _ _ _ _ _ w _ 1%nat H Ew SA (proj1 E)). cbn [rbind]. f_equal.
    rewrite vnth_map_seq by lia.
    rewrite (cols_core (nth i ps O) 1 tc w true _ [[pow_exp true k]] (vnth knots i) (vnth knots (S i)) Q); [|rewrite Lc; exact SA|reflexivity|].
    + cbn [rsum]. f_equal. rewrite (RInt_ext (peval (nth 0 [[pow_exp true k]] [])) (fun _ => k ^ 2)) by (intros x _; cbn; unfold pow_exp; cbn; ring).
      rewrite RInt_const. unfold scal. simpl. unfold mult. simpl. ring.
    + apply const_cols; [apply E|]. unfold tau_to_t_points. rewrite map_length. exact Lc.
Qed.
Lemma ph_quad_state_rows s name h n ps arr squared m : In s all_schemes -> In name (prefixed s) -> enough_points s n ->
  shaped (list_sum (n :: ps) + length (n :: ps) + 1) m arr ->
  ph_quad_cost rr lg name (list_sum (n :: ps) + length (n :: ps) + 1) h (n :: ps) arr squared = Err RuntimeError.
Proof.
  intros H P E SA. unfold ph_quad_cost. rewrite (proj1 SA).
  destruct (Nat.eqb_spec (list_sum (n :: ps) + length (n :: ps) + 1) (list_sum (n :: ps))); [simpl in *; lia|].
  rewrite Nat.eqb_refl. cbn [rbind]. cbn [length seq mapm nth seg_rows].
  rewrite (quad_int_name s name) by assumption. unfold quad_int. rewrite (strip_all s H).
  destruct (get_weights_u_full rr OK lg LGOK _ _ (if squared then 1 else 0)%nat H E) as (tc & w & Ec & Ew & Lc & Q & _).
  rewrite Ew. cbn [rbind]. unfold cas_cols, slice.
  assert (L : length (firstn (0 + n + 2 - 0) (skipn 0 arr)) = (n + 2)%nat).
  { rewrite firstn_length. cbn [skipn]. rewrite (proj1 SA). cbn [length]. unfold list_sum. cbn [fold_right]. lia. }
  rewrite L. destruct (Nat.eqb_spec (n + 2) n); [lia|]. reflexivity.
Qed.
End Ph.

(** ** More about one interval *)
Section More.
Variable rr : list R -> list R.
Variable lg : nat -> vec * vec.
Hypothesis OK : real_roots_ok rr.
Hypothesis LGOK : leggauss_ok lg.
Lemma quad_cost_const p n_arr exp k : In (ps_scheme p) all_schemes -> enough_points (ps_scheme p) (ps_n_coll p) ->
  quad_cost rr lg p n_arr (repeat [k] (ps_n_coll p)) exp
  = Ok (2 * ((if exp then k ^ 2 else k) * (ps_t_end p - ps_t_start p))).
Proof.
  intros H E.
  assert (SA : shaped (ps_n_coll p) 1 (repeat [k] (ps_n_coll p))).
  { split; [apply repeat_length|]. apply Forall_forall. intros r Hr. apply repeat_spec in Hr. now rewrite Hr. }
  destruct (quad_cost_u rr lg OK LGOK p n_arr _ exp 1%nat H E SA) as (tc & Ec & Q).
  rewrite (Q [[pow_exp exp k]] eq_refl).
  - cbn [rsum]. f_equal. f_equal.
    rewrite (RInt_ext (peval (nth 0 [[pow_exp exp k]] [])) (fun _ => pow_exp exp k)) by (intros x _; cbn; ring).
    rewrite RInt_const, pow_exp_eq. unfold scal. simpl. unfold mult. simpl. ring.
  - apply const_cols; [apply E|]. unfold t_of, tau_to_t_points. rewrite map_length.
    destruct (coll_points_ok rr OK _ _ (ps_order p) H E) as (c & Ec' & L & _). congruence.
Qed.
Lemma cols_exist ts exp m A : NoDup ts -> exists C, length C = m /\ cols_through (length ts) ts exp A C.
Proof.
  intros ND. exists (map (fun j => lagr_interp ts (map (fun i => if exp then mget A i j ^ 2 else mget A i j) (seq 0 (length ts)))) (seq 0 m)).
  split; [now rewrite map_length, seq_length|]. intros j Hj. rewrite map_length, seq_length in Hj.
  rewrite (nth_indep _ [] ((fun j => lagr_interp ts (map (fun i => if exp then mget A i j ^ 2 else mget A i j) (seq 0 (length ts)))) O)) by (rewrite map_length, seq_length; exact Hj).
  rewrite (map_nth (fun j => lagr_interp ts (map (fun i => if exp then mget A i j ^ 2 else mget A i j) (seq 0 (length ts))))), seq_nth by exact Hj.
  destruct (lagr_interp_ok ts (map (fun i => if exp then mget A i (0 + j) ^ 2 else mget A i (0 + j)) (seq 0 (length ts))) ND) as [L V].
  split; [exact L|]. intros i Hi. rewrite (V i Hi). rewrite vnth_map_seq by exact Hi. reflexivity.
Qed.
Lemma ps_costs_exist p arr exp m : In (ps_scheme p) all_schemes -> enough_points (ps_scheme p) (ps_n_coll p) ->
  ps_t_start p <> ps_t_end p ->
  exists tc C, coll_points rr (ps_n_coll p) (ps_scheme p) (ps_order p) = Ok tc /\ length C = m /\
    cols_through (ps_n_coll p) (t_of p tc) exp arr C.
Proof.
  intros H E T. destruct (coll_points_ok rr OK _ _ (ps_order p) H E) as (c & Ec & L & I & _).
  assert (ND : NoDup (t_of p c)).
  { unfold t_of. apply times_NoDup; [exact T|]. apply increasing_NoDup; exact I. }
  destruct (cols_exist (t_of p c) exp m arr ND) as (C & LC & X). exists c, C. split; [exact Ec|]. split; [exact LC|].
  replace (length (t_of p c)) with (ps_n_coll p) in X; [exact X|]. unfold t_of, tau_to_t_points. now rewrite map_length.
Qed.
End More.

Definition ex_cost : ps_problem := Build_ps_problem "LGR" 3 2 1 1 4.
Lemma ex_cost_ok : In (ps_scheme ex_cost) all_schemes /\ enough_points (ps_scheme ex_cost) (ps_n_coll ex_cost) /\
  ps_t_start ex_cost <> ps_t_end ex_cost /\ shaped (ps_n_coll ex_cost) 2 [[1; 2]; [3; 4]; [5; 6]].
Proof.
  split; [cbv; tauto|]. split; [split; cbn; intros; lia|]. split; [cbn; lra|].
  split; [reflexivity|]. repeat constructor.
Qed.
Lemma ex_ph_ok : In "LGL"%string all_schemes /\ In "BU_LGL"%string (prefixed "LGL") /\
  (forall i, (i < length [2; 3]%nat)%nat -> enough_points "LGL" (nth i [2; 3]%nat O)) /\
  shaped (list_sum [2; 3]%nat + length [2; 3]%nat + 1) 1 (repeat [7] 8).
Proof.
  split; [cbv; tauto|]. split; [cbv; tauto|]. split.
  - intros [|[|i]] Hi; simpl in Hi; try lia; split; cbn; intros; lia.
  - split; [reflexivity|]. repeat constructor.
Qed.
