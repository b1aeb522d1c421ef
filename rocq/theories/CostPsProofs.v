(** Proofs for the cost functions of the pseudospectral, bottom-up, top-down
    and multi-segment problems. *)
From Coquelicot Require Import Coquelicot.
From Coq Require Import String.
From Verif Require Import Prelude PreludeFacts Poly PolyFacts PolyInterp Mat MatFacts PwInterpModel PsModel PsSpec
  PsPointsProofs PsProblemProofs PsNodesProofs UtilModel UtilSpec GaussFacts UtilProofs UtilMoreProofs BuTdModel BuTdSpec BuTdFacts
  CostModel CostSpec CostFacts CostProofs.
Open Scope R_scope.
Open Scope vec_scope.
Open Scope list_scope.

Lemma strip_all s : In s all_schemes -> strip "TD_" (strip "BU_" s) = s.
Proof. intros H. scheme_cases H; reflexivity. Qed.
Lemma strip_prefixed s : In s all_schemes ->
  strip "TD_" (strip "BU_" ("BU_" ++ s)) = s /\ strip "TD_" (strip "BU_" ("TD_" ++ s)) = s.
Proof. intros H. scheme_cases H; split; reflexivity. Qed.

Section Costs.
Variable rr : list R -> list R.
Variable lg : nat -> vec * vec.

Lemma map_mcol f N m A j : shaped N m A -> (j < m)%nat ->
  map f (mcol j A) = mcol j (map (map f) A).
Proof.
  intros [_ SW] Hj. unfold mcol. rewrite !map_map. apply map_ext_in. intros r Hr.
  rewrite Forall_forall in SW. unfold vnth. rewrite (nth_indep (map f r) 0 (f 0)) by (rewrite map_length, (SW _ Hr); exact Hj).
  symmetry. apply map_nth.
Qed.

(** The general step: exact weights at [pts] give the integrals of the
    polynomials that take the values of the columns at those times. *)
Lemma quad_core (d m : nat) (pts w : vec) (exp : bool) (A : mat) (C : list (list R)) t0 tf :
  quad_exact d pts w -> shaped (length pts) m A -> length C = m ->
  (forall j, (j < m)%nat -> (length (nth j C []) <= d)%nat /\
     forall i, (i < length pts)%nat -> peval (nth j C []) (tau_to_t (vnth pts i) t0 tf) = pow_exp exp (mget A i j)) ->
  (tf - t0) * sum2 (map (fun j => vsum (vmul w (map (pow_exp exp) (mcol j A)))) (seq 0 m))
  = 2 * rsum m (fun j => RInt (peval (nth j C [])) t0 tf).
Proof.
  intros [Lw Q] SA LC HC. unfold sum2. rewrite vsum_map_seq, <- !rsum_scal. apply rsum_ext. intros j Hj.
  destruct (HC j Hj) as [L V].
  set (c := pcomp_affine (nth j C []) (t0 + (tf - t0) / 2) ((tf - t0) / 2)).
  rewrite RInt_affine. fold c.
  rewrite <- (Q c) by (unfold c; rewrite pcomp_affine_length; exact L).
  replace (map (pow_exp exp) (mcol j A)) with (map (peval c) pts).
  - unfold vdot. req. field.
  - apply vec_ext; [rewrite !map_length, mcol_length; symmetry; apply SA|].
    rewrite map_length. intros i Hi.
    unfold vnth. rewrite (nth_indep _ 0 (peval c 0)) by (rewrite map_length; exact Hi). rewrite map_nth.
    rewrite (nth_indep (map (pow_exp exp) (mcol j A)) 0 (pow_exp exp 0)) by (rewrite map_length, mcol_length, (proj1 SA); exact Hi).
    rewrite map_nth. fold (vnth pts i). change (nth i (mcol j A) 0) with (vnth (mcol j A) i).
    rewrite vnth_mcol by (rewrite (proj1 SA); exact Hi). rewrite <- (V i Hi). unfold c. rewrite peval_pcomp_affine.
    f_equal. unfold tau_to_t. field.
Qed.

(** ** One interval *)
Lemma cas_cols_ok N m f A : shaped N m A -> (1 <= N)%nat -> cas_cols N f A = Ok (map (fun j => f (mcol j A)) (seq 0 m)).
Proof.
  intros SA HN. unfold cas_cols. rewrite (proj1 SA), Nat.eqb_refl. rewrite (shaped_mwidth N m A SA HN). reflexivity.
Qed.

Lemma quad_int_gen s N order exp mode w A m : In s all_schemes ->
  get_weights rr lg N s order mode = Ok w -> shaped N m A -> (1 <= N)%nat ->
  quad_int rr lg s N order exp mode A = Ok (map (fun j => vsum (vmul w (map (pow_exp exp) (mcol j A)))) (seq 0 m)).
Proof.
  intros H E SA HN. unfold quad_int. rewrite (strip_all s H), E. cbn [rbind]. apply cas_cols_ok; assumption.
Qed.

Lemma pow_exp_eq (e : bool) x : (if e then x ^ 2 else x) = pow_exp e x.
Proof. destruct e; [reflexivity|]. unfold pow_exp. simpl. ring. Qed.
Lemma vnth_tau_points pts t0 tf i : (i < length pts)%nat -> vnth (tau_to_t_points pts t0 tf) i = tau_to_t (vnth pts i) t0 tf.
Proof.
  intros Hi. unfold tau_to_t_points, vnth.
  rewrite (nth_indep _ 0 (tau_to_t 0 t0 tf)) by (rewrite map_length; exact Hi). apply (map_nth (fun x => tau_to_t x t0 tf)).
Qed.
Lemma cols_core d m pts w exp A C t0 tf : quad_exact d pts w -> shaped (length pts) m A -> length C = m ->
  cols_through d (tau_to_t_points pts t0 tf) exp A C ->
  (tf - t0) * sum2 (map (fun j => vsum (vmul w (map (pow_exp exp) (mcol j A)))) (seq 0 m))
  = 2 * rsum m (fun j => RInt (peval (nth j C [])) t0 tf).
Proof.
  intros Q SA LC T. apply (quad_core d m pts w exp A C t0 tf Q SA LC). intros j Hj. rewrite <- LC in Hj.
  destruct (T j Hj) as [L V]. split; [exact L|]. intros i Hi.
  rewrite <- (vnth_tau_points pts t0 tf i Hi), <- pow_exp_eq. apply V. unfold tau_to_t_points. rewrite map_length. exact Hi.
Qed.

Hypothesis OK : real_roots_ok rr.
Hypothesis LGOK : leggauss_ok lg.

(** [quad_cost] on one row per collocation point *)
Lemma quad_cost_u p n_arr arr exp m : In (ps_scheme p) all_schemes -> enough_points (ps_scheme p) (ps_n_coll p) ->
  shaped (ps_n_coll p) m arr ->
  exists tc, coll_points rr (ps_n_coll p) (ps_scheme p) (ps_order p) = Ok tc /\
    forall C, length C = m -> cols_through (ps_n_coll p) (t_of p tc) exp arr C ->
      quad_cost rr lg p n_arr arr exp = Ok (2 * rsum m (fun j => RInt (peval (nth j C [])) (ps_t_start p) (ps_t_end p))).
Proof.
  intros H E SA. destruct (get_weights_u_full rr OK lg LGOK _ _ (ps_order p) H E) as (tc & w & Ec & Ew & Lc & Q & _).
  exists tc. split; [exact Ec|]. intros C LC T. unfold quad_cost. rewrite (proj1 SA), Nat.eqb_refl. cbn [rbind].
  rewrite (quad_int_gen _ _ _ _ _ w arr m H Ew SA (proj1 E)). cbn [rbind]. f_equal.
  apply (cols_core (ps_n_coll p) m tc w exp arr C _ _ Q); [rewrite Lc; exact SA|exact LC|]. exact T.
Qed.

(** the squared cost of LG integrates the square of the interpolated signal *)
Lemma psq_length c n : (length c <= n)%nat -> (length (pmul c c) <= 2 * n)%nat.
Proof. intros L. destruct c as [|a c]; [simpl; lia|]. rewrite pmul_length by discriminate. cbn [length] in *. lia. Qed.
Lemma quad_cost_LG p n_arr arr m : ps_scheme p = "LG"%string -> (1 <= ps_n_coll p)%nat ->
  shaped (ps_n_coll p) m arr ->
  exists tc, coll_points rr (ps_n_coll p) (ps_scheme p) (ps_order p) = Ok tc /\
    forall C, length C = m -> cols_through (ps_n_coll p) (t_of p tc) false arr C ->
      quad_cost rr lg p n_arr arr true
      = Ok (2 * rsum m (fun j => RInt (fun t => (peval (nth j C []) t) ^ 2) (ps_t_start p) (ps_t_end p))).
Proof.
  intros HS HN SA. assert (H : In (ps_scheme p) all_schemes) by (rewrite HS; cbv; tauto).
  assert (E : enough_points (ps_scheme p) (ps_n_coll p)) by (split; [exact HN|]; rewrite HS; intros B; cbv in B; exfalso; intuition congruence).
  destruct (get_weights_u_full rr OK lg LGOK _ _ (ps_order p) H E) as (tc & w & Ec & Ew & Lc & _ & _ & Q).
  exists tc. split; [exact Ec|]. intros C LC T. unfold quad_cost. rewrite (proj1 SA), Nat.eqb_refl. cbn [rbind].
  rewrite (quad_int_gen _ _ _ _ _ w arr m H Ew SA HN). cbn [rbind]. f_equal.
  rewrite (cols_core (2 * ps_n_coll p) m tc w true arr (map (fun c => pmul c c) C) _ _ (Q HS)); [|rewrite Lc; exact SA|rewrite map_length; exact LC|].
  - f_equal. apply rsum_ext. intros j Hj. rewrite (nth_indep _ [] (pmul [] [])) by (rewrite map_length; lia).
    rewrite (map_nth (fun c => pmul c c)). apply RInt_ext. intros x _. rewrite peval_pmul. simpl. ring.
  - intros j Hj. rewrite map_length in Hj. destruct (T j Hj) as [L V].
    rewrite (nth_indep _ [] (pmul [] [])) by (rewrite map_length; lia). rewrite (map_nth (fun c => pmul c c)).
    split; [apply psq_length; exact L|]. intros i Hi. pose proof (V i Hi) as V1. unfold t_of in V1. rewrite peval_pmul, V1. simpl. ring.
Qed.

(** [quad_cost] on one row per state point *)
Lemma quad_cost_x p st arr exp m : In (ps_scheme p) all_schemes -> enough_points (ps_scheme p) (ps_n_coll p) ->
  (In (ps_scheme p) second_order_schemes -> ps_order p = 2%nat) -> opti_setup rr p = Ok st ->
  pset_n_arr st <> ps_n_coll p -> shaped (pset_n_arr st) m arr ->
  forall C, length C = m -> cols_through (pset_n_arr st) (t_of p (pset_tau st)) exp arr C ->
    quad_cost rr lg p (pset_n_arr st) arr exp
    = Ok (2 * rsum m (fun j => RInt (peval (nth j C [])) (ps_t_start p) (ps_t_end p))).
Proof.
  intros H E O2 ES NE SA C LC T. destruct (setup_shape rr OK p H E O2) as (c & IS & Ec & _ & _ & ES').
  rewrite ES in ES'. injection ES' as ->. cbn [pset_n_arr pset_tau] in *.
  destruct (x_points_all rr OK _ _ H E) as (c' & Ec' & _ & X).
  assert (c' = c).
  { rewrite Ec in Ec'. injection Ec' as Ec'. unfold with_ends in Ec'. apply app_inv_head in Ec'. apply app_inv_tail in Ec'. auto. }
  subst c'.
  assert (L : length (with_ends true true c) = (2 + length c)%nat) by (rewrite with_ends_length; cbn; lia).
  assert (ND : NoDup (with_ends true true c)) by (apply increasing_NoDup; exact (with_ends_incr _ _ _ _ IS)).
  destruct (get_weights_x_full lg LGOK rr (2 + length c) (ps_scheme p) (ps_order p) _ X L ND ltac:(lia)) as (w & Ew & Q & _).
  unfold quad_cost. rewrite (proj1 SA). apply Nat.eqb_neq in NE. rewrite NE, Nat.eqb_refl. cbn [rbind].
  rewrite (quad_int_gen _ _ _ _ _ w arr m H Ew SA ltac:(lia)). cbn [rbind]. f_equal.
  apply (cols_core (2 + length c) m (with_ends true true c) w exp arr C _ _ Q); [rewrite L; exact SA|exact LC|exact T].
Qed.

Lemma quad_cost_shape p n_arr arr exp : length arr <> ps_n_coll p -> length arr <> n_arr ->
  quad_cost rr lg p n_arr arr exp = Err ValueError.
Proof. intros A B. unfold quad_cost. apply Nat.eqb_neq in A, B. rewrite A, B. reflexivity. Qed.

(** the same for the squared control cost of the bottom-up and top-down classes *)
Lemma bt_cost p u m : In (ps_scheme p) all_schemes -> enough_points (ps_scheme p) (ps_n_coll p) ->
  shaped (ps_n_coll p) m u ->
  exists tc, coll_points rr (ps_n_coll p) (ps_scheme p) 2 = Ok tc /\
    forall C, length C = m -> cols_through (ps_n_coll p) (t_of p tc) true u C ->
      bt_u_sq_cost rr lg p u = Ok (2 * rsum m (fun j => RInt (peval (nth j C [])) (ps_t_start p) (ps_t_end p))).
Proof.
  intros H E SA. destruct (get_weights_u_full rr OK lg LGOK _ _ 2%nat H E) as (tc & w & Ec & Ew & Lc & Q & _).
  exists tc. split; [exact Ec|]. intros C LC T. unfold bt_u_sq_cost.
  rewrite (quad_int_gen _ _ _ _ _ w u m H Ew SA (proj1 E)). cbn [rbind]. f_equal.
  apply (cols_core (ps_n_coll p) m tc w true u C _ _ Q); [rewrite Lc; exact SA|exact LC|]. exact T.
Qed.

(** constant signals *)
Lemma const_cols N ts exp k : (1 <= N)%nat -> length ts = N ->
  cols_through N ts exp (repeat [k] N) [[pow_exp exp k]].
Proof.
  intros HN L [|j] Hj; [|simpl in Hj; lia]. split; [simpl; lia|]. intros i Hi. cbn [nth].
  unfold mget, mrow. rewrite (nth_indep _ [] [k]) by (rewrite repeat_length; lia). rewrite nth_repeat, pow_exp_eq. cbn. ring.
Qed.

(** ** The trapezoidal cost of a constant *)
Lemma vnth_repeat k n i : (i < n)%nat -> vnth (repeat k n) i = k.
Proof. intros Hi. unfold vnth. rewrite (nth_indep _ 0 k) by (rewrite repeat_length; exact Hi). apply nth_repeat. Qed.
Lemma repeat_snoc (k : R) n : repeat k n ++ [k] = repeat k (S n).
Proof. induction n as [|n IH]; [reflexivity|]. cbn [repeat app]. now rewrite IH. Qed.
Lemma trap_int_const s N order exp k : In s bt_schemes -> ~ In s ["CG"; "CGR"; "CGR_inv"; "CGL"]%string -> enough_points s N ->
  exists pts, BU_construction_points rr N s order = Ok pts /\
    trap_int rr s N order exp (repeat k N) = Ok (pow_exp exp k * (1 - vnth pts 0)).
Proof.
  intros B NC E. assert (H := bt_all s B).
  destruct (bt_points rr OK s N order B E) as (c & IS & _ & Ec & Eb & _).
  exists (with_ends false true c). split; [exact Eb|].
  destruct (extreme_u_start rr OK s N order H E) as (ts & f & Et & Ef & Xf).
  destruct (extreme_u_end rr OK s N order H E) as (ts' & g & Et' & Eg & Xg).
  assert (ts' = ts) by congruence. subst ts'.
  assert (LT : length ts = N) by (destruct (coll_points_ok rr OK s N order H E) as (q & Eq & LQ & _); congruence).
  assert (HN : (1 <= N)%nat) by apply E.
  assert (I : interpolates ts (repeat k N) [k]).
  { split; [simpl; lia|]. intros i Hi. rewrite vnth_repeat by lia. simpl. ring. }
  unfold trap_int. rewrite Eb. cbn [rbind]. rewrite Ef. cbn [rbind]. rewrite Eg. cbn [rbind].
  assert (LR : length (repeat k N) = length ts) by (rewrite repeat_length; auto).
  rewrite (Xf _ _ LR I), (Xg _ _ LR I). cbn [rbind peval].
  replace (k + -1 * 0) with k by ring. replace (k + 1 * 0) with k by ring.
  assert (L : length c = (N - b2n (starts s) - b2n (ends s))%nat) by apply IS.
  assert (EL := enough_length s N H E).
  assert (G : forall T M, T = with_ends false true c ++ [1] -> (length c + 2 <= M)%nat ->
    (if (length (repeat k M) <? length T)%nat then Err IndexError
     else Ok (rsum (length T - 1) (fun jj =>
            (pow_exp exp (vnth (repeat k M) jj) + pow_exp exp (vnth (repeat k M) (S jj)))
            * (vnth T (S jj) - vnth T jj) / 2)))
    = Ok (pow_exp exp k * (1 - vnth (with_ends false true c) 0))).
  { intros T M ET HM.
    assert (TL : length T = (length c + 2)%nat) by (rewrite ET, app_length, with_ends_length; cbn; lia).
    rewrite repeat_length, TL. destruct (Nat.ltb_spec M (length c + 2)); [lia|].
    rewrite (rsum_ext _ (fun jj => (pow_exp exp (vnth (repeat k M) jj) + _) * _ / 2) (fun jj => pow_exp exp k * (vnth T (S jj) - vnth T jj))).
    - rewrite rsum_scal, (rsum_telescope _ (vnth T)). f_equal. f_equal.
      rewrite ET. unfold vnth. rewrite app_nth2 by (rewrite with_ends_length; cbn; lia).
      rewrite with_ends_length. replace (length c + 2 - 1 - _)%nat with O by (cbn; lia). cbn [nth].
      f_equal. rewrite app_nth1 by (rewrite with_ends_length; cbn; lia). reflexivity.
    - intros j Hj. rewrite !vnth_repeat by lia. field. }
  assert (D : In s ["LG"; "JG"]%string \/ In s ["LGR"; "JGR"]%string \/ In s ["LGR_inv"; "JGR_inv"]%string \/ In s ["LGL"; "JGL"]%string).
  { bt_cases B; cbv in NC |- *; tauto. }
  destruct D as [D|[D|[D|D]]]; cbv [In] in D; repeat (destruct D as [D|D]; [subst s|]); try contradiction; cbn in L, EL; cbn [mem String.eqb Ascii.eqb Bool.eqb existsb orb rbind].
  all: rewrite ?repeat_snoc.
  all: try (change ([k] ++ repeat k N) with (repeat k (S N))).
  all: try (change ([k] ++ repeat k (S N)) with (repeat k (S (S N)))).
  all: apply G; [reflexivity|lia].
Qed.
Lemma trapz_const p n_arr exp k : In (ps_scheme p) bt_schemes -> ~ In (ps_scheme p) ["CG"; "CGR"; "CGR_inv"; "CGL"]%string ->
  enough_points (ps_scheme p) (ps_n_coll p) ->
  exists pts, BU_construction_points rr (ps_n_coll p) (ps_scheme p) (ps_order p) = Ok pts /\
    trapz_cost rr p n_arr (repeat [k] (ps_n_coll p)) exp
    = Ok ((ps_t_end p - ps_t_start p) * (pow_exp exp k * (1 - vnth pts 0))).
Proof.
  intros B NC E. destruct (trap_int_const _ _ (ps_order p) exp k B NC E) as (pts & Eb & T).
  exists pts. split; [exact Eb|]. unfold trapz_cost. rewrite repeat_length, Nat.eqb_refl. cbn [rbind].
  unfold trap_int_cas. assert (SS : strip "BU_" (ps_scheme p) = ps_scheme p).
  { clear - B. destruct p as [s ? ? ? ? ?]. cbn [ps_scheme] in *. bt_cases B; reflexivity. }
  rewrite SS. cbn [String.eqb Ascii.eqb Bool.eqb rbind]. rewrite repeat_length, Nat.eqb_refl.
  assert (W : mwidth (repeat [k] (ps_n_coll p)) = 1%nat) by (destruct E as [E _]; destruct (ps_n_coll p); [lia|reflexivity]).
  rewrite W. cbn [seq mapm].
  assert (C : mcol 0 (repeat [k] (ps_n_coll p)) = repeat k (ps_n_coll p)).
  { unfold mcol. generalize (ps_n_coll p). induction n as [|n IH]; [reflexivity|]. cbn [repeat map]. now rewrite IH. }
  rewrite C, T. cbn [rbind]. f_equal. unfold sum2. simpl. ring.
Qed.
Lemma trapz_LGL2 p n_arr exp k : ps_scheme p = "LGL"%string -> ps_n_coll p = 2%nat ->
  trapz_cost rr p n_arr (repeat [k] 2) exp = Ok 0.
Proof.
  intros HS HN. destruct (trapz_const p n_arr exp k) as (pts & Eb & T).
  - rewrite HS. cbv. tauto.
  - rewrite HS. cbv. intuition congruence.
  - rewrite HS, HN. split; intros; lia.
  - rewrite HN in T. rewrite T. f_equal.
    assert (B : In "LGL"%string bt_schemes) by (cbv; tauto).
    destruct (bt_points rr OK "LGL" 2 (ps_order p) B) as (c & IS & _ & _ & Ec & _); [split; intros; lia|].
    rewrite HS, HN, Ec in Eb. injection Eb as <-. destruct IS as [L _]. cbn in L.
    destruct c; [|discriminate]. cbn. ring.
Qed.
Lemma trapz_chebyshev p n_arr arr exp : In (ps_scheme p) ["CG"; "CGR"; "CGR_inv"; "CGL"]%string -> 
  enough_points (ps_scheme p) (ps_n_coll p) -> length arr = ps_n_coll p -> (1 <= mwidth arr)%nat ->
  trapz_cost rr p n_arr arr exp = Err NotImplementedError.
Proof.
  intros H E L W. assert (B : In (ps_scheme p) bt_schemes) by (cbv in H |- *; intuition).
  assert (A := bt_all _ B).
  unfold trapz_cost. rewrite L, Nat.eqb_refl. cbn [rbind]. unfold trap_int_cas.
  assert (SS : strip "BU_" (ps_scheme p) = ps_scheme p).
  { clear - B. destruct p as [s ? ? ? ? ?]. cbn [ps_scheme] in *. bt_cases B; reflexivity. }
  rewrite SS. cbn [String.eqb Ascii.eqb Bool.eqb rbind]. rewrite L, Nat.eqb_refl.
  destruct (mwidth arr) as [|m]; [lia|]. cbn [seq mapm].
  destruct (bt_points rr OK _ _ (ps_order p) B E) as (c & IS & _ & Ec & Eb & _).
  destruct (extreme_u_start rr OK _ _ (ps_order p) A E) as (ts & f & Et & Ef & Xf).
  destruct (extreme_u_end rr OK _ _ (ps_order p) A E) as (ts' & g & Et' & Eg & Xg).
  assert (ts' = ts) by congruence. subst ts'.
  assert (LT : length ts = ps_n_coll p) by (destruct (coll_points_ok rr OK _ _ (ps_order p) A E) as (q & Eq & LQ & _); congruence).
  assert (ND : NoDup ts) by (destruct (coll_points_ok rr OK _ _ (ps_order p) A E) as (q & Eq & _ & LQ & _); replace ts with q by congruence; apply increasing_NoDup; exact LQ).
  set (co := mcol 0 arr). assert (LC : length co = length ts) by (unfold co; rewrite mcol_length; lia).
  assert (I := lagr_interp_ok ts co ND).
  unfold trap_int. rewrite Eb. cbn [rbind]. rewrite Ef. cbn [rbind]. rewrite Eg. cbn [rbind].
  rewrite (Xf co _ LC I), (Xg co _ LC I). cbn [rbind].
  clear - H. destruct p as [s ? ? ? ? ?]. cbn [ps_scheme] in *. cbv [In] in H.
  repeat (destruct H as [H|H]; [subst s; reflexivity|]). destruct H.
Qed.
End Costs.
