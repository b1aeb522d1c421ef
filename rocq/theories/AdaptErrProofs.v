(** Errors of each segment: test points, blocks and maxima. *)
From Coq Require Import String ZArith.
From Coquelicot Require Import Coquelicot.
From Verif Require Import Prelude PreludeFacts Poly PolyFacts PolyInterp Mat MatFacts PwModel PwFacts PwSpec PwInterpModel PwInterpSpec PsModel PsSpec PwInterpProofs
  PsInterpProofs PsBaryProofs PsProblemProofs PsPointsProofs JacobiFacts BuTdApplyProofs UtilModel UtilSpec BuTdModel BuTdSpec PhModel PhSpec AnalysisModel AnalysisSpec AnalysisPhProofs AnalysisErrProofs AdaptModel AdaptSpec AdaptProofs.
Open Scope R_scope.
Open Scope vec_scope.
Open Scope list_scope.

(** Consecutive slices give the blocks back. *)
Lemma slices_concat {A} (bs : list (list A)) : forall pre, slices (map (@length A) bs) (length pre) (pre ++ concat bs) = bs.
Proof.
  induction bs as [|b bs IH]; intros pre; [reflexivity|]. cbn [map slices concat]. f_equal.
  - unfold slice. rewrite skipn_app, skipn_all, Nat.sub_diag. cbn [app skipn].
    replace (length pre + length b - length pre)%nat with (length b) by lia.
    rewrite firstn_app, firstn_all, Nat.sub_diag. cbn [firstn]. apply app_nil_r.
  - specialize (IH (pre ++ b)). rewrite app_length, <- app_assoc in IH. exact IH.
Qed.

Section Blocks.
Variable rr : list R -> list R.
Hypothesis OK : real_roots_ok rr.
Variable lg : nat -> vec * vec.
Variable u_other : string -> R -> Res vec.
Variable hermite : list R -> list vec -> list vec -> R -> vec.
Variables (r : ph_result) (ns : list nat) (F : vec -> vec -> vec) (good : nat -> R -> row -> Prop) (D Q : nat -> R -> vec).
Notation K := (h_t_knot_ext r).
Hypothesis LN : length ns = h_n_segments r.
Hypothesis LK : length K = (h_n_segments r + 1)%nat.
Hypothesis HS : In (h_scheme r) all_schemes.
Hypothesis HE : Forall (enough_points (h_scheme r)) ns.
Hypothesis HC : covers K (fun n g => interpolation_ph rr lg u_other hermite r 2 2 None None n g) good.
Hypothesis HG : forall s t d, (s < h_n_segments r)%nat -> good s t d ->
  get (KQ 0 0) d = Ok (Q s t) /\ exists d' e, errors_from_row F "q" 2 d = Ok (d', e) /\ e_dyn e = D s t.

Lemma test_points : exists pts, calc_test_point_arr rr r ns = Ok pts /\ test_points_are rr (h_scheme r) K ns pts.
Proof.
  unfold calc_test_point_arr.
  set (pt := fun s => match coll_points rr (S (nth s ns 0%nat)) (h_scheme r) 2 with Ok c => tau_to_t_points c (vnth K s) (vnth K (s + 1)) | Err _ => [] end).
  assert (EC : forall s, (s < h_n_segments r)%nat -> exists c, coll_points rr (S (nth s ns 0%nat)) (h_scheme r) 2 = Ok c /\ length c = S (nth s ns 0%nat)).
  { intros s Hs. assert (E : enough_points (h_scheme r) (S (nth s ns 0%nat))).
    { rewrite Forall_forall in HE. destruct (HE (nth s ns 0%nat)) as [A B]; [apply nth_In; lia|]. split; [lia|]. intros C. specialize (B C). lia. }
    destruct (coll_points_ok rr OK (h_scheme r) _ 2 HS E) as (c & Ec & L & _). eauto. }
  rewrite (mapm_some _ pt).
  2:{ intros s Hs. apply in_seq in Hs. rewrite (pyget_nat K s 0), (pyget_nat K (s + 1) 0) by lia. cbn [rbind].
      rewrite (pyget_nat (map S ns) s (S 0)) by (rewrite map_length; lia). cbn [rbind]. rewrite map_nth. unfold pt.
      destruct (EC s ltac:(lia)) as (c & -> & _). reflexivity. }
  eexists. split; [reflexivity|]. split; [rewrite map_length, seq_length; lia|]. intros s Hs.
  rewrite (nth_map' pt (seq 0 (h_n_segments r)) s 0%nat []) by (rewrite seq_length; lia). rewrite seq_nth by lia. cbn [Nat.add]. unfold pt.
  destruct (EC s ltac:(lia)) as (c & Ec & Lc). exists c. rewrite Ec. auto.
Qed.

Definition e_of (d : row) : vec := match errors_from_row F "q" 2 d with Ok (_, e) => e_dyn e | Err _ => [] end.

Theorem segment_errors : exists pts errs, analyze_res_err rr lg u_other hermite r ns F = Ok (pts, errs) /\
  test_points_are rr (h_scheme r) K ns pts /\ blocks_are ns pts D errs /\
  (forall mq me, (forall s, (s < length ns)%nat -> is_max (map Rabs (concat (nth s errs []))) (me s) /\
       is_max (map Rabs (concat (map (Q s) (nth s pts [])))) (mq s)) ->
     max_err rr lg u_other hermite r pts errs = Ok (map (fun s => me s / (1 + mq s)) (seq 0 (length ns)))).
Proof.
  destruct test_points as (pts & EP & TP). pose proof TP as (LP & HP). unfold analyze_res_err. rewrite EP. cbn [rbind].
  assert (TWO : Forall (fun ts => (2 <= length ts)%nat) pts).
  { apply Forall_forall. intros ts Hts. apply (In_nth _ _ []) in Hts. destruct Hts as (s & Hs & <-). destruct (HP s ltac:(lia)) as (c & _ & Lc & ->).
    unfold tau_to_t_points. rewrite map_length, Lc. rewrite Forall_forall in HE. destruct (HE (nth s ns 0%nat)) as [A _]; [apply nth_In; lia|]. lia. }
  destruct HC as (_ & _ & HC2). rewrite LK, Nat.add_sub in HC2. destruct (HC2 0%nat pts ltac:(lia) TWO) as (segs & EI & LS & HI). clear HC2.
  rewrite EI. cbn [rbind]. unfold dynamic_errors_from_interp.
  assert (ROW : forall s i, (s < h_n_segments r)%nat -> (i < length (nth s pts []))%nat ->
     get (KQ 0 0) (nth i (nth s segs []) []) = Ok (Q s (vnth (nth s pts []) i)) /\
     exists d' e, errors_from_row F "q" 2 (nth i (nth s segs []) []) = Ok (d', e) /\ e_dyn e = D s (vnth (nth s pts []) i)).
  { intros s i Hs Hi. destruct (HI s Hs) as (_ & G). apply HG; auto. }
  assert (ALL : forall s, (s < h_n_segments r)%nat -> forall d, In d (nth s segs []) -> exists i, (i < length (nth s pts []))%nat /\ nth i (nth s segs []) [] = d).
  { intros s Hs d Hd. apply (In_nth _ _ []) in Hd. destruct Hd as (i & Hi & Ed). destruct (HI s Hs) as (Ls & _). exists i. split; [rewrite <- Ls; exact Hi|exact Ed]. }
  set (g := fun d => match errors_from_row F "q" 2 d with Ok x => x | Err _ => ([], {| e_dyn := []; e_compat := [] |}) end).
  assert (GE : forall s, (s < h_n_segments r)%nat -> map (fun d => e_dyn (snd (g d))) (nth s segs []) = map (D s) (nth s pts [])).
  { intros s Hs. destruct (HI s Hs) as (Ls & _). apply (list_ext []); [now rewrite !map_length|]. rewrite map_length. intros i Hi. 
    rewrite (nth_map' (fun d => e_dyn (snd (g d))) (nth s segs []) i [] []) by exact Hi.
    rewrite (nth_map' (D s) (nth s pts []) i 0 []) by lia. destruct (ROW s i Hs ltac:(lia)) as (_ & d' & e & E1 & E2). unfold g. rewrite E1. exact E2. }
  rewrite (PwInterpProofs.mapm_total _ g).
  2:{ intros d Hd. apply in_concat in Hd. destruct Hd as (l & Hl & Hd). apply (In_nth _ _ []) in Hl. destruct Hl as (s & Hs & <-).
      destruct (ALL s ltac:(lia) d Hd) as (i & Hi & <-). destruct (ROW s i ltac:(lia) Hi) as (_ & d' & e & E1 & _). unfold g. now rewrite E1. }
  cbn [rbind].
  assert (EB : map e_dyn (map snd (map g (concat segs))) = concat (map (map (fun d => e_dyn (snd (g d)))) segs)).
  { rewrite !map_map. now rewrite concat_map. }
  assert (ES : slices (firstn (h_n_segments r) (map S ns)) 0 (map e_dyn (map snd (map g (concat segs)))) = map (map (fun d => e_dyn (snd (g d)))) segs).
  { rewrite EB. rewrite firstn_all2 by (rewrite map_length; lia).
    replace (map S ns) with (map (@length vec) (map (map (fun d => e_dyn (snd (g d)))) segs)); [apply (slices_concat _ [])|].
    apply (list_ext 0%nat); [rewrite !map_length; lia|]. rewrite !map_length. intros s Hs.
    rewrite (nth_map' (@length vec) _ s [] 0%nat) by (rewrite map_length; lia). rewrite (nth_map' _ segs s [] []) by lia. rewrite (nth_map' S ns s 0%nat 0%nat) by lia.
    rewrite GE by lia. rewrite map_length. destruct (HP s ltac:(lia)) as (c & _ & Lc & ->). unfold tau_to_t_points. now rewrite map_length. }
  rewrite ES. eexists pts, _. split; [reflexivity|]. split; [exact TP|].
  set (errs := map (map (fun d => e_dyn (snd (g d)))) segs).
  assert (EE : forall s, (s < length ns)%nat -> nth s errs [] = map (D s) (nth s pts [])).
  { intros s Hs. unfold errs. rewrite (nth_map' _ segs s [] []) by lia. apply GE. lia. }
  split; [split; [unfold errs; rewrite map_length; lia|exact EE]|].
  intros mq me HM. unfold max_err. rewrite EI. cbn [rbind].
  assert (MX : forall m x, is_max (map Rabs (concat m)) x -> max_abs m = Ok x).
  { intros m x Hx. unfold max_abs. destruct (concat m) as [|a l] eqn:Ec; [destruct Hx as ([] & _)|]. f_equal. 
    apply (is_max_unique (map Rabs (a :: l))); [|exact Hx]. apply npmax_is_max. discriminate. }
  set (q_of := fun d => match get (KQ 0 0) d with Ok q => q | Err _ => [] end).
  rewrite (PwInterpProofs.mapm_total _ (map q_of)).
  2:{ intros l Hl. apply (In_nth _ _ []) in Hl. destruct Hl as (s & Hs & <-). apply PwInterpProofs.mapm_total. intros d Hd.
      destruct (ALL s ltac:(lia) d Hd) as (i & Hi & <-). destruct (ROW s i ltac:(lia) Hi) as (E1 & _). unfold q_of. now rewrite E1. }
  cbn [rbind].
  assert (QE : map (map q_of) segs = map (fun s => map (Q s) (nth s pts [])) (seq 0 (length ns))).
  { apply (list_ext []); [rewrite !map_length, seq_length; lia|]. rewrite map_length. intros s Hs. rewrite (nth_map' _ segs s [] []) by lia.
    rewrite (nth_map' _ (seq 0 (length ns)) s 0%nat []) by (rewrite seq_length; lia). rewrite seq_nth by lia. cbn [Nat.add].
    destruct (HI s ltac:(lia)) as (Ls & _). apply (list_ext []); [now rewrite !map_length|]. rewrite map_length. intros i Hi.
    rewrite (nth_map' q_of (nth s segs []) i [] []) by exact Hi. rewrite (nth_map' (Q s) (nth s pts []) i 0 []) by lia.
    destruct (ROW s i ltac:(lia) ltac:(lia)) as (E1 & _). unfold q_of. now rewrite E1. }
  rewrite QE.
  assert (MQ : mapm max_abs (map (fun s => map (Q s) (nth s pts [])) (seq 0 (length ns))) = Ok (map mq (seq 0 (length ns)))).
  { rewrite <- (map_map (fun s => s) mq), map_id.
    assert (W : forall l, (forall s, In s l -> (s < length ns)%nat) -> mapm max_abs (map (fun s => map (Q s) (nth s pts [])) l) = Ok (map mq l)).
    { induction l as [|s l IH]; intros Hl; [reflexivity|]. cbn [map mapm]. rewrite (MX _ (mq s)) by (apply HM, Hl; now left). cbn [rbind].
      rewrite IH by (intros; apply Hl; now right). reflexivity. }
    apply W. intros s Hs. apply in_seq in Hs. lia. }
  rewrite MQ. cbn [rbind]. rewrite (mapm_some _ me).
  2:{ intros s Hs. apply in_seq in Hs. rewrite (pyget_nat errs s []) by (unfold errs; rewrite map_length; lia). cbn [rbind]. apply MX. apply (HM s). lia. }
  cbn [rbind]. f_equal. rewrite LN. generalize (seq 0 (h_n_segments r)). induction l as [|s l IH]; [reflexivity|]. cbn [map map2]. now rewrite IH.
Qed.
End Blocks.

(** The maxima exist when the errors have components. *)
Lemma concat_not_nil {A} (l : list (list A)) : l <> [] -> (forall x, In x l -> x <> []) -> concat l <> [].
Proof.
  destruct l as [|x l]; [congruence|]. intros _ H. cbn [concat]. intros E. apply app_eq_nil in E. destruct E as [E _]. apply (H x); [now left|exact E].
Qed.
Lemma segment_maxima rr lg u_other hermite r ns pts errs (D Q : nat -> R -> vec) K scheme :
  test_points_are rr scheme K ns pts -> blocks_are ns pts D errs ->
  (forall s t, (s < length ns)%nat -> D s t <> []) -> (forall s t, (s < length ns)%nat -> Q s t <> []) ->
  (forall mq me, (forall s, (s < length ns)%nat -> is_max (map Rabs (concat (nth s errs []))) (me s) /\
       is_max (map Rabs (concat (map (Q s) (nth s pts [])))) (mq s)) ->
     max_err rr lg u_other hermite r pts errs = Ok (map (fun s => me s / (1 + mq s)) (seq 0 (length ns)))) ->
  exists m, max_err rr lg u_other hermite r pts errs = Ok m /\ maxima_are ns pts Q errs m.
Proof.
  intros (LP & HP) (LE & HE) HD HQ H.
  assert (NP : forall s, (s < length ns)%nat -> nth s pts [] <> []).
  { intros s Hs E. destruct (HP s Hs) as (c & _ & Lc & Ec). rewrite E in Ec. destruct c; [discriminate Lc|discriminate Ec]. }
  assert (NN : forall (f : R -> vec) l, l <> [] -> (forall t, f t <> []) -> map Rabs (concat (map f l)) <> []).
  { intros f l Hl Hf E. apply map_eq_nil in E. revert E. apply concat_not_nil; [intros E; apply map_eq_nil in E; contradiction|].
    intros x Hx. apply in_map_iff in Hx. destruct Hx as (t & <- & _). apply Hf. }
  pose (me := fun s => npmax (map Rabs (concat (nth s errs [])))).
  pose (mq := fun s => npmax (map Rabs (concat (map (Q s) (nth s pts []))))).
  assert (A : forall s, (s < length ns)%nat -> is_max (map Rabs (concat (nth s errs []))) (me s) /\ is_max (map Rabs (concat (map (Q s) (nth s pts [])))) (mq s)).
  { intros s Hs. split; apply npmax_is_max.
    - rewrite HE by exact Hs. apply NN; auto.
    - apply NN; auto. }
  eexists. split; [apply (H mq me); exact A|]. split; [now rewrite map_length, seq_length|]. intros s Hs.
  destruct (A s Hs) as [A1 A2]. exists (me s), (mq s). split; [exact A1|]. split; [exact A2|].
  unfold vnth. rewrite (nth_map' _ (seq 0 (length ns)) s 0%nat 0) by (rewrite seq_length; lia). now rewrite seq_nth by lia.
Qed.

Section Motions.
Variable rr : list R -> list R.
Hypothesis OK : real_roots_ok rr.
Variable lg : nat -> vec * vec.
Variable u_other : string -> R -> Res vec.
Variable hermite : list R -> list vec -> list vec -> R -> vec.
Variables (r : ph_result) (ns : list nat) (F : vec -> vec -> vec) (nq : nat) (Ps Us : list (list (list R))).
Notation K := (h_t_knot_ext r).
Hypothesis LN : length ns = h_n_segments r.
Hypothesis LK : length K = (h_n_segments r + 1)%nat.
Hypothesis HS : In (h_scheme r) all_schemes.
Hypothesis HE : Forall (enough_points (h_scheme r)) ns.
Hypothesis Hq : (1 <= nq)%nat.
Hypothesis HF : forall x u, (nq <= length (F x u))%nat.

Theorem motion_segment_errors :
  (forall s, (s < length ns)%nat -> length (nth s Ps []) = nq) ->
  covers K (fun n g => interpolation_ph rr lg u_other hermite r 2 2 None None n g) (motion_sample 2 Ps Us) ->
  exists pts errs m, analyze_res_err rr lg u_other hermite r ns F = Ok (pts, errs) /\
    test_points_are rr (h_scheme r) K ns pts /\
    blocks_are ns pts (fun s t => rate_n_at 2 (nth s Ps []) t -v lastn nq (F (full_state 2 (nth s Ps []) t) (state_at (nth s Us []) t))) errs /\
    max_err rr lg u_other hermite r pts errs = Ok m /\
    maxima_are ns pts (fun s t => state_at (nth s Ps []) t) errs m.
Proof.
  intros LP HC.
  destruct (segment_errors rr OK lg u_other hermite r ns F (motion_sample 2 Ps Us)
    (fun s t => rate_n_at 2 (nth s Ps []) t -v lastn nq (F (full_state 2 (nth s Ps []) t) (state_at (nth s Us []) t)))
    (fun s t => state_at (nth s Ps []) t) LN LK HS HE HC) as (pts & errs & E & TP & BL & MX).
  { intros s t d Hs (Sh & GX). split; [apply (proj1 (proj2 (proj2 Sh)) 0%nat 0%nat); lia|].
    assert (LX : length (full_state 2 (nth s Ps []) t) = (2 * nq)%nat) by (rewrite full_state_length; f_equal; apply LP; lia).
    eexists _, _. split; [exact (errors_row F "q" 2 nq _ _ _ _ _ ltac:(lia) Sh GX LX (or_introl eq_refl))|]. reflexivity. }
  destruct (segment_maxima rr lg u_other hermite r ns pts errs _ (fun s t => state_at (nth s Ps []) t) _ _ TP BL) as (m & Em & Hm); [| |exact MX|].
  - intros s t Hs C. apply (f_equal (@length R)) in C. rewrite vsub_length, rate_n_length, lastn_length, LP in C by (auto; lia). cbn in C. lia.
  - intros s t Hs C. apply (f_equal (@length R)) in C. rewrite state_at_length, LP in C by auto. cbn in C. lia.
  - exists pts, errs, m. auto.
Qed.
Theorem state_segment_errors :
  (forall s, (s < length ns)%nat -> length (nth s Ps []) = (2 * nq)%nat) ->
  covers K (fun n g => interpolation_ph rr lg u_other hermite r 2 2 None None n g) (state_sample nq Ps Us) ->
  exists pts errs m, analyze_res_err rr lg u_other hermite r ns F = Ok (pts, errs) /\
    test_points_are rr (h_scheme r) K ns pts /\
    blocks_are ns pts (fun s t => firstn nq (rate_n_at 2 (nth s Ps []) t) -v
       lastn nq (F (firstn nq (state_at (nth s Ps []) t) ++ firstn nq (rate_at (nth s Ps []) t)) (state_at (nth s Us []) t))) errs /\
    max_err rr lg u_other hermite r pts errs = Ok m /\
    maxima_are ns pts (fun s t => firstn nq (state_at (nth s Ps []) t)) errs m.
Proof.
  intros LP HC.
  assert (S0 : forall v : vec, slice (nq * 0) (nq * (0 + 1)) v = firstn nq v).
  { intros v. unfold slice. rewrite Nat.mul_0_r, Nat.add_0_l, Nat.mul_1_r, Nat.sub_0_r. reflexivity. }
  destruct (segment_errors rr OK lg u_other hermite r ns F (state_sample nq Ps Us)
    (fun s t => firstn nq (rate_n_at 2 (nth s Ps []) t) -v
       lastn nq (F (firstn nq (state_at (nth s Ps []) t) ++ firstn nq (rate_at (nth s Ps []) t)) (state_at (nth s Us []) t)))
    (fun s t => firstn nq (state_at (nth s Ps []) t)) LN LK HS HE HC) as (pts & errs & E & TP & BL & MX).
  { intros s t d Hs (Sh & GX). split; [rewrite <- S0; apply (proj1 (proj2 (proj2 Sh)) 0%nat 0%nat); lia|].
    assert (LX : length (state_at (nth s Ps []) t) = (2 * nq)%nat) by (rewrite state_at_length; apply LP; lia).
    eexists _, _. split; [exact (errors_row F "q" 2 nq _ _ _ _ _ ltac:(lia) Sh GX LX (or_introl eq_refl))|]. cbn [e_dyn seq flat_map].
    rewrite !S0, app_nil_r. reflexivity. }
  destruct (segment_maxima rr lg u_other hermite r ns pts errs _ (fun s t => firstn nq (state_at (nth s Ps []) t)) _ _ TP BL) as (m & Em & Hm); [| |exact MX|].
  - intros s t Hs C. apply (f_equal (@length R)) in C. rewrite vsub_length, firstn_length, rate_n_length, lastn_length, LP in C by (auto; lia). cbn [length] in C. lia.
  - intros s t Hs C. apply (f_equal (@length R)) in C. rewrite firstn_length, state_at_length, LP in C by auto. cbn [length] in C. lia.
  - exists pts, errs, m. auto.
Qed.
End Motions.

(** ** Accumulated errors *)
Lemma trapz_affine a c y : forall t, np_trapz y (map (fun x => a + c * x) t) = c * np_trapz y t.
Proof.
  induction y as [|y0 y IH]; intros [|t0 t]; cbn [np_trapz map]; try ring.
  destruct y as [|y1 y]; [ring|]. destruct t as [|t1 t]; [cbn; ring|]. specialize (IH (t1 :: t)). cbn [map] in *. rewrite IH. field.
Qed.
Theorem run_error_scaled n err t0 T : (2 <= n)%nat -> 0 < T ->
  total_state_error (linspace t0 (t0 + T) n) err = map (Rmult (T / 2)) (run_error n err).
Proof.
  intros Hn HT. unfold run_error, total_state_error. rewrite map_map. apply map_ext. intros j.
  rewrite <- (trapz_affine t0). f_equal. unfold linspace. rewrite map_map. apply map_ext. intros i.
  field. rewrite minus_INR by lia. apply le_INR in Hn. cbn in *. lra.
Qed.
