(** The arrays of a multi-segment problem. *)
From Coq Require Import String.
From Coquelicot Require Import Coquelicot.
From Verif Require Import Prelude PreludeFacts Poly PolyFacts PolyInterp Mat MatFacts PwInterpModel PsModel PsSpec
  JacobiFacts PwInterpProofs PwLiveProofs PsPointsProofs PsBaryProofs PsNodesProofs PsProblemProofs PsApplyProofs UtilModel BuTdModel BuTdSpec PhModel PhSpec.
Open Scope R_scope.
Open Scope list_scope.

Lemma list_sum_cons n l : list_sum (n :: l) = (n + list_sum l)%nat.
Proof. reflexivity. Qed.

(** ** Rows *)
Lemma knot_row_0 ns : knot_row ns 0 = 0%nat.
Proof. reflexivity. Qed.
Lemma knot_row_S ns s : (s < length ns)%nat -> knot_row ns (S s) = (knot_row ns s + nth s ns 0 + 1)%nat.
Proof.
  unfold knot_row. revert s. induction ns as [|n ns IH]; intros s H; [cbn in H; lia|].
  destruct s; [cbn [firstn nth]; rewrite list_sum_cons; cbn; lia|]. cbn [firstn nth length] in *. specialize (IH s ltac:(lia)). cbn [firstn] in *.
  rewrite !list_sum_cons. lia.
Qed.
Lemma knot_row_end ns : knot_row ns (length ns) = (ph_n_arr ns - 1)%nat.
Proof. unfold knot_row, ph_n_arr. rewrite firstn_all. lia. Qed.
Lemma knot_row_mono ns s k : (s <= k <= length ns)%nat -> (knot_row ns s <= knot_row ns k)%nat.
Proof.
  intros [H L]. induction k; [replace s with 0%nat by lia; lia|].
  destruct (Nat.eq_dec s (S k)); [subst; lia|]. rewrite (knot_row_S ns k) by lia. specialize (IHk ltac:(lia) ltac:(lia)). lia.
Qed.
Lemma knot_row_lt ns k : (k <= length ns)%nat -> (knot_row ns k < ph_n_arr ns)%nat.
Proof. intros H. pose proof (knot_row_mono ns k (length ns) ltac:(lia)). rewrite knot_row_end in H0. unfold ph_n_arr in *. lia. Qed.
Lemma point_row_lt ns s i : (s < length ns)%nat -> (i < nth s ns 0)%nat -> (point_row ns s i < knot_row ns (S s))%nat.
Proof. intros H L. unfold point_row. rewrite knot_row_S by exact H. lia. Qed.

Lemma map_add_seq a m : map (fun i => (a + i)%nat) (seq 0 m) = seq a m.
Proof. induction m; [reflexivity|]. rewrite !seq_S, map_app, IHm. reflexivity. Qed.
Lemma rows_partition ns :
  [knot_row ns 0] ++ flat_map (fun s => map (point_row ns s) (seq 0 (nth s ns 0%nat)) ++ [knot_row ns (s + 1)]) (seq 0 (length ns))
  = seq 0 (ph_n_arr ns).
Proof.
  assert (G : forall k, (k <= length ns)%nat ->
    [knot_row ns 0] ++ flat_map (fun s => map (point_row ns s) (seq 0 (nth s ns 0%nat)) ++ [knot_row ns (s + 1)]) (seq 0 k)
    = seq 0 (knot_row ns k + 1)).
  { induction k; intros H; [reflexivity|]. rewrite seq_S, flat_map_app, app_assoc, IHk by lia. cbn [flat_map].
    rewrite app_nil_r, !Nat.add_0_l.
    replace (knot_row ns (S k) + 1)%nat with ((knot_row ns k + 1) + (nth k ns 0 + 1))%nat by (rewrite knot_row_S by lia; lia).
    rewrite (seq_app (knot_row ns k + 1) (nth k ns 0%nat + 1) 0). f_equal. rewrite (seq_app (nth k ns 0%nat) 1). f_equal.
    - unfold point_row. apply (map_add_seq (knot_row ns k + 1)).

    - cbn. f_equal. rewrite Nat.add_1_r, knot_row_S by lia. lia. }
  rewrite (G (length ns)) by lia. f_equal. rewrite knot_row_end. unfold ph_n_arr. lia.
Qed.

Lemma seg_rows_length a ns : length (seg_rows a ns) = length ns.
Proof. revert a. induction ns; intros a0; [reflexivity|]. cbn. f_equal. apply IHns. Qed.
Lemma seg_rows_nth a ns s d : (s < length ns)%nat ->
  nth s (seg_rows a ns) d = ((a + knot_row ns s)%nat, (a + knot_row ns s + nth s ns 0%nat)%nat).
Proof.
  revert a s. induction ns as [|n ns IH]; intros a s H; [cbn in H; lia|]. destruct s.
  - cbn. f_equal; lia.
  - cbn [seg_rows nth length] in *. rewrite IH by lia.
    assert (E : knot_row (n :: ns) (S s) = (n + 1 + knot_row ns s)%nat) by (unfold knot_row; cbn [firstn]; rewrite list_sum_cons; lia).
    rewrite E. f_equal; lia.
Qed.

Section Rows.
Context (ns : list nat) (X : mat).
Hypothesis HX : length X = ph_n_arr ns.

Lemma ph_col_length : length (ph_col ns X) = length ns.
Proof. unfold ph_col. now rewrite map_length, seg_rows_length. Qed.
Lemma ph_col_nth s : (s < length ns)%nat -> nth s (ph_col ns X) [] = slice (1 + knot_row ns s) (1 + knot_row ns s + nth s ns 0%nat) X.
Proof.
  intros H. unfold ph_col. rewrite (nth_indep _ [] (slice 0 0 X)) by (rewrite map_length, seg_rows_length; exact H).
  change (slice 0 0 X) with ((fun b => slice (fst b) (snd b) X) (0, 0)%nat). rewrite map_nth, seg_rows_nth by exact H. reflexivity.
Qed.
Lemma ph_col_seg_length s : (s < length ns)%nat -> length (nth s (ph_col ns X) []) = nth s ns 0%nat.
Proof.
  intros H. rewrite ph_col_nth by exact H. unfold slice. rewrite firstn_length, skipn_length, HX.
  pose proof (knot_row_S ns s H). pose proof (knot_row_lt ns (S s) ltac:(lia)). lia.
Qed.
Lemma ph_col_row s i : (s < length ns)%nat -> (i < nth s ns 0%nat)%nat ->
  mrow i (nth s (ph_col ns X) []) = mrow (point_row ns s i) X.
Proof.
  intros H L. rewrite ph_col_nth by exact H. unfold slice, mrow, point_row. rewrite nth_firstn_lt by lia. rewrite nth_skipn'.
  f_equal. lia.
Qed.
Lemma ph_knot_ext_row k : (0 < length ns)%nat -> (k <= length ns)%nat -> nth k (ph_knot_ext ns X) [] = mrow (knot_row ns k) X.
Proof.
  intros K H. unfold ph_knot_ext, ph_knot. set (l := map _ _).
  assert (L : length l = length ns) by (unfold l; now rewrite map_length, seg_rows_length).
  assert (LB : length (butlastn 1 l) = (length ns - 1)%nat) by (unfold butlastn; cbn [Nat.eqb]; rewrite firstn_length; lia).
  destruct k; [reflexivity|]. cbn [app nth].
  destruct (Nat.eq_dec (S k) (length ns)) as [E|E].
  - rewrite app_nth2 by lia. replace (k - length (butlastn 1 l))%nat with 0%nat by lia. cbn [nth]. rewrite HX, E, knot_row_end. reflexivity.
  - rewrite app_nth1 by lia. unfold butlastn. cbn [Nat.eqb]. rewrite nth_firstn_lt by lia. unfold l.
    rewrite (nth_indep _ [] (mrow 0 X)) by (fold l; lia). change (mrow 0 X) with ((fun b => mrow (snd b) X) (0, 0)%nat).
    rewrite map_nth, seg_rows_nth by lia. cbn [snd]. f_equal. rewrite (knot_row_S ns k) by lia. lia.
Qed.
Lemma ph_knot_ext_length : (0 < length ns)%nat -> length (ph_knot_ext ns X) = (length ns + 1)%nat.
Proof.
  intros K. unfold ph_knot_ext, ph_knot. rewrite !app_length. unfold butlastn. cbn [Nat.eqb]. rewrite firstn_length, map_length, seg_rows_length. cbn. lia.
Qed.
End Rows.

Lemma concat_nth {A} (ls : list (list A)) s i d : (s < length ls)%nat -> (i < length (nth s ls []))%nat ->
  nth (list_sum (firstn s (map (@length A) ls)) + i) (concat ls) d = nth i (nth s ls []) d.
Proof.
  revert s i. induction ls as [|l ls IH]; intros s i H L; [cbn in H; lia|]. destruct s.
  - cbn in *. now rewrite app_nth1.
  - cbn [map firstn nth concat length] in *. rewrite list_sum_cons. rewrite app_nth2 by lia. rewrite <- (IH s i) by (try lia; exact L). f_equal. lia.
Qed.
Lemma ph_col_lengths ns X : length X = ph_n_arr ns -> map (@length vec) (ph_col ns X) = ns.
Proof.
  intros HX. apply nth_ext with (d := 0%nat) (d' := 0%nat).
  - now rewrite map_length, ph_col_length.
  - intros s H. rewrite map_length, ph_col_length in H. change 0%nat with (length (@nil vec)) at 1. rewrite map_nth. now apply ph_col_seg_length.
Qed.
Lemma like_u_row ns X s i : length X = ph_n_arr ns -> (s < length ns)%nat -> (i < nth s ns 0%nat)%nat ->
  mrow (point_number ns s i) (ph_like_u ns X) = mrow (point_row ns s i) X.
Proof.
  intros HX H L. unfold ph_like_u, point_number, mrow. rewrite <- (ph_col_lengths ns X HX) at 1.
  rewrite concat_nth.
  - fold (mrow i (nth s (ph_col ns X) [])). now rewrite ph_col_row.
  - now rewrite ph_col_length.
  - now rewrite ph_col_seg_length.
Qed.
Lemma like_u_length ns X : length X = ph_n_arr ns -> length (ph_like_u ns X) = list_sum ns.
Proof.
  intros HX. rewrite <- (ph_col_lengths ns X HX) at 2. unfold ph_like_u. clear. induction (ph_col ns X) as [|a l IH]; [reflexivity|].
  cbn. rewrite app_length, IH. reflexivity.
Qed.
Lemma point_number_lt ns s i : (s < length ns)%nat -> (i < nth s ns 0%nat)%nat -> (point_number ns s i < list_sum ns)%nat.
Proof.
  unfold point_number. revert s. induction ns as [|n ns IH]; intros s H L; [cbn in H; lia|]. destruct s; cbn [firstn nth length] in *; rewrite ?list_sum_cons; [cbn; lia|].
  specialize (IH s ltac:(lia) L). lia.
Qed.
Lemma point_number_onto ns j : (j < list_sum ns)%nat -> exists s i, (s < length ns)%nat /\ (i < nth s ns 0%nat)%nat /\ j = point_number ns s i.
Proof.
  revert j. induction ns as [|n ns IH]; intros j H; [cbn in H; lia|]. rewrite list_sum_cons in H. destruct (Nat.lt_ge_cases j n) as [L|L].
  - exists 0%nat, j. cbn. repeat split; lia.
  - destruct (IH (j - n)%nat ltac:(lia)) as [s [i [A [B C]]]]. exists (S s), i. unfold point_number in *. cbn [firstn nth length]. rewrite list_sum_cons. repeat split; lia.
Qed.

(** ** Times *)
Lemma knot_times_eq p knots : ph_t_knot_ext p knots = knot_times (ph_t_start p) (ph_t_end p) knots.
Proof. reflexivity. Qed.

Section Times.
Context (rr : list R -> list R).
Hypothesis Hrr : real_roots_ok rr.
Context (p : ph_problem) (knots : vec) (ns : list nat).
Hypothesis Hs : In (ph_scheme p) all_schemes.
Hypothesis Hn : Forall (enough_points (ph_scheme p)) ns.
Let T := knot_times (ph_t_start p) (ph_t_end p) knots.

Lemma nth_enough s : (s < length ns)%nat -> enough_points (ph_scheme p) (nth s ns 0%nat).
Proof. intros H. pose proof (proj1 (Forall_nth _ ns) Hn s 0%nat H). exact H0. Qed.

Lemma ph_t_col_ok : exists taus, length taus = length ns /\
  (forall s, (s < length ns)%nat -> coll_points rr (nth s ns 0%nat) (ph_scheme p) (ph_order p) = Ok (nth s taus []) /\
     length (nth s taus []) = nth s ns 0%nat /\
     exists c, inner_set (nth s ns 0%nat - b2n (starts (ph_scheme p)) - b2n (ends (ph_scheme p))) c /\
       nth s taus [] = with_ends (starts (ph_scheme p)) (ends (ph_scheme p)) c) /\
  ph_t_col rr p knots ns = Ok (map (fun s => tau_to_t_points (nth s taus []) (vnth T s) (vnth T (s + 1))) (seq 0 (length ns))).
Proof.
  destruct (PwLiveProofs.mapm_succeeds (fun s => coll_points rr (nth s ns 0%nat) (ph_scheme p) (ph_order p)) (seq 0 (length ns))) as [taus E].
  { intros s I. apply in_seq in I. destruct (coll_points_inner rr Hrr (ph_scheme p) (nth s ns 0%nat) (ph_order p) Hs (nth_enough s ltac:(lia))) as [c [E _]]. eauto. }
  destruct (PwInterpProofs.mapm_ok _ _ _ E) as [L H]. rewrite seq_length in L, H.
  exists taus. split; [exact L|].
  assert (H' : forall s, (s < length ns)%nat -> coll_points rr (nth s ns 0%nat) (ph_scheme p) (ph_order p) = Ok (nth s taus [])).
  { intros s I. pose proof (H s 0%nat [] I) as G. rewrite seq_nth in G by exact I. exact G. }
  split.
  - intros s I. split; [apply H'; exact I|].
    destruct (coll_points_inner rr Hrr (ph_scheme p) (nth s ns 0%nat) (ph_order p) Hs (nth_enough s I)) as [c [E' C]].
    rewrite (H' s I) in E'. assert (E2 : nth s taus [] = with_ends (starts (ph_scheme p)) (ends (ph_scheme p)) c) by congruence.
    split.
    + rewrite E2, with_ends_length. destruct C as [C _]. rewrite C. pose proof (enough_starts (ph_scheme p) (nth s ns 0%nat) Hs (nth_enough s I)).
      destruct (starts (ph_scheme p)), (ends (ph_scheme p)); cbn [b2n]; lia.
    + exists c. split; [|exact E2]. destruct (starts (ph_scheme p)), (ends (ph_scheme p)); exact C.
  - unfold ph_t_col. apply PwInterpProofs.mapm_total. intros s I. apply in_seq in I. rewrite H' by lia. reflexivity.
Qed.

Lemma ph_t_arr_ok : exists taus t, length taus = length ns /\
  (forall s, (s < length ns)%nat -> coll_points rr (nth s ns 0%nat) (ph_scheme p) (ph_order p) = Ok (nth s taus []) /\
     length (nth s taus []) = nth s ns 0%nat /\
     exists c, inner_set (nth s ns 0%nat - b2n (starts (ph_scheme p)) - b2n (ends (ph_scheme p))) c /\
       nth s taus [] = with_ends (starts (ph_scheme p)) (ends (ph_scheme p)) c) /\
  ph_t_arr rr p knots ns = Ok t /\ length t = ph_n_arr ns /\
  (forall s i, (s < length ns)%nat -> (i < nth s ns 0%nat)%nat -> vnth t (point_row ns s i) = tau_to_t (vnth (nth s taus []) i) (vnth T s) (vnth T (s + 1))) /\
  (forall k, (k <= length ns)%nat -> vnth t (knot_row ns k) = vnth T k).
Proof.
  destruct ph_t_col_ok as [taus [L [H E]]]. exists taus. unfold ph_t_arr. rewrite E. cbn [rbind].
  eexists. split; [exact L|]. split; [exact H|]. split; [reflexivity|].
  set (f := fun seg_ii => _ ++ [_]).
  assert (FL : forall s, (s < length ns)%nat -> f s = tau_to_t_points (nth s taus []) (vnth T s) (vnth T (s + 1)) ++ [vnth T (s + 1)]).
  { intros s I. unfold f. rewrite (nth_indep _ [] (tau_to_t_points (nth 0 taus []) (vnth T 0) (vnth T (0 + 1)))) by (rewrite map_length, seq_length; exact I).
    rewrite (map_nth (fun s => tau_to_t_points (nth s taus []) (vnth T s) (vnth T (s + 1)))). rewrite seq_nth by exact I. reflexivity. }
  assert (LS : forall s, (s < length ns)%nat -> length (f s) = S (nth s ns 0%nat)).
  { intros s I. rewrite FL by exact I. rewrite app_length, times_length. destruct (H s I) as [_ [A _]]. rewrite A. cbn. lia. }
  rewrite flat_map_concat_map. set (ls := map f (seq 0 (length ns))).
  assert (EL : length ls = length ns) by (unfold ls; now rewrite map_length, seq_length).
  assert (NL : forall s, (s < length ns)%nat -> nth s ls [] = f s).
  { intros s I. unfold ls. rewrite (nth_indep _ [] (f 0%nat)) by (rewrite map_length, seq_length; exact I). rewrite map_nth, seq_nth by exact I. reflexivity. }
  assert (ML : map (@length R) ls = map S ns).
  { apply nth_ext with (d := 0%nat) (d' := 0%nat); [rewrite !map_length; exact EL|]. intros s I. rewrite map_length, EL in I.
    change 0%nat with (@length R []) at 1. rewrite map_nth, NL, LS by exact I.
    rewrite (nth_indep (map S ns) 0%nat (S 0)) by (rewrite map_length; exact I). rewrite map_nth. reflexivity. }
  assert (KR : forall s, (s <= length ns)%nat -> list_sum (firstn s (map S ns)) = knot_row ns s).
  { unfold knot_row. clear. intros s. revert s. induction ns as [|n l IH]; intros s I; [destruct s; cbn in *; lia|].
    destruct s; [reflexivity|]. cbn [map firstn length] in *. rewrite !list_sum_cons, IH by lia. lia. }
  assert (AT : forall s i, (s < length ns)%nat -> (i < S (nth s ns 0%nat))%nat -> vnth ([ph_t_start p] ++ concat ls) (1 + knot_row ns s + i) = vnth (f s) i).
  { intros s i I J. unfold vnth. cbn [app Nat.add nth]. rewrite <- (KR s) by lia. rewrite <- ML, concat_nth by (rewrite ?EL, ?NL, ?LS; assumption). now rewrite NL. }
  split; [|split].
  - cbn [app length]. assert (G : length (concat ls) = list_sum (map S ns)).
    { rewrite <- ML. clear. induction ls as [|a l IH]; [reflexivity|]. cbn. rewrite app_length, IH. reflexivity. }
    rewrite G. unfold ph_n_arr. clear. induction ns as [|n l IH]; [reflexivity|]. cbn [map length]. rewrite !list_sum_cons in *. lia.
  - intros s i I J. unfold point_row. replace (knot_row ns s + 1 + i)%nat with (1 + knot_row ns s + i)%nat by lia. rewrite AT by lia.
    rewrite FL by exact I. destruct (H s I) as [_ [A _]]. unfold vnth at 1. rewrite app_nth1 by (rewrite times_length; lia). apply vnth_times. lia.
  - intros k I. destruct k; [reflexivity|]. rewrite knot_row_S by lia.
    replace (knot_row ns k + nth k ns 0 + 1)%nat with (1 + knot_row ns k + nth k ns 0%nat)%nat by lia. rewrite AT by lia.
    rewrite FL by lia. destruct (H k ltac:(lia)) as [_ [A _]]. unfold vnth at 1. rewrite app_nth2 by (rewrite times_length; lia).
    rewrite times_length, A, Nat.sub_diag. cbn [nth]. f_equal. lia.
Qed.
End Times.

(** ** The times are in order *)
Lemma row_cases ns r : (r < ph_n_arr ns - 1)%nat ->
  exists s, (s < length ns)%nat /\ (r = knot_row ns s \/ exists i, (i < nth s ns 0)%nat /\ r = point_row ns s i).
Proof.
  intros H. rewrite <- knot_row_end in H.
  assert (G : forall k, (k <= length ns)%nat -> (r < knot_row ns k)%nat -> exists s, (s < length ns)%nat /\ (knot_row ns s <= r < knot_row ns (S s))%nat).
  { induction k; intros I J; [rewrite knot_row_0 in J; lia|]. destruct (Nat.lt_ge_cases r (knot_row ns k)); [apply IHk; lia|].
    exists k. split; lia. }
  destruct (G (length ns) ltac:(lia) H) as [s [I J]]. exists s. split; [exact I|].
  destruct (Nat.eq_dec r (knot_row ns s)); [left; assumption|right]. exists (r - knot_row ns s - 1)%nat. unfold point_row.
  rewrite knot_row_S in J by exact I. split; lia.
Qed.
Lemma tau_to_t_mono t0 t1 a b : t0 < t1 -> a < b -> tau_to_t a t0 t1 < tau_to_t b t0 t1.
Proof. intros. unfold tau_to_t. nra. Qed.
Lemma tau_to_t_mono_le t0 t1 a b : t0 <= t1 -> a <= b -> tau_to_t a t0 t1 <= tau_to_t b t0 t1.
Proof. intros. unfold tau_to_t. nra. Qed.

Lemma knot_times_incr t0 t1 knots : t0 < t1 -> good_knots t0 t1 knots -> increasing (knot_times t0 t1 knots).
Proof.
  intros H [F I]. rewrite Forall_forall in F. apply increasing_cons.
  - intros r K. apply in_app_iff in K. destruct K as [K|[<-|[]]]; [apply F, K|exact H].
  - apply increasing_snoc; [|exact I]. intros r K. apply F, K.
Qed.

Section Order.
Context (rr : list R -> list R).
Hypothesis Hrr : real_roots_ok rr.
Context (p : ph_problem) (knots : vec) (ns : list nat).
Hypothesis Hs : In (ph_scheme p) all_schemes.
Hypothesis Hn : Forall (enough_points (ph_scheme p)) ns.
Hypothesis Hk : length ns = (length knots + 1)%nat.
Hypothesis Ht : ph_t_start p < ph_t_end p.
Hypothesis Hg : good_knots (ph_t_start p) (ph_t_end p) knots.
Let T := knot_times (ph_t_start p) (ph_t_end p) knots.
Let TS s : (s < length ns)%nat -> vnth T s < vnth T (s + 1).
Proof.
  intros H. apply (knot_times_incr _ _ _ Ht Hg). unfold knot_times. cbn [length]. rewrite app_length. cbn [length]. rewrite Hk in H. split; [lia|]. lia.
Qed.

Lemma step_order t taus : (forall s, (s < length ns)%nat -> coll_points rr (nth s ns 0%nat) (ph_scheme p) (ph_order p) = Ok (nth s taus []) /\
     length (nth s taus []) = nth s ns 0%nat /\
     exists c, inner_set (nth s ns 0%nat - b2n (starts (ph_scheme p)) - b2n (ends (ph_scheme p))) c /\
       nth s taus [] = with_ends (starts (ph_scheme p)) (ends (ph_scheme p)) c) ->
  (forall s i, (s < length ns)%nat -> (i < nth s ns 0%nat)%nat -> vnth t (point_row ns s i) = tau_to_t (vnth (nth s taus []) i) (vnth T s) (vnth T (s + 1))) ->
  (forall k, (k <= length ns)%nat -> vnth t (knot_row ns k) = vnth T k) ->
  forall r, (r < ph_n_arr ns - 1)%nat ->
    vnth t r <= vnth t (r + 1) /\
    (vnth t r = vnth t (r + 1) ->
     (exists s, (s < length ns)%nat /\ starts (ph_scheme p) = true /\ r = knot_row ns s) \/
     (exists s, (s < length ns)%nat /\ ends (ph_scheme p) = true /\ (r + 1)%nat = knot_row ns (s + 1))).
Proof.
  intros HC HP HK r Hr. destruct (row_cases ns r Hr) as [s [I C]]. destruct (HC s I) as [_ [L [c [Hc Ec]]]].
  pose proof (nth_enough p ns Hn s I) as [N1 N2]. pose proof (TS s I) as TT.
  pose proof (with_ends_ok (starts (ph_scheme p)) (ends (ph_scheme p)) _ _ Hc) as [_ [INC [BD [MS ME]]]]. rewrite <- Ec in INC, BD, MS, ME.
  assert (BD' : forall i, (i < nth s ns 0%nat)%nat -> -1 <= vnth (nth s taus []) i <= 1).
  { intros i J. apply (proj1 (Forall_forall _ _) BD). apply nth_In. lia. }
  assert (IN : forall i, (i < nth s ns 0%nat)%nat -> In (vnth (nth s taus []) i) (nth s taus [])) by (intros i J; apply nth_In; lia).
  destruct C as [->|[i [J ->]]].
  - replace (knot_row ns s + 1)%nat with (point_row ns s 0) by (unfold point_row; lia).
    rewrite HK by lia. rewrite HP by lia. rewrite <- (tau_start (vnth T s) (vnth T (s + 1))) at 1 3. split.
    + apply tau_to_t_mono_le; [lra|]. apply BD'. lia.
    + intros E. apply tau_to_t_inj in E; [|lra]. left. exists s. split; [exact I|]. split; [|reflexivity]. apply MS. rewrite E. apply IN. lia.
  - destruct (Nat.eq_dec (i + 1) (nth s ns 0%nat)) as [E|E].
    + replace (point_row ns s i + 1)%nat with (knot_row ns (s + 1)) by (rewrite Nat.add_1_r, knot_row_S by exact I; unfold point_row; lia).
      rewrite HK by lia. rewrite HP by lia. rewrite <- (tau_end (vnth T s) (vnth T (s + 1))) at 2 4. split.
      * apply tau_to_t_mono_le; [lra|]. apply BD'. lia.
      * intros E'. apply tau_to_t_inj in E'; [|lra]. right. exists s. split; [exact I|]. split; [|reflexivity]. apply ME. rewrite <- E'. apply IN. lia.
    + replace (point_row ns s i + 1)%nat with (point_row ns s (i + 1)) by (unfold point_row; lia). rewrite !HP by lia.
      assert (LT : vnth (nth s taus []) i < vnth (nth s taus []) (i + 1)) by (apply INC; lia).
      pose proof (tau_to_t_mono (vnth T s) (vnth T (s + 1)) _ _ TT LT). split; [lra|]. intros E'. lra.
Qed.
End Order.
