(** Proofs about the restrictions of order M in memory. *)
From Verif Require Import Prelude PreludeFacts PwModel PwFacts PwMoreProofs NumpyModel MemModel MemSpec MemProofs.
Open Scope list_scope.
Open Scope R_scope.

(** ** Memory, element by element *)
Definition val (m : memory) (k i : nat) : R := vnth (c_val (nth k m no_cell)) i.
Definition same_shape (m m' : memory) : Prop := length m' = length m /\
  forall k, c_type (nth k m' no_cell) = c_type (nth k m no_cell) /\ length (c_val (nth k m' no_cell)) = length (c_val (nth k m no_cell)).
(** [m'] is [m] with the values [w] in the elements of [v]. *)
Definition wrote (v : arr) (w : vec) (m m' : memory) : Prop :=
  same_shape m m' /\ forall k i, val m' k i =
    if ((k =? a_buf v) && (a_off v <=? i) && (i <? a_off v + length w))%nat%bool then vnth w (i - a_off v) else val m k i.

Lemma same_shape_refl m : same_shape m m.
Proof. split; auto. Qed.
Lemma same_shape_trans m1 m2 m3 : same_shape m1 m2 -> same_shape m2 m3 -> same_shape m1 m3.
Proof. intros [L A] [L' B]. split; [congruence|]. intros k. destruct (A k), (B k). split; congruence. Qed.
Lemma shape_in m m' v : same_shape m m' -> in_memory m v -> in_memory m' v.
Proof. intros [L A] [H K]. split; [lia|]. unfold cell_of in *. destruct (A (a_buf v)) as [_ ->]. exact K. Qed.
Lemma shape_floats m m' v : same_shape m m' -> floats m v -> floats m' v.
Proof. intros [L A] F. unfold floats, cell_of in *. destruct (A (a_buf v)) as [-> _]. exact F. Qed.

Lemma vnth_rd m v i : (i < a_len v)%nat -> vnth (rd m v) i = val m (a_buf v) (a_off v + i).
Proof. intros H. unfold rd. rewrite vnth_slice by lia. reflexivity. Qed.
Lemma rd_ext m m' v w : in_memory m v -> in_memory m' w -> a_len v = a_len w ->
  (forall i, (i < a_len v)%nat -> val m (a_buf v) (a_off v + i) = val m' (a_buf w) (a_off w + i)) -> rd m v = rd m' w.
Proof.
  intros I I' L H. apply vec_ext; rewrite !rd_length by auto; [exact L|]. intros i Hi. rewrite !vnth_rd by lia. auto.
Qed.

(** Two arrays with no element in common. *)
Definition disjoint (u v : arr) : Prop :=
  a_buf u <> a_buf v \/ (a_off u + a_len u <= a_off v)%nat \/ (a_off v + a_len v <= a_off u)%nat.
Lemma wrote_other v w m m' u : wrote v w m m' -> length w = a_len v -> in_memory m u -> disjoint u v -> rd m' u = rd m u.
Proof.
  intros [S V] L I D. symmetry. apply rd_ext; auto; [now apply (shape_in m)|]. intros i Hi. rewrite V.
  destruct (Nat.eqb_spec (a_buf u) (a_buf v)); [|reflexivity].
  destruct (Nat.leb_spec (a_off v) (a_off u + i)); [|reflexivity].
  destruct (Nat.ltb_spec (a_off u + i) (a_off v + length w)); [|reflexivity]. unfold disjoint in D. lia.
Qed.
Lemma wrote_same v w m m' : wrote v w m m' -> length w = a_len v -> in_memory m v -> rd m' v = w.
Proof.
  intros [S V] L I. pose proof (shape_in _ _ _ S I) as I'. apply vec_ext; rewrite rd_length by auto; [auto|].
  intros i Hi. rewrite vnth_rd by lia. rewrite V, Nat.eqb_refl.
  destruct (Nat.leb_spec (a_off v) (a_off v + i)); [|lia]. destruct (Nat.ltb_spec (a_off v + i) (a_off v + length w)); [|lia].
  cbn [andb]. f_equal. lia.
Qed.
(** Blocks before that of [v] are not touched. *)
Lemma cell_ext c c' : c_type c = c_type c' -> length (c_val c) = length (c_val c') ->
  (forall i, vnth (c_val c) i = vnth (c_val c') i) -> c = c'.
Proof.
  destruct c as [t l], c' as [t' l']. cbn [c_type c_val]. intros -> L H. f_equal. apply vec_ext; auto.
Qed.
Lemma wrote_intact v w m m' m0 : wrote v w m m' -> intact m0 m -> (length m0 <= a_buf v)%nat -> intact m0 m'.
Proof.
  intros [[L A] V] (l & ->) H. exists (skipn (length m0) m').
  rewrite <- (firstn_skipn (length m0) m') at 1. f_equal.
  rewrite app_length in L.
  apply (nth_ext _ _ no_cell no_cell); [rewrite firstn_length; lia|]. rewrite firstn_length. intros k Hk.
  assert (Hk' : (k < length m0)%nat) by lia.
  rewrite nth_firstn. destruct (Nat.ltb_spec k (length m0)); [|lia].
  destruct (A k) as [T E]. apply cell_ext.
  - rewrite T. now rewrite app_nth1.
  - rewrite E. now rewrite app_nth1.
  - intros i. specialize (V k i). unfold val in V. rewrite V.
    destruct (Nat.eqb_spec k (a_buf v)); [lia|]. cbn [andb]. now rewrite app_nth1.
Qed.

(** ** Assignments *)
Lemma set_cell_nth k c m j : (k < length m)%nat -> nth j (set_cell k c m) no_cell = if (j =? k)%nat then c else nth j m no_cell.
Proof.
  intros H. unfold set_cell, set_slice. cbn [length].
  assert (L : length (firstn k m) = k) by (rewrite firstn_length; lia).
  destruct (Nat.eqb_spec j k) as [->|N].
  - rewrite app_nth2 by lia. rewrite L, Nat.sub_diag. reflexivity.
  - destruct (Nat.lt_ge_cases j k).
    + rewrite app_nth1 by lia. rewrite nth_firstn. destruct (Nat.ltb_spec j k); [reflexivity|lia].
    + rewrite app_nth2 by lia. rewrite L. cbn [app]. destruct (j - k)%nat as [|p] eqn:E; [lia|]. cbn [nth].
      rewrite <- (firstn_skipn (k + 1) m) at 2. rewrite app_nth2; rewrite firstn_length; [|lia].
      f_equal. lia.
Qed.
Lemma set_cell_length k c m : (k < length m)%nat -> length (set_cell k c m) = length m.
Proof. intros H. unfold set_cell. apply set_slice_length. cbn [length]. lia. Qed.

Lemma put_wrote m v w : in_memory m v -> floats m v -> length w = a_len v -> exists m', put v w m = Ok (tt, m') /\ wrote v w m m'.
Proof.
  intros [I K] F L. unfold put.
  replace (if (length w =? 1)%nat then repeat (vnth w 0) (a_len v) else w) with w.
  2:{ destruct (Nat.eqb_spec (length w) 1); [|reflexivity]. destruct w as [|r [|]]; cbn [length] in *; try lia. rewrite <- L. reflexivity. }
  rewrite L, Nat.eqb_refl. unfold floats in F. rewrite F, map_float. eexists. split; [reflexivity|]. split.
  - split; [now apply set_cell_length|]. intros k. rewrite set_cell_nth by exact I.
    destruct (Nat.eqb_spec k (a_buf v)) as [->|]; [|auto]. cbn [c_type c_val]. split; [symmetry; exact F|].
    rewrite set_slice_length; [reflexivity|]. rewrite L. exact K.
  - intros k i. unfold val. rewrite set_cell_nth by exact I. destruct (Nat.eqb_spec k (a_buf v)) as [->|]; [|reflexivity].
    cbn [c_val andb]. rewrite vnth_set_slice by (rewrite L; exact K).
    destruct (Nat.ltb_spec i (a_off v)); destruct (Nat.leb_spec (a_off v) i); try lia; [reflexivity|]. cbn [andb].
    destruct (Nat.ltb_spec i (a_off v + length w)); reflexivity.
Qed.

(** Assigning item by item is assigning everything. *)
Lemma items_wrote v w m : in_memory m v -> floats m v -> length w = a_len v -> forall k n m1, (k + n = length w)%nat ->
  wrote v (firstn k w) m m1 -> exists m2,
  for_each (seq k n) (fun ii => put_at v (ii, ii + 1)%nat [vnth w ii]) m1 = Ok (tt, m2) /\ wrote v w m m2.
Proof.
  intros I F L k n. revert k. induction n as [|n IH]; intros k m1 E W.
  - exists m1. split; [reflexivity|]. rewrite firstn_all2 in W by lia. exact W.
  - cbn [seq for_each]. unfold mbind.
    destruct W as [S V].
    assert (I1 : in_memory m1 v) by now apply (shape_in m).
    destruct (put_wrote m1 (part v (k, k + 1)%nat) [vnth w k]) as (m2 & E2 & S2 & V2).
    + apply part_in; auto; lia.
    + apply (shape_floats m); auto.
    + cbn [length part a_len fst snd]. lia.
    + unfold put_at. rewrite E2. replace (Datatypes.S k) with (k + 1)%nat by lia. apply (IH (k + 1)%nat); [lia|]. split; [eapply same_shape_trans; eauto|].
      intros c i. rewrite V2, V. cbn [part a_buf a_off length fst]. rewrite !firstn_length.
      destruct (Nat.eqb_spec c (a_buf v)) as [->|]; [|reflexivity]. cbn [andb].
      replace (Nat.min k (length w)) with k by lia. replace (Nat.min (k + 1) (length w)) with (k + 1)%nat by lia.
      destruct (Nat.leb_spec (a_off v + k) i); destruct (Nat.ltb_spec i (a_off v + k + 1)); destruct (Nat.leb_spec (a_off v) i);
        destruct (Nat.ltb_spec i (a_off v + k)); destruct (Nat.ltb_spec i (a_off v + (k + 1))); try lia; cbn [andb]; try reflexivity.
      * replace (i - (a_off v + k))%nat with 0%nat by lia. rewrite vnth_firstn. destruct (Nat.ltb_spec (i - a_off v) (k + 1)); [|lia].
        cbn [vnth nth]. f_equal. lia.
      * rewrite !vnth_firstn. destruct (Nat.ltb_spec (i - a_off v) k); [|lia]. destruct (Nat.ltb_spec (i - a_off v) (k + 1)); [|lia]. reflexivity.
Qed.
Lemma itemequal_wrote m v w : in_memory m v -> floats m v -> length w = a_len v -> exists m', itemequal v w m = Ok (tt, m') /\ wrote v w m m'.
Proof.
  intros I F L. unfold itemequal. rewrite L, Nat.eqb_refl. rewrite <- L. apply (items_wrote v w m I F L 0 (length w) m); [lia|].
  split; [apply same_shape_refl|]. intros k i. cbn [firstn length]. rewrite Nat.add_0_r.
  destruct (Nat.leb_spec (a_off v) i); destruct (Nat.ltb_spec i (a_off v)); try lia; rewrite ?Bool.andb_false_r; reflexivity.
Qed.

(** ** Divisions *)
Lemma cut_ok share m x a b : in_memory m x -> (a <= b)%nat -> (b <= a_len x)%nat ->
  exists v l, cut share x (a, b) m = Ok (v, m ++ l) /\ in_memory (m ++ l) v /\ a_len v = (b - a)%nat /\
  rd (m ++ l) v = slice a b (rd m x) /\ c_type (cell_of (m ++ l) v) = c_type (cell_of m x) /\
  (if share then v = part x (a, b) /\ l = [] else a_buf v = length m /\ length l = 1%nat).
Proof.
  intros I A B. pose proof (part_in m x a b I B A) as P. destruct share; cbn [cut].
  - exists (part x (a, b)), []. rewrite app_nil_r. split; [reflexivity|]. split; [exact P|]. split; [reflexivity|].
    split; [now apply rd_part|]. split; [reflexivity|]. auto.
  - unfold copy_arr. exists (head_arr m (b - a)), [{| c_type := c_type (cell_of m (part x (a, b))); c_val := rd m (part x (a, b)) |}].
    assert (L : length (rd m (part x (a, b))) = (b - a)%nat) by (rewrite rd_length by exact P; reflexivity).
    split; [reflexivity|]. split; [now apply head_in|]. split; [reflexivity|]. split; [|split; [|auto]].
    + rewrite rd_head by exact L. cbn [c_val]. now apply rd_part.
    + now rewrite cell_head.
Qed.
Definition division (share : bool) (m m' : memory) (x : arr) (n k pos : nat) (v : arr) : Prop :=
  in_memory m' v /\ a_len v = n /\ rd m' v = slice (n * k) (n * (k + 1)) (rd m x) /\ c_type (cell_of m' v) = c_type (cell_of m x) /\
  if share then v = part x (n * k, n * (k + 1))%nat else a_buf v = pos.
Lemma division_app share m m' l x n k pos v : division share m m' x n k pos v -> division share m (m' ++ l) x n k pos v.
Proof.
  intros (A & B & C & D & E). split; [now apply in_app|]. split; [exact B|]. split; [now rewrite rd_app|]. split; [|exact E].
  rewrite cell_app; [exact D|apply A].
Qed.
Lemma nth_idx x M n k : a_len x = (M * n)%nat -> (k < M)%nat -> nth k (divisions_idx x M) (0, 0)%nat = (n * k, n * (k + 1))%nat.
Proof.
  intros L H. unfold divisions_idx. rewrite L, Nat.mul_comm, Nat.div_mul by lia.
  rewrite (nth_indep _ (0, 0)%nat (n * 0, n * (0 + 1))%nat) by (rewrite map_length, seq_length; lia).
  rewrite (map_nth (fun ii => (n * ii, n * (ii + 1))%nat)). rewrite seq_nth by lia. reflexivity.
Qed.
Lemma divisions_from share m x M n : in_memory m x -> a_len x = (M * n)%nat -> forall j s l, (s + j = M)%nat ->
  (share = false -> length l = s) -> exists vs l', 
  collect (seq s j) (fun ii => cut share x (nth ii (divisions_idx x M) (0, 0)%nat)) (m ++ l) = Ok (vs, m ++ l ++ l') /\ length vs = j /\
  forall i, (i < j)%nat -> division share m (m ++ l ++ l') x n (s + i) (length m + (s + i)) (item vs i).
Proof.
  intros I L j. induction j as [|j IH]; intros s l E Hl.
  - exists [], []. rewrite app_nil_r. split; [reflexivity|]. split; [reflexivity|]. intros i Hi. lia.
  - cbn [seq collect]. unfold mbind. rewrite (nth_idx x M n) by (auto; lia).
    assert (B : (n * (s + 1) <= M * n)%nat) by nia.
    destruct (cut_ok share (m ++ l) x (n * s) (n * (s + 1))) as (v & l1 & -> & V1 & V2 & V3 & V4 & V5); [now apply in_app|nia|lia|].
    rewrite <- app_assoc in *. destruct (IH (Datatypes.S s) (l ++ l1)) as (vs & l' & -> & LV & H); [lia| |].
    { intros F. rewrite F in V5. rewrite app_length, (Hl F). destruct V5 as [_ ->]. lia. }
    exists (v :: vs), (l1 ++ l'). split; [unfold ret; now rewrite <- app_assoc|]. split; [cbn; lia|].
    intros [|i] Hi; cbn [item nth].
    + assert (D : division share m (m ++ l ++ l1) x n s (length m + s) v).
      { split; [exact V1|]. split; [lia|]. split; [rewrite V3; now rewrite rd_app|]. split; [rewrite V4; rewrite cell_app; [reflexivity|apply I]|].
        destruct share; [apply V5|]. destruct V5 as [-> _]. rewrite app_length, Hl by reflexivity. reflexivity. }
      rewrite Nat.add_0_r. rewrite !app_assoc. rewrite <- (app_assoc m l l1). now apply division_app.
    + replace (s + Datatypes.S i)%nat with (Datatypes.S s + i)%nat by lia. rewrite (app_assoc l l1 l'). apply H. lia.
Qed.
Lemma divisions_ok share m x M n : in_memory m x -> a_len x = (M * n)%nat -> exists vs l,
  get_x_divisions share x M m = Ok (vs, m ++ l) /\ length vs = M /\
  forall k, (k < M)%nat -> division share m (m ++ l) x n k (length m + k) (item vs k).
Proof.
  intros I L. destruct (divisions_from share m x M n I L M 0%nat [] ltac:(lia) ltac:(auto)) as (vs & l & E & LV & H).
  rewrite app_nil_r in E. exists vs, l. split; [exact E|]. split; [exact LV|]. exact H.
Qed.

(** ** The loops *)
Section Fill.
  Variables (m0 m1 : memory) (xl rl : list arr) (M n : nat) (X : nat -> vec).
  Hypothesis I0 : intact m0 m1.
  Hypothesis Hr : forall k, (k < M)%nat -> in_memory m1 (item rl k) /\ floats m1 (item rl k) /\ a_len (item rl k) = n /\ (length m0 <= a_buf (item rl k))%nat.
  Hypothesis Drr : forall k j, (k < M)%nat -> (j < M)%nat -> k <> j -> disjoint (item rl k) (item rl j).
  Hypothesis Hx : forall k, (k < M)%nat -> in_memory m1 (item xl k) /\ rd m1 (item xl k) = X k /\ length (X k) = n.
  Hypothesis Dxr : forall k j, (k < M)%nat -> (j < M)%nat -> disjoint (item xl k) (item rl j).

  (** What does not change while the arrays of [rl] are written. *)
  Definition stable (m : memory) : Prop := same_shape m1 m /\ intact m0 m /\
    forall u, in_memory m1 u -> (forall j, (j < M)%nat -> disjoint u (item rl j)) -> rd m u = rd m1 u.
  Lemma stable_first : stable m1.
  Proof. split; [apply same_shape_refl|]. split; [exact I0|]. auto. Qed.
  Lemma stable_x m k : stable m -> (k < M)%nat -> rd m (item xl k) = X k.
  Proof. intros (_ & _ & S) Hk. destruct (Hx k Hk) as (A & <- & _). apply S; auto. Qed.

  (** One assignment to item j. *)
  Lemma step m j w : stable m -> (j < M)%nat -> length w = n -> exists m', itemequal (item rl j) w m = Ok (tt, m') /\ stable m' /\
    rd m' (item rl j) = w /\ forall i, (i < M)%nat -> i <> j -> rd m' (item rl i) = rd m (item rl i).
  Proof.
    intros (S1 & S2 & S3) Hj L. destruct (Hr j Hj) as (A & B & C & D).
    pose proof (shape_in _ _ _ S1 A) as A'. pose proof (shape_floats _ _ _ S1 B) as B'.
    destruct (itemequal_wrote m (item rl j) w A' B' ltac:(lia)) as (m' & E & W). exists m'. split; [exact E|].
    assert (Lw : length w = a_len (item rl j)) by lia.
    split; [|split].
    - split; [eapply same_shape_trans; [exact S1|apply W]|]. split; [eapply wrote_intact; eauto|].
      intros u Iu Du. rewrite (wrote_other _ _ _ _ u W Lw); [now apply S3| |auto]. now apply (shape_in m1).
    - now apply (wrote_same _ _ _ _ W).
    - intros i Hi N. apply (wrote_other _ _ _ _ _ W Lw); [|auto]. apply (shape_in m1); [exact S1|]. apply (Hr i Hi).
  Qed.

  Variables (start : nat -> com vec) (init : nat -> vec) (coef : nat -> R) (count : nat -> nat).
  Hypothesis Hs : forall m l, stable m -> (1 <= l <= M)%nat -> start l m = Ok (init l, m) /\ length (init l) = n.
  Hypothesis Hc : forall l, (count l <= l)%nat.

  Lemma accum_length t0 ts : length t0 = n -> (forall t, In t ts -> length t = n) -> length (accum t0 ts) = n.
  Proof.
    revert t0. induction ts as [|t ts IH]; intros t0 L H; [exact L|]. cbn [accum fold_left] in *. apply IH.
    - rewrite vadd_length, L, H by (left; reflexivity). lia.
    - intros t' Ht'. apply H. now right.
  Qed.
  Lemma inner l j : (1 <= l <= M)%nat -> j = (M - l)%nat -> forall c s m w, (s + c <= l)%nat -> stable m -> rd m (item rl j) = w -> length w = n ->
    exists m', for_each (seq s c) (fun i => mbind (get (item rl j)) (fun r => mbind (get (item xl (i + M - l))) (fun xi =>
      itemequal (item rl j) (r +v coef i *v xi)))) m = Ok (tt, m') /\ stable m' /\
    rd m' (item rl j) = accum w (map (fun i => coef i *v X (i + M - l)) (seq s c)) /\
    forall i, (i < M)%nat -> i <> j -> rd m' (item rl i) = rd m (item rl i).
  Proof.
    intros Hl Ej c. induction c as [|c IH]; intros s m w Hsc S W L.
    - exists m. split; [reflexivity|]. split; [exact S|]. split; [exact W|]. auto.
    - cbn [seq for_each]. unfold mbind at 1. unfold mbind at 1. unfold get at 1. unfold mbind at 1. unfold get at 1.
      assert (Hk : (s + M - l < M)%nat) by lia. rewrite (stable_x m _ S Hk), W.
      destruct (Hx _ Hk) as (_ & _ & LX).
      destruct (step m j (w +v coef s *v X (s + M - l)) S ltac:(lia)) as (m2 & -> & S2 & W2 & O2).
      { rewrite vadd_length, vscale_length, L, LX. lia. }
      destruct (IH (Datatypes.S s) m2 _ ltac:(lia) S2 W2) as (m3 & -> & S3 & W3 & O3).
      { rewrite vadd_length, vscale_length, L, LX. lia. }
      exists m3. split; [reflexivity|]. split; [exact S3|]. split; [exact W3|].
      intros i Hi N. rewrite O3, O2 by auto. reflexivity.
  Qed.

  Definition target (k : nat) : vec :=
    accum (init (M - k)) (map (fun i => coef i *v X (i + M - (M - k))) (seq 0 (count (M - k)))).
  Lemma outer c : forall s m, (s + c = M)%nat -> stable m -> (forall k, (M - s <= k < M)%nat -> rd m (item rl k) = target k) ->
    exists m', for_each (seq (s + 1) c) (fun l =>
      mbind (start l) (fun t => mbind (itemequal (item rl (M - l)) t) (fun _ =>
      for_each (seq 0 (count l)) (fun i => mbind (get (item rl (M - l))) (fun r => mbind (get (item xl (i + M - l))) (fun xi =>
        itemequal (item rl (M - l)) (r +v coef i *v xi))))))) m = Ok (tt, m') /\ stable m' /\
    forall k, (k < M)%nat -> rd m' (item rl k) = target k.
  Proof.
    induction c as [|c IH]; intros s m E S T.
    - exists m. split; [reflexivity|]. split; [exact S|]. intros k Hk. apply T. lia.
    - cbn [seq for_each]. unfold mbind at 1. unfold mbind at 1.
      destruct (Hs m (s + 1) S ltac:(lia)) as [-> Li]. unfold mbind at 1.
      destruct (step m (M - (s + 1)) (init (s + 1)) S ltac:(lia) Li) as (m2 & -> & S2 & W2 & O2).
      pose proof (Hc (s + 1)) as HC.
      destruct (inner (s + 1) (M - (s + 1)) ltac:(lia) eq_refl (count (s + 1)) 0%nat m2 _ ltac:(lia) S2 W2 Li) as (m3 & -> & S3 & W3 & O3).
      replace (Datatypes.S (s + 1)) with (Datatypes.S s + 1)%nat by lia.
      apply (IH (Datatypes.S s) m3); [lia|exact S3|]. intros k Hk.
      destruct (Nat.eq_dec k (M - (s + 1))) as [->|N].
      + rewrite W3. unfold target. replace (M - (M - (s + 1)))%nat with (s + 1)%nat by lia. reflexivity.
      + rewrite O3, O2 by lia. apply T. lia.
  Qed.
  Lemma fill_ok : exists m2, fill M xl rl start coef count m1 = Ok (tt, m2) /\ stable m2 /\
    forall k, (k < M)%nat -> rd m2 (item rl k) = target k.
  Proof. apply (outer M 0%nat m1); [lia|apply stable_first|]. intros k Hk. lia. Qed.
  Lemma target_length k : (k < M)%nat -> length (target k) = n.
  Proof.
    intros Hk. unfold target. pose proof (Hc (M - k)) as HC.
    destruct (Hs m1 (M - k) stable_first ltac:(lia)) as [_ Li]. apply accum_length; [exact Li|].
    intros t Ht. apply in_map_iff in Ht. destruct Ht as (i & <- & Hi). apply in_seq in Hi. rewrite vscale_length. apply Hx. lia.
  Qed.
End Fill.

(** ** Writing the blocks back *)
Section Reunite.
  Variables (m0 m1 : memory) (rl : list arr) (res : arr) (M n : nat) (B : nat -> vec).
  Hypothesis HM : (0 < M)%nat.
  Hypothesis I0 : intact m0 m1.
  Hypothesis Ir : in_memory m1 res.
  Hypothesis Fr : floats m1 res.
  Hypothesis Lr : a_len res = (M * n)%nat.
  Hypothesis Gr : (length m0 <= a_buf res)%nat.
  Hypothesis Hr : forall k, (k < M)%nat -> in_memory m1 (item rl k) /\ rd m1 (item rl k) = B k /\ length (B k) = n.
  Notation piece k := (part res (n * k, n * (k + 1))%nat).
  Hypothesis Dr : forall k j, (k < M)%nat -> (j < M)%nat -> (k = j /\ item rl k = piece k) \/ disjoint (item rl k) (piece j).

  Lemma pieces_disjoint k j : k <> j -> disjoint (piece k) (piece j).
  Proof. intros N. right. cbn [part a_off a_len fst snd]. nia. Qed.
  Lemma piece_in m k : (k < M)%nat -> same_shape m1 m -> in_memory m (piece k) /\ floats m (piece k).
  Proof.
    intros Hk S. pose proof (shape_in _ _ _ S Ir) as I'. pose proof (shape_floats _ _ _ S Fr) as F'.
    split; [apply part_in; [exact I'|rewrite Lr; nia|nia]|exact F'].
  Qed.
  Lemma piece_len k : a_len (piece k) = n.
  Proof. cbn [part a_len fst snd]. nia. Qed.

  Lemma reunite_from c : forall s m, (s + c = M)%nat -> same_shape m1 m -> intact m0 m ->
    (forall k, (k < M)%nat -> rd m (item rl k) = B k) -> (forall k, (k < s)%nat -> rd m (piece k) = B k) ->
    exists m', for_each (seq s c) (fun ii =>
      mbind (get (nth ii rl {| a_buf := 0; a_off := 0; a_len := 0 |})) (fun w => put_at res (nth ii (divisions_idx res M) (0, 0)%nat) w)) m = Ok (tt, m') /\
    same_shape m1 m' /\ intact m0 m' /\ forall k, (k < M)%nat -> rd m' (piece k) = B k.
  Proof.
    induction c as [|c IH]; intros s m E S I T P.
    - exists m. split; [reflexivity|]. split; [exact S|]. split; [exact I|]. intros k Hk. apply P. lia.
    - cbn [seq for_each]. unfold mbind at 1. unfold mbind at 1. unfold get at 1. fold (item rl s). rewrite T by lia.
      rewrite (nth_idx res M n) by (auto; lia). unfold put_at.
      destruct (piece_in m s ltac:(lia) S) as [J F]. destruct (Hr s ltac:(lia)) as (_ & _ & LB).
      assert (LW : length (B s) = a_len (piece s)) by (rewrite piece_len; exact LB).
      destruct (put_wrote m (piece s) (B s) J F LW) as (m2 & -> & W).
      assert (S2 : same_shape m1 m2) by (eapply same_shape_trans; [exact S|apply W]).
      apply (IH (Datatypes.S s) m2); [lia|exact S2| | |].
      + eapply wrote_intact; eauto.
      + intros k Hk. destruct (Hr k Hk) as (A & _ & _). destruct (Dr k s Hk ltac:(lia)) as [[-> Ek]|D].
        * rewrite Ek. now apply (wrote_same _ _ _ _ W).
        * rewrite (wrote_other _ _ _ _ _ W LW); [now apply T| |exact D]. now apply (shape_in m1).
      + intros k Hk. destruct (Nat.eq_dec k s) as [->|N].
        * now apply (wrote_same _ _ _ _ W).
        * rewrite (wrote_other _ _ _ _ _ W LW); [apply P; lia| |now apply pieces_disjoint]. apply piece_in; [lia|exact S].
  Qed.
  Lemma reunite_ok : exists m2, reunite_matrix res rl M m1 = Ok (tt, m2) /\ same_shape m1 m2 /\ intact m0 m2 /\
    rd m2 res = concat (map B (seq 0 M)).
  Proof.
    destruct (reunite_from M 0%nat m1 ltac:(lia) (same_shape_refl _) I0) as (m2 & E & S & I & P).
    - intros k Hk. apply (Hr k Hk).
    - intros k Hk. lia.
    - exists m2. split; [exact E|]. split; [exact S|]. split; [exact I|].
      pose proof (shape_in _ _ _ S Ir) as I'. assert (L : length (rd m2 res) = (M * n)%nat) by (rewrite rd_length; auto).
      assert (E' : PwModel.get_x_divisions (rd m2 res) M = map B (seq 0 M)).
      { apply (nth_ext _ _ [] []); [rewrite get_x_divisions_length, map_length, seq_length; reflexivity|].
        rewrite get_x_divisions_length. intros k Hk. rewrite (nth_get_x_divisions _ M n) by auto.
        rewrite (nth_indep _ [] (B 0%nat)) by (rewrite map_length, seq_length; lia). rewrite map_nth, seq_nth by lia. cbn [Nat.add].
        rewrite <- (P k Hk). symmetry. apply rd_part. rewrite Lr. nia. }
      rewrite <- E'. symmetry. destruct (Nat.eq_dec n 0) as [->|N].
      + rewrite Nat.mul_0_r in L. destruct (rd m2 res); [|discriminate]. unfold PwModel.get_x_divisions, slice. cbn [length].
        rewrite Nat.div_0_l by lia. clear. induction (seq 0 M) as [|k s IH]; [reflexivity|]. cbn [map concat]. rewrite IH, app_nil_r. now rewrite skipn_nil, firstn_nil.
      + apply (divisions_concat M n); auto; lia.
  Qed.
End Reunite.
