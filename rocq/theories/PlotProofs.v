(** Proofs about the pieces of a curve. *)
From Coq Require Import String.
From Verif Require Import Prelude PreludeFacts AnalysisModel AnalysisPhProofs PlotModel PlotSpec.
Open Scope R_scope.
Open Scope list_scope.

Lemma nondecreasing_tl t ts : nondecreasing (t :: ts) -> nondecreasing ts.
Proof. intros H i j L. specialize (H (S i) (S j)). cbn [length] in H. apply H. lia. Qed.
Lemma search_zero (ts : vec) k : (forall i, (i < length ts)%nat -> k <= vnth ts i) -> searchsorted ts k = 0%nat.
Proof.
  unfold searchsorted. induction ts as [|t ts IH]; intros B; [reflexivity|]. cbn [filter]. destruct (Rlt_dec t k) as [C|C].
  - specialize (B 0%nat ltac:(cbn [length]; lia)). unfold vnth in B; cbn [nth] in B. lra.
  - apply IH. intros i Hi. apply (B (S i)). cbn [length]. lia.
Qed.
Lemma search_spec (ts : vec) k : nondecreasing ts -> (searchsorted ts k <= length ts)%nat /\
  forall i, (i < length ts)%nat -> (i < searchsorted ts k)%nat <-> vnth ts i < k.
Proof.
  induction ts as [|t ts IH]; intros I.
  - cbn. split; [lia|]. intros i Hi. lia.
  - destruct (IH (nondecreasing_tl _ _ I)) as (L & A). unfold searchsorted. cbn [filter].
    destruct (Rlt_dec t k) as [C|C].
    + cbn [length]. fold (searchsorted ts k). split; [lia|]. intros [|i] Hi.
      * split; [intros _; exact C|lia].
      * assert (E := A i ltac:(lia)). unfold vnth in *. cbn [nth]. split; [intros X; apply E; lia|intros X; apply E in X; lia].
    + fold (searchsorted ts k).
      assert (Z : searchsorted ts k = 0%nat).
      { apply search_zero. intros i Hi. specialize (I 0%nat (S i) ltac:(cbn [length]; lia)). unfold vnth in *. cbn [nth] in I. lra. }
      rewrite Z. cbn [length]. split; [lia|]. intros i Hi. split; [lia|].
      specialize (I 0%nat i ltac:(cbn [length]; lia)). change (vnth (t :: ts) 0) with t in I. intros X. exfalso. lra.
Qed.

(** The number of samples before the end of l parts. *)
Definition before (N : nat) (end_t : R) (ts : vec) (l : nat) : nat :=
  searchsorted (map (fun t => INR N * t / end_t) ts) (INR l).

Lemma part_iff N end_t t l : (0 < N)%nat -> 0 < end_t -> INR N * t / end_t < INR l <-> t < INR l * end_t / INR N.
Proof.
  intros HN He. assert (0 < INR N) by (apply lt_0_INR; lia). split; intros H0.
  - apply Rmult_lt_reg_r with (INR N); [assumption|]. replace (INR l * end_t / INR N * INR N) with (INR l * end_t) by (field; lra).
    apply (Rmult_lt_compat_r end_t) in H0; [|assumption]. replace (INR N * t / end_t * end_t) with (INR N * t) in H0 by (field; lra). lra.
  - apply Rmult_lt_reg_r with end_t; [assumption|]. replace (INR N * t / end_t * end_t) with (INR N * t) by (field; lra).
    apply (Rmult_lt_compat_r (INR N)) in H0; [|assumption]. replace (INR l * end_t / INR N * INR N) with (INR l * end_t) in H0 by (field; lra). lra.
Qed.
Lemma before_spec N end_t ts l : (0 < N)%nat -> 0 < end_t -> nondecreasing ts ->
  (before N end_t ts l <= length ts)%nat /\
  forall i, (i < length ts)%nat -> (i < before N end_t ts l)%nat <-> vnth ts i < INR l * end_t / INR N.
Proof.
  intros HN He I. unfold before.
  assert (V : forall i, (i < length ts)%nat -> vnth (map (fun t => INR N * t / end_t) ts) i = INR N * vnth ts i / end_t).
  { intros i Hi. unfold vnth. rewrite (nth_indep _ 0 (INR N * 0 / end_t)) by (now rewrite map_length).
    now rewrite (map_nth (fun t => INR N * t / end_t)). }
  assert (J : nondecreasing (map (fun t => INR N * t / end_t) ts)).
  { intros i j Hi. rewrite map_length in Hi. rewrite !V by lia. unfold Rdiv. apply Rmult_le_compat_r; [left; now apply Rinv_0_lt_compat|].
    apply Rmult_le_compat_l; [apply pos_INR|]. now apply I. }
  destruct (search_spec _ (INR l) J) as (L & A). rewrite map_length in L, A. split; [exact L|].
  intros i Hi. rewrite A by exact Hi. rewrite V by exact Hi. now apply part_iff.
Qed.
Lemma before_mono N end_t ts l l' : (0 < N)%nat -> 0 < end_t -> nondecreasing ts -> (l <= l')%nat ->
  (before N end_t ts l <= before N end_t ts l')%nat.
Proof.
  intros HN He I L. destruct (before_spec N end_t ts l HN He I) as (A & B). destruct (before_spec N end_t ts l' HN He I) as (A' & B').
  destruct (Nat.le_gt_cases (before N end_t ts l) (before N end_t ts l')) as [|G]; [assumption|].
  set (i := before N end_t ts l') in *. destruct (B i ltac:(lia)) as (B1 & _). specialize (B1 G). destruct (B' i ltac:(lia)) as (_ & B2).
  assert (i < i)%nat; [|lia]. apply B2. eapply Rlt_le_trans; [exact B1|]. unfold Rdiv.
  apply Rmult_le_compat_r; [left; apply Rinv_0_lt_compat, lt_0_INR; lia|]. apply Rmult_le_compat_r; [lra|]. now apply le_INR.
Qed.
Lemma before_all N end_t ts : (0 < N)%nat -> 0 < end_t -> nondecreasing ts ->
  forall i, (i < length ts)%nat -> (i < before N end_t ts N)%nat <-> vnth ts i < end_t.
Proof.
  intros HN He I i Hi. destruct (before_spec N end_t ts N HN He I) as (_ & A). rewrite A by exact Hi.
  replace (INR N * end_t / INR N) with end_t; [reflexivity|]. field. apply not_0_INR. lia.
Qed.

Lemma slice_len {A} lo hi (l : list A) : (lo <= hi <= length l)%nat -> length (slice lo hi l) = (hi - lo)%nat.
Proof. intros H. unfold slice. rewrite firstn_length, skipn_length. lia. Qed.
Lemma slice_join {A} (l : list A) m n : (m <= n)%nat -> firstn m l ++ slice m n l = firstn n l.
Proof.
  intros H. unfold slice. revert l n H. induction m as [|m IH]; intros l n H; cbn.
  - now rewrite Nat.sub_0_r.
  - destruct n as [|n]; [lia|]. destruct l as [|a l]; cbn; [now rewrite firstn_nil|]. f_equal. apply IH. lia.
Qed.

Lemma nth_error_map_seq {A} (f : nat -> A) n l p : nth_error (map f (seq 0 n)) l = Some p -> (l < n)%nat /\ p = f l.
Proof.
  intros E. assert (Hl : (l < n)%nat) by (rewrite <- (seq_length n 0), <- (map_length f); apply nth_error_Some; congruence).
  split; [exact Hl|]. rewrite (map_nth_error f l (seq 0 n) (d := l)) in E; [now injection E|].
  rewrite (nth_error_nth' (seq 0 n) l 0%nat) by (now rewrite seq_length). now rewrite seq_nth.
Qed.

Section Pieces.
  Context {A : Type} (N : nat) (end_t : R) (ts : vec) (ys : list A) (label : string).
  Hypothesis (HN : (0 < N)%nat) (He : 0 < end_t) (Hts : nondecreasing ts) (Hys : length ys = length ts).

  (** Where the piece from part l starts. *)
  Definition start_of (l : nat) : nat := if (l =? 0)%nat then 0%nat else before N end_t ts l.
  Definition piece_of (l : nat) : piece A :=
    {| pc_t := slice (start_of l) (before N end_t ts (S l)) ts; pc_y := slice (start_of l) (before N end_t ts (S l)) ys;
       pc_label := if (start_of l =? 0)%nat then Some label else None |}.

  Lemma start_le l : (start_of l <= before N end_t ts (S l) <= length ts)%nat.
  Proof.
    unfold start_of. destruct (before_spec N end_t ts (S l) HN He Hts) as (B & _).
    destruct (l =? 0)%nat; [lia|]. pose proof (before_mono N end_t ts l (S l) HN He Hts). lia.
  Qed.
  Lemma plot_from_ok turns : forall l, plot_from ts (map (fun t => INR N * t / end_t) ts) ys label (start_of l) (S l) turns =
    Ok (map piece_of (seq l turns)).
  Proof.
    induction turns as [|n IH]; intros l; [reflexivity|]. cbn [plot_from seq map]. fold (before N end_t ts (S l)).
    unfold plot_call. pose proof (start_le l). rewrite !slice_len by lia. rewrite Nat.eqb_refl. cbn [rbind].
    specialize (IH (S l)). change (start_of (S l)) with (before N end_t ts (S l)) in IH. rewrite IH. reflexivity.
  Qed.
  Lemma plot_ok : plot_by_segments ts ys label N end_t = Ok (map piece_of (seq 0 N)).
  Proof. apply (plot_from_ok N 0). Qed.

  Lemma in_piece l i : (i < length ts)%nat ->
    (start_of l <= i < before N end_t ts (S l))%nat <-> in_part N end_t l (vnth ts i).
  Proof.
    intros Hi. destruct (before_spec N end_t ts (S l) HN He Hts) as (_ & B). specialize (B i Hi).
    destruct (before_spec N end_t ts l HN He Hts) as (_ & C). specialize (C i Hi). unfold in_part, start_of.
    destruct l as [|l].
    - cbn [Nat.eqb]. split; [intros (_ & D)|intros (_ & D)]; split; try (now left); try lia; now apply B.
    - cbn [Nat.eqb]. split.
      + intros (D & E). split; [right|now apply B]. apply Rnot_lt_le. intros F. apply C in F. lia.
      + intros ([D|D] & E); [lia|]. split; [|now apply B]. destruct (Nat.le_gt_cases (before N end_t ts (S l)) i) as [|G]; [assumption|].
        apply C in G. lra.
  Qed.

  Lemma segments : exists ps, plot_by_segments ts ys label N end_t = Ok ps /\ length ps = N /\
    forall l p, nth_error ps l = Some p -> exists lo hi, (lo <= hi <= length ts)%nat /\
      pc_t p = slice lo hi ts /\ pc_y p = slice lo hi ys /\
      (forall i, (i < length ts)%nat -> (lo <= i < hi)%nat <-> in_part N end_t l (vnth ts i)).
  Proof.
    exists (map piece_of (seq 0 N)). split; [apply plot_ok|]. split; [now rewrite map_length, seq_length|].
    intros l p E.
    apply nth_error_map_seq in E. destruct E as (Hl & ->). exists (start_of l), (before N end_t ts (S l)). split; [apply start_le|]. repeat split; try reflexivity;
      apply in_piece; assumption.
  Qed.

  Lemma segment_labels ps : plot_by_segments ts ys label N end_t = Ok ps -> forall l p, nth_error ps l = Some p ->
    pc_label p = Some label \/ pc_label p = None /\ (0 < l)%nat /\ exists i, (i < length ts)%nat /\ vnth ts i < INR l * end_t / INR N.
  Proof.
    rewrite plot_ok. intros E0. injection E0 as <-. intros l p E.
    apply nth_error_map_seq in E. destruct E as (Hl & ->). cbn [pc_label piece_of]. unfold start_of. destruct l as [|l]; cbn [Nat.eqb]; [now left|].
    destruct (Nat.eqb_spec (before N end_t ts (S l)) 0) as [|Z]; [now left|]. right. split; [reflexivity|]. split; [lia|].
    destruct (before_spec N end_t ts (S l) HN He Hts) as (B & C). exists 0%nat. split; [lia|]. apply C; lia.
  Qed.
  Lemma segment_label_again ps : plot_by_segments ts ys label N end_t = Ok ps -> forall l p, nth_error ps l = Some p ->
    pc_label p = Some label -> l = 0%nat \/ forall i, (i < length ts)%nat -> INR l * end_t / INR N <= vnth ts i.
  Proof.
    rewrite plot_ok. intros E0. injection E0 as <-. intros l p E.
    apply nth_error_map_seq in E. destruct E as (Hl & ->). cbn [pc_label piece_of]. unfold start_of. destruct l as [|l]; cbn [Nat.eqb]; [now left|].
    destruct (Nat.eqb_spec (before N end_t ts (S l)) 0) as [Z|Z]; [intros _|discriminate]. right. intros i Hi.
    destruct (before_spec N end_t ts (S l) HN He Hts) as (B & C). apply Rnot_lt_le. intros F. apply (C i Hi) in F. lia.
  Qed.

  Lemma drawn_upto n : concat (map pc_t (map piece_of (seq 0 n))) = firstn (start_of n) ts /\
    concat (map pc_y (map piece_of (seq 0 n))) = firstn (start_of n) ys.
  Proof.
    induction n as [|n (I & J)]; [split; reflexivity|]. rewrite seq_S, !map_app, !concat_app, I, J. cbn [map concat plus piece_of pc_t pc_y].
    rewrite !app_nil_r. pose proof (start_le n). rewrite !slice_join by lia. split; reflexivity.
  Qed.
  Lemma drawn : exists ps m, plot_by_segments ts ys label N end_t = Ok ps /\ (m <= length ts)%nat /\
    concat (map pc_t ps) = firstn m ts /\ concat (map pc_y ps) = firstn m ys /\
    forall i, (i < length ts)%nat -> (i < m)%nat <-> vnth ts i < end_t.
  Proof.
    exists (map piece_of (seq 0 N)), (start_of N). split; [apply plot_ok|]. destruct (drawn_upto N) as (D & E).
    assert (S : start_of N = before N end_t ts N) by (unfold start_of; destruct (Nat.eqb_spec N 0); [lia|reflexivity]).
    split; [rewrite S; apply before_spec; assumption|]. split; [exact D|]. split; [exact E|]. rewrite S. now apply before_all.
  Qed.
End Pieces.

Lemma linspace_nondecreasing a b n : a < b -> nondecreasing (linspace a b n).
Proof.
  intros H i j Hi. destruct (Nat.eq_dec i j) as [->|D]; [lra|]. left. apply (linspace_increasing a b n H). lia.
Qed.
