(** Facts on the matrix operations. *)
From Verif Require Import Prelude PreludeFacts Mat.
Open Scope R_scope.
Open Scope vec_scope.

Lemma shaped_length n m A : shaped n m A -> length A = n.
Proof. now intros [? ?]. Qed.
Lemma shaped_row n m A i : shaped n m A -> (i < n)%nat -> length (mrow i A) = m.
Proof.
  intros [L F] H. rewrite Forall_forall in F. apply F. unfold mrow. apply nth_In. lia.
Qed.
Lemma shaped_mwidth n m A : shaped n m A -> (0 < n)%nat -> mwidth A = m.
Proof.
  intros [L F] H. unfold mwidth. destruct A as [|r A]; simpl in *; [lia|]. now inversion F.
Qed.
Lemma mcol_length j A : length (mcol j A) = length A.
Proof. apply map_length. Qed.
Lemma vnth_mcol j A i : (i < length A)%nat -> vnth (mcol j A) i = mget A i j.
Proof.
  intros H. unfold vnth, mcol, mget, mrow, vnth. now rewrite (nth_map' _ _ _ []).
Qed.

Lemma mat_ext n m A B : shaped n m A -> shaped n m B ->
  (forall i j, (i < n)%nat -> (j < m)%nat -> mget A i j = mget B i j) -> A = B.
Proof.
  intros SA SB H. apply (list_ext []).
  - rewrite (shaped_length _ _ _ SA), (shaped_length _ _ _ SB). reflexivity.
  - intros i Hi. rewrite (shaped_length _ _ _ SA) in Hi.
    apply vec_ext.
    + change (length (mrow i A) = length (mrow i B)).
      now rewrite (shaped_row n m A), (shaped_row n m B).
    + intros j Hj. change (nth i A []) with (mrow i A) in Hj.
      rewrite (shaped_row n m A) in Hj by auto. now apply H.
Qed.

Lemma mmul_shaped n k m A B : shaped n k A -> shaped k m B -> (0 < k)%nat -> shaped n m (mmul A B).
Proof.
  intros [LA FA] SB H. split.
  - unfold mmul. now rewrite map_length.
  - apply Forall_forall. intros r I. unfold mmul in I. apply in_map_iff in I.
    destruct I as (a & <- & _). rewrite map_length, seq_length. now apply (shaped_mwidth k).
Qed.
Lemma mget_mmul n k m A B i j : shaped n k A -> shaped k m B -> (0 < k)%nat ->
  (i < n)%nat -> (j < m)%nat ->
  mget (mmul A B) i j = rsum k (fun l => mget A i l * mget B l j).
Proof.
  intros SA SB Hk Hi Hj. unfold mget at 1, mrow, mmul.
  rewrite (nth_map' _ _ _ []) by (rewrite (shaped_length _ _ _ SA); exact Hi).
  rewrite (shaped_mwidth k m) by auto. rewrite vnth_map_seq by exact Hj. simpl.
  assert (L : length (nth i A []) = k) by (apply (shaped_row n k A); auto).
  rewrite vdot_rsum by (rewrite mcol_length, L; symmetry; apply (shaped_length _ _ _ SB)).
  rewrite L. apply rsum_ext. intros l Hl. f_equal. apply vnth_mcol.
  rewrite (shaped_length _ _ _ SB). exact Hl.
Qed.
Lemma mscale_shaped n m k A : shaped n m A -> shaped n m (mscale k A).
Proof.
  intros [L F]. split; unfold mscale.
  - now rewrite map_length.
  - apply Forall_forall. intros r I. apply in_map_iff in I. destruct I as (a & <- & Ia).
    rewrite vscale_length. rewrite Forall_forall in F. auto.
Qed.
Lemma mget_mscale k A i j : mget (mscale k A) i j = k * mget A i j.
Proof.
  unfold mget, mrow, mscale. destruct (Nat.lt_ge_cases i (length A)) as [H|H].
  - rewrite (nth_map' _ _ _ []) by exact H. apply vnth_vscale.
  - rewrite !nth_overflow; [|exact H|now rewrite map_length]. unfold vnth. destruct j; simpl; ring.
Qed.
Lemma eye_shaped n : shaped n n (eye n).
Proof.
  split; unfold eye.
  - now rewrite map_length, seq_length.
  - apply Forall_forall. intros r I. apply in_map_iff in I. destruct I as (i & <- & _).
    now rewrite map_length, seq_length.
Qed.
Lemma mget_eye n i j : (i < n)%nat -> (j < n)%nat -> mget (eye n) i j = if (i =? j)%nat then 1 else 0.
Proof.
  intros Hi Hj. unfold mget, mrow, eye. rewrite (nth_map' _ _ _ 0%nat) by now rewrite seq_length.
  rewrite vnth_map_seq by exact Hj. now rewrite seq_nth.
Qed.
Lemma mpow_shaped n D k : shaped n n D -> (0 < n)%nat -> shaped n n (mpow D k).
Proof.
  intros S H. induction k; simpl.
  - rewrite (shaped_length _ _ _ S). apply eye_shaped.
  - now apply (mmul_shaped n n n).
Qed.
Lemma mget_out A i j : (length A <= i)%nat -> mget A i j = 0.
Proof. intros H. unfold mget, mrow. rewrite nth_overflow by exact H. now destruct j. Qed.
Lemma mcols_shaped n m lo hi A : shaped n m A -> (hi <= m)%nat -> (lo <= hi)%nat ->
  shaped n (hi - lo) (mcols lo hi A).
Proof.
  intros [L F] H1 H2. split; unfold mcols.
  - now rewrite map_length.
  - apply Forall_forall. intros r I. apply in_map_iff in I. destruct I as (a & <- & Ia).
    rewrite Forall_forall in F. rewrite slice_length, (F _ Ia). lia.
Qed.
Lemma mget_mcols lo hi A i j : (i < length A)%nat -> (j < hi - lo)%nat ->
  mget (mcols lo hi A) i j = mget A i (lo + j).
Proof.
  intros Hi Hj. unfold mget, mrow, mcols. rewrite (nth_map' _ _ _ []) by exact Hi.
  unfold slice. rewrite vnth_firstn. destruct (Nat.ltb_spec j (hi - lo)); [|lia].
  apply vnth_skipn.
Qed.
Lemma mlastcols_shaped n m k A : shaped n m A -> (0 < k)%nat -> (k <= m)%nat ->
  shaped n k (mlastcols k A).
Proof.
  intros [L F] H1 H2. split; unfold mlastcols.
  - now rewrite map_length.
  - apply Forall_forall. intros r I. apply in_map_iff in I. destruct I as (a & <- & Ia).
    rewrite Forall_forall in F. rewrite lastn_length; rewrite ?(F _ Ia); auto.
Qed.
Lemma mget_mlastcols n m k A i j : shaped n m A -> (0 < k)%nat -> (k <= m)%nat -> (i < n)%nat ->
  mget (mlastcols k A) i j = mget A i (m - k + j).
Proof.
  intros S H1 H2 Hi. unfold mget, mrow, mlastcols.
  rewrite (nth_map' _ _ _ []) by (rewrite (shaped_length _ _ _ S); exact Hi).
  unfold lastn. destruct (Nat.eqb_spec k 0); [lia|].
  rewrite vnth_skipn. f_equal. f_equal. f_equal. apply (shaped_row n m A); auto.
Qed.
