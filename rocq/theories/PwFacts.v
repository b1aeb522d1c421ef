(** Structural lemmas about the list operations of [PwModel]. *)
From Verif Require Import Prelude PreludeFacts PwModel.
Open Scope R_scope.
Open Scope vec_scope.

Lemma pyget_nat {A} (l : list A) i d : (i < length l)%nat -> pyget l (Z.of_nat i) = Ok (nth i l d).
Proof.
  intros H. unfold pyget.
  destruct (Z.ltb_spec (Z.of_nat i) 0); [lia|].
  destruct (Z.ltb_spec (Z.of_nat i) 0); [lia|].
  destruct (Z.leb_spec (Z.of_nat (length l)) (Z.of_nat i)); [lia|].
  simpl. rewrite Nat2Z.id. now rewrite (nth_error_nth' l i d).
Qed.
Lemma pyget_nat_out {A} (l : list A) i : (length l <= i)%nat -> pyget l (Z.of_nat i) = Err IndexError.
Proof.
  intros H. unfold pyget.
  destruct (Z.ltb_spec (Z.of_nat i) 0); [lia|].
  destruct (Z.ltb_spec (Z.of_nat i) 0); [lia|].
  destruct (Z.leb_spec (Z.of_nat (length l)) (Z.of_nat i)); [reflexivity|lia].
Qed.
Lemma pyget_last {A} (l : list A) d : l <> [] -> pyget l (-1) = Ok (nth (length l - 1) l d).
Proof.
  intros H. assert (0 < length l)%nat by (destruct l; simpl; [congruence|lia]).
  unfold pyget. change (-1 <? 0)%Z with true. cbv iota.
  destruct (Z.ltb_spec (Z.of_nat (length l) + -1) 0); [lia|].
  destruct (Z.leb_spec (Z.of_nat (length l)) (Z.of_nat (length l) + -1)); [lia|].
  simpl. replace (Z.to_nat (Z.of_nat (length l) + -1)) with (length l - 1)%nat by lia.
  now rewrite (nth_error_nth' l (length l - 1) d) by lia.
Qed.

(** ** Halves of a second-order state *)
Section Halves.
  Variable m : nat.
  Variables x : vec.
  Hypothesis Hx : length x = (2 * m)%nat.

  Lemma half_dim : (vec_len x / 2)%nat = m.
  Proof. unfold vec_len. rewrite Hx, Nat.mul_comm. apply Nat.div_mul. lia. Qed.
  Lemma get_last_skipn : get_last m x = skipn m x.
  Proof.
    unfold get_last, lastn. destruct (Nat.eqb_spec m 0) as [->|].
    - reflexivity.
    - rewrite Hx. f_equal. lia.
  Qed.
  Lemma halves : firstn m x ++ skipn m x = x.
  Proof. apply firstn_skipn. Qed.
  Lemma firstn_half_length : length (firstn m x) = m.
  Proof. rewrite firstn_length. lia. Qed.
  Lemma skipn_half_length : length (skipn m x) = m.
  Proof. rewrite skipn_length. lia. Qed.
  Lemma set_both (A B : vec) : length A = m -> length B = m ->
    set_slice 0 A (set_slice m B x) = A ++ B.
  Proof.
    intros HA HB. unfold set_slice. cbn [firstn app Nat.add]. rewrite HA, HB.
    rewrite (skipn_all2 (n := m + m) x) by lia. rewrite app_nil_r.
    rewrite skipn_app, firstn_length, skipn_firstn_comm, Nat.sub_diag, Hx.
    replace (m - Nat.min m (2 * m))%nat with 0%nat by lia. reflexivity.
  Qed.
  Lemma set_both' (A B : vec) : length A = m -> length B = m ->
    set_slice m B (set_slice 0 A x) = A ++ B.
  Proof.
    intros HA HB. unfold set_slice. cbn [firstn app Nat.add]. rewrite HA, HB.
    rewrite firstn_app, HA, Nat.sub_diag, firstn_all2 by lia. cbn [firstn].
    rewrite app_nil_r. f_equal. rewrite skipn_app, HA.
    replace (m + m - m)%nat with m by lia. rewrite skipn_skipn'.
    rewrite (skipn_all2 (n := m + m) A) by lia.
    rewrite (skipn_all2 (n := m + m) x) by lia. now rewrite !app_nil_r.
  Qed.
  Lemma put_both (A B : vec) : length A = m -> length B = m ->
    put_first m A (put_last m B x) = A ++ B.
  Proof.
    intros HA HB. unfold put_first, put_last. rewrite Hx.
    replace (2 * m - m)%nat with m by lia. now apply set_both.
  Qed.
  Lemma put_both' (A B : vec) : length A = m -> length B = m ->
    put_last m B (put_first m A x) = A ++ B.
  Proof.
    intros HA HB. unfold put_last at 1. unfold put_first.
    rewrite set_slice_length by (cbn [Nat.add]; lia). rewrite Hx.
    replace (2 * m - m)%nat with m by lia. now apply set_both'.
  Qed.
End Halves.

Lemma vsub_app a b c d : length a = length c ->
  (a ++ b) -v (c ++ d) = (a -v c) ++ (b -v d).
Proof.
  unfold vsub. revert c; induction a as [|x a IH]; intros [|y c] H; simpl in *; try discriminate; auto.
  f_equal. apply IH. lia.
Qed.

(** x_dot_of: shift of the blocks. *)
Lemma x_dot_of_eq n x y a : length y = length x -> length a = n -> (n <= length x)%nat ->
  x_dot_of n x y a = skipn n y ++ a.
Proof.
  intros Hy Ha Hn. unfold x_dot_of, all_but_first, put_last, put_first.
  assert (L : length (set_slice 0 (skipn n y) x) = length x).
  { apply set_slice_length. rewrite skipn_length. lia. }
  rewrite L. unfold set_slice. cbn [firstn app Nat.add].
  rewrite skipn_length, Hy, Ha.
  rewrite firstn_app, skipn_length, Hy, Nat.sub_diag.
  rewrite firstn_all2 by (rewrite skipn_length; lia). cbn [firstn]. rewrite app_nil_r.
  f_equal. rewrite skipn_app, skipn_skipn', skipn_skipn', skipn_length, Hy.
  rewrite (skipn_all2 (n := (n + (length x - n + n))%nat)) by lia.
  rewrite skipn_all2 by lia. now rewrite app_nil_r.
Qed.

(** ** Blocks *)
Lemma get_x_divisions_length (x : vec) M : length (get_x_divisions x M) = M.
Proof. unfold get_x_divisions. now rewrite map_length, seq_length. Qed.
Lemma block_dim (x : vec) M n : length x = (M * n)%nat -> (0 < M)%nat -> (length x / M)%nat = n.
Proof. intros -> H. rewrite Nat.mul_comm. apply Nat.div_mul. lia. Qed.
Lemma nth_get_x_divisions (x : vec) M n k : length x = (M * n)%nat -> (k < M)%nat ->
  nth k (get_x_divisions x M) [] = slice (n * k) (n * (k + 1)) x.
Proof.
  intros Hx Hk. unfold get_x_divisions. rewrite (block_dim x M n) by (auto; lia).
  rewrite (nth_map' _ _ _ 0%nat) by (rewrite seq_length; auto).
  now rewrite seq_nth.
Qed.
Lemma block_length (x : vec) M n k : length x = (M * n)%nat -> (k < M)%nat ->
  length (nth k (get_x_divisions x M) []) = n.
Proof.
  intros Hx Hk. rewrite (nth_get_x_divisions x M n) by auto. rewrite slice_length, Hx. nia.
Qed.
Lemma vnth_block (x : vec) M n k j : length x = (M * n)%nat -> (k < M)%nat -> (j < n)%nat ->
  vnth (nth k (get_x_divisions x M) []) j = vnth x (k * n + j).
Proof.
  intros Hx Hk Hj. rewrite (nth_get_x_divisions x M n) by auto.
  unfold slice. rewrite vnth_firstn, vnth_skipn.
  destruct (Nat.ltb_spec j (n * (k + 1) - n * k)); [|nia]. f_equal. lia.
Qed.
Lemma last_nth_length {A} (l : list A) d : l <> [] -> last l d = nth (length l - 1) l d.
Proof.
  induction l as [|a l IH]; intros H; [congruence|]. destruct l as [|b l]; [reflexivity|].
  change (last (a :: b :: l) d) with (last (b :: l) d). rewrite IH by discriminate.
  simpl. now rewrite Nat.sub_0_r.
Qed.
Lemma last_get_x_divisions x M : (0 < M)%nat ->
  last (get_x_divisions x M) [] = nth (M - 1) (get_x_divisions x M) [].
Proof.
  intros H. rewrite last_nth_length.
  - now rewrite get_x_divisions_length.
  - intros E. pose proof (get_x_divisions_length x M) as L. rewrite E in L. simpl in L. lia.
Qed.

Lemma vnth_set_slice lo (v l : vec) i : (lo + length v <= length l)%nat ->
  vnth (set_slice lo v l) i =
  if (i <? lo)%nat then vnth l i
  else if (i <? lo + length v)%nat then vnth v (i - lo) else vnth l i.
Proof.
  intros H. unfold set_slice. rewrite !vnth_app, firstn_length, vnth_firstn, vnth_skipn.
  replace (Nat.min lo (length l)) with lo by lia.
  destruct (Nat.ltb_spec i lo); [reflexivity|].
  destruct (Nat.ltb_spec (i - lo) (length v)); destruct (Nat.ltb_spec i (lo + length v)); try lia.
  - reflexivity.
  - f_equal. lia.
Qed.

Lemma fold_set_slice_length n (blocks : list vec) ks (acc : vec) :
  (forall k, In k ks -> length (nth k blocks []) = n) ->
  (forall k, In k ks -> (n * k + n <= length acc)%nat) ->
  length (fold_left (fun acc ii => set_slice (n * ii) (nth ii blocks []) acc) ks acc) = length acc.
Proof.
  revert acc; induction ks as [|k ks IH]; intros acc Hb Hk; simpl; auto.
  rewrite IH.
  - apply set_slice_length. rewrite Hb by (left; auto). apply Hk. left; auto.
  - intros; apply Hb; right; auto.
  - intros k' Hk'. rewrite set_slice_length.
    + apply Hk. right; auto.
    + rewrite Hb by (left; auto). apply Hk. left; auto.
Qed.

(** Writing all the blocks gives their concatenation. *)
Lemma reunite_concat (arr : vec) M n blocks : (0 < M)%nat -> length arr = (M * n)%nat ->
  length blocks = M -> (forall k, (k < M)%nat -> length (nth k blocks []) = n) ->
  reunite arr blocks M = concat blocks.
Proof.
  intros HM Ha Hbl Hb. unfold reunite. rewrite (block_dim arr M n) by auto.
  assert (G : forall k, (k <= M)%nat ->
    fold_left (fun acc ii => set_slice (n * ii) (nth ii blocks []) acc) (seq 0 k) arr
    = concat (firstn k blocks) ++ skipn (k * n) arr).
  { induction k as [|k IH]; intros Hk; [reflexivity|].
    rewrite seq_S, fold_left_app, IH by lia. cbn [fold_left Nat.add].
    assert (Lc : length (concat (firstn k blocks)) = (k * n)%nat).
    { rewrite (concat_length_const _ n).
      - rewrite firstn_length. nia.
      - intros l Hl. destruct (In_nth _ _ [] Hl) as (i & Hi & <-).
        rewrite firstn_length in Hi. rewrite nth_firstn.
        destruct (Nat.ltb_spec i k); [|lia]. apply Hb. lia. }
    unfold set_slice. rewrite Hb by lia.
    rewrite firstn_app, Lc. replace (n * k - k * n)%nat with 0%nat by lia.
    rewrite firstn_all2 by lia. cbn [firstn]. rewrite app_nil_r.
    rewrite skipn_app, Lc, skipn_all2, skipn_skipn' by lia.
    cbn [app]. replace (k * n + (n * k + n - k * n))%nat with (S k * n)%nat by lia.
    rewrite app_assoc.
    assert (E : forall (bs : list vec) i, (i < length bs)%nat ->
                concat (firstn (S i) bs) = concat (firstn i bs) ++ nth i bs []).
    { clear. induction bs as [|b bs IHb]; intros i Hi; [simpl in Hi; lia|].
      destruct i as [|i]; [simpl; now rewrite app_nil_r|].
      change (firstn (S (S i)) (b :: bs)) with (b :: firstn (S i) bs).
      change (firstn (S i) (b :: bs)) with (b :: firstn i bs).
      cbn [concat nth]. rewrite IHb by (simpl in Hi; lia). now rewrite app_assoc. }
    rewrite <- E by lia. reflexivity. }
  rewrite (G M) by lia. rewrite firstn_all2 by lia.
  rewrite skipn_all2 by lia. apply app_nil_r.
Qed.

Lemma vnth_reunite (arr : vec) M n blocks k j : (0 < M)%nat -> length arr = (M * n)%nat ->
  length blocks = M -> (forall k, (k < M)%nat -> length (nth k blocks []) = n) ->
  (k < M)%nat -> (j < n)%nat ->
  vnth (reunite arr blocks M) (k * n + j) = vnth (nth k blocks []) j.
Proof.
  intros HM Ha Hbl Hb Hk Hj. rewrite (reunite_concat arr M n) by auto.
  unfold vnth. apply nth_concat_const; auto; try lia.
  intros l Hl. destruct (In_nth _ _ [] Hl) as (i & Hi & <-). apply Hb. lia.
Qed.
Lemma reunite_length (arr : vec) M n blocks : (0 < M)%nat -> length arr = (M * n)%nat ->
  length blocks = M -> (forall k, (k < M)%nat -> length (nth k blocks []) = n) ->
  length (reunite arr blocks M) = (M * n)%nat.
Proof.
  intros HM Ha Hbl Hb. rewrite (reunite_concat arr M n) by auto.
  rewrite (concat_length_const _ n), Hbl; auto.
  intros l Hl. destruct (In_nth _ _ [] Hl) as (i & Hi & <-). apply Hb. lia.
Qed.

(** ** Accumulated sums *)
Lemma accum_length start terms n : length start = n -> (forall t, In t terms -> length t = n) ->
  length (accum start terms) = n.
Proof.
  unfold accum. revert start; induction terms as [|t ts IH]; intros start Hs Ht; simpl; auto.
  apply IH.
  - rewrite vadd_length, Hs, Ht by (left; auto). lia.
  - intros; apply Ht; right; auto.
Qed.
Lemma vnth_accum start (f : nat -> vec) k n j : length start = n ->
  (forall i, (i < k)%nat -> length (f i) = n) ->
  vnth (accum start (map f (seq 0 k))) j = vnth start j + rsum k (fun i => vnth (f i) j).
Proof.
  intros Hs. induction k as [|k IH]; intros Hf.
  - simpl. ring.
  - rewrite seq_S, map_app. unfold accum in *. rewrite fold_left_app. cbn [map fold_left Nat.add].
    rewrite vnth_vadd.
    + rewrite IH by (intros; apply Hf; lia). simpl. ring.
    + assert (L : length (accum start (map f (seq 0 k))) = n).
      { apply accum_length; auto. intros t Ht. apply in_map_iff in Ht.
        destruct Ht as (i & <- & Hi). apply in_seq in Hi. apply Hf. lia. }
      unfold accum in L. rewrite L, Hf by lia. reflexivity.
Qed.

(** Every index of a state of M blocks of n is k*n + j. *)
Lemma index_split M n i : (i < M * n)%nat ->
  exists k j, (k < M)%nat /\ (j < n)%nat /\ i = (k * n + j)%nat.
Proof.
  intros H. assert (0 < n)%nat by nia. exists (i / n)%nat, (i mod n)%nat.
  split; [|split].
  - apply Nat.div_lt_upper_bound; lia.
  - apply Nat.mod_upper_bound; lia.
  - rewrite (Nat.div_mod i n) at 1 by lia. lia.
Qed.
Lemma index_bound M n k j : (k < M)%nat -> (j < n)%nat -> (k * n + j < M * n)%nat.
Proof. nia. Qed.
