(** Lemmas about [Prelude]. *)
From Verif Require Import Prelude.
Open Scope R_scope.

(** ** Lists *)
Lemma map2_length {A B C} (f : A -> B -> C) l m :
  length (map2 f l m) = Nat.min (length l) (length m).
Proof. revert m; induction l as [|a l IH]; intros [|b m]; simpl; auto. Qed.

Lemma nth_map2 {A B C} (f : A -> B -> C) l m i da db dc :
  (i < length l)%nat -> (i < length m)%nat ->
  nth i (map2 f l m) dc = f (nth i l da) (nth i m db).
Proof.
  revert m i; induction l as [|a l IH]; intros [|b m] [|i]; simpl; intros; try lia; auto.
  apply IH; lia.
Qed.

Lemma nth_map' {A B} (f : A -> B) l i da db :
  (i < length l)%nat -> nth i (map f l) db = f (nth i l da).
Proof.
  revert i; induction l as [|a l IH]; intros [|i]; simpl; intros; try lia; auto.
  apply IH; lia.
Qed.

Lemma nth_firstn {A} n (l : list A) i d :
  nth i (firstn n l) d = if (i <? n)%nat then nth i l d else d.
Proof.
  revert n i; induction l as [|a l IH]; intros [|n] [|i]; simpl; auto.
  - destruct (S i <? S n)%nat; reflexivity.
  - rewrite IH. reflexivity.
Qed.

Lemma nth_skipn' {A} n (l : list A) i d : nth i (skipn n l) d = nth (n + i) l d.
Proof.
  revert l; induction n as [|n IH]; intros [|a l]; simpl; auto.
  - destruct i; reflexivity.
Qed.

Lemma nth_app' {A} (a b : list A) i d :
  nth i (a ++ b) d = if (i <? length a)%nat then nth i a d else nth (i - length a) b d.
Proof.
  destruct (Nat.ltb_spec i (length a)).
  - now apply app_nth1.
  - now apply app_nth2.
Qed.

Lemma nth_seq_lt s n i d : (i < n)%nat -> nth i (seq s n) d = (s + i)%nat.
Proof. intros; apply seq_nth; auto. Qed.

Lemma list_ext {A} (d : A) (a b : list A) :
  length a = length b ->
  (forall i, (i < length a)%nat -> nth i a d = nth i b d) -> a = b.
Proof.
  revert b; induction a as [|x a IH]; intros [|y b]; simpl; intros Hl Hn; try discriminate; auto.
  f_equal.
  - apply (Hn 0%nat); lia.
  - apply IH; [lia|]. intros i Hi. apply (Hn (S i)); lia.
Qed.

Lemma nth_error_nth' {A} (l : list A) i d :
  (i < length l)%nat -> nth_error l i = Some (nth i l d).
Proof. revert i; induction l; intros [|i]; simpl; intros; try lia; auto. apply IHl; lia. Qed.

Lemma skipn_skipn' {A} a b (l : list A) : skipn a (skipn b l) = skipn (b + a) l.
Proof. revert l; induction b as [|b IH]; intros [|x l]; simpl; auto. now rewrite skipn_nil. Qed.

Lemma firstn_length_le' {A} n (l : list A) : (n <= length l)%nat -> length (firstn n l) = n.
Proof. intros; rewrite firstn_length; lia. Qed.

Lemma concat_length_const {A} (ls : list (list A)) n :
  (forall l, In l ls -> length l = n) -> length (concat ls) = (length ls * n)%nat.
Proof.
  induction ls as [|l ls IH]; simpl; intros H; auto.
  rewrite app_length, (H l), IH by (auto; intros; apply H; auto). lia.
Qed.

Lemma nth_concat_const {A} (ls : list (list A)) n k j d :
  (forall l, In l ls -> length l = n) -> (j < n)%nat -> (k < length ls)%nat ->
  nth (k * n + j) (concat ls) d = nth j (nth k ls []) d.
Proof.
  revert k; induction ls as [|l ls IH]; simpl; intros k H Hj Hk; [lia|].
  assert (Hl : length l = n) by (apply H; auto).
  rewrite nth_app', Hl. destruct k as [|k]; simpl.
  - destruct (Nat.ltb_spec j n); [reflexivity|lia].
  - destruct (Nat.ltb_spec (n + k * n + j) n); [lia|].
    replace (n + k * n + j - n)%nat with (k * n + j)%nat by lia.
    apply IH; auto; lia.
Qed.

(** ** Vectors *)
Lemma vadd_length a b : length (a +v b) = Nat.min (length a) (length b).
Proof. apply map2_length. Qed.
Lemma vsub_length a b : length (a -v b) = Nat.min (length a) (length b).
Proof. apply map2_length. Qed.
Lemma vmul_length a b : length (vmul a b) = Nat.min (length a) (length b).
Proof. apply map2_length. Qed.
Lemma vscale_length k a : length (k *v a) = length a.
Proof. apply map_length. Qed.
Lemma vdivs_length k a : length (a /v k) = length a.
Proof. apply map_length. Qed.
Lemma lastn_length {A} n (l : list A) : (0 < n)%nat -> (n <= length l)%nat -> length (lastn n l) = n.
Proof. intros. unfold lastn. destruct (Nat.eqb_spec n 0); [lia|]. rewrite skipn_length. lia. Qed.
Lemma slice_length {A} lo hi (l : list A) : length (slice lo hi l) = Nat.min (hi - lo) (length l - lo).
Proof. unfold slice. now rewrite firstn_length, skipn_length. Qed.
Lemma set_slice_length {A} lo (v l : list A) :
  (lo + length v <= length l)%nat -> length (set_slice lo v l) = length l.
Proof.
  intros. unfold set_slice. rewrite !app_length, firstn_length, skipn_length. lia.
Qed.

Lemma vnth_vadd a b i : length a = length b -> vnth (a +v b) i = vnth a i + vnth b i.
Proof.
  intros H. unfold vnth, vadd. destruct (Nat.lt_ge_cases i (length a)).
  - apply nth_map2; lia.
  - rewrite !nth_overflow; try lra; rewrite ?map2_length; lia.
Qed.
Lemma vnth_vsub a b i : length a = length b -> vnth (a -v b) i = vnth a i - vnth b i.
Proof.
  intros H. unfold vnth, vsub. destruct (Nat.lt_ge_cases i (length a)).
  - apply nth_map2; lia.
  - rewrite !nth_overflow; try lra; rewrite ?map2_length; lia.
Qed.
Lemma vnth_vmul a b i : length a = length b -> vnth (vmul a b) i = vnth a i * vnth b i.
Proof.
  intros H. unfold vnth, vmul. destruct (Nat.lt_ge_cases i (length a)).
  - apply nth_map2; lia.
  - rewrite !nth_overflow; try lra; rewrite ?map2_length; lia.
Qed.
Lemma vnth_vscale k a i : vnth (k *v a) i = k * vnth a i.
Proof.
  unfold vnth, vscale. destruct (Nat.lt_ge_cases i (length a)).
  - apply nth_map'; lia.
  - rewrite !nth_overflow; try lra; rewrite ?map_length; lia.
Qed.
Lemma vnth_vdivs k a i : vnth (a /v k) i = vnth a i / k.
Proof.
  unfold vnth, vdivs. destruct (Nat.lt_ge_cases i (length a)).
  - apply (nth_map' (fun x => x / k)); lia.
  - rewrite !nth_overflow; try (unfold Rdiv; lra); rewrite ?map_length; lia.
Qed.
Lemma vnth_firstn n a i : vnth (firstn n a) i = if (i <? n)%nat then vnth a i else 0.
Proof. apply nth_firstn. Qed.
Lemma vnth_skipn n a i : vnth (skipn n a) i = vnth a (n + i).
Proof. apply nth_skipn'. Qed.
Lemma vnth_app a b i :
  vnth (a ++ b) i = if (i <? length a)%nat then vnth a i else vnth b (i - length a).
Proof. apply nth_app'. Qed.
Lemma vnth_overflow a i : (length a <= i)%nat -> vnth a i = 0.
Proof. apply nth_overflow. Qed.
Lemma vnth_map_seq (f : nat -> R) s n i :
  (i < n)%nat -> vnth (map f (seq s n)) i = f (s + i)%nat.
Proof.
  intros. unfold vnth. rewrite (nth_map' f (seq s n) i 0%nat) by (rewrite seq_length; auto).
  now rewrite seq_nth.
Qed.

Lemma vec_ext (a b : vec) :
  length a = length b -> (forall i, (i < length a)%nat -> vnth a i = vnth b i) -> a = b.
Proof. apply list_ext. Qed.

Lemma vzero_iff a : vzero a <-> (forall i, (i < length a)%nat -> vnth a i = 0).
Proof.
  unfold vzero. split.
  - intros H i Hi. rewrite Forall_forall in H. apply H. now apply nth_In.
  - intros H. apply Forall_forall. intros x Hx.
    destruct (In_nth _ _ 0 Hx) as (i & Hi & <-). now apply H.
Qed.

Lemma vzero_vsub_iff a b : length a = length b -> (vzero (a -v b) <-> a = b).
Proof.
  intros Hl. rewrite vzero_iff, vsub_length, <- Hl, Nat.min_id. split.
  - intros H. apply vec_ext; auto. intros i Hi. specialize (H i Hi).
    rewrite vnth_vsub in H by auto. lra.
  - intros -> i Hi. rewrite vnth_vsub by auto. lra.
Qed.

Lemma vzero_scale_iff k a : k <> 0 -> (vzero (k *v a) <-> vzero a).
Proof.
  intros Hk. rewrite !vzero_iff, vscale_length. split; intros H i Hi; specialize (H i Hi).
  - rewrite vnth_vscale in H. apply Rmult_integral in H. tauto.
  - rewrite vnth_vscale, H. lra.
Qed.

Lemma vzero_app a b : vzero (a ++ b) <-> vzero a /\ vzero b.
Proof. unfold vzero. apply Forall_app. Qed.

(** ** Length and component automation *)
Global Hint Rewrite vadd_length vsub_length vmul_length vscale_length vdivs_length app_length
  firstn_length skipn_length map_length seq_length : vlen.
Ltac vlen := autorewrite with vlen in *; simpl length in *; lia.

Ltac vn :=
  repeat first
    [ rewrite vnth_vadd by vlen
    | rewrite vnth_vsub by vlen
    | rewrite vnth_vmul by vlen
    | rewrite vnth_vscale
    | rewrite vnth_vdivs
    | rewrite vnth_firstn
    | rewrite vnth_skipn
    | rewrite vnth_app ].

(** ** Sums *)
Lemma rsum_ext n f g : (forall i, (i < n)%nat -> f i = g i) -> rsum n f = rsum n g.
Proof. induction n; simpl; intros H; auto. rewrite IHn, H by (auto; intros; apply H; lia). auto. Qed.
Lemma rsum_plus n f g : rsum n (fun i => f i + g i) = rsum n f + rsum n g.
Proof. induction n; simpl; [ring|]. rewrite IHn; ring. Qed.
Lemma rsum_minus n f g : rsum n (fun i => f i - g i) = rsum n f - rsum n g.
Proof. induction n; simpl; [ring|]. rewrite IHn; ring. Qed.
Lemma rsum_scal n k f : rsum n (fun i => k * f i) = k * rsum n f.
Proof. induction n; simpl; [ring|]. rewrite IHn; ring. Qed.
Lemma rsum_scal_r n k f : rsum n (fun i => f i * k) = rsum n f * k.
Proof. induction n; simpl; [ring|]. rewrite IHn; ring. Qed.
Lemma rsum_0 n : rsum n (fun _ => 0) = 0.
Proof. induction n; simpl; [ring|]. rewrite IHn; ring. Qed.
Lemma rsum_zero n f : (forall i, (i < n)%nat -> f i = 0) -> rsum n f = 0.
Proof. intros H. rewrite (rsum_ext n f (fun _ => 0)) by auto. apply rsum_0. Qed.
Lemma rsum_const n c : rsum n (fun _ => c) = INR n * c.
Proof. induction n; [simpl; ring|]. rewrite S_INR. simpl rsum. rewrite IHn; ring. Qed.
Lemma rsum_S_l n f : rsum (S n) f = f 0%nat + rsum n (fun i => f (S i)).
Proof. induction n; simpl in *; [ring|]. rewrite IHn; ring. Qed.
Lemma rsum_split n m f : rsum (n + m) f = rsum n f + rsum m (fun i => f (n + i)%nat).
Proof.
  induction m; simpl.
  - rewrite Nat.add_0_r; ring.
  - rewrite Nat.add_succ_r. simpl. rewrite IHm. ring.
Qed.
Lemma rsum_swap n m (f : nat -> nat -> R) :
  rsum n (fun i => rsum m (f i)) = rsum m (fun j => rsum n (fun i => f i j)).
Proof.
  induction n; simpl.
  - now rewrite rsum_0.
  - rewrite IHn, <- rsum_plus. reflexivity.
Qed.
Lemma rsum_delta n k f : (k < n)%nat ->
  rsum n (fun i => if Nat.eqb i k then f i else 0) = f k.
Proof.
  induction n; intros Hk; [lia|]. simpl. destruct (Nat.eqb_spec n k) as [->|Hne].
  - rewrite rsum_zero; [ring|]. intros i Hi. destruct (Nat.eqb_spec i k); [lia|auto].
  - rewrite IHn by lia. ring.
Qed.
Lemma rsum_rev n f : rsum n f = rsum n (fun i => f (n - 1 - i)%nat).
Proof.
  revert f; induction n; intros f; [reflexivity|].
  rewrite rsum_S_l. cbn [rsum]. rewrite IHn.
  replace (S n - 1 - n)%nat with 0%nat by lia. rewrite Rplus_comm. f_equal.
  apply rsum_ext; intros. f_equal. lia.
Qed.
Lemma rsum_telescope n f : rsum n (fun i => f (S i) - f i) = f n - f 0%nat.
Proof. induction n; simpl; [ring|]. rewrite IHn; ring. Qed.
Lemma rsum_le n f g : (forall i, (i < n)%nat -> f i <= g i) -> rsum n f <= rsum n g.
Proof.
  induction n; simpl; intros H; [lra|].
  apply Rplus_le_compat; [apply IHn; intros; apply H; lia | apply H; lia].
Qed.
Lemma rsum_nonneg n f : (forall i, (i < n)%nat -> 0 <= f i) -> 0 <= rsum n f.
Proof. intros H. rewrite <- (rsum_0 n). now apply rsum_le. Qed.

Lemma rprod_ext n f g : (forall i, (i < n)%nat -> f i = g i) -> rprod n f = rprod n g.
Proof. induction n; simpl; intros H; auto. rewrite IHn, H by (auto; intros; apply H; lia). auto. Qed.
Lemma rprod_neq0 n f : (forall i, (i < n)%nat -> f i <> 0) -> rprod n f <> 0.
Proof.
  induction n; simpl; intros H; [lra|].
  apply Rmult_integral_contrapositive_currified; [apply IHn; intros; apply H; lia | apply H; lia].
Qed.
Lemma rprod_zero n f i : (i < n)%nat -> f i = 0 -> rprod n f = 0.
Proof.
  induction n; simpl; intros Hi H; [lia|].
  destruct (Nat.eq_dec i n) as [->|].
  - rewrite H; ring.
  - rewrite IHn by (auto; lia). ring.
Qed.
Lemma rprod_mult n f g : rprod n (fun i => f i * g i) = rprod n f * rprod n g.
Proof. induction n; simpl; [ring|]. rewrite IHn; ring. Qed.
Lemma rprod_const n c : rprod n (fun _ => c) = c ^ n.
Proof. induction n; simpl; [ring|]. rewrite IHn; ring. Qed.

Lemma vsum_rsum a : vsum a = rsum (length a) (vnth a).
Proof.
  induction a as [|x a IH]; [reflexivity|].
  cbn [length]. rewrite rsum_S_l. simpl. f_equal. exact IH.
Qed.
Lemma vsum_app a b : vsum (a ++ b) = vsum a + vsum b.
Proof. induction a; simpl; [ring|]. rewrite IHa; ring. Qed.
Lemma vsum_map_seq f n : vsum (map f (seq 0 n)) = rsum n f.
Proof.
  rewrite vsum_rsum, map_length, seq_length. apply rsum_ext. intros. now rewrite vnth_map_seq.
Qed.
Lemma vdot_rsum a b : length a = length b ->
  vdot a b = rsum (length a) (fun i => vnth a i * vnth b i).
Proof.
  intros H. unfold vdot. rewrite vsum_rsum, vmul_length, <- H, Nat.min_id.
  apply rsum_ext. intros. now apply vnth_vmul.
Qed.
