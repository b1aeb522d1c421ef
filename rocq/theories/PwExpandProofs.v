(** Proofs of C16 for expand_G and for the layouts of the accelerations. *)
From Verif Require Import Prelude PreludeFacts Mat PwModel PwMoreProofs PwExpandModel PwExpandSpec.
Open Scope R_scope.
Open Scope list_scope.

Lemma div_dim M n : (0 < M)%nat -> ((M * n) / M)%nat = n.
Proof. intros H. rewrite Nat.mul_comm. apply Nat.div_mul. lia. Qed.
Lemma divisions_are_blocks M n x : (0 < M)%nat -> length x = (M * n)%nat -> get_x_divisions x M = blocks M n x.
Proof.
  intros HM L. unfold get_x_divisions, blocks. rewrite L, div_dim by exact HM. apply map_ext. intros k. unfold slice.
  rewrite (Nat.mul_comm n k). f_equal. rewrite Nat.mul_add_distr_l. lia.
Qed.

Lemma half2 n : (2 * n / 2)%nat = n.
Proof. rewrite Nat.mul_comm. apply Nat.div_mul. lia. Qed.
Lemma half_eq M n : (0 < M)%nat -> (0 < n)%nat -> (M * n / 2 = n <-> M = 2 \/ (M = 3 /\ n = 1))%nat.
Proof.
  intros HM Hn. split.
  - intros E. pose proof (Nat.div_mod (M * n) 2 ltac:(lia)) as D. pose proof (Nat.mod_upper_bound (M * n) 2 ltac:(lia)) as U. rewrite E in D.
    destruct M as [|[|[|[|k]]]]; try lia.
  - intros [->|[-> ->]]; [apply half2|reflexivity].
Qed.
Lemma half_other M n : (0 < M)%nat -> (0 < n)%nat -> M <> 2%nat -> ~ (M = 1 /\ n = 1)%nat -> n <> (M * n - M * n / 2)%nat.
Proof.
  intros HM Hn H2 H1 E. pose proof (Nat.div_mod (M * n) 2 ltac:(lia)) as D. pose proof (Nat.mod_upper_bound (M * n) 2 ltac:(lia)) as U.
  set (d := (M * n / 2)%nat) in *. set (r := (M * n) mod 2) in *.
  destruct M as [|[|[|k]]]; try lia.
Qed.

Section G.
Context {P : Type}.
Variables (G : list vec -> vec -> P -> vec) (M n : nat) (p : P).
Hypotheses (HM : (0 < M)%nat) (Hn : (0 < n)%nat).

Theorem expand_G_order2 x u : length x = (2 * n)%nat -> length (G (blocks 2 n x) u p) = n ->
  expand_G G 2 x u p = Ok (skipn n x ++ G (blocks 2 n x) u p).
Proof using.
  clear HM Hn. intros L LG. unfold expand_G, expand_F. rewrite (divisions_are_blocks 2 n) by (lia || exact L). rewrite L, half2, skipn_length, L, LG.
  destruct (Nat.eqb_spec n (2 * n - n)); [reflexivity|lia].
Qed.
Theorem expand_G_other x u : M <> 2%nat -> ~ (M = 1 /\ n = 1)%nat -> length x = (M * n)%nat -> length (G (blocks M n x) u p) = n ->
  expand_G G M x u p = Err AssertionError.
Proof using HM Hn.
  intros H2 H1 L LG. unfold expand_G, expand_F. rewrite (divisions_are_blocks M n) by (exact HM || exact L). rewrite skipn_length, L, LG.
  destruct (Nat.eqb_spec n (M * n - M * n / 2)) as [E|E]; [|reflexivity]. exfalso. revert E. now apply half_other.
Qed.
Theorem expand_G_one a u r : G [[a]] u p = [r] -> expand_G G 1 [a] u p = Ok [a; r].
Proof using. intros E. unfold expand_G, expand_F, get_x_divisions. cbn. rewrite E. reflexivity. Qed.
Theorem expand_G_casadi x u : length x = (M * n)%nat ->
  (expand_G_cas G M x u p = skipn n x ++ G (blocks M n x) u p <-> (M = 2 \/ (M = 3 /\ n = 1))%nat).
Proof using HM Hn.
  intros L. unfold expand_G_cas, expand_F_cas. rewrite (divisions_are_blocks M n) by (exact HM || exact L). rewrite L. rewrite <- half_eq by assumption. split.
  - intros E. apply app_inv_tail in E. apply (f_equal (@length R)) in E. rewrite !skipn_length, L in E.
    assert (n <= M * n)%nat by nia. assert (M * n / 2 <= M * n)%nat by (apply Nat.div_le_upper_bound; lia). lia.
  - intros ->. reflexivity.
Qed.
End G.

Section Layouts.
Context {P : Type}.

Theorem one_state (F : vec -> vec -> P -> out) n x u p r : length x = (2 * n)%nat ->
  (expand_F_1d F 2 x u p = Ok r <-> exists a, length a = n /\ layout_1d a (F x u p) /\ r = skipn n x ++ a).
Proof using.
  intros L. unfold expand_F_1d. rewrite L, half2, skipn_length, L. replace (2 * n - n)%nat with n by lia. split.
  - destruct (F x u p) as [s|a|m]; cbn [iterable].
    + destruct (Nat.eqb_spec (length [s]) n) as [E|E]; [|discriminate]. intros H. injection H as <-. exists [s].
      repeat split; [exact E|right; exists s; split; reflexivity].
    + destruct (Nat.eqb_spec (length a) n) as [E|E]; [|discriminate]. intros H. injection H as <-. exists a.
      repeat split; [exact E|left; reflexivity].
    + discriminate.
  - intros (a & La & [->|(s & -> & ->)] & ->); cbn [iterable].
    + rewrite La, Nat.eqb_refl. reflexivity.
    + rewrite La, Nat.eqb_refl. reflexivity.
Qed.
Theorem one_state_other (F : vec -> vec -> P -> out) M n x u p a : (0 < M)%nat -> M <> 2%nat -> (0 < n)%nat ->
  length x = (M * n)%nat -> length a = n -> layout_1d a (F x u p) -> expand_F_1d F M x u p = Err AssertionError.
Proof using.
  intros HM H2 Hn L La H. unfold expand_F_1d. rewrite L, div_dim, skipn_length, L by exact HM.
  assert (N : n <> (M * n - n)%nat) by (destruct M as [|[|[|k]]]; nia).
  destruct H as [->|(s & -> & ->)]; cbn [iterable]; rewrite La; (destruct (Nat.eqb_spec n (M * n - n)); [lia|reflexivity]).
Qed.

Lemma concat_column : forall l : vec, concat (map (fun r => [r]) l) = l.
Proof using. induction l as [|a l IH]; [reflexivity|]. cbn. now rewrite IH. Qed.
Lemma column_concat : forall (A : mat), Forall (fun r => length r = 1%nat) A -> map (fun r => [r]) (concat A) = A.
Proof using.
  induction A as [|r A IH]; intros H; [reflexivity|]. inversion H as [|? ? H1 H2]; subst.
  destruct r as [|a [|b r]]; try discriminate. cbn. now rewrite IH.
Qed.
Lemma column_length : forall (A : mat), Forall (fun r => length r = 1%nat) A -> length (concat A) = length A.
Proof using. intros A H. rewrite <- (column_concat A H) at 2. now rewrite map_length. Qed.
Lemma wide_check N n (A : mat) : wide N n A <-> ((length A =? N)%nat && forallb (fun r => (length r =? n)%nat) A)%bool = true.
Proof using.
  unfold wide. rewrite Bool.andb_true_iff, Nat.eqb_eq, forallb_forall, Forall_forall. split; intros [H1 H2]; split; auto;
    intros r Hr; specialize (H2 r Hr); now apply Nat.eqb_eq.
Qed.
Lemma fits N n A o : (0 < N)%nat -> (0 < n)%nat -> wide N n A -> layout_2d N n A o -> fit (iterable o) N n = A2 A.
Proof using.
  intros HN Hn [L W] [->|[[H ->]|(r & -> & ->)]]; [reflexivity| |].
  - cbn [iterable fit]. destruct (Nat.eq_dec n 1) as [->|N1].
    + rewrite column_length, L, Nat.eqb_refl by exact W. now rewrite column_concat.
    + destruct H as [->|]; [|contradiction]. destruct A as [|r [|]]; try discriminate L.
      cbn [concat]. rewrite app_nil_r. inversion W as [|? ? Hr _]; subst. destruct (Nat.eqb_spec (length r) 1); [lia|]. now rewrite Nat.eqb_refl.
  - cbn in L. cbn [iterable fit length]. rewrite L, Nat.eqb_refl. reflexivity.
Qed.
Lemma width_all x w : x <> [] -> Forall (fun r : vec => length r = w) x -> mwidth x = w.
Proof using. destruct x as [|r x]; [congruence|]. intros _ H. now inversion H. Qed.

Theorem states (F : mat -> mat -> P -> out) N n x u p r : (0 < N)%nat -> (0 < n)%nat -> wide N (2 * n) x ->
  (expand_F_2d F 2 x u p = Ok r <->
   exists A, wide N n A /\ layout_2d N n A (F x u p) /\ r = beside (map (skipn n) x) A).
Proof using.
  intros HN Hn [L W]. unfold expand_F_2d. rewrite map_length, L.
  rewrite (width_all x (2 * n)) by (exact W || (intros ->; cbn in L; lia)). rewrite half2. replace (2 * n - n)%nat with n by lia. split.
  - destruct (F x u p) as [s|a|m]; cbn [iterable fit].
    + destruct (Nat.eqb_spec (length [s]) N) as [E|E].
      * destruct (_ && _)%bool eqn:C; [|discriminate]. apply wide_check in C. intros H. injection H as <-.
        exists [[s]]. repeat split; [exact (proj1 C)|exact (proj2 C)|]. right. right. exists s. split; reflexivity.
      * destruct (Nat.eqb_spec (length [s]) n) as [E'|E']; [|discriminate].
        destruct (_ && _)%bool eqn:C; [|discriminate]. apply wide_check in C. destruct C as [C _]. cbn in C, E. lia.
    + destruct (Nat.eqb_spec (length a) N) as [E|E].
      * destruct (_ && _)%bool eqn:C; [|discriminate]. apply wide_check in C. intros H. injection H as <-.
        exists (map (fun r => [r]) a). split; [exact C|]. split; [|reflexivity]. right. left. split; [|now rewrite concat_column].
        right. destruct C as [C1 C2]. destruct a as [|b a]; [cbn in E; lia|]. apply Forall_inv in C2. cbn in C2. lia.
      * destruct (Nat.eqb_spec (length a) n) as [E'|E']; [|discriminate].
        destruct (_ && _)%bool eqn:C; [|discriminate]. apply wide_check in C. intros H. injection H as <-.
        exists [a]. split; [exact C|]. split; [|reflexivity]. right. left. split; [left; symmetry; exact (proj1 C)|cbn; now rewrite app_nil_r].
    + destruct (_ && _)%bool eqn:C; [|discriminate]. apply wide_check in C. intros H. injection H as <-.
      exists m. split; [exact C|]. split; [left; reflexivity|reflexivity].
  - intros (A & WA & LA & ->). rewrite (fits N n A) by assumption. apply wide_check in WA. rewrite WA. reflexivity.
Qed.
Theorem states_other (F : mat -> mat -> P -> out) M N n x u p A : (0 < M)%nat -> M <> 2%nat -> (0 < N)%nat -> (0 < n)%nat ->
  wide N (M * n) x -> wide N n A -> layout_2d N n A (F x u p) -> expand_F_2d F M x u p = Err AssertionError.
Proof using.
  intros HM H2 HN Hn [L W] [LA WA] H. unfold expand_F_2d. rewrite map_length, L.
  rewrite (width_all x (M * n)) by (exact W || (intros ->; cbn in L; lia)). rewrite div_dim by exact HM.
  assert (Ne : n <> (M * n - n)%nat) by (destruct M as [|[|[|k]]]; nia). set (w := (M * n - n)%nat) in *.
  assert (No : forall B, Forall (fun r : vec => length r = n) B -> (0 < length B)%nat ->
     ((length B =? N)%nat && forallb (fun r => (length r =? w)%nat) B)%bool = false).
  { intros [|r B] WB LB; [cbn in LB; lia|]. inversion WB as [|? ? Hr _]; subst. cbn [forallb]. destruct (Nat.eqb_spec (length r) w); [lia|]. now rewrite Bool.andb_false_r. }
  destruct H as [->|[[H ->]|(r & -> & ->)]]; cbn [iterable fit].
  - rewrite No by (exact WA || lia). reflexivity.
  - destruct (Nat.eq_dec n 1) as [->|N1].
    + rewrite column_length, LA, Nat.eqb_refl, column_concat by exact WA. rewrite No by (exact WA || lia). reflexivity.
    + destruct H as [->|]; [|contradiction]. destruct A as [|r [|]]; try discriminate LA. cbn [concat]. rewrite app_nil_r.
      inversion WA as [|? ? Hr _]; subst. destruct (Nat.eqb_spec (length r) 1); [lia|]. destruct (Nat.eqb_spec (length r) w); [lia|reflexivity].
  - specialize (No [[r]] WA ltac:(cbn; lia)). replace (length [r] =? N)%nat with true by (symmetry; apply Nat.eqb_eq; exact LA).
    cbn [map]. rewrite No. reflexivity.
Qed.
End Layouts.
