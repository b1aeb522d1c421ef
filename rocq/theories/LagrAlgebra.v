(** Matrices of numbers: what the reduction of constrained equations needs. *)
From Coquelicot Require Import Coquelicot.
From Verif Require Import Prelude PreludeFacts SymModel LagrModel LagrSpec LagrFacts LagrProofs.
Open Scope R_scope.

Definition tr (A : nat -> nat -> R) : nat -> nat -> R := fun i j => A j i.
Definition mm (k : nat) (A B : nat -> nat -> R) : nat -> nat -> R := fun i j => rsum k (fun l => A i l * B l j).

Lemma mv_ext k A A' u v i : (forall j, (j < k)%nat -> A i j = A' i j) -> (forall j, (j < k)%nat -> u j = v j) -> mv k A u i = mv k A' v i.
Proof. intros H1 H2. apply rsum_ext. intros j Hj. now rewrite H1, H2. Qed.
Lemma mv_plus k A u v i : mv k A (fun j => u j + v j) i = mv k A u i + mv k A v i.
Proof. unfold mv. rewrite <- rsum_plus. apply rsum_ext. intros; ring. Qed.
Lemma mv_minus k A u v i : mv k A (fun j => u j - v j) i = mv k A u i - mv k A v i.
Proof. unfold mv. rewrite <- rsum_minus. apply rsum_ext. intros; ring. Qed.
Lemma mv_opp k A u i : mv k A (fun j => - u j) i = - mv k A u i.
Proof.
  transitivity ((-1) * mv k A u i); [|ring]. unfold mv. rewrite <- rsum_scal. apply rsum_ext. intros; ring.
Qed.
Lemma mv_Mopp k A u i : mv k (fun i j => - A i j) u i = - mv k A u i.
Proof.
  transitivity ((-1) * mv k A u i); [|ring]. unfold mv. rewrite <- rsum_scal. apply rsum_ext. intros; ring.
Qed.
Lemma mv_Mplus k A B u i : mv k (fun i j => A i j + B i j) u i = mv k A u i + mv k B u i.
Proof. unfold mv. rewrite <- rsum_plus. apply rsum_ext. intros; ring. Qed.
Lemma mv_mm k l A B u i : mv k (mm l A B) u i = mv l A (mv k B u) i.
Proof.
  unfold mv, mm. 
  rewrite (rsum_ext k _ (fun j => rsum l (fun p => A i p * B p j * u j))) by (intros; rewrite rsum_scal_r; reflexivity).
  rewrite rsum_swap. apply rsum_ext. intros p _. rewrite <- rsum_scal. apply rsum_ext. intros; ring.
Qed.
Lemma tr_mm k A B i j : tr (mm k A B) i j = mm k (tr B) (tr A) i j.
Proof. unfold tr, mm. apply rsum_ext. intros; ring. Qed.
Lemma mv_id k A u i : (i < k)%nat -> (forall j, (j < k)%nat -> A i j = delta i j) -> mv k A u i = u i.
Proof.
  intros Hi H. unfold mv. rewrite (rsum_ext k _ (fun j => (if (j =? i)%nat then 1 else 0) * u j)).
  - apply rsum_pick'; auto.
  - intros j Hj. rewrite H by auto. unfold delta. rewrite Nat.eqb_sym. reflexivity.
Qed.
Lemma mv_inv_r k A N u i : inverse k A N -> (i < k)%nat -> mv k A (mv k N u) i = u i.
Proof. intros [H _] Hi. rewrite <- mv_mm. apply mv_id; auto. intros; apply H; auto. Qed.
Lemma mv_inv_l k A N u i : inverse k A N -> (i < k)%nat -> mv k N (mv k A u) i = u i.
Proof. intros [_ H] Hi. rewrite <- mv_mm. apply mv_id; auto. intros; apply H; auto. Qed.
Lemma delta_sym i j : delta i j = delta j i.
Proof. unfold delta. now rewrite Nat.eqb_sym. Qed.
Lemma inverse_tr k A N : inverse k A N -> inverse k (tr A) (tr N).
Proof.
  intros [H1 H2]. split; intros i j Hi Hj; rewrite (delta_sym i j).
  - rewrite <- (H2 j i) by auto. apply rsum_ext. intros; unfold tr; ring.
  - rewrite <- (H1 j i) by auto. apply rsum_ext. intros; unfold tr; ring.
Qed.
Lemma inverse_sym k A N : inverse k A N -> inverse k N A.
Proof. intros [H1 H2]. split; auto. Qed.
Lemma inverse_unique k A N N' : inverse k A N -> inverse k A N' -> forall i j, (i < k)%nat -> (j < k)%nat -> N i j = N' i j.
Proof.
  intros H1 H2 i j Hi Hj.
  assert (E : mv k N (mv k A (fun l => N' l j)) i = N' i j) by (apply (mv_inv_l k A N (fun l => N' l j)); auto).
  rewrite <- E. unfold mv. rewrite (rsum_ext k _ (fun l => (if (l =? j)%nat then 1 else 0) * N i l)).
  - symmetry. apply rsum_pick'; auto.
  - intros l Hl. replace (rsum k (fun j0 => A l j0 * N' j0 j)) with (delta l j); [unfold delta; ring|].
    symmetry. apply (proj1 H2 l j Hl Hj).
Qed.

(** ** The reduction *)
Section Core.
Variables (a m : nat) (M phi phid P Rd : nat -> nat -> R) (Q qd : nat -> R).
Notation n := (a + m)%nat.
Let de : nat -> nat -> R := fun i j => phi i (a + j)%nat.
Let Rm : nat -> nat -> R := fun i j => - mm m P phi i j.
Let Mde : nat -> nat -> R := fun i j => M (a + i)%nat (a + j)%nat.
Let Mcon : nat -> nat -> R := fun i j => M i (a + j)%nat.
Let Hm : nat -> nat -> R := fun i j => M i j + mm m Mcon Rm i j + mm m Mcon Rm j i + mm m (mm m (tr Rm) Mde) Rm i j.
Let Km : nat -> nat -> R := fun i j => mm m (mm m (tr Rm) Mde) Rd i j + mm m Mcon Rd i j.
Let Fa : nat -> R := fun i => Q i + mv m (tr Rm) (fun k => Q (a + k)%nat) i.
Hypothesis sym : forall i j, (i < a)%nat -> (j < m)%nat -> M (a + j)%nat i = M i (a + j)%nat.
Hypothesis HP : inverse m de P.
Hypothesis HRd : forall k j, (k < m)%nat -> (j < a)%nat ->
  phid k j + mm m (fun k l => phid k (a + l)%nat) Rm k j + mm m de Rd k j = 0.
Hypothesis vel : forall k, (k < m)%nat -> qd (a + k)%nat = mv a Rm qd k.

Lemma split_mv A u i : mv n A u i = mv a A u i + mv m (fun i j => A i (a + j)%nat) (fun j => u (a + j)%nat) i.
Proof. unfold mv. apply rsum_split. Qed.

Lemma de_R u k : (k < m)%nat -> mv m de (mv a Rm u) k = - mv a phi u k.
Proof.
  intros Hk. rewrite (mv_ext m de de _ (fun l => - mv m P (mv a phi u) l) k); auto.
  - rewrite mv_opp, mv_inv_r; auto.
  - intros l Hl. unfold Rm. rewrite mv_Mopp, mv_mm. reflexivity.
Qed.
Lemma phid_split u k : (k < m)%nat ->
  mv a phid u k + mv m (fun k l => phid k (a + l)%nat) (mv a Rm u) k + mv m de (mv a Rd u) k = 0.
Proof.
  intros Hk. rewrite <- !mv_mm, <- !mv_Mplus. unfold mv. apply rsum_zero. intros j Hj. rewrite HRd by auto. ring.
Qed.
(** Accelerations with the constraints: the dependent ones. *)
Lemma constraint_acc u :
  (forall k, (k < m)%nat -> mv n phi u k + mv n phid qd k = 0) <->
  (forall k, (k < m)%nat -> u (a + k)%nat = mv a Rd qd k + mv a Rm u k).
Proof.
  assert (V : forall k, (k < m)%nat -> mv n phid qd k = - mv m de (mv a Rd qd) k).
  { intros k Hk. rewrite split_mv. rewrite (mv_ext m _ (fun k l => phid k (a + l)%nat) _ (mv a Rm qd) k); auto.
    pose proof (phid_split qd k Hk). lra. }
  assert (W : forall k, (k < m)%nat -> mv n phi u k = mv m de (fun l => u (a + l)%nat - mv a Rm u l) k).
  { intros k Hk. rewrite split_mv, mv_minus, de_R by auto. unfold de. ring. }
  split; intros H k Hk.
  - assert (E : mv m P (mv m de (fun l => u (a + l)%nat - mv a Rm u l - mv a Rd qd l)) k = 0).
    { unfold mv at 1. apply rsum_zero. intros l Hl. rewrite mv_minus.
      specialize (H l Hl). rewrite V, W in H by auto.
      change (fun j => mv a Rd qd j) with (mv a Rd qd).
      replace (mv m de (fun l0 => u (a + l0)%nat - mv a Rm u l0) l - mv m de (mv a Rd qd) l) with 0 by lra. ring. }
    rewrite mv_inv_l in E by auto. lra.
  - rewrite V, W by auto. rewrite (mv_ext m de de _ (mv a Rd qd) k); auto; [lra|].
    intros l Hl. rewrite H by auto. ring.
Qed.
Definition w (u : nat -> R) (i : nat) : R :=
  Q (a + i)%nat - mv a (tr Mcon) u i - mv m Mde (fun l => u (a + l)%nat) i.
Lemma H_K u i : (i < a)%nat -> (forall k, (k < m)%nat -> u (a + k)%nat = mv a Rd qd k + mv a Rm u k) ->
  mv a Hm u i + mv a Km qd i =
  mv a M u i + mv m Mcon (fun l => u (a + l)%nat) i + mv m (tr Rm) (fun k => mv a (tr Mcon) u k + mv m Mde (fun l => u (a + l)%nat) k) i.
Proof.
  intros Hi Hu.
  assert (E1 : mv a Hm u i = mv a M u i + mv m Mcon (mv a Rm u) i + mv m (tr Rm) (mv a (tr Mcon) u) i + mv m (tr Rm) (mv m Mde (mv a Rm u)) i).
  { unfold Hm. rewrite !mv_Mplus. rewrite (mv_mm a m Mcon Rm), (mv_mm a m _ Rm), (mv_mm m m (tr Rm) Mde).
    f_equal. f_equal. rewrite <- mv_mm. apply rsum_ext. intros j _. f_equal. apply (tr_mm m Mcon Rm i j). }
  assert (E2 : mv a Km qd i = mv m (tr Rm) (mv m Mde (mv a Rd qd)) i + mv m Mcon (mv a Rd qd) i).
  { unfold Km. rewrite mv_Mplus, !mv_mm. reflexivity. }
  rewrite E1, E2. rewrite mv_plus.
  rewrite (mv_ext m Mcon Mcon (fun l => u (a + l)%nat) (fun l => mv a Rd qd l + mv a Rm u l) i); auto.
  rewrite (mv_ext m (tr Rm) (tr Rm) (mv m Mde (fun l => u (a + l)%nat)) (fun k => mv m Mde (mv a Rd qd) k + mv m Mde (mv a Rm u) k) i); auto.
  - rewrite !mv_plus.
    change (fun j => mv a Rd qd j) with (mv a Rd qd). change (fun j => mv a Rm u j) with (mv a Rm u).
    change (fun j => mv m Mde (mv a Rd qd) j) with (mv m Mde (mv a Rd qd)).
    change (fun j => mv m Mde (mv a Rm u) j) with (mv m Mde (mv a Rm u)).
    change (fun j => mv a (tr Mcon) u j) with (mv a (tr Mcon) u). ring.
  - intros k Hk. rewrite <- mv_plus. apply mv_ext; auto.
Qed.
Lemma phi_T l : forall i, (i < a)%nat -> mv m (tr phi) l i = - mv m (tr Rm) (mv m (tr de) l) i.
Proof.
  intros i Hi. rewrite <- mv_mm. rewrite <- mv_Mopp. apply mv_ext; auto. intros k Hk.
  unfold mm, tr, Rm. 
  transitivity (mv m de (mv a Rm (fun j => if (j =? i)%nat then 1 else 0)) k * -1).
  - rewrite de_R by auto. unfold mv. rewrite (rsum_ext a _ (fun j => (if (j =? i)%nat then 1 else 0) * phi k j)) by (intros; ring).
    rewrite rsum_pick' by auto. ring.
  - replace (- rsum m (fun l0 => - mm m P phi l0 i * de k l0)) with (-1 * rsum m (fun l0 => - mm m P phi l0 i * de k l0)) by ring.
    rewrite Rmult_comm. f_equal. unfold mv at 1. apply rsum_ext. intros p Hp. rewrite (Rmult_comm (- _)). f_equal.
    unfold mv. rewrite (rsum_ext a _ (fun j => (if (j =? i)%nat then 1 else 0) * Rm p j)) by (intros; ring).
    rewrite rsum_pick' by auto. reflexivity.
Qed.
(** Forces and multipliers, for accelerations that keep the constraints. *)
Lemma multipliers u l : (forall k, (k < m)%nat -> u (a + k)%nat = mv a Rd qd k + mv a Rm u k) ->
  ((forall i, (i < n)%nat -> mv n M u i + mv m (tr phi) l i = Q i) <->
   (forall i, (i < a)%nat -> mv a Hm u i + mv a Km qd i = Fa i) /\ (forall k, (k < m)%nat -> l k = mv m (tr P) (w u) k)).
Proof.
  intros Hu.
  assert (T : inverse m (tr de) (tr P)) by (apply inverse_tr; auto).
  assert (B : forall k, (k < m)%nat -> mv n M u (a + k) = Q (a + k)%nat - w u k).
  { intros k Hk. rewrite split_mv. unfold w. 
    rewrite (mv_ext a (tr Mcon) (fun i j => M (a + i)%nat j) u u k); auto.
    - unfold Mde. change (mv a (fun i j => M (a + i)%nat j) u k) with (mv a M u (a + k)).
      change (mv m (fun i j => M (a + i)%nat (a + j)%nat) (fun l0 => u (a + l0)%nat) k) with (mv m (fun i j => M i (a + j)%nat) (fun j => u (a + j)%nat) (a + k)).
      ring.
    - intros j Hj. unfold tr, Mcon. symmetry. apply sym; auto. }
  assert (C : forall k, mv m (tr phi) l (a + k) = mv m (tr de) l k) by reflexivity.
  assert (D : forall i, (i < a)%nat -> mv a Hm u i + mv a Km qd i - Fa i =
     mv a M u i + mv m Mcon (fun l => u (a + l)%nat) i - mv m (tr Rm) (w u) i - Q i).
  { intros i Hi. rewrite H_K by auto. unfold Fa, w.
    rewrite (mv_ext m (tr Rm) (tr Rm) (fun k => Q (a + k)%nat - mv a (tr Mcon) u k - mv m Mde (fun l0 => u (a + l0)%nat) k)
        (fun k => Q (a + k)%nat - (mv a (tr Mcon) u k + mv m Mde (fun l0 => u (a + l0)%nat) k)) i) by (auto; intros; ring).
    rewrite mv_minus. ring. }
  split.
  - intros E.
    assert (L : forall k, (k < m)%nat -> mv m (tr de) l k = w u k).
    { intros k Hk. specialize (E (a + k)%nat ltac:(lia)). rewrite C, B in E by auto. lra. }
    split.
    + intros i Hi. specialize (E i ltac:(lia)). rewrite split_mv, phi_T in E by auto.
      rewrite (mv_ext m (tr Rm) (tr Rm) (mv m (tr de) l) (w u) i) in E; auto.
      specialize (D i Hi). unfold Mcon in D. change (fun i j => M i (a + j)%nat) with Mcon in E. fold Mcon in D. lra.
    + intros k Hk. rewrite (mv_ext m (tr P) (tr P) (w u) (mv m (tr de) l) k); auto.
      * symmetry. apply mv_inv_l; auto.
      * intros j Hj. symmetry. auto.
  - intros [E L] i Hi.
    assert (L' : forall k, (k < m)%nat -> mv m (tr de) l k = w u k).
    { intros k Hk. rewrite (mv_ext m (tr de) (tr de) l (mv m (tr P) (w u)) k); auto. apply mv_inv_r; auto. }
    destruct (le_lt_dec a i) as [Ha | Ha].
    + replace i with (a + (i - a))%nat by lia. rewrite C, B, L' by lia. ring.
    + rewrite split_mv, phi_T by auto.
      rewrite (mv_ext m (tr Rm) (tr Rm) (mv m (tr de) l) (w u) i); auto.
      specialize (D i Ha). specialize (E i Ha). change (fun i j => M i (a + j)%nat) with Mcon. lra.
Qed.
(** Altogether. *)
Section Solution.
Variable Hi : nat -> nat -> R.
Hypothesis HH : inverse a Hm Hi.
Let s_in : nat -> R := fun i => mv a Hi (fun j => Fa j - mv a Km qd j) i.
Let s_all : nat -> R := fun i => if (i <? a)%nat then s_in i else mv a Rd qd (i - a) + mv a Rm s_in (i - a).
Lemma w_ext u v i : (forall j, (j < n)%nat -> u j = v j) -> w u i = w v i.
Proof.
  intros H. unfold w. f_equal; [f_equal|]; apply mv_ext; auto; intros j Hj; apply H; lia.
Qed.
Lemma reduction_solves u l :
  ((forall k, (k < m)%nat -> mv n phi u k + mv n phid qd k = 0) /\ (forall i, (i < n)%nat -> mv n M u i + mv m (tr phi) l i = Q i)) <->
  ((forall i, (i < n)%nat -> u i = s_all i) /\ (forall k, (k < m)%nat -> l k = mv m (tr P) (w s_all) k)).
Proof.
  assert (X : forall v, (forall i, (i < n)%nat -> v i = s_all i) <->
     (forall k, (k < m)%nat -> v (a + k)%nat = mv a Rd qd k + mv a Rm v k) /\ (forall i, (i < a)%nat -> mv a Hm v i + mv a Km qd i = Fa i)).
  { intros v. split.
    - intros E.
      assert (E1 : forall i, (i < a)%nat -> v i = s_in i).
      { intros i H. rewrite E by lia. unfold s_all. destruct (Nat.ltb_spec i a); [reflexivity|lia]. }
      split.
      + intros k Hk. rewrite E by lia. unfold s_all. destruct (Nat.ltb_spec (a + k) a); [lia|].
        replace (a + k - a)%nat with k by lia. f_equal. apply mv_ext; auto. intros; symmetry; auto.
      + intros i H. rewrite (mv_ext a Hm Hm v s_in i); auto. unfold s_in.
        change (fun i => mv a Hi (fun j => Fa j - mv a Km qd j) i) with (mv a Hi (fun j => Fa j - mv a Km qd j)).
        rewrite (mv_inv_r a Hm Hi) by auto. ring.
    - intros [E1 E2].
      assert (E3 : forall i, (i < a)%nat -> v i = s_in i).
      { intros i H. unfold s_in. rewrite (mv_ext a Hi Hi _ (mv a Hm v) i); auto.
        - symmetry. apply mv_inv_l; auto.
        - intros j Hj. rewrite <- E2 by auto. ring. }
      intros i H. unfold s_all. destruct (Nat.ltb_spec i a); auto.
      replace i with (a + (i - a))%nat at 1 by lia. rewrite E1 by lia. f_equal. apply mv_ext; auto. }
  rewrite constraint_acc. split.
  - intros [E1 E2]. apply multipliers in E2; auto. destruct E2 as [E2 E3].
    assert (E : forall i, (i < n)%nat -> u i = s_all i) by (apply X; auto).
    split; auto. intros k Hk. rewrite E3 by auto. apply mv_ext; auto. intros j Hj. apply w_ext; auto.
  - intros [E1 E2]. destruct (proj1 (X u) E1) as [E3 E4]. split; auto. apply multipliers; auto. split; auto.
    intros k Hk. rewrite E2 by auto. apply mv_ext; auto. intros j Hj. apply w_ext. intros; symmetry; auto.
Qed.
End Solution.
End Core.

(** ** Positive definite matrices have inverses *)
Lemma posdef_right n A : posdef n A -> exists N, forall v i, (i < n)%nat -> mv n A (mv n N v) i = v i.
Proof.
  induction n; intros H.
  { exists A. intros; lia. }
  destruct IHn as [Bi HB].
  { intros x (i & Hi & Hx). set (y := fun j => if (j <? n)%nat then x j else 0).
    assert (Y : forall j, (j < n)%nat -> y j = x j) by (intros j Hj; unfold y; destruct (Nat.ltb_spec j n); [reflexivity|lia]).
    assert (Yn : y n = 0) by (unfold y; rewrite Nat.ltb_irrefl; reflexivity).
    specialize (H y ltac:(exists i; split; [lia | rewrite Y by auto; auto])).
    cbn [rsum] in H. rewrite Yn in H.
    rewrite (rsum_ext n _ (fun i => x i * mv n A x i)) in H; [lra|].
    intros j Hj. rewrite Y by auto. f_equal. unfold mv. cbn [rsum]. rewrite Yn.
    rewrite (rsum_ext n _ (fun l => A j l * x l)) by (intros; rewrite Y; auto). ring. }
  set (b := fun i => A i n). set (c := fun j => A n j).
  set (bb := mv n Bi b). set (cb := fun j => rsum n (fun l => c l * Bi l j)).
  set (s := A n n - rsum n (fun l => c l * bb l)).
  assert (Hs : 0 < s).
  { set (x := fun j => if (j <? n)%nat then - bb j else 1).
    assert (X : forall j, (j < n)%nat -> x j = - bb j) by (intros j Hj; unfold x; destruct (Nat.ltb_spec j n); [reflexivity|lia]).
    assert (Xn : x n = 1) by (unfold x; rewrite Nat.ltb_irrefl; reflexivity).
    specialize (H x ltac:(exists n; split; [lia | rewrite Xn; lra])).
    cbn [rsum] in H. rewrite Xn in H.
    assert (AX : forall i, mv (S n) A x i = A i n - mv n A bb i).
    { intros i. unfold mv. cbn [rsum]. rewrite Xn. rewrite (rsum_ext n _ (fun l => -1 * (A i l * bb l))) by (intros; rewrite X; auto; ring).
      rewrite rsum_scal. ring. }
    rewrite rsum_zero in H.
    - rewrite AX in H. unfold s. unfold mv in H. fold c in H. unfold c. lra.
    - intros i Hi. rewrite AX. unfold bb. rewrite HB by auto. unfold b. ring. }
  exists (fun i j => if (i <? n)%nat then if (j <? n)%nat then Bi i j + bb i * cb j / s else - bb i / s
                     else if (j <? n)%nat then - cb j / s else 1 / s).
  intros v. set (N := fun i j : nat => _).
  set (xn := (v n - rsum n (fun j => cb j * v j)) / s).
  assert (Nv : forall i, (i < n)%nat -> mv (S n) N v i = mv n Bi v i - bb i * xn).
  { intros i Hi. unfold mv, N. cbn [rsum]. rewrite Nat.ltb_irrefl. destruct (Nat.ltb_spec i n); [|lia].
    rewrite (rsum_ext n _ (fun j => Bi i j * v j + bb i / s * (cb j * v j))).
    - rewrite rsum_plus, rsum_scal. unfold xn. field. lra.
    - intros j Hj. destruct (Nat.ltb_spec j n); [|lia]. field. lra. }
  assert (Nn : mv (S n) N v n = xn).
  { unfold mv, N. cbn [rsum]. rewrite Nat.ltb_irrefl.
    rewrite (rsum_ext n _ (fun j => - / s * (cb j * v j))).
    - rewrite rsum_scal. unfold xn. field. lra.
    - intros j Hj. destruct (Nat.ltb_spec j n); [|lia]. field. lra. }
  assert (AN : forall i, mv (S n) A (mv (S n) N v) i = mv n A (mv n Bi v) i - mv n A bb i * xn + A i n * xn).
  { intros i. unfold mv at 1. cbn [rsum]. rewrite Nn. f_equal.
    rewrite (rsum_ext n _ (fun j => A i j * mv n Bi v j - A i j * bb j * xn)) by (intros; rewrite Nv; auto; ring).
    rewrite rsum_minus, rsum_scal_r. reflexivity. }
  intros i Hi. rewrite AN. destruct (Nat.eq_dec i n) as [->|Hn].
  - replace (mv n A (mv n Bi v) n) with (rsum n (fun j => cb j * v j)).
    + unfold mv. fold c. replace (rsum n (fun j => A n j * bb j)) with (A n n - s) by (unfold s, c; ring).
      unfold xn. field. lra.
    + rewrite <- (mv_mm n n A Bi). reflexivity.
  - rewrite HB by lia. unfold bb. rewrite HB by lia. unfold b. ring.
Qed.
Lemma posdef_inverse n A : posdef n A -> exists N, inverse n A N.
Proof.
  intros H. destruct (posdef_right n A H) as [N HN]. exists N.
  assert (R1 : forall i j, (i < n)%nat -> (j < n)%nat -> rsum n (fun l => A i l * N l j) = delta i j).
  { intros i j Hi Hj. pose proof (HN (fun k => delta k j) i Hi) as E. rewrite <- E. unfold mv.
    apply rsum_ext. intros l _. f_equal. symmetry.
    rewrite (rsum_ext n _ (fun k => (if (k =? j)%nat then 1 else 0) * N l k)) by (intros; unfold delta; ring).
    apply rsum_pick'; auto. }
  split; auto.
  intros i j Hi Hj.
  (* A (N A e_j - e_j) = 0 *)
  set (x := fun k => mv n N (fun l => A l j) k - delta k j).
  assert (Ax : forall k, (k < n)%nat -> mv n A x k = 0).
  { intros k Hk. unfold x. rewrite mv_minus. change (fun k => mv n N (fun l => A l j) k) with (mv n N (fun l => A l j)).
    rewrite HN by auto. unfold mv.
    rewrite (rsum_ext n _ (fun l => (if (l =? j)%nat then 1 else 0) * A k l)) by (intros; unfold delta; ring).
    rewrite rsum_pick' by auto. ring. }
  destruct (Req_dec (x i) 0) as [E|E].
  - unfold x in E. unfold mv in E. lra.
  - exfalso. assert (Z := H x ltac:(exists i; auto)). rewrite rsum_zero in Z; [lra|].
    intros k Hk. rewrite Ax by auto. ring.
Qed.
(** The reduced mass matrix is positive definite if the mass matrix is. *)
Lemma dual k l A (u v : nat -> R) : rsum k (fun i => u i * mv l (tr A) v i) = rsum l (fun j => mv k A u j * v j).
Proof.
  unfold mv, tr. rewrite (rsum_ext k _ (fun i => rsum l (fun j => u i * (A j i * v j)))) by (intros; rewrite rsum_scal; reflexivity).
  rewrite rsum_swap. apply rsum_ext. intros j _. rewrite <- rsum_scal_r. apply rsum_ext. intros; ring.
Qed.
Lemma reduced_posdef a m M (Rm : nat -> nat -> R) :
  (forall i j, (i < a)%nat -> (j < m)%nat -> M (a + j)%nat i = M i (a + j)%nat) -> posdef (a + m) M ->
  posdef a (fun i j => M i j + mm m (fun i j => M i (a + j)%nat) Rm i j + mm m (fun i j => M i (a + j)%nat) Rm j i +
                       mm m (mm m (tr Rm) (fun i j => M (a + i)%nat (a + j)%nat)) Rm i j).
Proof.
  intros sym Hp x (i0 & Hi0 & Hx).
  set (u := fun j => if (j <? a)%nat then x j else mv a Rm x (j - a)).
  assert (U1 : forall j, (j < a)%nat -> u j = x j) by (intros j Hj; unfold u; destruct (Nat.ltb_spec j a); [reflexivity|lia]).
  assert (U2 : forall j, u (a + j)%nat = mv a Rm x j).
  { intros j. unfold u. destruct (Nat.ltb_spec (a + j) a); [lia|]. f_equal. lia. }
  specialize (Hp u ltac:(exists i0; split; [lia | rewrite U1 by auto; auto])).
  set (Mcon := fun i j => M i (a + j)%nat) in *. set (Mde := fun i j => M (a + i)%nat (a + j)%nat) in *.
  rewrite rsum_split in Hp.
  rewrite (rsum_ext a _ (fun i => x i * (mv a M x i + mv m Mcon (mv a Rm x) i))) in Hp.
  2:{ intros i Hi. rewrite U1 by auto. f_equal. rewrite split_mv. f_equal; apply mv_ext; auto. }
  rewrite (rsum_ext m _ (fun k => mv a Rm x k * (mv a (tr Mcon) x k + mv m Mde (mv a Rm x) k))) in Hp.
  2:{ intros k Hk. rewrite U2. f_equal. rewrite split_mv. f_equal.
      - unfold mv. apply rsum_ext. intros j Hj. rewrite U1 by auto. unfold tr, Mcon. rewrite sym by auto. reflexivity.
      - unfold mv at 1 2. apply rsum_ext. intros j Hj. rewrite U2. reflexivity. }
  rewrite <- (dual a m Rm x) in Hp. rewrite <- rsum_plus in Hp.
  rewrite (rsum_ext a _ (fun i => x i * (mv a M x i + mv m Mcon (mv a Rm x) i) +
     x i * mv m (tr Rm) (fun j => mv a (tr Mcon) x j + mv m Mde (mv a Rm x) j) i)); auto.
  intros i Hi. rewrite <- Rmult_plus_distr_l. f_equal. rewrite !mv_Mplus.
  rewrite (mv_mm a m Mcon Rm), (mv_mm a m _ Rm), (mv_mm m m (tr Rm) Mde), mv_plus.
  rewrite (mv_ext a (fun i j => mm m Mcon Rm j i) (mm m (tr Rm) (tr Mcon)) x x i); auto.
  - rewrite mv_mm. change (fun j => mv a (tr Mcon) x j) with (mv a (tr Mcon) x).
    change (fun j => mv m Mde (mv a Rm x) j) with (mv m Mde (mv a Rm x)). ring.
  - intros j _. apply (tr_mm m Mcon Rm i j).
Qed.
