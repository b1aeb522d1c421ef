(** Facts on polynomial interpolation: Lagrange basis, barycentric formula,
    differentiation matrix, all for an arbitrary list of distinct points.
    Nothing here mentions the program. *)
From Coq Require Import Reals List Lia Lra Arith.
From Verif Require Import Prelude PreludeFacts Poly PolyFacts.
Import ListNotations.
Local Open Scope R_scope.

(** [c] is the interpolating polynomial of the data [(ts_i, ys_i)]: it has at
    most as many coefficients as there are points, and passes through them. *)
Definition interpolates (ts ys c : list R) : Prop :=
  (length c <= length ts)%nat /\
  forall i, (i < length ts)%nat -> peval c (vnth ts i) = vnth ys i.

(** The points of a list grow strictly. *)
Definition increasing (ts : list R) : Prop :=
  forall i j, (i < j < length ts)%nat -> vnth ts i < vnth ts j.

Lemma increasing_NoDup ts : increasing ts -> NoDup ts.
Proof.
  intros H. apply (proj2 (NoDup_nth ts 0)). intros i j Hi Hj E.
  destruct (Nat.lt_total i j) as [L|[L|L]]; [|exact L|];
    [assert (K := H i j)|assert (K := H j i)]; unfold vnth in K; specialize (K ltac:(lia)); lra.
Qed.

Lemma NoDup_vnth ts i j : NoDup ts -> (i < length ts)%nat -> (j < length ts)%nat ->
  vnth ts i = vnth ts j -> i = j.
Proof. intros N Hi Hj E. exact (proj1 (NoDup_nth ts 0) N i j Hi Hj E). Qed.

Lemma pop_at_length {A} i (l : list A) : (i < length l)%nat -> length (pop_at i l) = (length l - 1)%nat.
Proof. intros H. unfold pop_at. rewrite app_length, firstn_length, skipn_length. lia. Qed.

Lemma nth_pop_at {A} i (l : list A) j d : (i < length l)%nat ->
  nth j (pop_at i l) d = nth (if j <? i then j else S j) l d.
Proof.
  intros H. unfold pop_at. rewrite nth_app', firstn_length, Nat.min_l by lia.
  destruct (Nat.ltb_spec j i) as [K|K].
  - rewrite nth_firstn. destruct (Nat.ltb_spec j i); [reflexivity|lia].
  - rewrite nth_skipn'. f_equal. lia.
Qed.

Lemma in_pop_at i ts x : (i < length ts)%nat ->
  In x (pop_at i ts) <-> exists j, (j < length ts)%nat /\ j <> i /\ vnth ts j = x.
Proof.
  intros H. split.
  - intros I. destruct (In_nth _ _ 0 I) as (k & Hk & E).
    rewrite pop_at_length in Hk by exact H. rewrite nth_pop_at in E by exact H.
    exists (if k <? i then k else S k). destruct (Nat.ltb_spec k i); unfold vnth; repeat split; try lia; exact E.
  - intros (j & Hj & Hn & E). subst x.
    assert (K : nth (if j <? i then j else j - 1) (pop_at i ts) 0 = vnth ts j).
    { rewrite nth_pop_at by exact H. unfold vnth. f_equal.
      destruct (Nat.ltb_spec j i).
      - destruct (Nat.ltb_spec j i); lia.
      - destruct (Nat.ltb_spec (j - 1) i); lia. }
    rewrite <- K. apply nth_In. rewrite pop_at_length by exact H.
    destruct (Nat.ltb_spec j i); lia.
Qed.

Lemma peval_pfromroots_root rs r : In r rs -> peval (pfromroots rs) r = 0.
Proof.
  rewrite peval_pfromroots. induction rs as [|a rs IH]; simpl; [easy|].
  intros [<-|I]; [|rewrite (IH I)]; ring.
Qed.
Lemma peval_pfromroots_neq0 rs x : ~ In x rs -> peval (pfromroots rs) x <> 0.
Proof.
  rewrite peval_pfromroots. induction rs as [|a rs IH]; simpl; [intros _; lra|].
  intros H. apply Rmult_integral_contrapositive_currified.
  - intros E. apply H. left. lra.
  - apply IH. tauto.
Qed.
Lemma peval_pfromroots_app a b x :
  peval (pfromroots (a ++ b)) x = peval (pfromroots a) x * peval (pfromroots b) x.
Proof. rewrite !peval_pfromroots. induction a; simpl; [ring|]. rewrite IHa. ring. Qed.

Lemma split_nth {A} (l : list A) i d : (i < length l)%nat ->
  firstn i l ++ nth i l d :: skipn (S i) l = l.
Proof.
  revert i. induction l as [|a l IH]; intros i H; simpl in H; [lia|].
  destruct i; simpl; [reflexivity|]. f_equal. apply IH. lia.
Qed.

(** The node polynomial without its [i]-th factor. *)
Definition nodal (ts : list R) (i : nat) : list R := pfromroots (pop_at i ts).

Lemma nodal_full ts i x : (i < length ts)%nat ->
  (x - vnth ts i) * peval (nodal ts i) x = peval (pfromroots ts) x.
Proof.
  intros H. unfold nodal, pop_at. rewrite peval_pfromroots_app.
  rewrite <- (split_nth ts i 0 H) at 4. rewrite peval_pfromroots_app.
  rewrite (peval_pfromroots (nth i ts 0 :: _)).
  change (fold_right ?f ?z (?a :: ?l)) with (f a (fold_right f z l)). cbv beta.
  rewrite <- peval_pfromroots. unfold vnth. ring.
Qed.

Lemma nodal_self_neq0 ts i : NoDup ts -> (i < length ts)%nat -> peval (nodal ts i) (vnth ts i) <> 0.
Proof.
  intros N H. apply peval_pfromroots_neq0. rewrite in_pop_at by exact H.
  intros (j & Hj & Hn & E). apply Hn. now apply (NoDup_vnth ts).
Qed.
Lemma nodal_other ts i j : (i < length ts)%nat -> (j < length ts)%nat -> j <> i ->
  peval (nodal ts i) (vnth ts j) = 0.
Proof.
  intros Hi Hj Hn. apply peval_pfromroots_root. rewrite in_pop_at by exact Hi. now exists j.
Qed.
Lemma nodal_length ts i : (i < length ts)%nat -> length (nodal ts i) = length ts.
Proof. intros H. unfold nodal. rewrite pfromroots_length, pop_at_length by exact H. lia. Qed.

(** Barycentric weight and Lagrange basis polynomial. *)
Definition bweight (ts : list R) (i : nat) : R := / peval (nodal ts i) (vnth ts i).
Definition lagr (ts : list R) (i : nat) : list R := pscale (bweight ts i) (nodal ts i).

Lemma bweight_neq0 ts i : NoDup ts -> (i < length ts)%nat -> bweight ts i <> 0.
Proof. intros N H. apply Rinv_neq_0_compat. now apply nodal_self_neq0. Qed.

Lemma lagr_length ts i : (i < length ts)%nat -> length (lagr ts i) = length ts.
Proof. intros H. unfold lagr. now rewrite pscale_length, nodal_length. Qed.

Lemma lagr_at ts i j : NoDup ts -> (i < length ts)%nat -> (j < length ts)%nat ->
  peval (lagr ts i) (vnth ts j) = if i =? j then 1 else 0.
Proof.
  intros N Hi Hj. unfold lagr. rewrite peval_pscale.
  destruct (Nat.eqb_spec i j) as [<-|E].
  - unfold bweight. apply Rinv_l. now apply nodal_self_neq0.
  - rewrite nodal_other by (auto; lia). ring.
Qed.

(** The Lagrange form of the interpolating polynomial. *)
Definition lagr_interp (ts ys : list R) : list R := plin (length ts) (vnth ys) (lagr ts).

Lemma lagr_interp_ok ts ys : NoDup ts -> interpolates ts ys (lagr_interp ts ys).
Proof.
  intros N. split.
  - apply plin_length. intros i Hi. rewrite lagr_length by exact Hi. lia.
  - intros i Hi. unfold lagr_interp. rewrite peval_plin.
    rewrite (rsum_ext _ _ (fun k => if k =? i then vnth ys k else 0)).
    + now rewrite rsum_delta.
    + intros k Hk. rewrite lagr_at by auto. destruct (k =? i); ring.
Qed.

Lemma interpolates_unique ts ys c d : NoDup ts -> interpolates ts ys c -> interpolates ts ys d ->
  forall x, peval c x = peval d x.
Proof.
  intros N [Lc Hc] [Ld Hd]. apply (poly_unique ts); auto.
  intros r I. destruct (In_nth _ _ 0 I) as (k & Hk & <-).
  change (nth k ts 0) with (vnth ts k). now rewrite Hc, Hd.
Qed.

(** Every polynomial of low enough degree is the interpolating polynomial of
    its own values. *)
Lemma interpolates_self ts c : (length c <= length ts)%nat -> interpolates ts (map (peval c) ts) c.
Proof.
  intros L. split; [exact L|]. intros i Hi. unfold vnth.
  now rewrite (nth_map' _ _ _ 0).
Qed.

Lemma interp_lagr ts ys c : NoDup ts -> interpolates ts ys c ->
  forall x, peval c x = rsum (length ts) (fun i => vnth ys i * peval (lagr ts i) x).
Proof.
  intros N H x. rewrite (interpolates_unique ts ys c (lagr_interp ts ys) N H (lagr_interp_ok ts ys N)).
  unfold lagr_interp. apply peval_plin.
Qed.

Lemma interp_deriv_lagr ts ys c : NoDup ts -> interpolates ts ys c ->
  forall x, peval (pderiv c) x = rsum (length ts) (fun i => vnth ys i * peval (pderiv (lagr ts i)) x).
Proof.
  intros N H x.
  rewrite (peval_pderiv_ext c (lagr_interp ts ys)).
  - unfold lagr_interp. apply peval_pderiv_plin.
  - exact (interpolates_unique ts ys _ _ N H (lagr_interp_ok ts ys N)).
Qed.

(** The basis sums to one, its derivatives to zero. *)
Lemma lagr_sum ts x : NoDup ts -> (0 < length ts)%nat ->
  rsum (length ts) (fun i => peval (lagr ts i) x) = 1.
Proof.
  intros N L.
  assert (I := interpolates_self ts [1] ltac:(simpl; lia)).
  assert (E := interp_lagr _ _ _ N I x). simpl peval in E.
  replace 1 with (1 + x * 0) by ring. rewrite E. apply rsum_ext.
  intros i Hi. unfold vnth. rewrite (nth_map' _ _ _ 0) by exact Hi. simpl. ring.
Qed.
Lemma lagr_deriv_sum ts x : NoDup ts -> (0 < length ts)%nat ->
  rsum (length ts) (fun i => peval (pderiv (lagr ts i)) x) = 0.
Proof.
  intros N L.
  assert (I := interpolates_self ts [1] ltac:(simpl; lia)).
  assert (E := interp_deriv_lagr _ _ _ N I x).
  replace (peval (pderiv [1]) x) with 0 in E by (unfold pderiv; simpl; ring).
  rewrite E. apply rsum_ext.
  intros i Hi. unfold vnth. rewrite (nth_map' _ _ _ 0) by exact Hi. simpl. ring.
Qed.

(** Barycentric formula with any weights proportional to the true ones. *)
Lemma barycentric ts ys c w k x : NoDup ts -> interpolates ts ys c ->
  (0 < length ts)%nat -> k <> 0 -> (forall i, (i < length ts)%nat -> w i = k * bweight ts i) ->
  ~ In x ts ->
  peval c x = rsum (length ts) (fun i => w i * vnth ys i / (x - vnth ts i))
            / rsum (length ts) (fun i => w i / (x - vnth ts i)).
Proof.
  intros N I L Hk Hw Hx.
  assert (D : forall i, (i < length ts)%nat -> x - vnth ts i <> 0).
  { intros i Hi E. apply Hx. replace x with (vnth ts i) by lra. now apply nth_In. }
  set (P := peval (pfromroots ts) x).
  assert (HP : P <> 0) by now apply peval_pfromroots_neq0.
  assert (T : forall i, (i < length ts)%nat -> w i / (x - vnth ts i) = k / P * peval (lagr ts i) x).
  { intros i Hi. rewrite Hw by exact Hi. unfold lagr. rewrite peval_pscale.
    unfold P. rewrite <- (nodal_full ts i x Hi).
    assert (peval (nodal ts i) x <> 0).
    { intros E. apply HP. unfold P. rewrite <- (nodal_full ts i x Hi), E. ring. }
    field. split; auto. }
  rewrite (rsum_ext _ (fun i => w i * vnth ys i / (x - vnth ts i))
    (fun i => k / P * (vnth ys i * peval (lagr ts i) x))).
  2:{ intros i Hi. replace (w i * vnth ys i / (x - vnth ts i)) with (w i / (x - vnth ts i) * vnth ys i)
        by (unfold Rdiv; ring). rewrite T by exact Hi. ring. }
  rewrite (rsum_ext _ (fun i => w i / (x - vnth ts i)) (fun i => k / P * peval (lagr ts i) x)) by exact T.
  rewrite !rsum_scal, lagr_sum, <- (interp_lagr ts ys c N I x) by auto.
  field. split; auto.
Qed.

(** Entries of the differentiation matrix. *)
Lemma lagr_deriv_off ts i j : NoDup ts -> (i < length ts)%nat -> (j < length ts)%nat -> i <> j ->
  peval (pderiv (lagr ts j)) (vnth ts i)
  = bweight ts j / bweight ts i / (vnth ts i - vnth ts j).
Proof.
  intros N Hi Hj Hn.
  assert (Q : forall x, peval (pscale (bweight ts i) (pmul [- vnth ts j; 1] (lagr ts j))) x
                      = peval (pscale (bweight ts j) (pmul [- vnth ts i; 1] (lagr ts i))) x).
  { intros x. rewrite !peval_pscale, !peval_pmul. unfold lagr. rewrite !peval_pscale.
    assert (A := nodal_full ts i x Hi). assert (B := nodal_full ts j x Hj). simpl.
    transitivity (bweight ts i * bweight ts j * ((x - vnth ts j) * peval (nodal ts j) x)); [ring|].
    rewrite B, <- A. ring. }
  assert (E := peval_pderiv_ext _ _ Q (vnth ts i)).
  rewrite !peval_pderiv_pscale, !peval_pderiv_pmul, !lagr_at in E by auto.
  rewrite Nat.eqb_refl in E. destruct (Nat.eqb_spec j i); [lia|].
  assert (D1 : forall a, peval (pderiv [a; 1]) (vnth ts i) = 1) by (intros; unfold pderiv; simpl; ring).
  rewrite !D1 in E. simpl in E.
  assert (Hd : vnth ts i - vnth ts j <> 0).
  { intros K. apply Hn. apply (NoDup_vnth ts); auto. lra. }
  assert (Hb := bweight_neq0 ts i N Hi).
  apply (Rmult_eq_reg_l (bweight ts i * (vnth ts i - vnth ts j))).
  2:{ now apply Rmult_integral_contrapositive_currified. }
  transitivity (bweight ts j); [|field; auto].
  replace (bweight ts j) with (bweight ts j * (1 * 1 + (- vnth ts i + vnth ts i * (1 + vnth ts i * 0))
     * peval (pderiv (lagr ts i)) (vnth ts i))) by ring.
  rewrite <- E. ring.
Qed.

Lemma lagr_deriv_diag ts i : NoDup ts -> (i < length ts)%nat ->
  peval (pderiv (lagr ts i)) (vnth ts i)
  = - rsum (length ts) (fun j => if j =? i then 0 else peval (pderiv (lagr ts j)) (vnth ts i)).
Proof.
  intros N Hi.
  assert (E := lagr_deriv_sum ts (vnth ts i) N ltac:(lia)).
  assert (S : rsum (length ts) (fun j => peval (pderiv (lagr ts j)) (vnth ts i))
    = rsum (length ts) (fun j => if j =? i then 0 else peval (pderiv (lagr ts j)) (vnth ts i))
      + rsum (length ts) (fun j => if j =? i then peval (pderiv (lagr ts j)) (vnth ts i) else 0)).
  { rewrite <- rsum_plus. apply rsum_ext. intros j Hj. destruct (j =? i); ring. }
  rewrite rsum_delta in S by exact Hi. lra.
Qed.
