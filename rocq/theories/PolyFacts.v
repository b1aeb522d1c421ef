(** Facts about [Poly]: evaluation homomorphisms, true derivatives, root
    counting and uniqueness of interpolation, Taylor expansion, integrals. *)
From Coquelicot Require Import Coquelicot.
From Verif Require Import Prelude PreludeFacts Poly.
Open Scope R_scope.

Lemma peval_padd c d x : peval (padd c d) x = peval c x + peval d x.
Proof. revert d; induction c as [|a c IH]; intros [|b d]; simpl; try ring. rewrite IH; ring. Qed.
Lemma peval_pscale k c x : peval (pscale k c) x = k * peval c x.
Proof. induction c as [|a c IH]; cbn [pscale map peval]; [ring|]. unfold pscale in *. rewrite IH; ring. Qed.
Lemma peval_pmul c d x : peval (pmul c d) x = peval c x * peval d x.
Proof.
  induction c as [|a c IH]; simpl; [ring|].
  rewrite peval_padd, peval_pscale. simpl. rewrite IH. ring.
Qed.

Lemma padd_length c d : length (padd c d) = Nat.max (length c) (length d).
Proof. revert d; induction c as [|a c IH]; intros [|b d]; simpl; auto. Qed.
Lemma pscale_length k c : length (pscale k c) = length c.
Proof. apply map_length. Qed.
Lemma pder_from_length k c : length (pder_from k c) = length c.
Proof. revert k; induction c; intros; simpl; auto. Qed.
Lemma pderiv_length c : length (pderiv c) = (length c - 1)%nat.
Proof. unfold pderiv. rewrite pder_from_length. destruct c; simpl; lia. Qed.
Lemma pmul_length c d : d <> [] -> c <> [] -> length (pmul c d) = (length c + length d - 1)%nat.
Proof.
  intros Hd; destruct d as [|b d]; [congruence|]. clear Hd.
  induction c as [|a c IH]; intros Hc; [congruence|].
  cbn [pmul]. rewrite padd_length, pscale_length. cbn [length].
  destruct c as [|a' c].
  - simpl. lia.
  - rewrite IH by discriminate. simpl length. lia.
Qed.
Lemma pmul_length_le c d : (length (pmul c d) <= length c + length d - 1)%nat \/ length c = 0%nat \/ length d = 0%nat.
Proof.
  destruct c as [|a c]; [auto|]. destruct d as [|b d]; [auto|].
  left. rewrite pmul_length by discriminate. lia.
Qed.
Lemma pderiv_n_length k c : length (pderiv_n k c) = (length c - k)%nat.
Proof. revert c; induction k; intros c; simpl; [lia|]. rewrite IHk, pderiv_length. lia. Qed.

Lemma pint_from_length k c : length (pint_from k c) = length c.
Proof. revert k; induction c; intros; simpl; auto. Qed.
Lemma pint_length c : length (pint c) = S (length c).
Proof. unfold pint. simpl. now rewrite pint_from_length. Qed.

(** ** Coefficients *)
Lemma nth_padd c d k : nth k (padd c d) 0 = nth k c 0 + nth k d 0.
Proof.
  revert d k; induction c as [|a c IH]; intros [|b d] [|k]; simpl; try ring. apply IH.
Qed.
Lemma nth_pscale a c k : nth k (pscale a c) 0 = a * nth k c 0.
Proof. revert k; induction c as [|b c IH]; intros [|k]; simpl; try ring. apply IH. Qed.
Lemma nth_pder_from j c k : nth k (pder_from j c) 0 = INR (j + k) * nth k c 0.
Proof.
  revert j k; induction c as [|a c IH]; intros j [|k]; cbn [pder_from nth]; try ring.
  - now rewrite Nat.add_0_r.
  - rewrite IH. now rewrite Nat.add_succ_comm.
Qed.
Lemma nth_pderiv c k : nth k (pderiv c) 0 = INR (S k) * nth (S k) c 0.
Proof.
  unfold pderiv. rewrite nth_pder_from. destruct c; cbn [tl nth].
  - destruct k; reflexivity.
  - reflexivity.
Qed.
Lemma nth_pint_from j c k : nth k (pint_from j c) 0 = nth k c 0 / INR (S (j + k)).
Proof.
  revert j k; induction c as [|a c IH]; intros j [|k]; cbn [pint_from nth]; try (unfold Rdiv; ring).
  - now rewrite Nat.add_0_r.
  - rewrite IH. now rewrite Nat.add_succ_comm.
Qed.
Lemma peval_nth c x : peval c x = rsum (length c) (fun k => nth k c 0 * x ^ k).
Proof.
  induction c as [|a c IH]; [reflexivity|].
  cbn [length]. rewrite rsum_S_l. cbn [peval nth]. rewrite IH, <- rsum_scal.
  replace (a * x ^ 0) with a by (simpl; ring). f_equal.
  apply rsum_ext. intros. simpl. ring.
Qed.
Lemma peval_zeros d x : (forall k, nth k d 0 = 0) -> peval d x = 0.
Proof.
  induction d as [|b d IH]; intros H; [auto|].
  cbn [peval]. rewrite IH by (intros k; exact (H (S k))).
  pose proof (H 0%nat) as Hb. cbn [nth] in Hb. rewrite Hb. ring.
Qed.
Lemma peval_ext_nth c d x : (forall k, nth k c 0 = nth k d 0) -> peval c x = peval d x.
Proof.
  revert d; induction c as [|a c IH]; intros [|b d] H; auto.
  - symmetry. apply peval_zeros. intros k. rewrite <- H. destruct k; auto.
  - apply peval_zeros. intros k. rewrite H. destruct k; auto.
  - cbn [peval]. rewrite (IH d) by (intros k; exact (H (S k))).
    pose proof (H 0%nat) as Hb. cbn [nth] in Hb. now rewrite Hb.
Qed.
Lemma peval_0 c : peval c 0 = nth 0 c 0.
Proof. destruct c; simpl; ring. Qed.

(** ** Derivatives *)
Lemma peval_pderiv_cons a c x : peval (pderiv (a :: c)) x = peval c x + x * peval (pderiv c) x.
Proof.
  transitivity (peval (padd c (0 :: pderiv c)) x).
  - apply peval_ext_nth. intros k. rewrite nth_padd, nth_pderiv. destruct k as [|k].
    + simpl. ring.
    + change (nth (S k) (0 :: pderiv c) 0) with (nth k (pderiv c) 0).
      change (nth (S (S k)) (a :: c) 0) with (nth (S k) c 0).
      rewrite nth_pderiv, (S_INR (S k)). ring.
  - rewrite peval_padd. simpl. ring.
Qed.

Lemma is_derive_peval c x : is_derive (peval c) x (peval (pderiv c) x).
Proof.
  induction c as [|a c IH].
  - simpl. apply (is_derive_const 0 x).
  - rewrite peval_pderiv_cons.
    apply (is_derive_ext (fun t => a + t * peval c t)); [reflexivity|].
    evar_last.
    { apply (is_derive_plus (fun _ => a) (fun t => t * peval c t)).
      - apply is_derive_const.
      - apply (is_derive_mult (fun t => t) (peval c) x 1 (peval (pderiv c) x)).
        + apply (is_derive_id x).
        + exact IH.
        + intros n m. apply Rmult_comm. }
    unfold plus, mult, zero; simpl. ring.
Qed.
Lemma Derive_peval c x : Derive (peval c) x = peval (pderiv c) x.
Proof. apply is_derive_unique, is_derive_peval. Qed.
Lemma ex_derive_peval c x : ex_derive (peval c) x.
Proof. eexists; apply is_derive_peval. Qed.
Lemma continuous_peval c x : continuous (peval c) x.
Proof. apply (ex_derive_continuous (peval c)). apply ex_derive_peval. Qed.

Lemma pderiv_n_S k c : pderiv_n (S k) c = pderiv (pderiv_n k c).
Proof. revert c; induction k; intros c; [reflexivity|]. cbn [pderiv_n] in *. now rewrite <- IHk. Qed.
Lemma pderiv_n_add j k c : pderiv_n (j + k) c = pderiv_n k (pderiv_n j c).
Proof. revert c; induction j; intros c; simpl; auto. Qed.

Lemma nth_pderiv_n j c k : nth k (pderiv_n j c) 0 = INR (fact (k + j)) / INR (fact k) * nth (k + j) c 0.
Proof.
  revert k; induction j; intros k.
  - simpl. rewrite Nat.add_0_r. field. apply INR_fact_neq_0.
  - rewrite pderiv_n_S, nth_pderiv, IHj.
    replace (k + S j)%nat with (S k + j)%nat by lia.
    rewrite (fact_simpl k), mult_INR. field. split; [apply INR_fact_neq_0|].
    apply not_0_INR. lia.
Qed.

Lemma Derive_n_peval k c x : Derive_n (peval c) k x = peval (pderiv_n k c) x.
Proof.
  revert x; induction k; intros x; [reflexivity|].
  simpl Derive_n. rewrite (Derive_ext _ (peval (pderiv_n k c))) by auto.
  rewrite Derive_peval. now rewrite <- pderiv_n_S.
Qed.

(** Taylor expansion at 0, exact for polynomials. *)
Lemma taylor_peval c x n : (length c <= n)%nat ->
  peval c x = rsum n (fun i => x ^ i / INR (fact i) * peval (pderiv_n i c) 0).
Proof.
  intros Hn. rewrite peval_nth.
  replace n with (length c + (n - length c))%nat by lia. rewrite rsum_split.
  rewrite (rsum_zero (n - length c)), Rplus_0_r.
  - apply rsum_ext. intros i Hi. rewrite peval_0, nth_pderiv_n. simpl (0 + i)%nat.
    simpl (fact 0). simpl (INR 1). field. apply INR_fact_neq_0.
  - intros i Hi. rewrite peval_0, nth_pderiv_n. simpl (0 + _)%nat.
    rewrite (nth_overflow c) by lia. ring.
Qed.

(** ** Roots *)

(** Synthetic division. *)
Lemma poly_div_root c r : exists q, length q = (length c - 1)%nat /\
  forall x, peval c x = (x - r) * peval q x + peval c r.
Proof.
  induction c as [|a c (q & Hq & IH)].
  - exists []. split; [reflexivity|]. intros; simpl; ring.
  - destruct c as [|b c].
    + exists []. split; [reflexivity|]. intros; simpl; ring.
    + exists (peval (b :: c) r :: q). split; [simpl in *; lia|].
      intros x. cbn [peval] in *. rewrite (IH x). ring.
Qed.

Lemma poly_roots_zero (pts : list R) : NoDup pts -> forall c,
  (length c <= length pts)%nat -> (forall r, In r pts -> peval c r = 0) ->
  forall x, peval c x = 0.
Proof.
  induction pts as [|r pts IH]; intros Hnd c Hl Hr x.
  - destruct c; [reflexivity|simpl in Hl; lia].
  - inversion Hnd as [|? ? Hni Hnd']; subst.
    destruct (poly_div_root c r) as (q & Hq & Hdiv).
    assert (Hc : peval c r = 0) by (apply Hr; left; auto).
    assert (Hqz : forall x, peval q x = 0).
    { apply IH; auto.
      - simpl in Hl. lia.
      - intros s Hs. specialize (Hdiv s). rewrite Hc in Hdiv.
        rewrite (Hr s) in Hdiv by (right; auto).
        assert (s - r <> 0). { intros He. apply Hni. replace r with s by lra. auto. }
        symmetry in Hdiv. rewrite Rplus_0_r in Hdiv. apply Rmult_integral in Hdiv. tauto. }
    rewrite Hdiv, Hqz, Hc. ring.
Qed.

Definition popp_add (c d : list R) : list R := padd c (pscale (-1) d).

(** Two polynomials of degree < N that agree at N distinct points agree
    everywhere. *)
Lemma poly_unique (pts : list R) c d : NoDup pts ->
  (length c <= length pts)%nat -> (length d <= length pts)%nat ->
  (forall r, In r pts -> peval c r = peval d r) -> forall x, peval c x = peval d x.
Proof.
  intros Hnd Hc Hd H x.
  assert (E : forall y, peval (popp_add c d) y = peval c y - peval d y).
  { intros y. unfold popp_add. rewrite peval_padd, peval_pscale. ring. }
  assert (Z : peval (popp_add c d) x = 0).
  { apply (poly_roots_zero pts); auto.
    - unfold popp_add. rewrite padd_length, pscale_length. lia.
    - intros r Hr. rewrite E, (H r Hr). ring. }
  rewrite E in Z. lra.
Qed.

(** A polynomial that is zero as a function has zero coefficients. *)
Lemma peval_zero_nth c : (forall x, peval c x = 0) -> forall k, nth k c 0 = 0.
Proof.
  intros H k.
  assert (E : forall j x, peval (pderiv_n j c) x = 0).
  { intros j; induction j; intros x; [apply H|].
    rewrite pderiv_n_S, <- Derive_peval.
    rewrite (Derive_ext _ (fun _ => 0)) by auto. apply Derive_const. }
  specialize (E k 0). rewrite peval_0, nth_pderiv_n in E. simpl in E.
  apply Rmult_integral in E. destruct E as [E|E]; auto.
  exfalso. unfold Rdiv in E. apply Rmult_integral in E. destruct E as [E|E].
  - now apply INR_fact_neq_0 in E.
  - rewrite Rinv_1 in E. lra.
Qed.
Lemma peval_ext_coeff c d : (forall x, peval c x = peval d x) -> forall k, nth k c 0 = nth k d 0.
Proof.
  intros H k.
  assert (Z : nth k (popp_add c d) 0 = 0).
  { apply peval_zero_nth. intros x. unfold popp_add. rewrite peval_padd, peval_pscale, H. ring. }
  unfold popp_add in Z. rewrite nth_padd, nth_pscale in Z. lra.
Qed.
Lemma peval_pderiv_ext c d : (forall x, peval c x = peval d x) ->
  forall x, peval (pderiv c) x = peval (pderiv d) x.
Proof.
  intros H x. apply peval_ext_nth. intros k. rewrite !nth_pderiv.
  now rewrite (peval_ext_coeff c d H).
Qed.
Lemma peval_pderiv_n_ext c d n : (forall x, peval c x = peval d x) ->
  forall x, peval (pderiv_n n c) x = peval (pderiv_n n d) x.
Proof.
  revert c d; induction n; intros c d H x; [apply H|].
  simpl. apply IHn. now apply peval_pderiv_ext.
Qed.

Lemma peval_pderiv_padd c d x : peval (pderiv (padd c d)) x = peval (pderiv c) x + peval (pderiv d) x.
Proof.
  rewrite <- peval_padd. apply peval_ext_nth. intros k.
  rewrite nth_padd, !nth_pderiv, nth_padd. ring.
Qed.
Lemma peval_pderiv_pscale a c x : peval (pderiv (pscale a c)) x = a * peval (pderiv c) x.
Proof.
  rewrite <- peval_pscale. apply peval_ext_nth. intros k.
  rewrite nth_pscale, !nth_pderiv, nth_pscale. ring.
Qed.
Lemma peval_pderiv_n_padd n c d x :
  peval (pderiv_n n (padd c d)) x = peval (pderiv_n n c) x + peval (pderiv_n n d) x.
Proof.
  rewrite <- peval_padd. apply peval_ext_nth. intros k.
  rewrite nth_padd, !nth_pderiv_n, nth_padd. ring.
Qed.
Lemma peval_pderiv_n_pscale n a c x :
  peval (pderiv_n n (pscale a c)) x = a * peval (pderiv_n n c) x.
Proof.
  rewrite <- peval_pscale. apply peval_ext_nth. intros k.
  rewrite nth_pscale, !nth_pderiv_n, nth_pscale. ring.
Qed.
Lemma peval_pderiv_pmul c d x :
  peval (pderiv (pmul c d)) x = peval (pderiv c) x * peval d x + peval c x * peval (pderiv d) x.
Proof.
  rewrite <- Derive_peval.
  rewrite (Derive_ext _ (fun t => peval c t * peval d t)) by (intros; apply peval_pmul).
  rewrite Derive_mult by apply ex_derive_peval. now rewrite !Derive_peval.
Qed.

(** ** Antiderivative *)
Lemma nth_pint_S c k : nth (S k) (pint c) 0 = nth k c 0 / INR (S k).
Proof. unfold pint. cbn [nth]. now rewrite nth_pint_from. Qed.
Lemma peval_pint_0 c : peval (pint c) 0 = 0.
Proof. rewrite peval_0. reflexivity. Qed.
Lemma peval_pderiv_pint c x : peval (pderiv (pint c)) x = peval c x.
Proof.
  apply peval_ext_nth. intros k. rewrite nth_pderiv, nth_pint_S. field.
  apply not_0_INR; lia.
Qed.
Lemma RInt_peval c a b : RInt (peval c) a b = peval (pint c) b - peval (pint c) a.
Proof.
  apply is_RInt_unique. apply (is_RInt_derive (peval (pint c)) (peval c)).
  - intros x _. rewrite <- peval_pderiv_pint. apply is_derive_peval.
  - intros x _. apply continuous_peval.
Qed.
Lemma ex_RInt_peval c a b : ex_RInt (peval c) a b.
Proof. apply (ex_RInt_continuous (peval c)). intros; apply continuous_peval. Qed.

(** ** Composition and products of linear factors *)
Lemma peval_pcomp_affine c a b x : peval (pcomp_affine c a b) x = peval c (a + b * x).
Proof.
  induction c as [|k c IH]; [reflexivity|]. destruct c as [|k' c].
  - simpl. ring.
  - change (pcomp_affine (k :: k' :: c) a b)
      with (padd [k] (pmul [a; b] (pcomp_affine (k' :: c) a b))).
    rewrite peval_padd, peval_pmul, IH. cbn [peval]. ring.
Qed.
Lemma pcomp_affine_length c a b : length (pcomp_affine c a b) = length c.
Proof.
  induction c as [|k c IH]; [reflexivity|]. destruct c as [|k' c]; [reflexivity|].
  change (pcomp_affine (k :: k' :: c) a b)
      with (padd [k] (pmul [a; b] (pcomp_affine (k' :: c) a b))).
  rewrite padd_length, pmul_length; [rewrite IH; simpl; lia| |discriminate].
  intros H; rewrite H in IH; discriminate.
Qed.
Lemma peval_pderiv_pcomp_affine c a b x :
  peval (pderiv (pcomp_affine c a b)) x = b * peval (pderiv c) (a + b * x).
Proof.
  rewrite <- Derive_peval.
  rewrite (Derive_ext _ (fun t => peval c (a + b * t))) by (intros; apply peval_pcomp_affine).
  apply is_derive_unique.
  evar_last.
  { apply (is_derive_comp (peval c) (fun t => a + b * t) x).
    - apply is_derive_peval.
    - auto_derive; [auto|reflexivity]. }
  unfold scal; simpl. unfold mult; simpl. ring.
Qed.
Lemma peval_pderiv_n_pcomp_affine n c a b x :
  peval (pderiv_n n (pcomp_affine c a b)) x = b ^ n * peval (pderiv_n n c) (a + b * x).
Proof.
  revert x; induction n; intros x.
  - simpl. rewrite peval_pcomp_affine. ring.
  - rewrite !pderiv_n_S.
    rewrite (peval_pderiv_ext _ (pscale (b ^ n) (pcomp_affine (pderiv_n n c) a b))).
    + rewrite peval_pderiv_pscale, peval_pderiv_pcomp_affine. simpl. ring.
    + intros y. now rewrite IHn, peval_pscale, peval_pcomp_affine.
Qed.

Lemma peval_pfromroots rs x : peval (pfromroots rs) x = fold_right (fun r acc => (x - r) * acc) 1 rs.
Proof.
  induction rs as [|r rs IH]; [simpl; ring|].
  cbn [pfromroots fold_right]. rewrite peval_pmul, IH. simpl. ring.
Qed.
Lemma pfromroots_length rs : length (pfromroots rs) = S (length rs).
Proof.
  induction rs as [|r rs IH]; [reflexivity|].
  cbn [pfromroots]. rewrite pmul_length; [rewrite IH; simpl; lia| |discriminate].
  intros H; rewrite H in IH; discriminate.
Qed.

(** Linear combination of a family of polynomials. *)
Definition plin (n : nat) (w : nat -> R) (f : nat -> list R) : list R :=
  fold_right (fun i acc => padd (pscale (w i) (f i)) acc) [] (seq 0 n).
Lemma peval_plin n w f x : peval (plin n w f) x = rsum n (fun i => w i * peval (f i) x).
Proof.
  unfold plin. rewrite <- vsum_map_seq.
  induction (seq 0 n) as [|i l IH]; simpl; [reflexivity|].
  rewrite peval_padd, peval_pscale, IH. reflexivity.
Qed.
Lemma plin_length n w f m : (forall i, (i < n)%nat -> (length (f i) <= m)%nat) ->
  (length (plin n w f) <= m)%nat.
Proof.
  intros H. unfold plin.
  assert (G : forall i, In i (seq 0 n) -> (length (f i) <= m)%nat).
  { intros i Hi. apply H. apply in_seq in Hi. lia. }
  induction (seq 0 n) as [|i l IH]; simpl; [lia|].
  rewrite padd_length, pscale_length.
  assert (length (f i) <= m)%nat by (apply G; left; auto).
  assert (length (fold_right (fun i acc => padd (pscale (w i) (f i)) acc) [] l) <= m)%nat
    by (apply IH; intros; apply G; right; auto). lia.
Qed.
Lemma peval_pderiv_plin n w f x :
  peval (pderiv (plin n w f)) x = rsum n (fun i => w i * peval (pderiv (f i)) x).
Proof.
  unfold plin. rewrite <- vsum_map_seq.
  induction (seq 0 n) as [|i l IH]; simpl; [reflexivity|].
  rewrite peval_pderiv_padd, peval_pderiv_pscale, IH. reflexivity.
Qed.
