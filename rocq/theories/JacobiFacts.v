(** Roots of the Legendre and Jacobi polynomials, by Rodrigues' formula and
    Rolle's theorem. *)
From Coq Require Import Sorting.Sorted.
From Coquelicot Require Import Coquelicot.
From Verif Require Import Prelude PreludeFacts Poly PolyFacts PolyInterp PsModel.
Open Scope R_scope.
Open Scope list_scope.

(** ** Powers and Leibniz' rule *)
Lemma peval_ppow c n x : peval (ppow c n) x = peval c x ^ n.
Proof. induction n; simpl; [ring|]. rewrite peval_pmul, IHn. reflexivity. Qed.

Lemma ppow_length_le c n : c <> [] -> (length (ppow c n) <= 1 + n * (length c - 1))%nat.
Proof.
  intros H. induction n; simpl; [lia|].
  destruct (pmul_length_le c (ppow c n)) as [L|[L|L]].
  - destruct c; [easy|]. simpl in *. nia.
  - destruct c; simpl in *; [easy|lia].
  - destruct c; [easy|]. simpl. destruct (ppow (r :: c) n); [|easy].
    enough (length (pmul c (@nil R)) = 0%nat \/ (length (pmul c (@nil R)) <= length c)%nat) by (simpl; nia).
    right. clear. induction c; simpl; lia.
Qed.

Lemma peval_pderiv_n_plin_ext n c d : (forall x, peval c x = peval d x) ->
  forall x, peval (pderiv_n n c) x = peval (pderiv_n n d) x.
Proof. intros. now apply peval_pderiv_n_ext. Qed.

Lemma binom_n_n n : binom n n = 1%nat.
Proof.
  assert (Z : forall n k, (n < k)%nat -> binom n k = 0%nat).
  { clear. induction n; intros [|k] H; simpl; try lia. rewrite !IHn; lia. }
  induction n; simpl; [reflexivity|]. rewrite IHn, Z; lia.
Qed.
Lemma binom_gt n k : (n < k)%nat -> binom n k = 0%nat.
Proof. revert k. induction n; intros [|k] H; simpl; try lia. rewrite !IHn; lia. Qed.
Lemma binom_0_r n : binom n 0 = 1%nat.
Proof. now destruct n. Qed.
Lemma binom_fact n k : (k <= n)%nat -> (binom n k * fact k * fact (n - k) = fact n)%nat.
Proof.
  revert k. induction n; intros k H.
  - replace k with 0%nat by lia. reflexivity.
  - destruct k as [|k]; [simpl; lia|].
    change (binom (S n) (S k)) with (binom n k + binom n (S k))%nat.
    assert (A := IHn k ltac:(lia)).
    replace (S n - S k)%nat with (n - k)%nat by lia.
    rewrite !Nat.mul_add_distr_r.
    destruct (Nat.eq_dec k n) as [->|Hn].
    + rewrite (binom_gt n (S n)) by lia. change (fact (S n)) with (S n * fact n)%nat. nia.
    + assert (B := IHn (S k) ltac:(lia)).
      replace (n - k)%nat with (S (n - S k)) in * by lia.
      change (fact (S (n - S k))) with (S (n - S k) * fact (n - S k))%nat in *.
      change (fact (S k)) with (S k * fact k)%nat in *.
      change (fact (S n)) with (S n * fact n)%nat.
      rewrite <- A at 1.
      replace (binom n (S k) * (S k * fact k) * (S (n - S k) * fact (n - S k)))%nat
        with (S (n - S k) * (binom n (S k) * (S k * fact k) * fact (n - S k)))%nat by ring.
      rewrite B.
      replace (binom n k * (S k * fact k) * (S (n - S k) * fact (n - S k)))%nat
        with (S k * (binom n k * fact k * (S (n - S k) * fact (n - S k))))%nat by ring.
      rewrite A. nia.
Qed.
Lemma binom_pos n k : (k <= n)%nat -> (0 < binom n k)%nat.
Proof.
  intros H. assert (E := binom_fact n k H). assert (F := lt_O_fact n). nia.
Qed.

Lemma leibniz n : forall f g x,
  peval (pderiv_n n (pmul f g)) x
  = rsum (S n) (fun k => INR (binom n k) * (peval (pderiv_n k f) x * peval (pderiv_n (n - k) g) x)).
Proof.
  induction n; intros f g x.
  - simpl. rewrite peval_pmul. ring.
  - simpl pderiv_n at 1.
    rewrite (peval_pderiv_n_ext _ (padd (pmul (pderiv f) g) (pmul f (pderiv g)))).
    2:{ intros y. rewrite peval_padd, !peval_pmul. apply peval_pderiv_pmul. }
    rewrite peval_pderiv_n_padd, !IHn.
    set (A := fun k => peval (pderiv_n k f) x).
    set (B := fun k => peval (pderiv_n k g) x).
    rewrite (rsum_ext (S n) _ (fun k => INR (binom n k) * (A (S k) * B (n - k)%nat)))
      by (intros; reflexivity).
    rewrite (rsum_ext (S n) (fun k => INR (binom n k) * (peval (pderiv_n k f) x * peval (pderiv_n (n - k) (pderiv g)) x))
       (fun k => INR (binom n k) * (A k * B (S n - k)%nat))).
    2:{ intros k Hk. unfold A, B. replace (S n - k)%nat with (S (n - k)) by lia. reflexivity. }
    rewrite (rsum_ext (S (S n)) _ (fun k => INR (binom (S n) k) * (A k * B (S n - k)%nat)))
      by (intros; reflexivity).
    rewrite (rsum_S_l (S n) (fun k => INR (binom (S n) k) * (A k * B (S n - k)%nat))).
    rewrite (rsum_ext (S n) (fun i => INR (binom (S n) (S i)) * (A (S i) * B (S n - S i)%nat))
      (fun i => INR (binom n i) * (A (S i) * B (n - i)%nat)
              + INR (binom n (S i)) * (A (S i) * B (n - i)%nat))).
    2:{ intros i Hi. change (binom (S n) (S i)) with (binom n i + binom n (S i))%nat.
        rewrite plus_INR. simpl (S n - S i)%nat. ring. }
    rewrite rsum_plus.
    rewrite (rsum_S_l n (fun k => INR (binom n k) * (A k * B (S n - k)%nat))).
    change (rsum (S n) (fun i => INR (binom n (S i)) * (A (S i) * B (n - i)%nat)))
      with (rsum n (fun i => INR (binom n (S i)) * (A (S i) * B (n - i)%nat))
            + INR (binom n (S n)) * (A (S n) * B (n - n)%nat)).
    rewrite (binom_gt n (S n)) by lia. rewrite !binom_0_r.
    rewrite (rsum_ext n (fun i => INR (binom n (S i)) * (A (S i) * B (S n - S i)%nat))
       (fun i => INR (binom n (S i)) * (A (S i) * B (n - i)%nat))) by (intros; reflexivity).
    simpl INR. ring.
Qed.

(** Derivatives of (x + a)^p. *)
Lemma deriv_power a p : forall k x,
  peval (pderiv_n k (ppow [a; 1] p)) x
  = if (k <=? p)%nat then INR (fact p) / INR (fact (p - k)) * (x + a) ^ (p - k) else 0.
Proof.
  induction p; intros k x.
  - destruct k; simpl.
    + field.
    + rewrite (peval_pderiv_n_ext _ []); [|intros; unfold pderiv; reflexivity].
      clear. induction k; simpl; auto.
  - change (ppow [a; 1] (S p)) with (pmul [a; 1] (ppow [a; 1] p)).
    rewrite leibniz.
    assert (D0 : peval (pderiv_n 0 [a; 1]) x = x + a) by (simpl; ring).
    assert (D1 : peval (pderiv_n 1 [a; 1]) x = 1) by (unfold pderiv; simpl; ring).
    assert (D2 : forall j, (2 <= j)%nat -> peval (pderiv_n j [a; 1]) x = 0).
    { intros j Hj. assert (L := pderiv_n_length j [a; 1]).
      destruct (pderiv_n j [a; 1]); [reflexivity|cbn [length] in L; lia]. }
    rewrite rsum_S_l.
    destruct k as [|k].
    + simpl rsum. rewrite D0, IHp. rewrite binom_0_r.
      replace (p - (0 - 0))%nat with p by lia. simpl (0 - 0)%nat.
      destruct (Nat.leb_spec 0 p); [|lia]. simpl (0 <=? S p)%nat. rewrite !Nat.sub_0_r.
      simpl pow. simpl INR.
      assert (INR (fact p) <> 0) by apply INR_fact_neq_0.
      assert (INR (fact (S p)) <> 0) by apply INR_fact_neq_0.
      field. auto.
    + rewrite rsum_S_l. rewrite rsum_zero.
      2:{ intros i Hi. rewrite D2 by lia. ring. }
      rewrite D0, D1, !IHp, binom_0_r.
      change (binom (S k) 1) with (binom k 0 + binom k 1)%nat.
      assert (B1 : binom k 1 = k).
      { clear. induction k; [reflexivity|]. change (binom (S k) 1) with (binom k 0 + binom k 1)%nat.
        rewrite IHk, binom_0_r. lia. }
      rewrite B1, binom_0_r.
      replace (S k - 0)%nat with (S k) by lia. replace (S k - 1)%nat with k by lia.
      replace (S p - S k)%nat with (p - k)%nat by lia.
      assert (F : forall m, INR (fact m) <> 0) by apply INR_fact_neq_0.
      change (S k <=? S p)%nat with (k <=? p)%nat.
      destruct (Nat.leb_spec k p) as [Hk|Hk]; destruct (Nat.leb_spec (S k) p) as [Hk'|Hk']; try lia.
      * change (fact (S p)) with (S p * fact p)%nat.
        rewrite mult_INR. replace (p - k)%nat with (S (p - S k)) by lia.
        change (fact (S (p - S k))) with (S (p - S k) * fact (p - S k))%nat. rewrite mult_INR.
        simpl pow. rewrite plus_INR.
        replace (INR (S p)) with (INR (S k) + INR (S (p - S k)))
          by (rewrite <- plus_INR; f_equal; lia).
        assert (INR (S (p - S k)) <> 0) by (apply not_0_INR; lia).
        rewrite (S_INR k). simpl (INR 1). field. split; auto.
      * replace (p - k)%nat with 0%nat by lia. simpl (fact 0). simpl pow.
        change (fact (S p)) with (S p * fact p)%nat. rewrite mult_INR.
        replace (INR (S p)) with (INR (S k)) by (f_equal; lia). rewrite plus_INR, (S_INR k). simpl (INR 1). simpl (INR 0). field.
      * ring.
Qed.

(** ** Rodrigues' formula *)
Definition rodr (p q k : nat) : list R := pderiv_n k (pmul (ppow [-1; 1] p) (ppow [1; 1] q)).

Lemma peval_rodr_0 p q x : peval (rodr p q 0) x = (x + -1) ^ p * (x + 1) ^ q.
Proof.
  unfold rodr. simpl. rewrite peval_pmul, !peval_ppow. simpl.
  f_equal; f_equal; ring.
Qed.

Lemma rodr_at_1 p q k : (k < p)%nat -> peval (rodr p q k) 1 = 0.
Proof.
  intros H. unfold rodr. rewrite leibniz. apply rsum_zero. intros i Hi.
  rewrite deriv_power. destruct (Nat.leb_spec i p); [|ring].
  replace (1 + -1) with 0 by ring. rewrite pow_i by lia. ring.
Qed.
Lemma rodr_at_m1 p q k : (k < q)%nat -> peval (rodr p q k) (-1) = 0.
Proof.
  intros H. unfold rodr. rewrite leibniz. apply rsum_zero. intros i Hi.
  rewrite (deriv_power 1). destruct (Nat.leb_spec (k - i) q); [|ring].
  replace (-1 + 1) with 0 by ring. rewrite pow_i by lia. ring.
Qed.

(** ** Rolle *)
Lemma rolle_poly c a b : a < b -> peval c a = 0 -> peval c b = 0 ->
  exists x, a < x < b /\ peval (pderiv c) x = 0.
Proof.
  intros H Ha Hb.
  destruct (MVT_cor2 (peval c) (fun x => peval (pderiv c) x) a b H) as (x & E & I).
  - intros x _. apply is_derive_Reals. apply is_derive_peval.
  - exists x. split; [exact I|]. rewrite Ha, Hb in E.
    apply (Rmult_eq_reg_r (b - a)); [|lra]. lra.
Qed.

Lemma increasing_tl a ts : increasing (a :: ts) -> increasing ts.
Proof. intros H i j L. apply (H (S i) (S j)). simpl. lia. Qed.

Lemma rolle_list c : forall ts, increasing ts -> (forall i, (i < length ts)%nat -> peval c (vnth ts i) = 0) ->
  exists ss, length ss = (length ts - 1)%nat /\
    forall i, (i < length ss)%nat -> vnth ts i < vnth ss i < vnth ts (S i) /\ peval (pderiv c) (vnth ss i) = 0.
Proof.
  induction ts as [|a ts IH]; intros I Z.
  - exists []. split; [reflexivity|]. simpl. lia.
  - destruct ts as [|b ts].
    + exists []. split; [reflexivity|]. simpl. lia.
    + destruct IH as (ss & L & H).
      * now apply increasing_tl in I.
      * intros i Hi. apply (Z (S i)). simpl in *. lia.
      * destruct (rolle_poly c a b) as (x & Hx & Ex).
        -- apply (I 0%nat 1%nat). simpl. lia.
        -- apply (Z 0%nat). simpl. lia.
        -- apply (Z 1%nat). simpl. lia.
        -- exists (x :: ss). split; [simpl in *; lia|].
           intros [|i] Hi; [split; [exact Hx|exact Ex]|]. apply (H i). simpl in Hi. lia.
Qed.

Lemma interleaved_increasing ts ss : increasing ts -> length ss = (length ts - 1)%nat ->
  (forall i, (i < length ss)%nat -> vnth ts i < vnth ss i < vnth ts (S i)) -> increasing ss.
Proof.
  intros I L H i j Hij.
  assert (A := H i ltac:(lia)). assert (B := H j ltac:(lia)).
  destruct (Nat.eq_dec (S i) j) as [<-|N]; [lra|].
  assert (C := I (S i) j ltac:(lia)). lra.
Qed.

(** Roots in the open interval, in increasing order. *)
Definition inner_roots (c rs : list R) : Prop :=
  increasing rs /\ forall r, In r rs -> -1 < r < 1 /\ peval c r = 0.

Lemma increasing_cons a ts : (forall r, In r ts -> a < r) -> increasing ts -> increasing (a :: ts).
Proof.
  intros H I i j L. destruct j as [|j]; [lia|]. destruct i as [|i].
  - unfold vnth. simpl. apply H. apply nth_In. simpl in L. lia.
  - apply (I i j). simpl in L. lia.
Qed.
Lemma increasing_snoc ts b : (forall r, In r ts -> r < b) -> increasing ts -> increasing (ts ++ [b]).
Proof.
  intros H I i j L. rewrite app_length in L. simpl in L. rewrite !vnth_app.
  destruct (Nat.ltb_spec i (length ts)); [|lia].
  destruct (Nat.ltb_spec j (length ts)).
  - apply I. lia.
  - replace (j - length ts)%nat with 0%nat by lia. unfold vnth at 2. simpl. apply H. now apply nth_In.
Qed.

Lemma rodr_inner p q k : (k <= p)%nat -> (k <= q)%nat ->
  exists rs, length rs = k /\ inner_roots (rodr p q k) rs.
Proof.
  induction k; intros Hp Hq.
  - exists []. split; [reflexivity|]. split; [intros i j; simpl; lia|easy].
  - destruct IHk as (rs & L & I & R); [lia|lia|].
    set (ts := -1 :: rs ++ [1]).
    assert (It : increasing ts).
    { apply increasing_cons.
      - intros r K. apply in_app_iff in K. destruct K as [K|[<-|[]]]; [now apply R|lra].
      - apply increasing_snoc; [|exact I]. intros r K. now apply R. }
    assert (Lt : length ts = S (S k)) by (unfold ts; simpl; rewrite app_length; simpl; lia).
    destruct (rolle_list (rodr p q k) ts It) as (ss & Ls & H).
    + intros i Hi.
      assert (K : In (vnth ts i) ts) by now apply nth_In.
      destruct K as [<-|K]; [apply rodr_at_m1; lia|].
      apply in_app_iff in K. destruct K as [K|[<-|[]]]; [now apply R|apply rodr_at_1; lia].
    + exists ss. split; [lia|]. split.
      * apply (interleaved_increasing ts); auto. intros i Hi. now apply H.
      * intros r K. destruct (In_nth _ _ 0 K) as (i & Hi & <-).
        destruct (H i Hi) as [B E]. change (nth i ss 0) with (vnth ss i). split.
        -- assert (A0 : -1 <= vnth ts i).
           { destruct i; [unfold ts, vnth; simpl; lra|]. left. apply (It 0%nat (S i)). lia. }
           assert (A1 : vnth ts (S i) <= 1).
           { replace 1 with (vnth ts (S k)).
             - destruct (Nat.eq_dec i k) as [->|]; [lra|]. left. apply It. lia.
             - unfold ts. unfold vnth. simpl. rewrite nth_app', L.
               destruct (Nat.ltb_spec k k); [lia|]. rewrite Nat.sub_diag. reflexivity. }
           lra.
        -- unfold rodr in *. rewrite pderiv_n_S. exact E.
Qed.

(** ** Jacobi polynomials *)
Lemma peval_psum (l : list (list R)) x : peval (fold_right padd [] l) x = fold_right Rplus 0 (map (fun c => peval c x) l).
Proof. induction l; simpl; [reflexivity|]. now rewrite peval_padd, IHl. Qed.

Lemma peval_jacobi n a b x : peval (jacobi n a b) x
  = rsum (S n) (fun s => INR (binom (n + a) (n - s) * binom (n + b) s) * (((x - 1) / 2) ^ s * ((x + 1) / 2) ^ (n - s))).
Proof.
  unfold jacobi. rewrite peval_psum, map_map.
  change (fold_right Rplus 0) with vsum. rewrite vsum_map_seq. apply rsum_ext. intros s Hs.
  rewrite peval_pscale, peval_pmul, !peval_ppow. f_equal. simpl. f_equal; f_equal; field.
Qed.

Lemma jacobi_length n a b : (length (jacobi n a b) <= S n)%nat.
Proof.
  unfold jacobi.
  assert (H : forall l : list (list R), (forall c, In c l -> (length c <= S n)%nat) ->
    (length (fold_right padd [] l) <= S n)%nat).
  { induction l; simpl; intros K; [lia|]. rewrite padd_length.
    apply Nat.max_lub; [apply K; now left|apply IHl; intros; apply K; now right]. }
  apply H. intros c I. apply in_map_iff in I. destruct I as (s & <- & I). apply in_seq in I.
  rewrite pscale_length.
  assert (A := ppow_length_le [- (1 / 2); 1 / 2] s ltac:(discriminate)).
  assert (B := ppow_length_le [1 / 2; 1 / 2] (n - s) ltac:(discriminate)). simpl length in *.
  destruct (pmul_length_le (ppow [- (1 / 2); 1 / 2] s) (ppow [1 / 2; 1 / 2] (n - s))) as [L|[L|L]].
  - lia.
  - destruct (ppow [- (1 / 2); 1 / 2] s); simpl in *; lia.
  - exfalso. assert (P : forall m, ppow [1 / 2; 1 / 2] m <> []) by (intros [|m]; simpl; [easy|]; destruct (pscale _ _); discriminate).
    apply (P (n - s)%nat). now destruct (ppow [1 / 2; 1 / 2] (n - s)).
Qed.

Lemma jacobi_at_1 n a b : peval (jacobi n a b) 1 = INR (binom (n + a) n).
Proof.
  rewrite peval_jacobi, rsum_S_l. rewrite rsum_zero.
  - rewrite Nat.sub_0_r, binom_0_r, Nat.mul_1_r. replace ((1 + 1) / 2) with 1 by field. rewrite pow1. ring.
  - intros i Hi. replace ((1 - 1) / 2) with 0 by field. rewrite pow_i by lia. ring.
Qed.
Lemma jacobi_at_1_neq0 n a b : peval (jacobi n a b) 1 <> 0.
Proof. rewrite jacobi_at_1. apply not_0_INR. assert (H := binom_pos (n + a) n ltac:(lia)). lia. Qed.

Lemma jacobi_rodr n a b x :
  peval (rodr (n + a) (n + b) n) x
  = INR (fact n) * 2 ^ n * ((x - 1) ^ a * (x + 1) ^ b) * peval (jacobi n a b) x.
Proof.
  rewrite peval_jacobi. unfold rodr. rewrite leibniz. rewrite <- rsum_scal.
  rewrite (rsum_rev (S n)). apply rsum_ext. intros s Hs.
  replace (S n - 1 - s)%nat with (n - s)%nat by lia. replace (n - (n - s))%nat with s by lia.
  rewrite !deriv_power.
  destruct (Nat.leb_spec (n - s) (n + a)); [|lia]. destruct (Nat.leb_spec s (n + b)); [|lia].
  replace (n + a - (n - s))%nat with (a + s)%nat by lia.
  replace (n + b - s)%nat with (b + (n - s))%nat by lia.
  replace (x + -1) with (x - 1) by ring.
  rewrite mult_INR, !pow_add.
  assert (E : forall m k, (k <= m)%nat -> INR (binom m k) = INR (fact m) / (INR (fact k) * INR (fact (m - k)))).
  { intros m k Hk. rewrite <- (binom_fact m k Hk) at 1. rewrite !mult_INR. field.
    split; apply INR_fact_neq_0. }
  rewrite !E by lia.
  replace (n - (n - s))%nat with s by lia.
  replace (n + a - (n - s))%nat with (a + s)%nat by lia.
  replace (n + b - s)%nat with (b + (n - s))%nat by lia.
  replace (((x - 1) / 2) ^ s) with ((x - 1) ^ s * (/ 2) ^ s) by (unfold Rdiv; now rewrite Rpow_mult_distr).
  replace (((x + 1) / 2) ^ (n - s)) with ((x + 1) ^ (n - s) * (/ 2) ^ (n - s))
    by (unfold Rdiv; now rewrite Rpow_mult_distr).
  replace (2 ^ n) with (2 ^ s * 2 ^ (n - s)) by (rewrite <- pow_add; f_equal; lia).
  assert (T : forall m, 2 ^ m * (/ 2) ^ m = 1).
  { intros m. rewrite <- Rpow_mult_distr. replace (2 * / 2) with 1 by field. apply pow1. }
  assert (T1 := T s). assert (T2 := T (n - s)%nat).
  assert (F : forall m, INR (fact m) <> 0) by apply INR_fact_neq_0.
  transitivity (INR (fact n) * ((x - 1) ^ a * (x + 1) ^ b) * ((x - 1) ^ s * (x + 1) ^ (n - s))
     * (INR (fact (n + a)) / (INR (fact (n - s)) * INR (fact (a + s)))
        * (INR (fact (n + b)) / (INR (fact s) * INR (fact (b + (n - s)))))) * ((2 ^ s * (/2) ^ s) * (2 ^ (n - s) * (/ 2) ^ (n - s)))).
  - rewrite T1, T2. field. repeat split; apply F.
  - ring.
Qed.

Lemma jacobi_inner n a b : exists rs, length rs = n /\ inner_roots (jacobi n a b) rs.
Proof.
  destruct (rodr_inner (n + a) (n + b) n) as (rs & L & I & R); [lia|lia|].
  exists rs. split; [exact L|]. split; [exact I|].
  intros r K. destruct (R r K) as [B E]. split; [exact B|].
  rewrite jacobi_rodr in E.
  apply Rmult_integral in E. destruct E as [E|E]; [exfalso|exact E].
  assert (INR (fact n) <> 0) by apply INR_fact_neq_0.
  assert (2 ^ n <> 0) by (apply pow_nonzero; lra).
  assert ((r - 1) ^ a <> 0) by (apply pow_nonzero; lra).
  assert ((r + 1) ^ b <> 0) by (apply pow_nonzero; lra).
  revert E. repeat apply Rmult_integral_contrapositive_currified; assumption.
Qed.

Lemma legendre_deriv_inner n : (1 <= n)%nat ->
  exists rs, length rs = (n - 1)%nat /\ inner_roots (pderiv (legendre n)) rs.
Proof.
  intros Hn. destruct (jacobi_inner n 0 0) as (rs & L & I & R).
  destruct (rolle_list (legendre n) rs I) as (ss & Ls & H).
  - intros i Hi. apply R. now apply nth_In.
  - exists ss. split; [lia|]. split.
    + apply (interleaved_increasing rs); auto. intros i Hi. now apply H.
    + intros r K. destruct (In_nth _ _ 0 K) as (i & Hi & <-).
      destruct (H i Hi) as [B E]. change (nth i ss 0) with (vnth ss i). split; [|exact E].
      assert (In (vnth rs i) rs) by (apply nth_In; lia).
      assert (In (vnth rs (S i)) rs) by (apply nth_In; lia).
      assert (A := proj1 (R _ H0)). assert (A' := proj1 (R _ H1)). lra.
Qed.

(** P_N + P_{N-1} is a multiple of the derivative formula of (x-1)^(N-1)(x+1)^N. *)
Lemma radau_rodr N x : (1 <= N)%nat ->
  INR (fact (N - 1)) * 2 ^ (N - 1) * peval (padd (legendre N) (legendre (N - 1))) x
  = peval (rodr (N - 1) N (N - 1)) x.
Proof.
  intros HN. destruct N as [|m]; [lia|]. replace (S m - 1)%nat with m by lia. clear HN.
  rewrite peval_padd. unfold legendre.
  assert (A := jacobi_rodr (S m) 0 0 x). assert (B := jacobi_rodr m 0 0 x).
  rewrite !Nat.add_0_r in A, B. simpl pow in A, B. rewrite !Rmult_1_r in A, B.
  (* D^(m+1) of (x-1)^(m+1)(x+1)^(m+1) *)
  assert (C : peval (rodr (S m) (S m) (S m)) x
    = INR (S m) * (peval (rodr m (S m) m) x + peval (rodr (S m) m m) x)).
  { unfold rodr.
    change (pderiv_n (S m) ?c) with (pderiv_n m (pderiv c)).
    rewrite (peval_pderiv_n_ext _ (pscale (INR (S m))
       (padd (pmul (ppow [-1; 1] m) (ppow [1; 1] (S m))) (pmul (ppow [-1; 1] (S m)) (ppow [1; 1] m))))).
    - rewrite peval_pderiv_n_pscale, peval_pderiv_n_padd. reflexivity.
    - intros y. rewrite peval_pscale, peval_padd, !peval_pmul, peval_pderiv_pmul.
      assert (P := fun a => deriv_power a (S m) 1 y). change (pderiv_n 1 ?c) with (pderiv c) in P. rewrite !P.
      replace (1 <=? S m)%nat with true by reflexivity.
      replace (S m - 1)%nat with m by lia. rewrite !peval_ppow. simpl peval.
      change (fact (S m)) with (S m * fact m)%nat. rewrite mult_INR.
      assert (INR (fact m) <> 0) by apply INR_fact_neq_0.
      replace (-1 + y * (1 + y * 0)) with (y + -1) by ring.
      replace (1 + y * (1 + y * 0)) with (y + 1) by ring. simpl pow. field. assumption. }
  assert (D : peval (rodr m (S m) m) x - peval (rodr (S m) m m) x = 2 * peval (rodr m m m) x).
  { unfold rodr.
    replace (peval (pderiv_n m (pmul (ppow [-1; 1] m) (ppow [1; 1] (S m)))) x -
      peval (pderiv_n m (pmul (ppow [-1; 1] (S m)) (ppow [1; 1] m))) x)
      with (peval (pderiv_n m (padd (pmul (ppow [-1; 1] m) (ppow [1; 1] (S m)))
         (pscale (-1) (pmul (ppow [-1; 1] (S m)) (ppow [1; 1] m))))) x)
      by (rewrite peval_pderiv_n_padd, peval_pderiv_n_pscale; ring).
    rewrite <- peval_pderiv_n_pscale. apply peval_pderiv_n_ext. intros y.
    rewrite peval_padd, !peval_pscale, !peval_pmul, !peval_ppow. simpl. ring. }
  change (fact (S m)) with (S m * fact m)%nat in A. rewrite mult_INR in A.
  assert (HS : INR (S m) <> 0) by (apply not_0_INR; lia).
  assert (A' : INR (fact m) * 2 ^ m * 2 * peval (jacobi (S m) 0 0) x
     = peval (rodr m (S m) m) x + peval (rodr (S m) m m) x).
  { apply (Rmult_eq_reg_l (INR (S m))); [|exact HS]. rewrite <- C, A. ring. }
  apply (Rmult_eq_reg_l 2); [|lra]. lra.
Qed.

Lemma radau_inner N : (1 <= N)%nat ->
  exists rs, length rs = (N - 1)%nat /\ inner_roots (padd (legendre N) (legendre (N - 1))) rs
    /\ peval (padd (legendre N) (legendre (N - 1))) (-1) = 0.
Proof.
  intros HN. destruct (rodr_inner (N - 1) N (N - 1)) as (rs & L & I & R); [lia|lia|].
  assert (K : INR (fact (N - 1)) * 2 ^ (N - 1) <> 0).
  { apply Rmult_integral_contrapositive_currified; [apply INR_fact_neq_0|apply pow_nonzero; lra]. }
  exists rs. split; [exact L|]. split; [split; [exact I|]|].
  - intros r Hr. destruct (R r Hr) as [B E]. split; [exact B|].
    rewrite <- radau_rodr in E by exact HN.
    apply Rmult_integral in E. destruct E; [contradiction|assumption].
  - assert (E := radau_rodr N (-1) HN). rewrite rodr_at_m1 in E by lia.
    apply Rmult_integral in E. destruct E; [contradiction|assumption].
Qed.
