(** The Legendre and Jacobi collocation points are the nodes of Gauss, Radau
    and Lobatto rules: orthogonality of the polynomial that vanishes on them,
    and what it gives for (repeated) integrals. *)
From Coquelicot Require Import Coquelicot.
From Coq Require Import String.
From Verif Require Import Prelude PreludeFacts Poly PolyFacts PolyInterp Mat PwInterpModel PsModel JacobiFacts PsSpec
  PsNodesProofs
  PsPointsProofs PsProblemProofs UtilModel UtilSpec GaussFacts UtilProofs UtilMoreProofs.
Open Scope R_scope.
Open Scope list_scope.

(** [W] is orthogonal to the polynomials with at most [n] coefficients, with
    the weight (1 - x)^e on [-1, 1]. *)
Definition orth (e n : nat) (W : list R) : Prop :=
  forall q, (length q <= n)%nat -> RInt (peval (pmul (pmul (ppow [1; -1] e) W) q)) (-1) 1 = 0.

Lemma orth_scale e n W V k : k <> 0 -> (forall x, peval W x = k * peval V x) -> orth e n W -> orth e n V.
Proof.
  intros K E H q Hq. specialize (H q Hq).
  assert (X : RInt (peval (pmul (pmul (ppow [1; -1] e) W) q)) (-1) 1 = k * RInt (peval (pmul (pmul (ppow [1; -1] e) V) q)) (-1) 1).
  { rewrite <- RInt_pscale. apply RInt_ext_all. intros x. rewrite peval_pscale, !peval_pmul, E. ring. }
  rewrite X in H. apply Rmult_integral in H. tauto.
Qed.

Lemma nodal_multiple pts W x0 : NoDup pts -> (forall r, In r pts -> peval W r = 0) -> (length W <= S (length pts))%nat ->
  peval W x0 <> 0 -> exists k, k <> 0 /\ forall x, peval W x = k * peval (pfromroots pts) x.
Proof.
  intros ND Z L NZ. destruct (poly_divide pts ND W Z) as (q & Lq & E).
  assert (Hq : forall x, peval q x = peval q 0).
  { intros x. destruct q as [|a [|b q]]; [reflexivity|simpl; ring|]. simpl in Lq. lia. }
  exists (peval q 0). split.
  - intros A. apply NZ. rewrite E, Hq, A. ring.
  - intros x. rewrite E, Hq. ring.
Qed.

(** ** Orthogonality *)
Lemma rodr_orth p s : forall k, (k <= p)%nat -> (k <= s)%nat -> forall q, (length q <= k)%nat ->
  RInt (peval (pmul (rodr p s k) q)) (-1) 1 = 0.
Proof.
  induction k as [|k IH]; intros Hp Hs q Hq.
  - destruct q; [|simpl in Hq; lia].
    rewrite (RInt_peval_ext _ []); [apply RInt_nil|]. intros x. rewrite peval_pmul. simpl. rg.
  - rewrite (RInt_pmul_ext _ (pderiv (rodr p s k))).
    2:{ intros x. unfold rodr. rewrite pderiv_n_S. reflexivity. }
    rewrite RInt_parts, rodr_at_1, rodr_at_m1 by lia.
    rewrite IH; [rg|lia|lia|]. rewrite pderiv_length. lia.
Qed.

Lemma jacobi_orth n a b W : (forall x, peval W x = (1 + x) ^ b * peval (jacobi n a b) x) -> orth a n W.
Proof.
  intros EW q Hq. pose proof (rodr_orth (n + a) (n + b) n ltac:(lia) ltac:(lia) q Hq) as H.
  set (K := INR (fact n) * 2 ^ n * (-1) ^ a).
  assert (HK : K <> 0).
  { unfold K. repeat apply Rmult_integral_contrapositive_currified; [apply INR_fact_neq_0|apply pow_nonzero; lra|apply pow_nonzero; lra]. }
  assert (E : RInt (peval (pmul (rodr (n + a) (n + b) n) q)) (-1) 1 = K * RInt (peval (pmul (pmul (ppow [1; -1] a) W) q)) (-1) 1).
  { rewrite <- RInt_pscale. apply RInt_ext_all. intros x. rewrite peval_pscale, !peval_pmul, jacobi_rodr, EW, peval_ppow.
    replace (peval [1; -1] x) with (1 - x) by (simpl; ring).
    replace (x - 1) with (-1 * (1 - x)) by ring. rewrite Rpow_mult_distr. unfold K. replace (x + 1) with (1 + x) by ring. rg. }
  rewrite E in H. apply Rmult_integral in H. tauto.
Qed.

Lemma roots_nodal rr c : real_roots_ok rr -> (exists x, peval c x <> 0) -> forall r, In r (rr c) -> peval c r = 0.
Proof.
  intros OK NZ r Hr. destruct (OK c NZ) as [_ (d & _ & E)]. rewrite E.
  assert (Z : peval (pfromroots (rr c)) r = 0).
  { rewrite peval_pfromroots. clear - Hr. induction (rr c) as [|s l IH]; [destruct Hr|]. simpl. destruct Hr as [->|Hr]; [ring|rewrite (IH Hr); ring]. }
  rewrite Z. ring.
Qed.

(** ** Integrals *)
Lemma orth_integral pts e n c d : NoDup pts -> orth e n (pfromroots pts) ->
  (length c <= length pts + n)%nat -> (length d <= length pts)%nat ->
  (forall r, In r pts -> peval d r = peval c r) ->
  rep_RInt (S e) (peval c) (-1) 1 = rep_RInt (S e) (peval d) (-1) 1.
Proof.
  intros ND O Lc Ld A.
  assert (C := cauchy_formula c (-1) 1 e). assert (D := cauchy_formula d (-1) 1 e).
  rewrite !rep_RInt_pint.
  destruct (poly_divide pts ND (popp_add c d)) as (q & Lq & E).
  { intros r Hr. unfold popp_add. rewrite peval_padd, peval_pscale, (A r Hr). ring. }
  assert (Z := O q). rewrite Lq in Z. unfold popp_add in Z at 1. rewrite padd_length, pscale_length in Z.
  specialize (Z ltac:(lia)).
  assert (X : RInt (peval (pmul (pmul (ppow [1; -1] e) (pfromroots pts)) q)) (-1) 1
    = RInt (peval (pmul (ppow [1; -1] e) c)) (-1) 1 + -1 * RInt (peval (pmul (ppow [1; -1] e) d)) (-1) 1).
  { rewrite <- RInt_pscale, <- RInt_padd. apply RInt_ext_all. intros x.
    specialize (E x). unfold popp_add in E. rewrite peval_padd, peval_pscale in E.
    rewrite peval_padd, peval_pscale, !peval_pmul.
    replace (peval (ppow [1; -1] e) x * peval (pfromroots pts) x * peval q x)
      with (peval (ppow [1; -1] e) x * (peval (pfromroots pts) x * peval q x)) by ring.
    rewrite <- E. ring. }
  rewrite X, C, D in Z.
  assert (F := INR_fact_neq_0 e).
  apply (Rmult_eq_reg_l (INR (fact e))); [|exact F]. lra.
Qed.

(** ** The point sets *)
Section Sets.
Variable rr : list R -> list R.
Hypothesis OK : real_roots_ok rr.

Lemma inner_NoDup n c : inner_set n c -> NoDup c.
Proof. intros (_ & I & _). apply increasing_NoDup. exact I. Qed.

Lemma jacobi_nodal n a b : exists k, k <> 0 /\ forall x, peval (jacobi n a b) x = k * peval (pfromroots (rr (jacobi n a b))) x.
Proof.
  assert (S := jacobi_set rr OK n a b). assert (NZ : exists x, peval (jacobi n a b) x <> 0) by (exists 1; apply jacobi_at_1_neq0).
  apply (nodal_multiple _ _ 1).
  - exact (inner_NoDup _ _ S).
  - apply roots_nodal; assumption.
  - destruct S as [-> _]. apply jacobi_length.
  - apply jacobi_at_1_neq0.
Qed.
Lemma pfromroots_app l m x : peval (pfromroots (l ++ m)) x = peval (pfromroots l) x * peval (pfromroots m) x.
Proof. rewrite !peval_pfromroots. induction l as [|a l IH]; simpl; [ring|]. rewrite IH. ring. Qed.
Lemma pfromroots_1 r x : peval (pfromroots [r]) x = x - r.
Proof. rewrite peval_pfromroots. simpl. ring. Qed.

Lemma orth_ext e n V W : (forall x, peval V x = peval W x) -> orth e n V -> orth e n W.
Proof. intros E. apply (orth_scale e n V W 1); [lra|]. intros x. rewrite E. ring. Qed.
(** one factor of the weight inside the polynomial *)
Lemma orth_weight e n V W : (forall x, peval V x = (x - 1) * peval W x) -> orth (S e) n W -> orth e n V.
Proof.
  intros E H q Hq. specialize (H q Hq).
  assert (X : RInt (peval (pmul (pmul (ppow [1; -1] e) V) q)) (-1) 1 = -1 * RInt (peval (pmul (pmul (ppow [1; -1] (S e)) W) q)) (-1) 1).
  { rewrite <- RInt_pscale. apply RInt_ext_all. intros x. rewrite peval_pscale, !peval_pmul, E, !peval_ppow.
    replace (peval [1; -1] x) with (1 - x) by (simpl; ring). simpl pow. ring. }
  rewrite X, H. rg.
Qed.

Lemma JG_orth n a : orth a n (pfromroots (rr (jacobi n a 0))).
Proof.
  destruct (jacobi_nodal n a 0) as (k & K & E). apply (orth_scale a n (jacobi n a 0) _ k K E).
  apply (jacobi_orth n a 0). intros x. simpl. ring.
Qed.
Lemma JGR_orth n a : orth a n (pfromroots ([-1] ++ rr (jacobi n a 1))).
Proof.
  destruct (jacobi_nodal n a 1) as (k & K & E).
  apply (orth_scale a n (pmul [1; 1] (jacobi n a 1)) _ k K).
  - intros x. rewrite pfromroots_app, pfromroots_1, peval_pmul, E. simpl. ring.
  - apply (jacobi_orth n a 1). intros x. rewrite peval_pmul. simpl. ring.
Qed.
Lemma JGR_inv_orth n a : orth a n (pfromroots (rr (jacobi n (S a) 0) ++ [1])).
Proof.
  apply (orth_weight a n _ (pfromroots (rr (jacobi n (S a) 0)))); [|apply JG_orth].
  intros x. rewrite pfromroots_app, pfromroots_1. ring.
Qed.
Lemma JGL_orth n a : orth a n (pfromroots ([-1] ++ rr (jacobi n (S a) 1) ++ [1])).
Proof.
  apply (orth_weight a n _ (pfromroots ([-1] ++ rr (jacobi n (S a) 1)))); [|apply JGR_orth].
  intros x. rewrite !pfromroots_app, !pfromroots_1. ring.
Qed.
Lemma orth_legendre N n : (n <= N)%nat -> orth 0 n (legendre N).
Proof.
  intros L q Hq. rewrite (RInt_peval_ext _ (pmul (legendre N) q)); [apply legendre_orthogonal; lia|].
  intros x. rewrite !peval_pmul, peval_ppow. simpl. ring.
Qed.
Lemma LGR_orth N : (1 <= N)%nat -> orth 0 (N - 1) (pfromroots (LGR rr N)).
Proof.
  intros HN. destruct (LGR_set rr OK N HN) as (c & E & S).
  set (W := padd (legendre N) (legendre (N - 1))).
  assert (NZ : peval W 1 <> 0).
  { unfold W. rewrite peval_padd. unfold legendre. rewrite !jacobi_at_1, !Nat.add_0_r, !binom_n_n. simpl. lra. }
  assert (L : length (LGR rr N) = N).
  { rewrite E, with_ends_length. destruct S as [-> _]. cbn. lia. }
  assert (ND : NoDup (LGR rr N)) by (rewrite E; exact (with_ends_NoDup _ _ _ _ S)).
  destruct (nodal_multiple (LGR rr N) W 1 ND) as (k & K & X).
  - apply roots_nodal; [exact OK|]. exists 1. exact NZ.
  - rewrite L. unfold W. rewrite padd_length. pose proof (jacobi_length N 0 0). pose proof (jacobi_length (N - 1) 0 0). unfold legendre. lia.
  - exact NZ.
  - apply (orth_scale 0 (N - 1) W _ k K X). intros q Hq.
    rewrite (RInt_peval_ext _ (padd (pmul (legendre N) q) (pmul (legendre (N - 1)) q))).
    + rewrite RInt_padd, !legendre_orthogonal by lia. rg.
    + intros x. unfold W. rewrite peval_padd, !peval_pmul, peval_padd, peval_ppow. simpl. ring.
Qed.
Lemma RInt_mirror c : RInt (peval (pcomp_affine c 0 (-1))) (-1) 1 = RInt (peval c) (-1) 1.
Proof.
  pose proof (RInt_affine c 1 (-1)) as H.
  replace (1 + (-1 - 1) / 2) with 0 in H by field. replace ((-1 - 1) / 2) with (-1) in H by field.
  rewrite <- opp_RInt_swap in H.
  - unfold opp in H. simpl in H. lra.
  - apply (ex_RInt_continuous (peval c)). intros x _. apply continuous_peval.
Qed.
Lemma neg_rev_nodal pts x : peval (pfromroots (neg_rev pts)) x = (-1) ^ length pts * peval (pfromroots pts) (- x).
Proof.
  unfold neg_rev. induction pts as [|a pts IH]; [simpl; ring|].
  cbn [rev]. rewrite map_app, pfromroots_app, IH. cbn [map]. rewrite pfromroots_1.
  change (a :: pts) with ([a] ++ pts). rewrite (pfromroots_app [a]), pfromroots_1. cbn [app length pow]. ring.
Qed.
Lemma mirror_orth n pts : orth 0 n (pfromroots pts) -> orth 0 n (pfromroots (neg_rev pts)).
Proof.
  intros H q Hq. specialize (H (pcomp_affine q 0 (-1)) ltac:(rewrite pcomp_affine_length; exact Hq)).
  assert (X : RInt (peval (pmul (pmul (ppow [1; -1] 0) (pfromroots (neg_rev pts))) q)) (-1) 1
    = (-1) ^ length pts * RInt (peval (pmul (pmul (ppow [1; -1] 0) (pfromroots pts)) (pcomp_affine q 0 (-1)))) (-1) 1).
  { rewrite <- (RInt_mirror (pmul (pmul (ppow [1; -1] 0) (pfromroots pts)) _)).
    rewrite <- RInt_pscale. apply RInt_ext_all. intros x.
    rewrite peval_pscale, peval_pcomp_affine, !peval_pmul, peval_pcomp_affine, !peval_ppow, neg_rev_nodal.
    replace (0 + -1 * x) with (- x) by ring. replace (0 + -1 * - x) with x by ring. simpl pow. ring. }
  rewrite X, H. rg.
Qed.
Lemma LGL_orth N : (2 <= N)%nat -> orth 0 (N - 2) (pfromroots (LGL rr N)).
Proof.
  intros HN. set (V := pderiv (legendre (N - 1))). unfold LGL. fold V.
  destruct (legendre_deriv_neq0 (N - 1) ltac:(lia)) as [x0 NZ]. fold V in NZ.
  destruct (LGL_set rr OK N HN) as (c & E & S). unfold LGL, with_ends in E. fold V in E.
  apply app_inv_head, app_inv_tail in E. subst c.
  destruct (nodal_multiple (rr V) V x0) as (k & K & X).
  - exact (inner_NoDup _ _ S).
  - apply roots_nodal; [exact OK|]. exists x0. exact NZ.
  - destruct S as [-> _]. unfold V. rewrite pderiv_length. pose proof (jacobi_length (N - 1) 0 0). unfold legendre. lia.
  - exact NZ.
  - apply (orth_scale 0 (N - 2) (pmul [-1; 0; 1] V) _ k K).
    + intros x. rewrite !pfromroots_app, !pfromroots_1, peval_pmul, X. simpl. ring.
    + intros q Hq. destruct q as [|a q].
      { rewrite (RInt_peval_ext _ []); [apply RInt_nil|]. intros x. rewrite peval_pmul. simpl. rg. }
      rewrite (RInt_peval_ext _ (pmul (pderiv (legendre (N - 1))) (pmul [-1; 0; 1] (a :: q)))).
      * rewrite RInt_parts, !peval_pmul.
        rewrite legendre_orthogonal; [simpl; rg|].
        rewrite pderiv_length. rewrite pmul_length by discriminate. cbn [length] in *. lia.
      * intros x. rewrite !peval_pmul, peval_ppow. unfold V. simpl. ring.
Qed.
End Sets.

Section Final.
Variable rr : list R -> list R.
Hypothesis OK : real_roots_ok rr.

Lemma families_orth s e N order k : In (s, e) gauss_families -> enough_points s N ->
  (if mem s jacobi_schemes then k = order /\ (1 <= order)%nat else k = 1%nat) ->
  exists tc, coll_points rr N s order = Ok tc /\ orth (k - 1) (N - e) (pfromroots tc).
Proof.
  intros F [E1 E2] K. unfold gauss_families in F. cbn [In] in F.
  assert (G1 : orth 0 (N - 0) (pfromroots (LG rr N))) by (rewrite Nat.sub_0_r; exact (JG_orth rr OK N 0)).
  assert (G2 : orth (order - 1) (N - 0) (pfromroots (JG rr N order))) by (rewrite Nat.sub_0_r; exact (JG_orth rr OK N (order - 1))).
  assert (G3 := LGR_orth rr OK N E1).
  repeat (destruct F as [F|F]; [injection F as <- <-|]); [..|contradiction].
  all: try (assert (H3 : (2 <= N)%nat) by (apply E2; cbv; tauto)).
  1-3: simpl in K; subst k; exists (LG rr N); split; [reflexivity|exact G1].
  1-3: simpl in K; destruct K as [-> HO]; exists (JG rr N order); split; [reflexivity|exact G2].
  - simpl in K. subst k. exists (LGR rr N). split; [reflexivity|exact G3].
  - simpl in K. subst k. exists (neg_rev (LGR rr N)). split; [reflexivity|]. apply mirror_orth. exact G3.
  - simpl in K. destruct K as [-> HO]. exists (JGR rr N order). split; [reflexivity|]. exact (JGR_orth rr OK (N - 1) (order - 1)).
  - simpl in K. destruct K as [-> HO]. exists (JGR_inv rr N order). split; [reflexivity|].
    destruct order as [|o]; [lia|]. cbn [Nat.sub]. rewrite Nat.sub_0_r. exact (JGR_inv_orth rr OK (N - 1) o).
  - simpl in K. subst k. exists (LGL rr N). split; [reflexivity|]. exact (LGL_orth rr OK N H3).
  - simpl in K. subst k. exists (LGL rr N). split; [reflexivity|]. exact (LGL_orth rr OK N H3).
  - simpl in K. destruct K as [-> HO]. exists (JGL rr N order). split; [reflexivity|].
    destruct order as [|o]; [lia|]. cbn [Nat.sub]. rewrite Nat.sub_0_r. exact (JGL_orth rr OK (N - 2) o).
Qed.
Lemma families_all s e : In (s, e) gauss_families -> In s all_schemes.
Proof.
  intros F. unfold gauss_families in F. cbn [In] in F.
  repeat (destruct F as [F|F]; [injection F as <- <-; cbv; tauto|]). contradiction.
Qed.
Lemma families_small s e N : In (s, e) gauss_families -> enough_points s N -> (e <= N)%nat.
Proof.
  intros F [E1 E2]. unfold gauss_families in F. cbn [In] in F.
  repeat (destruct F as [F|F]; [injection F as <- <-; try (assert (H3 : (2 <= N)%nat) by (apply E2; cbv; tauto)); lia|]). contradiction.
Qed.

(** The repeated integral of a polynomial and that of its interpolant. *)
Theorem collocation_accuracy s e N order k : In (s, e) gauss_families -> enough_points s N ->
  (if mem s jacobi_schemes then k = order /\ (1 <= order)%nat else k = 1%nat) ->
  exists tc, coll_points rr N s order = Ok tc /\
    forall c d, (length c <= 2 * N - e)%nat -> (length d <= N)%nat -> (forall i, (i < N)%nat -> peval d (vnth tc i) = peval c (vnth tc i)) ->
      rep_RInt k (peval c) (-1) 1 = rep_RInt k (peval d) (-1) 1.
Proof.
  intros F E K. destruct (families_orth s e N order k F E K) as (tc & Ec & O). exists tc. split; [exact Ec|].
  destruct (coll_points_ok rr OK s N order (families_all s e F) E) as (tc' & Ec' & L & I & _).
  assert (tc' = tc) by congruence. subst tc'. assert (HN := families_small s e N F E).
  intros c d Lc Ld A.
  assert (KS : k = S (k - 1)) by (destruct (mem s jacobi_schemes); [destruct K; lia|lia]).
  rewrite KS. apply (orth_integral tc (k - 1) (N - e)).
  - apply increasing_NoDup. exact I.
  - exact O.
  - lia.
  - lia.
  - intros r Hr. apply (In_nth _ _ 0) in Hr. destruct Hr as (i & Hi & <-). apply A. lia.
Qed.

(** The weights of the Legendre schemes have Gauss, Radau and Lobatto degrees. *)
Theorem weights_accuracy lg s e N order : leggauss_ok lg -> In (s, e) gauss_families -> mem s jacobi_schemes = false ->
  enough_points s N ->
  exists tc w, coll_points rr N s order = Ok tc /\ get_weights rr lg N s order "u" = Ok w /\ quad_exact (2 * N - e) tc w.
Proof.
  intros LGOK F J E.
  destruct (collocation_accuracy s e N order 1 F E) as (tc & Ec & X); [rewrite J; reflexivity|].
  destruct (get_weights_u_full rr OK lg LGOK N s order (families_all s e F) E) as (tc' & w & Ec' & Ew & L & Q & _).
  assert (tc' = tc) by congruence. subst tc'. exists tc, w. split; [exact Ec|]. split; [exact Ew|].
  destruct Q as [Lw Q]. split; [exact Lw|]. intros c Lc.
  destruct (coll_points_ok rr OK s N order (families_all s e F) E) as (tc' & Ec'' & _ & I & _).
  assert (tc' = tc) by congruence. subst tc'.
  destruct (lagr_interp_ok tc (map (peval c) tc) (increasing_NoDup _ I)) as [Ld V].
  set (d := lagr_interp tc (map (peval c) tc)) in *.
  assert (V' : forall i, (i < N)%nat -> peval d (vnth tc i) = peval c (vnth tc i)).
  { intros i Hi. rewrite V by lia. apply vnth_map_peval. lia. }
  replace (map (peval c) tc) with (map (peval d) tc).
  - rewrite Q by lia. symmetry. apply (X c d Lc ltac:(lia) V').
  - apply map_ext_in. intros r Hr. apply (In_nth _ _ 0) in Hr. destruct Hr as (i & Hi & <-). apply V'. lia.
Qed.
End Final.

Lemma quad_example : exists rr, real_roots_ok rr /\ In ("JGL"%string, 2%nat) gauss_families /\ enough_points "JGL" 3 /\
  (if mem "JGL" jacobi_schemes then (3 = 3 /\ 1 <= 3)%nat else 3%nat = 1%nat).
Proof.
  destruct PsNodesProofs.real_roots_exist as [rr OK]. exists rr. split; [exact OK|]. split; [cbv; tauto|].
  split; [split; intros; lia|]. cbn. lia.
Qed.
