(** Gauss quadrature: existence of the rule, its points are the roots of the
    Legendre polynomial, and integrals of polynomials. *)
From Coq Require Import String ClassicalEpsilon.
From Coquelicot Require Import Coquelicot.
From Verif Require Import Prelude PreludeFacts Poly PolyFacts PolyInterp Mat MatFacts
  PwInterpModel PsModel JacobiFacts PsSpec PsPointsProofs UtilSpec.
Open Scope R_scope.
Open Scope list_scope.

Ltac req := match goal with |- @eq _ ?a ?b => change (@eq R a b) end.
Ltac rg := first [ring | req; ring].

(** ** Integrals of polynomials *)
Lemma RInt_pderiv c a b : RInt (peval (pderiv c)) a b = peval c b - peval c a.
Proof.
  apply is_RInt_unique.
  apply (is_RInt_derive (V := R_CompleteNormedModule) (peval c) (peval (pderiv c))).
  - intros x _. apply is_derive_peval.
  - intros x _. apply continuous_peval.
Qed.

Lemma RInt_ext_all (f g : R -> R) a b : (forall x, f x = g x) -> RInt f a b = RInt g a b.
Proof. intros H. apply RInt_ext. intros x _. apply H. Qed.

Lemma RInt_peval_ext c d a b : (forall x, peval c x = peval d x) -> RInt (peval c) a b = RInt (peval d) a b.
Proof. apply RInt_ext_all. Qed.

(** If F' = c then the integral of c is the increase of F. *)
Lemma RInt_antideriv F c a b : (forall x, peval (pderiv F) x = peval c x) ->
  RInt (peval c) a b = peval F b - peval F a.
Proof. intros H. rewrite <- (RInt_pderiv F a b). apply RInt_ext_all. intros x. symmetry. apply H. Qed.

Lemma RInt_padd c d a b : RInt (peval (padd c d)) a b = RInt (peval c) a b + RInt (peval d) a b.
Proof.
  rewrite (RInt_antideriv (padd (pint c) (pint d)) (padd c d)).
  - rewrite !RInt_peval, !peval_padd. rg.
  - intros x. rewrite peval_pderiv_padd, !peval_pderiv_pint, peval_padd. reflexivity.
Qed.
Lemma RInt_pscale k c a b : RInt (peval (pscale k c)) a b = k * RInt (peval c) a b.
Proof.
  rewrite (RInt_antideriv (pscale k (pint c)) (pscale k c)).
  - rewrite !RInt_peval, !peval_pscale. rg.
  - intros x. rewrite peval_pderiv_pscale, !peval_pderiv_pint, peval_pscale. reflexivity.
Qed.
Lemma RInt_nil a b : RInt (peval []) a b = 0.
Proof. rewrite RInt_peval. unfold pint. simpl. rg. Qed.

Lemma RInt_plin n w f a b :
  RInt (peval (plin n w f)) a b = rsum n (fun i => w i * RInt (peval (f i)) a b).
Proof.
  rewrite (RInt_antideriv (plin n w (fun i => pint (f i))) (plin n w f)).
  - rewrite !peval_plin. rewrite <- rsum_minus. apply rsum_ext. intros i _. rewrite RInt_peval. rg.
  - intros x. rewrite peval_pderiv_plin, peval_plin. apply rsum_ext. intros i _.
    rewrite peval_pderiv_pint. reflexivity.
Qed.

(** Integration by parts. *)
Lemma RInt_parts f g a b :
  RInt (peval (pmul (pderiv f) g)) a b
  = peval f b * peval g b - peval f a * peval g a - RInt (peval (pmul f (pderiv g))) a b.
Proof.
  assert (H : RInt (peval (padd (pmul (pderiv f) g) (pmul f (pderiv g)))) a b
    = peval f b * peval g b - peval f a * peval g a).
  { rewrite (RInt_antideriv (pmul f g)); [rewrite !peval_pmul; rg|].
    intros x. rewrite peval_pderiv_pmul, peval_padd, !peval_pmul. reflexivity. }
  rewrite RInt_padd in H. lra.
Qed.

(** ** Division by the product of (x - r) *)
Lemma poly_divide pts : NoDup pts -> forall c, (forall r, In r pts -> peval c r = 0) ->
  exists q, length q = (length c - length pts)%nat /\
    forall x, peval c x = peval (pfromroots pts) x * peval q x.
Proof.
  induction pts as [|r pts IH]; intros ND c Hc.
  - exists c. split; [simpl; lia|]. intros x. rewrite peval_pfromroots. simpl. rg.
  - inversion ND as [|? ? Hni ND']; subst.
    destruct (poly_div_root c r) as (q1 & L1 & E1).
    destruct (IH ND' q1) as (q & L & E).
    { intros s Hs. assert (Hz : peval c s = 0) by (apply Hc; right; exact Hs).
      rewrite E1, (Hc r (or_introl eq_refl)) in Hz.
      assert (s - r <> 0) by (intros E; apply Hni; replace r with s by lra; exact Hs).
      apply (Rmult_eq_reg_l (s - r)); [lra|assumption]. }
    exists q. split; [simpl; lia|].
    intros x. rewrite E1, (Hc r (or_introl eq_refl)), E, !peval_pfromroots. simpl. rg.
Qed.

(** ** Orthogonality of the Legendre polynomial *)
Lemma RInt_pmul_ext f g q a b : (forall x, peval f x = peval g x) ->
  RInt (peval (pmul f q)) a b = RInt (peval (pmul g q)) a b.
Proof. intros H. apply RInt_ext_all. intros x. rewrite !peval_pmul, H. reflexivity. Qed.

Lemma rodr_orthogonal N : forall k, (k <= N)%nat -> forall q, (length q <= k)%nat ->
  RInt (peval (pmul (rodr N N k) q)) (-1) 1 = 0.
Proof.
  induction k as [|k IH]; intros Hk q Hq.
  - destruct q; [|simpl in Hq; lia].
    rewrite (RInt_peval_ext _ []); [apply RInt_nil|]. intros x. rewrite peval_pmul. simpl. rg.
  - rewrite (RInt_pmul_ext _ (pderiv (rodr N N k))).
    2:{ intros x. unfold rodr. rewrite pderiv_n_S. reflexivity. }
    rewrite RInt_parts, rodr_at_1, rodr_at_m1 by lia.
    rewrite IH; [rg|lia|]. rewrite pderiv_length. lia.
Qed.

Lemma legendre_orthogonal N q : (length q <= N)%nat -> RInt (peval (pmul (legendre N) q)) (-1) 1 = 0.
Proof.
  intros Hq. pose proof (rodr_orthogonal N N (le_n N) q Hq) as H.
  set (K := INR (fact N) * 2 ^ N) in *.
  assert (HK : K <> 0).
  { unfold K. apply Rmult_integral_contrapositive_currified; [apply INR_fact_neq_0|apply pow_nonzero; lra]. }
  assert (E : RInt (peval (pmul (rodr N N N) q)) (-1) 1 = K * RInt (peval (pmul (legendre N) q)) (-1) 1).
  { rewrite <- RInt_pscale. apply RInt_ext_all. intros x. rewrite peval_pscale, !peval_pmul.
    pose proof (jacobi_rodr N 0 0 x) as J. rewrite !Nat.add_0_r in J. rewrite J. simpl pow.
    unfold K, legendre. rg. }
  rewrite E in H. apply Rmult_integral in H. tauto.
Qed.

(** ** The rule *)
Definition gauss_weights (pts : list R) : list R :=
  map (fun i => RInt (peval (lagr pts i)) (-1) 1) (seq 0 (length pts)).

Lemma vdot_rsum ws : forall ys n, length ws = n -> length ys = n ->
  vdot ws ys = rsum n (fun i => vnth ws i * vnth ys i).
Proof.
  induction ws as [|w ws IH]; intros [|y ys] n L1 L2; cbn [length] in L1, L2; subst n; try discriminate.
  - reflexivity.
  - rewrite rsum_S_l. unfold vdot. cbn [vmul map2 vsum fold_right].
    change (vsum (map2 Rmult ws ys)) with (vdot ws ys).
    change (fold_right Rplus 0 (map2 Rmult ws ys)) with (vdot ws ys).
    rewrite (IH ys (length ws)) by congruence. reflexivity.
Qed.

Lemma interp_weights_exact pts : NoDup pts -> (0 < length pts)%nat ->
  quad_exact (length pts) pts (gauss_weights pts).
Proof.
  intros ND Hn. split; [unfold gauss_weights; rewrite map_length, seq_length; reflexivity|].
  intros c Hc. rewrite (vdot_rsum _ _ (length pts)); [| |apply map_length].
  2:{ unfold gauss_weights. rewrite map_length, seq_length. reflexivity. }
  rewrite (RInt_peval_ext c (plin (length pts) (fun i => peval c (vnth pts i)) (lagr pts))).
  - rewrite RInt_plin. apply rsum_ext. intros i Hi. unfold gauss_weights, vnth at 1 2.
    rewrite (nth_indep _ 0 (RInt (peval (lagr pts 0)) (-1) 1)) by (rewrite map_length, seq_length; exact Hi).
    rewrite (map_nth (fun i => RInt (peval (lagr pts i)) (-1) 1)), seq_nth by exact Hi.
    rewrite (nth_indep _ 0 (peval c 0)) by (rewrite map_length; exact Hi).
    rewrite (map_nth (peval c)). rewrite Nat.add_0_l.
    unfold vnth. rg.
  - intros x. rewrite peval_plin.
    rewrite (interp_lagr pts (map (peval c) pts) c ND (interpolates_self pts c Hc)).
    apply rsum_ext. intros i Hi. unfold vnth.
    rewrite (nth_indep _ 0 (peval c 0)) by (rewrite map_length; exact Hi).
    rewrite (map_nth (peval c)). reflexivity.
Qed.

Lemma gauss_rule_from pts N : (1 <= N)%nat -> length pts = N -> increasing pts ->
  Forall (fun x => -1 < x < 1) pts -> (forall r, In r pts -> peval (legendre N) r = 0) ->
  gauss_rule N pts (gauss_weights pts).
Proof.
  intros HN L I F Z. pose proof (increasing_NoDup _ I) as ND.
  split; [exact L|]. split; [exact I|]. split; [exact F|].
  destruct (interp_weights_exact pts ND ltac:(lia)) as [LW EX].
  split; [exact LW|]. intros c Hc.
  set (r := lagr_interp pts (map (peval c) pts)).
  pose proof (lagr_interp_ok pts (map (peval c) pts) ND) as Hr. fold r in Hr.
  destruct Hr as [Lr Er].
  set (d := padd c (pscale (-1) r)).
  assert (Ed : forall x, peval d x = peval c x - peval r x).
  { intros x. unfold d. rewrite peval_padd, peval_pscale. rg. }
  assert (Er' : forall s, In s pts -> peval r s = peval c s).
  { intros s Hs. apply (In_nth _ _ 0) in Hs. destruct Hs as (i & Hi & <-).
    change (nth i pts 0) with (vnth pts i). rewrite Er by exact Hi. unfold vnth.
    rewrite (nth_indep _ 0 (peval c 0)) by (rewrite map_length; exact Hi). rewrite map_nth. reflexivity. }
  destruct (poly_divide pts ND d) as (q & Lq & Eq).
  { intros s Hs. rewrite Ed, Er' by exact Hs. rg. }
  destruct (poly_divide pts ND (legendre N) Z) as (k & Lk & Ek).
  assert (Hk : exists k0, k0 <> 0 /\ forall x, peval (pfromroots pts) x = k0 * peval (legendre N) x).
  { pose proof (jacobi_length N 0 0) as JL. change (jacobi N 0 0) with (legendre N) in JL.
    pose proof (jacobi_at_1_neq0 N 0 0) as J1. change (jacobi N 0 0) with (legendre N) in J1.
    destruct k as [|k0 [|]].
    - exfalso. apply J1. rewrite Ek. simpl. rg.
    - exists (/ k0). assert (k0 <> 0).
      { intros ->. apply J1. rewrite Ek. simpl. rg. }
      split; [apply Rinv_neq_0_compat; assumption|].
      intros x. rewrite Ek. simpl. field. assumption.
    - exfalso. simpl in Lk. lia. }
  destruct Hk as (k0 & Hk0 & EW).
  assert (Hd : RInt (peval d) (-1) 1 = 0).
  { rewrite (RInt_peval_ext d (pscale k0 (pmul (legendre N) q))).
    - rewrite RInt_pscale, legendre_orthogonal; [rg|].
      rewrite Lq. unfold d. rewrite padd_length, pscale_length. lia.
    - intros x. rewrite Eq, EW, peval_pscale, peval_pmul. rg. }
  assert (Hc' : RInt (peval c) (-1) 1 = RInt (peval r) (-1) 1).
  { assert (E : RInt (peval c) (-1) 1 = RInt (peval (padd d r)) (-1) 1).
    { apply RInt_ext_all. intros x. rewrite peval_padd, Ed. rg. }
    rewrite E, RInt_padd, Hd. rg. }
  rewrite Hc', <- EX by lia. f_equal.
  apply map_ext_in. intros s Hs. symmetry. apply Er'. exact Hs.
Qed.

Lemma gauss_rule_exists N : (1 <= N)%nat -> exists pts ws, gauss_rule N pts ws.
Proof.
  intros HN. destruct (jacobi_inner N 0 0) as (pts & L & I).
  exists pts, (gauss_weights pts). apply gauss_rule_from; try assumption.
  - apply I.
  - apply Forall_forall. intros x Hx. destruct I as (_ & I). 
    apply I. exact Hx.
  - intros r Hr. destruct I as (_ & I). apply I. exact Hr.
Qed.

Lemma gauss_rule_pair N : (1 <= N)%nat -> exists pw, gauss_rule N (fst pw) (snd pw).
Proof. intros H. destruct (gauss_rule_exists N H) as (p & w & E). exists (p, w). exact E. Qed.

Lemma leggauss_exists : exists lg, leggauss_ok lg.
Proof.
  exists (fun N => match excluded_middle_informative (1 <= N)%nat with
    | left H => proj1_sig (constructive_indefinite_description _ (gauss_rule_pair N H))
    | right _ => ([], [])
    end).
  intros N HN. destruct (excluded_middle_informative (1 <= N)%nat) as [H|H]; [|contradiction].
  destruct (constructive_indefinite_description _ _) as [pw E]. exact E.
Qed.

(** ** The points of a Gauss rule are the roots of the Legendre polynomial *)
Lemma RInt_sq_pos c x0 : -1 < x0 < 1 -> peval c x0 <> 0 -> 0 < RInt (peval (pmul c c)) (-1) 1.
Proof.
  intros Hx Hc.
  set (g := peval (pmul c c)).
  assert (Hg : forall x, 0 <= g x).
  { intros x. unfold g. rewrite peval_pmul. apply Rle_0_sqr. }
  assert (Hp : 0 < g x0).
  { unfold g. rewrite peval_pmul. apply Rsqr_pos_lt. exact Hc. }
  assert (Hcont : continuous g x0) by apply continuous_peval.
  assert (Hl : locally x0 (fun x => 0 < g x)).
  { apply (Hcont (fun y => 0 < y)). exists (mkposreal _ Hp). intros y Hy.
    unfold ball in Hy; simpl in Hy; unfold AbsRing_ball, abs, minus, plus, opp in Hy; simpl in Hy.
    apply Rabs_def2 in Hy. lra. }
  destruct Hl as [e He].
  set (a := Rmax (-1) (x0 - e / 2)). set (b := Rmin 1 (x0 + e / 2)).
  pose proof (cond_pos e) as Epos.
  assert (Hab : -1 <= a /\ a < b /\ b <= 1 /\ x0 - e / 2 <= a /\ b <= x0 + e / 2).
  { unfold a, b. repeat split.
    - apply Rmax_l.
    - apply Rmax_lub_lt; apply Rmin_glb_lt; lra.
    - apply Rmin_l.
    - apply Rmax_r.
    - apply Rmin_r. }
  assert (Hex : forall u v, ex_RInt g u v) by (intros; apply ex_RInt_peval).
  assert (E : RInt g (-1) 1 = RInt g (-1) a + RInt g a b + RInt g b 1).
  { pose proof (RInt_Chasles g (-1) a b (Hex _ _) (Hex _ _)) as E1.
    pose proof (RInt_Chasles g (-1) b 1 (Hex _ _) (Hex _ _)) as E2.
    unfold plus in E1, E2; simpl in E1, E2. req. rewrite <- E2, <- E1. reflexivity. }
  assert (H1 : 0 <= RInt g (-1) a) by (apply RInt_ge_0; [lra|apply Hex|intros; apply Hg]).
  assert (H3 : 0 <= RInt g b 1) by (apply RInt_ge_0; [lra|apply Hex|intros; apply Hg]).
  assert (H2 : 0 < RInt g a b).
  { apply RInt_gt_0; [lra| |intros; apply continuous_peval].
    intros x Hx'. apply He. unfold ball; simpl; unfold AbsRing_ball, abs, minus, plus, opp; simpl.
    apply Rabs_def1; lra. }
  rewrite E. lra.
Qed.

Lemma vnth_map_peval c pts i : (i < length pts)%nat -> vnth (map (peval c) pts) i = peval c (vnth pts i).
Proof.
  intros H. unfold vnth. rewrite (nth_indep _ 0 (peval c 0)) by (rewrite map_length; exact H).
  apply map_nth.
Qed.

Lemma quad_exact_lagr pts ws d i c : NoDup pts -> quad_exact d pts ws -> (i < length pts)%nat ->
  (length (pmul (lagr pts i) c) <= d)%nat ->
  RInt (peval (pmul (lagr pts i) c)) (-1) 1 = vnth ws i * peval c (vnth pts i).
Proof.
  intros ND [LW EX] Hi Hd. rewrite <- EX by exact Hd.
  rewrite (vdot_rsum _ _ (length pts)) by (try apply map_length; assumption).
  rewrite (rsum_ext _ _ (fun j => if Nat.eqb j i then vnth ws j * peval c (vnth pts j) else 0)).
  - apply (rsum_delta (length pts) i (fun j => vnth ws j * peval c (vnth pts j)) Hi).
  - intros j Hj. rewrite vnth_map_peval, peval_pmul, lagr_at by assumption.
    rewrite (Nat.eqb_sym i j). destruct (Nat.eqb j i); ring.
Qed.

Lemma pmul_le c d : (length (pmul c d) <= length c + length d - 1)%nat \/ (length c = 0)%nat \/ (length d = 0)%nat.
Proof. apply pmul_length_le. Qed.

Lemma gauss_weight_pos N pts ws i : gauss_rule N pts ws -> (i < N)%nat -> 0 < vnth ws i.
Proof.
  intros (L & I & F & Q) Hi. pose proof (increasing_NoDup _ I) as ND. subst N.
  pose proof (lagr_length pts i Hi) as LL.
  assert (E := quad_exact_lagr pts ws _ i (lagr pts i) ND Q Hi).
  rewrite lagr_at, Nat.eqb_refl in E by assumption. rewrite Rmult_1_r in E. rewrite <- E.
  - apply (RInt_sq_pos _ (vnth pts i)).
    + rewrite Forall_forall in F. apply F. apply nth_In. exact Hi.
    + rewrite lagr_at, Nat.eqb_refl by assumption. lra.
  - rewrite pmul_length; [lia| |]; intros E'; rewrite E' in LL; simpl in LL; lia.
Qed.

Lemma gauss_points_roots N pts ws : gauss_rule N pts ws ->
  forall r, In r pts -> peval (legendre N) r = 0.
Proof.
  intros G r Hr. pose proof G as (L & I & F & Q). pose proof (increasing_NoDup _ I) as ND.
  apply (In_nth _ _ 0) in Hr. destruct Hr as (i & Hi & <-). change (nth i pts 0) with (vnth pts i).
  pose proof (gauss_weight_pos N pts ws i G ltac:(lia)) as W.
  assert (E := quad_exact_lagr pts ws _ i (legendre N) ND Q Hi).
  assert (Z : RInt (peval (pmul (lagr pts i) (legendre N))) (-1) 1 = 0).
  { rewrite <- (legendre_orthogonal N (lagr pts i)).
    - apply RInt_ext_all. intros x. rewrite !peval_pmul. ring.
    - rewrite lagr_length by exact Hi. lia. }
  rewrite Z in E. 
  pose proof (jacobi_length N 0 0) as JL. change (jacobi N 0 0) with (legendre N) in JL.
  pose proof (lagr_length pts i Hi) as LL.
  assert (E' : 0 = vnth ws i * peval (legendre N) (vnth pts i)).
  { apply E. destruct (pmul_le (lagr pts i) (legendre N)) as [H|[H|H]]; [lia|lia|].
    exfalso. apply (jacobi_at_1_neq0 N 0 0). change (jacobi N 0 0) with (legendre N).
    destruct (legendre N); [reflexivity|discriminate]. }
  symmetry in E'. apply Rmult_integral in E'. destruct E' as [E'|E']; [lra|exact E'].
Qed.

(** numpy's Gauss points are those of the scheme LG. *)
Lemma leggauss_LG rr lg N : real_roots_ok rr -> leggauss_ok lg -> (1 <= N)%nat ->
  fst (lg N) = LG rr N.
Proof.
  intros HR HL HN. pose proof (HL N HN) as G. pose proof (gauss_points_roots _ _ _ G) as Z.
  destruct G as (L & I & F & Q). unfold LG. symmetry. apply (real_roots_char rr); try assumption.
  - rewrite L. apply jacobi_length.
  - exists 1. apply (jacobi_at_1_neq0 N 0 0).
Qed.

(** ** Antiderivatives with a given value *)
Definition pint_at (t0 y0 : R) (c : list R) : list R := padd [y0 - peval (pint c) t0] (pint c).
Global Arguments pint_at : simpl never.
Fixpoint pint_n (n : nat) (t0 : R) (c : list R) : list R :=
  match n with O => c | S k => pint_at t0 0 (pint_n k t0 c) end.

Lemma pint_at_deriv t0 y0 c x : peval (pderiv (pint_at t0 y0 c)) x = peval c x.
Proof.
  unfold pint_at. rewrite peval_pderiv_padd, peval_pderiv_pint. unfold pderiv. simpl. ring.
Qed.
Lemma pint_at_val t0 y0 c : peval (pint_at t0 y0 c) t0 = y0.
Proof. unfold pint_at. rewrite peval_padd. simpl. ring. Qed.
Lemma pint_at_RInt t0 y0 c t : peval (pint_at t0 y0 c) t = y0 + RInt (peval c) t0 t.
Proof. rewrite RInt_peval. unfold pint_at. rewrite peval_padd. simpl. rg. Qed.
Lemma pint_at_length t0 y0 c : length (pint_at t0 y0 c) = S (length c).
Proof. unfold pint_at. rewrite padd_length, pint_length. simpl. lia. Qed.
Lemma pint_n_length n t0 c : length (pint_n n t0 c) = (n + length c)%nat.
Proof. induction n; [reflexivity|]. cbn [pint_n]. rewrite pint_at_length, IHn. lia. Qed.

Lemma rep_RInt_pint n t0 c t : rep_RInt n (peval c) t0 t = peval (pint_n n t0 c) t.
Proof.
  revert t. induction n; intros t; [reflexivity|]. cbn [pint_n rep_RInt].
  rewrite pint_at_RInt, Rplus_0_l. apply RInt_ext_all. exact IHn.
Qed.

Lemma pint_n_deriv n t0 c k x : (k <= n)%nat ->
  peval (pderiv_n k (pint_n n t0 c)) x = peval (pint_n (n - k) t0 c) x.
Proof.
  revert n x. induction k; intros n x Hk; [rewrite Nat.sub_0_r; reflexivity|].
  destruct n as [|n]; [lia|]. simpl pint_n. simpl Nat.sub.
  change (S k) with (1 + k)%nat. rewrite pderiv_n_add.
  rewrite (peval_pderiv_n_ext _ (pint_n n t0 c)); [apply IHk; lia|].
  intros y. simpl. apply pint_at_deriv.
Qed.
Lemma pint_n_val n t0 c : (0 < n)%nat -> peval (pint_n n t0 c) t0 = 0.
Proof. destruct n; [lia|]. intros _. apply pint_at_val. Qed.

(** Cauchy's formula for repeated integration. *)
Lemma cauchy_formula c t0 t1 n :
  RInt (peval (pmul (ppow [t1; -1] n) c)) t0 t1 = INR (fact n) * peval (pint_n (S n) t0 c) t1.
Proof.
  revert c. induction n; intros c.
  - simpl fact. simpl INR. rewrite Rmult_1_l. simpl pint_n. rewrite pint_at_RInt, Rplus_0_l.
    apply RInt_ext_all. intros x. rewrite peval_pmul. simpl. ring.
  - set (C := pint_at t0 0 c).
    assert (E1 : RInt (peval (pmul (ppow [t1; -1] (S n)) c)) t0 t1
                 = RInt (peval (pmul (pderiv C) (ppow [t1; -1] (S n)))) t0 t1).
    { apply RInt_ext_all. intros x. rewrite !peval_pmul. unfold C. rewrite pint_at_deriv. ring. }
    rewrite E1, RInt_parts. unfold C at 2. rewrite pint_at_val.
    rewrite !peval_ppow. replace (peval [t1; -1] t1) with 0 by (simpl; ring).
    rewrite pow_i by lia.
    assert (E2 : RInt (peval (pmul C (pderiv (ppow [t1; -1] (S n))))) t0 t1
                 = - INR (S n) * RInt (peval (pmul (ppow [t1; -1] n) C)) t0 t1).
    { rewrite <- RInt_pscale. apply RInt_ext_all. intros x. rewrite peval_pscale, !peval_pmul.
      assert (D : peval (pderiv (ppow [t1; -1] (S n))) x = - INR (S n) * peval (ppow [t1; -1] n) x).
      { rewrite <- Derive_peval. rewrite (Derive_ext _ (fun y => (t1 - y) ^ (S n))).
        - rewrite peval_ppow. apply is_derive_unique. auto_derive; [trivial|].
          rewrite S_INR. simpl. replace (t1 + x * (-1 + x * 0)) with (t1 - x) by ring.
          replace (t1 + - x) with (t1 - x) by ring. destruct n; [simpl; ring|rewrite S_INR; ring].
        - intros y. rewrite peval_ppow. simpl. replace (t1 + y * (-1 + y * 0)) with (t1 - y) by ring. reflexivity. }
      rewrite D. ring. }
    rewrite E2, IHn. unfold C.
    assert (E3 : forall k, forall t, peval (pint_n k t0 (pint_at t0 0 c)) t = peval (pint_n (S k) t0 c) t).
    { intros k. induction k; intros t; [reflexivity|].
      change (pint_n (S k) t0 (pint_at t0 0 c)) with (pint_at t0 0 (pint_n k t0 (pint_at t0 0 c))).
      change (pint_n (S (S k)) t0 c) with (pint_at t0 0 (pint_n (S k) t0 c)).
      rewrite !pint_at_RInt. f_equal. apply RInt_ext_all. exact IHk. }
    rewrite E3. rewrite fact_simpl, mult_INR. rg.
Qed.
