(** Facts about polynomials used for the bottom-up and top-down schemes:
    Taylor's formula with an integral remainder, change of interval, points. *)
From Coq Require Import String.
From Coquelicot Require Import Coquelicot.
From Verif Require Import Prelude PreludeFacts Poly PolyFacts PolyInterp Mat MatFacts
  PwInterpModel PsModel JacobiFacts PsSpec PsPointsProofs PsBaryProofs PsNodesProofs PsProblemProofs PsApplyProofs
  UtilModel UtilSpec GaussFacts UtilProofs BuTdModel BuTdSpec.
Open Scope R_scope.
Open Scope list_scope.

(** Polynomials with the same derivative and a common value are equal. *)
Lemma peval_same_deriv c d t0 : (forall x, peval (pderiv c) x = peval (pderiv d) x) ->
  peval c t0 = peval d t0 -> forall x, peval c x = peval d x.
Proof.
  intros H E x. pose proof (RInt_pderiv c t0 x) as A. pose proof (RInt_pderiv d t0 x) as B.
  rewrite (RInt_peval_ext _ _ t0 x H) in A.
  assert (peval c x - peval c t0 = peval d x - peval d t0) by (now rewrite <- A, <- B). lra.
Qed.

(** Taylor's formula at any point. *)
Lemma taylor_at c t0 x n : (length c <= n)%nat ->
  peval c x = rsum n (fun i => (x - t0) ^ i / INR (fact i) * peval (pderiv_n i c) t0).
Proof.
  intros L. pose proof (taylor_peval (pcomp_affine c t0 1) (x - t0) n) as H.
  rewrite pcomp_affine_length, peval_pcomp_affine in H. specialize (H L).
  replace (t0 + 1 * (x - t0)) with x in H by ring. rewrite H. apply rsum_ext. intros i _.
  rewrite peval_pderiv_n_pcomp_affine, pow1. replace (t0 + 1 * 0) with t0 by ring. ring.
Qed.

(** A polynomial whose n-th derivative is zero. *)
Lemma peval_low c n t0 x : (forall y, peval (pderiv_n n c) y = 0) ->
  peval c x = rsum n (fun i => (x - t0) ^ i / INR (fact i) * peval (pderiv_n i c) t0).
Proof.
  intros H. rewrite (taylor_at c t0 x (n + length c)) by lia. rewrite rsum_split.
  rewrite (rsum_zero (length c)); [ring|]. intros i _.
  rewrite pderiv_n_add.
  assert (Z : forall y, peval (pderiv_n i (pderiv_n n c)) y = 0).
  { intros y. rewrite (peval_pderiv_n_ext _ [] i); [|intros z; simpl; apply H].
    clear. induction i; simpl; auto. }
  rewrite Z. ring.
Qed.

(** Taylor's formula with the remainder as a repeated integral. *)
Lemma taylor_integral c t0 x n :
  peval c x = rsum n (fun i => (x - t0) ^ i / INR (fact i) * peval (pderiv_n i c) t0)
              + peval (pint_n n t0 (pderiv_n n c)) x.
Proof.
  set (r := pint_n n t0 (pderiv_n n c)).
  assert (L := peval_low (padd c (pscale (-1) r)) n t0 x).
  rewrite peval_padd, peval_pscale in L.
  assert (E : peval c x + -1 * peval r x =
    rsum n (fun i => (x - t0) ^ i / INR (fact i) * peval (pderiv_n i c) t0)).
  { rewrite L.
    - apply rsum_ext. intros i Hi. rewrite peval_pderiv_n_padd, peval_pderiv_n_pscale.
      unfold r. rewrite pint_n_deriv by lia. rewrite pint_n_val by lia. ring.
    - intros y. rewrite peval_pderiv_n_padd, peval_pderiv_n_pscale. unfold r.
      rewrite pint_n_deriv by lia. rewrite Nat.sub_diag. simpl. ring. }
  lra.
Qed.

(** The polynomial with given derivatives at [t0] and a given derivative of
    order [length ss]. *)
Fixpoint tay (t0 : R) (ss : vec) (A : list R) : list R :=
  match ss with
  | [] => A
  | s :: ss' => pint_at t0 s (tay t0 ss' A)
  end.
Lemma tay_length t0 ss A : length (tay t0 ss A) = (length ss + length A)%nat.
Proof. induction ss; [reflexivity|]. cbn [tay]. rewrite pint_at_length, IHss. reflexivity. Qed.
Lemma tay_deriv t0 ss A k x : (k <= length ss)%nat ->
  peval (pderiv_n k (tay t0 ss A)) x = peval (tay t0 (skipn k ss) A) x.
Proof.
  revert ss. induction k; intros ss H; [reflexivity|]. destruct ss as [|s ss]; [simpl in H; lia|].
  cbn [pderiv_n skipn tay]. rewrite (peval_pderiv_n_ext _ (tay t0 ss A) k).
  - apply IHk. simpl in H. lia.
  - intros y. apply pint_at_deriv.
Qed.
Lemma tay_val t0 ss A k : (k < length ss)%nat -> peval (pderiv_n k (tay t0 ss A)) t0 = vnth ss k.
Proof.
  intros H. rewrite tay_deriv by lia. unfold vnth. rewrite <- (Nat.add_0_r k) at 2. rewrite <- nth_skipn'.
  destruct (skipn k ss) as [|s l] eqn:E.
  - apply (f_equal (@length R)) in E. rewrite skipn_length in E. simpl in E. lia.
  - cbn [tay nth]. apply pint_at_val.
Qed.
Lemma tay_top t0 ss A x : peval (pderiv_n (length ss) (tay t0 ss A)) x = peval A x.
Proof. rewrite tay_deriv by lia. now rewrite skipn_all. Qed.

(** ** Repeated integrals: linearity and change of interval *)
Lemma pint_at_ext t0 c d y : (forall x, peval c x = peval d x) -> forall x, peval (pint_at t0 y c) x = peval (pint_at t0 y d) x.
Proof. intros H x. rewrite !pint_at_RInt. now rewrite (RInt_peval_ext c d). Qed.
Lemma pint_n_S n t0 c : pint_n (S n) t0 c = pint_at t0 0 (pint_n n t0 c).
Proof. reflexivity. Qed.
Lemma pint_n_ext n t0 c d : (forall x, peval c x = peval d x) -> forall x, peval (pint_n n t0 c) x = peval (pint_n n t0 d) x.
Proof.
  intros H. induction n; [exact H|]. intros x. rewrite !pint_n_S. now apply pint_at_ext.
Qed.
(** Characterisation by the n-th derivative and n zero values. *)
Lemma pint_n_char n t0 c d : (forall k, (k < n)%nat -> peval (pderiv_n k d) t0 = 0) ->
  (forall x, peval (pderiv_n n d) x = peval c x) -> forall x, peval d x = peval (pint_n n t0 c) x.
Proof.
  intros H E x. rewrite (taylor_integral d t0 x n), (rsum_zero n); [|intros i Hi; rewrite H by exact Hi; ring].
  rewrite (pint_n_ext n t0 _ c E). ring.
Qed.
Lemma peval_pderiv_n_plin n w f k x :
  peval (pderiv_n k (plin n w f)) x = rsum n (fun i => w i * peval (pderiv_n k (f i)) x).
Proof.
  revert f x. induction k; intros f x; [apply peval_plin|]. cbn [pderiv_n].
  rewrite (peval_pderiv_n_ext _ (plin n w (fun i => pderiv (f i))) k); [apply IHk|].
  intros y. now rewrite peval_pderiv_plin, peval_plin.
Qed.
Lemma pint_n_plin n t0 m w f x :
  peval (pint_n n t0 (plin m w f)) x = rsum m (fun i => w i * peval (pint_n n t0 (f i)) x).
Proof.
  rewrite <- peval_plin with (f := fun i => pint_n n t0 (f i)). symmetry. apply pint_n_char.
  - intros k Hk. rewrite peval_pderiv_n_plin. apply rsum_zero. intros i _.
    rewrite pint_n_deriv by lia. rewrite pint_n_val by lia. ring.
  - intros y. rewrite peval_pderiv_n_plin, peval_plin. apply rsum_ext. intros i _.
    rewrite pint_n_deriv by lia. now rewrite Nat.sub_diag.
Qed.
(** From [-1, 1] to [t0, tf]. *)
Lemma pderiv_n_in_tau t0 tf c k p :
  peval (pderiv_n k (in_tau t0 tf c)) p = ((tf - t0) / 2) ^ k * peval (pderiv_n k c) (tau_to_t p t0 tf).
Proof. unfold in_tau. rewrite peval_pderiv_n_pcomp_affine. now rewrite tau_to_t_affine. Qed.
Lemma pint_n_in_tau t0 tf c n p :
  peval (pint_n n t0 c) (tau_to_t p t0 tf) = ((tf - t0) / 2) ^ n * peval (pint_n n (-1) (in_tau t0 tf c)) p.
Proof.
  rewrite <- peval_pscale, <- peval_in_tau.
  assert (E : forall x, peval (pscale (((tf - t0) / 2) ^ n) (pint_n n (-1) (in_tau t0 tf c))) x
     = peval (pint_n n (-1) (pscale (((tf - t0) / 2) ^ n) (in_tau t0 tf c))) x).
  { apply pint_n_char.
    - intros k Hk. rewrite peval_pderiv_n_pscale, pint_n_deriv, pint_n_val by lia. ring.
    - intros x. rewrite peval_pderiv_n_pscale, pint_n_deriv, Nat.sub_diag, peval_pscale by lia. reflexivity. }
  rewrite E. apply pint_n_char.
  - intros k Hk. rewrite pderiv_n_in_tau, tau_start, pint_n_deriv, pint_n_val by lia. ring.
  - intros x. rewrite pderiv_n_in_tau, pint_n_deriv, Nat.sub_diag, peval_pscale, peval_in_tau by lia. reflexivity.
Qed.
Lemma in_tau_length t0 tf c : length (in_tau t0 tf c) = length c.
Proof. apply pcomp_affine_length. Qed.

(** ** Points of the two families *)
Lemma bt_all s : In s bt_schemes -> In s all_schemes.
Proof. intros H. cbv in H. cbv. tauto. Qed.
Ltac bt_cases H :=
  cbv [bt_schemes In] in H;
  repeat (destruct H as [H|H]; [symmetry in H; subst|]); [..|destruct H].

Lemma BU_coll_points_eq rr N s order : In s bt_schemes -> BU_coll_points rr N s order = coll_points rr N s order.
Proof. intros H. bt_cases H; reflexivity. Qed.
Lemma bt_unknown rr N s order : ~ In s bt_schemes -> BU_coll_points rr N s order = Err ValueError /\
  BU_construction_points rr N s order = Err ValueError /\ TD_construction_points rr N s order = Err ValueError.
Proof.
  intros H.
  assert (Q : forall a, In a bt_schemes -> (s =? a)%string = false).
  { intros a I. apply String.eqb_neq. intros ->. contradiction. }
  assert (M : mem s ["LGL"%string] = false).
  { destruct (mem s _) eqn:B; [|reflexivity]. apply mem_In in B. exfalso. apply H. cbv in B. cbv. tauto. }
  assert (E : BU_coll_points rr N s order = Err ValueError).
  { unfold BU_coll_points. rewrite M. repeat rewrite Q by (cbv; tauto). reflexivity. }
  unfold BU_construction_points, TD_construction_points. rewrite E. repeat split.
Qed.

Section Points.
Variable rr : list R -> list R.
Hypothesis OK : real_roots_ok rr.
Lemma bt_points s N order : In s bt_schemes -> enough_points s N ->
  exists c, inner_set (N - b2n (starts s) - b2n (ends s)) c /\
    BU_coll_points rr N s order = Ok (with_ends (starts s) (ends s) c) /\
    coll_points rr N s order = Ok (with_ends (starts s) (ends s) c) /\
    BU_construction_points rr N s order = Ok (with_ends false true c) /\
    TD_construction_points rr N s order = Ok (with_ends true true c) /\
    get_coll_indices s = Ok (1 - b2n (starts s), 1 - b2n (ends s))%nat /\
    length (with_ends (starts s) (ends s) c) = N.
Proof.
  intros H E. destruct (coll_points_inner rr OK s N order (bt_all s H) E) as (c & Ec & S).
  exists c. split; [exact S|]. rewrite <- BU_coll_points_eq in Ec by exact H.
  split; [exact Ec|]. split; [now rewrite <- BU_coll_points_eq|].
  unfold BU_construction_points, TD_construction_points. rewrite Ec. cbn [rbind].
  assert (L : length (with_ends (starts s) (ends s) c) = N).
  { rewrite with_ends_length. destruct S as [-> _]. apply enough_length; auto using bt_all. }
  repeat split; try exact L.
  - clear - H. bt_cases H; unfold with_ends; cbv [starts ends]; simpl; rewrite ?app_nil_r; reflexivity.
  - clear - H. bt_cases H; unfold with_ends; cbv [starts ends]; simpl; rewrite ?app_nil_r; try reflexivity.
  - clear - H. bt_cases H; reflexivity.
Qed.
End Points.
