(** The results on the equations of motion, in terms of motions. *)
From Coq Require Import String FunctionalExtensionality.
From Coquelicot Require Import Coquelicot.
From Verif Require Import Prelude PreludeFacts PwInterpModel SymModel LagrModel LagrSpec LagrFacts LagrProofs LagrAlgebra LagrReduceProofs LagrMoreProofs.
Open Scope R_scope.
Open Scope list_scope.

(** ** With constraints *)
Section Mechanism.
Variables (D : env -> Prop) (s : lagrange) (B : emat).
Hypothesis ME : mechanism D s B.
Let n := lg_n s.
Let m := length (lg_coneqs s).
Let q := lg_q s.
Let con k := nth k (lg_coneqs s) (Num 0).
Let q1 := fun i => Var (q 1 i).
Variable inv : nat -> emat -> Res emat.
Variable r : reduction.
Hypothesis Hinv : inverts inv.
Hypothesis Hr : reduce inv n m (m_d s) (lam_coeffs s) (f_d s) q1 = Ok r.
Lemma q_dotdot_nth i : (i < n)%nat -> nth (n + i) (rhs_complete_list n m q1 r) (Num 0) = q_dotdot n m q1 r i.
Proof.
  intros Hi. unfold rhs_complete_list. pose proof (me_count _ _ _ ME) as Hm. fold n m in Hm.
  rewrite app_nth2; rewrite map_length, seq_length; [|lia]. replace (n + i - n)%nat with i by lia.
  unfold q_dotdot. destruct (Nat.ltb_spec i (n_ind n m)) as [Hl|Hl].
  - rewrite app_nth1 by (now rewrite map_length, seq_length). now apply nth_map_seq.
  - rewrite app_nth2; rewrite map_length, seq_length; [|lia]. apply nth_map_seq. unfold n_ind in *. lia.
Qed.
Lemma complete_length : length (rhs_complete_list n m q1 r) = (2 * n)%nat.
Proof.
  unfold rhs_complete_list. rewrite !app_length, !map_length, !seq_length. unfold n_ind. pose proof (me_count _ _ _ ME) as Hm. fold n m in Hm. lia.
Qed.
Lemma complete_velocities i : (i < n)%nat -> nth i (rhs_complete_list n m q1 r) (Num 0) = Var (q 1 i).
Proof. intros Hi. unfold rhs_complete_list. rewrite app_nth1 by (now rewrite map_length, seq_length). now rewrite nth_map_seq. Qed.
(** The right-hand side is what the constrained motions follow. *)
Lemma complete_motion g t : motion g -> (forall x, D (g x)) -> (forall x, constrained s (g x)) ->
  ((exists l, obeys s g t l) <->
   (forall i, (i < 2 * n)%nat -> is_derive (fun x => g x (if (i <? n)%nat then q 0 i else q 1 (i - n)%nat)) t (eval (g t) (nth i (rhs_complete_list n m q1 r) (Num 0))))).
Proof.
  intros Hg HD Hc. unfold obeys. rewrite (reduced_motion D s B ME inv r Hinv Hr g t Hg HD Hc). split.
  - intros E i Hi. destruct (Nat.ltb_spec i n) as [Hl|Hl].
    + rewrite complete_velocities by auto. cbn [eval]. apply (proj1 Hg).
    + replace (nth i _ _) with (nth (n + (i - n)) (rhs_complete_list n m q1 r) (Num 0)) by (f_equal; lia).
      rewrite q_dotdot_nth by lia. specialize (E (i - n)%nat ltac:(fold n; lia)).
      change (g t (q 2 (i - n)%nat) = eval (g t) (q_dotdot n m q1 r (i - n)%nat)) in E. rewrite <- E. apply (proj1 Hg).
  - intros E i Hi. specialize (E (n + i)%nat ltac:(unfold n in *; lia)).
    destruct (Nat.ltb_spec (n + i) n) as [Hl|Hl]; [lia|]. replace (n + i - n)%nat with i in E by lia.
    rewrite q_dotdot_nth in E by auto. apply is_derive_unique in E. transitivity (Derive (fun x => g x (q 1 i)) t); [|exact E].
    symmetry. apply is_derive_unique. apply (proj1 Hg).
Qed.
Lemma complete_keeps g t0 : motion g -> (forall t, D (g t)) -> constrained s (g t0) ->
  (forall t i, (i < n)%nat -> is_derive (fun x => g x (q 1 i)) t (eval (g t) (nth (n + i) (rhs_complete_list n m q1 r) (Num 0)))) ->
  forall t, constrained s (g t).
Proof.
  intros Hg HD H0 E t. intros k. apply (constraints_kept D s B ME inv r Hinv Hr g t0 Hg HD H0).
  intros x i Hi. specialize (E x i Hi). rewrite q_dotdot_nth in E by auto. apply is_derive_unique in E.
  transitivity (Derive (fun x => g x (q 1 i)) x); [|exact E]. symmetry. apply is_derive_unique. apply (proj1 Hg).
Qed.
Lemma con_ddt_0 g t : motion g -> D (g t) -> (forall x, constrained s (g x)) -> forall k, (k < m)%nat -> eval (g t) (ddt (con k)) = 0.
Proof.
  intros Hm HD Hc k Hk. pose proof (ddt_derive g t (con k) Hm (proj1 (me_con _ _ _ ME k Hk) _ HD)) as E.
  apply is_derive_unique in E. rewrite (Derive_ext _ (fun _ => 0)) in E by (intros; apply Hc; auto). rewrite Derive_const in E. auto.
Qed.
Lemma obeys_terms g t l : motion g -> (forall x, D (g x)) ->
  (obeys s g t l <->
   forall i, (i < n)%nat -> eval (g t) (term1 s i) - eval (g t) (term2 s i) + rsum m (fun k => eval (g t) (lam_coeffs s k i) * l k) = eval (g t) (lg_forces s i)).
Proof.
  intros Hg HD.
  assert (Hl : forall k i, (k < m)%nat -> partial (fun rho => eval rho (con k)) (q 1 i) (g t) = - eval (g t) (lam_coeffs s k i)).
  { intros k i Hk. rewrite partial_diff by (apply (proj1 (me_con _ _ _ ME k Hk)); auto).
    unfold lam_coeffs. rewrite eval_Neg. fold q. unfold con. ring. }
  assert (He : forall i, euler_lagrange (fun rho => eval rho (lg_L s)) (lg_qs s) i g t = eval (g t) (term1 s i) - eval (g t) (term2 s i)).
  { intros i. apply euler_lagrange_value; auto. intros x. apply (proj1 (me_L _ _ _ ME)); auto. }
  assert (Hs : forall i, rsum m (fun k => l k * partial (fun rho => eval rho (con k)) (q 1 i) (g t)) = - rsum m (fun k => eval (g t) (lam_coeffs s k i) * l k)).
  { intros i. transitivity ((-1) * rsum m (fun k => eval (g t) (lam_coeffs s k i) * l k)); [|ring].
    rewrite <- rsum_scal. apply rsum_ext. intros k Hk. rewrite Hl by auto. ring. }
  unfold obeys. fold n m. split; intros E i Hi; specialize (E i Hi).
  - pose proof (Hs i) as Y. unfold con, q in Y. rewrite He, Y in E. lra.
  - pose proof (Hs i) as Y. unfold con, q in Y. rewrite He, Y. lra.
Qed.
Lemma unique_multipliers g t l l' : motion g -> (forall x, D (g x)) -> (forall x, constrained s (g x)) ->
  obeys s g t l -> obeys s g t l' -> forall k, (k < m)%nat -> l k = l' k.
Proof.
  intros Hg HD Hc. rewrite !obeys_terms by auto. intros H1 H2.
  apply (multipliers_unique D s B ME inv r Hinv Hr (g t) l l'); auto.
  - apply Hc.
  - apply con_ddt_0; auto.
Qed.
Lemma lambda_motion g t : motion g -> (forall x, D (g x)) -> (forall x, constrained s (g x)) ->
  (forall i j, (i < n - m)%nat -> (j < m)%nat ->
     partial (partial (fun rho => eval rho (lg_L s)) (q 1 i)) (q 1 (n - m + j)%nat) (g t) = 0) ->
  (forall k j, (k < m)%nat -> (j < m)%nat -> eval (g t) (B k (n - m + j)%nat) = eval (g t) (B j (n - m + k)%nat)) ->
  (exists l, obeys s g t l) ->
  obeys s g t (fun k => eval (g t) (lambda_vector n m (m_d s) (f_d s) q1 r k)).
Proof.
  intros Hg HD Hc HM HB Hl.
  apply obeys_terms; auto. intros i Hi.
  apply (lambda_right D s B ME inv r Hinv Hr (g t)); auto.
  - apply Hc.
  - intros i' j Hi' Hj. rewrite (me_m_d D s B ME) by (auto; unfold n, m in *; lia). apply HM; auto.
  - (* the inverse of a symmetric matrix is symmetric *)
    assert (Hp : inverse m (fun k j => eval (g t) (lam_coeffs s k (n - m + j)%nat)) (ev (g t) (rd_phi_de_inv r))).
    { exact (P_inverse D s B ME inv r Hinv Hr (g t) (HD t)). }
    intros k j Hk Hj. pose proof (me_count _ _ _ ME) as Hmn. fold n m in Hmn.
    assert (Ht : inverse m (fun k j => eval (g t) (lam_coeffs s k (n - m + j)%nat)) (tr (ev (g t) (rd_phi_de_inv r)))).
    { pose proof (inverse_tr _ _ _ Hp) as [X1 X2]. split.
      - intros a b Ha Hb. rewrite <- (X1 a b Ha Hb). apply rsum_ext. intros l Hl'. f_equal. unfold tr.
        rewrite !(lam_value D s B ME) by (auto; fold n m; lia). now rewrite HB.
      - intros a b Ha Hb. rewrite <- (X2 a b Ha Hb). apply rsum_ext. intros l Hl'. f_equal. unfold tr.
        rewrite !(lam_value D s B ME) by (auto; fold n m; lia). now rewrite HB. }
    exact (inverse_unique m _ _ _ Hp Ht k j Hk Hj).
  - intros i' Hi'. apply (reduced_motion D s B ME inv r Hinv Hr g t Hg HD Hc); auto.
Qed.
End Mechanism.

(** ** Inverse dynamics *)
Section Controls.
Variables (s : lagrange) (us : list atom) (E : nat -> nat -> R) (h : nat -> R) (pinv : nat -> nat -> emat -> emat).
Variables (g : R -> env) (t : R).
Let n := lg_n s.
Let p := length us.
Let u k := nth k us (Static ""%string).
Hypothesis names : NoDup (lg_qs s).
Hypothesis level : up_to 1 (lg_L s).
Hypothesis noacc : forall i, (i < n)%nat -> no_acc (lg_qs s) (lg_forces s i).
Hypothesis Hg : motion g.
Hypothesis smooth : forall x, smooth_at (g x) (lg_L s).
Hypothesis smooth_forces : forall i, (i < n)%nat -> smooth_at (g t) (lg_forces s i).
Hypothesis affine : affine_controls s us (g t) E h.
Lemma no_u_terms a i : In a us -> ~ In a (atoms (Minus (term1 s i) (term2 s i))).
Proof.
  intros Ha. destruct affine as (_ & H & _). destruct (H a Ha) as [H1 H2].
  unfold Minus, Neg, term1, term2. cbn [atoms]. rewrite !in_app_iff. cbn [In].
  intros [Hi|[[]|Hi]].
  - apply atoms_ddt in Hi. destruct Hi as [Hi|(nm & k & -> & Hi)].
    + apply atoms_diff in Hi. auto.
    + destruct H2 as [[nm' E2]|[nm' [E2 _]]]; discriminate E2.
  - apply atoms_diff in Hi. auto.
Qed.
Let f0 i := h i - eval (g t) (qdd_zero (lg_qs s) (Minus (term1 s i) (term2 s i))).
Lemma qdd_zero_ext v v' e qs : (forall a, In a (atoms e) -> v a = v' a) -> eval v (qdd_zero qs e) = eval v' (qdd_zero qs e).
Proof.
  induction e as [x | b | e1 IH1 e2 IH2 | e1 IH1 e2 IH2 | f k e IH]; cbn [qdd_zero eval atoms]; intros H.
  - reflexivity.
  - specialize (H b (or_introl eq_refl)). destruct (in_dec _ _ _); cbn [eval]; auto.
  - rewrite IH1, IH2; auto; intros; apply H; apply in_or_app; auto.
  - rewrite IH1, IH2; auto; intros; apply H; apply in_or_app; auto.
  - rewrite IH; auto.
Qed.
Lemma f_affine v i : (i < n)%nat -> (forall a, ~ In a us -> v a = g t a) ->
  eval v (f_d s i) = rsum p (fun k => E i k * v (u k)) + f0 i.
Proof.
  intros Hi Hv. unfold f_d, without_lam. rewrite eval_Neg.
  change (qdd_zero (lg_qs s) (Minus (Minus (term1 s i) (term2 s i)) (lg_forces s i))) with
    (Minus (qdd_zero (lg_qs s) (Minus (term1 s i) (term2 s i))) (qdd_zero (lg_qs s) (lg_forces s i))).
  rewrite eval_Minus, (eval_qdd_zero_none v (lg_qs s) (lg_forces s i)).
  - rewrite (proj2 (proj2 affine) v i Hi Hv). unfold f0.
    rewrite (qdd_zero_ext v (g t)).
    + unfold p, u. ring.
    + intros a Ha. apply Hv. intros Hu. exact (no_u_terms a i Hu Ha).
  - intros nm Hn Ha. exact (noacc i Hi nm 2%nat Hn (le_n 2) Ha).
Qed.
Fixpoint args_up_to (k : nat) (e : expr) : Prop :=
  match e with
  | Num _ | Var _ => True
  | Plus e1 e2 | Times e1 e2 => args_up_to k e1 /\ args_up_to k e2
  | Func _ _ e => up_to k e /\ args_up_to k e
  end.
Lemma args_of k e : up_to k e -> args_up_to k e.
Proof.
  unfold up_to. induction e as [x | b | e1 IH1 e2 IH2 | e1 IH1 e2 IH2 | f j e IH]; cbn [args_up_to atoms]; intros H; auto.
  - split; [apply IH1|apply IH2]; intros nm j Hj; apply (H nm j); apply in_or_app; auto.
  - split; [apply IH1|apply IH2]; intros nm j Hj; apply (H nm j); apply in_or_app; auto.
Qed.
Lemma args_diff k a e : args_up_to k e -> args_up_to k (diff a e).
Proof.
  induction e as [x | b | e1 IH1 e2 IH2 | e1 IH1 e2 IH2 | f j e IH]; cbn [args_up_to diff]; intros H; try tauto.
  destruct (atom_eq_dec b a); exact I.
Qed.
Lemma args_ddt k e : args_up_to k e -> args_up_to k (ddt e).
Proof.
  induction e as [x | b | e1 IH1 e2 IH2 | e1 IH1 e2 IH2 | f j e IH]; cbn [args_up_to ddt]; intros H; try tauto.
  destruct b; exact I.
Qed.
Lemma smooth_qdd_zero rho qs e : args_up_to 1 e -> smooth_at rho e -> smooth_at rho (qdd_zero qs e).
Proof.
  induction e as [x | b | e1 IH1 e2 IH2 | e1 IH1 e2 IH2 | f j e IH]; cbn [args_up_to smooth_at qdd_zero]; intros H K; try tauto.
  - destruct (in_dec _ _ _); exact I.
  - destruct H as [Hl Ha], K as [K1 K2]. split; auto.
    rewrite eval_qdd_zero_none; auto. intros nm _ Hi. specialize (Hl nm 2%nat Hi). lia.
Qed.
Lemma smooth_qdd_zero_none rho qs e : (forall nm, In nm qs -> ~ In (Dyn nm 2) (atoms e)) -> smooth_at rho e -> smooth_at rho (qdd_zero qs e).
Proof.
  induction e as [x | b | e1 IH1 e2 IH2 | e1 IH1 e2 IH2 | f j e IH]; cbn [atoms smooth_at qdd_zero]; intros H K; auto.
  - destruct (in_dec _ _ _); exact I.
  - split; [apply IH1|apply IH2]; try tauto; intros nm Hn Hi; apply (H nm Hn); apply in_or_app; auto.
  - split; [apply IH1|apply IH2]; try tauto; intros nm Hn Hi; apply (H nm Hn); apply in_or_app; auto.
  - destruct K as [K1 K2]. split; auto. rewrite eval_qdd_zero_none; auto.
Qed.
Lemma smooth_f_d i : (i < n)%nat -> smooth_at (g t) (f_d s i).
Proof.
  intros Hi. unfold f_d, without_lam. apply smooth_Neg.
  change (smooth_at (g t) (Minus (qdd_zero (lg_qs s) (Minus (term1 s i) (term2 s i))) (qdd_zero (lg_qs s) (lg_forces s i)))).
  apply smooth_Minus.
  - apply smooth_qdd_zero.
    + unfold Minus, Neg, term1, term2. cbn [args_up_to]. split; [|split; [exact I|]].
      * apply args_ddt, args_diff, args_of, level.
      * apply args_diff, args_of, level.
    + apply smooth_Minus; [apply smooth_ddt|]; apply smooth_diff, smooth.
  - apply smooth_qdd_zero_none; auto. intros nm Hn Ha. exact (noacc i Hi nm 2%nat Hn (le_n 2) Ha).
Qed.
Let P := ev (g t) (pinv n p (pinv_E s us)).
(** The matrix whose pseudoinverse is taken is the one of the controls. *)
Lemma pinv_matrix i k : (i < n)%nat -> (k < p)%nat -> eval (g t) (pinv_E s us i k) = E i k.
Proof. apply (E_value s us (g t) E f0); auto. exact (proj1 affine). exact f_affine. exact smooth_f_d. Qed.
Lemma same_torques k : eval (g t) (sym_pinv_dyn_simp pinv s us k) = eval (g t) (sym_pinv_dyn_impl pinv s us k).
Proof.
  rewrite (pinv_simp_value s us (g t) E f0) by exact f_affine.
  rewrite (pinv_impl_value s us (g t) E f0); auto. exact (proj1 affine). exact f_affine. exact smooth_f_d.
Qed.
Lemma mass_row i : (i < n)%nat -> mv n (ev (g t) (m_d s)) (fun j => g t (lg_q s 2 j)) i - eval (g t) (f_d s i) =
  euler_lagrange (fun r => eval r (lg_L s)) (lg_qs s) i g t - eval (g t) (lg_forces s i).
Proof. intros Hi. apply mass_forcing_motion; auto. Qed.
(** If the motion obeys the equations the controls are recovered. *)
Lemma controls_recovered :
  (forall k l, (k < p)%nat -> (l < p)%nat -> rsum n (fun i => P k i * E i l) = delta k l) ->
  (forall i, (i < n)%nat -> euler_lagrange (fun r => eval r (lg_L s)) (lg_qs s) i g t = eval (g t) (lg_forces s i)) ->
  forall k, (k < p)%nat -> eval (g t) (sym_pinv_dyn_simp pinv s us k) = g t (u k).
Proof.
  intros HP He k Hk. rewrite (pinv_simp_value s us (g t) E f0) by exact f_affine.
  apply (pinv_recovers s us (g t) E f0 pinv); auto.
  - exact f_affine.
  - intros i Hi. pose proof (mass_row i Hi) as X. fold n. rewrite He in X by auto. lra.
Qed.
(** Whatever the motion, the torques make it obey the equations. *)
Lemma torques_produce :
  (forall i j, (i < n)%nat -> (j < n)%nat -> rsum p (fun k => E i k * P k j) = delta i j) ->
  forall i, (i < n)%nat ->
  euler_lagrange (fun r => eval r (lg_L s)) (lg_qs s) i g t =
  rsum p (fun k => E i k * eval (g t) (sym_pinv_dyn_simp pinv s us k)) + h i.
Proof.
  intros HP i Hi. pose proof (pinv_produces s us (g t) E f0 pinv HP i Hi) as X. fold n p in X. fold P in X.
  pose proof (mass_row i Hi) as Y. rewrite <- X in Y.
  rewrite (f_affine (g t) i Hi) in Y by auto. rewrite (proj2 (proj2 affine) (g t) i Hi) in Y by auto. fold p in Y. fold (u) in Y.
  rewrite (rsum_ext p _ (fun k => E i k * mv n P (fun i => mv n (ev (g t) (m_d s)) (fun j => g t (lg_q s 2 j)) i - f0 i) k)).
  - unfold f0 in *. unfold u in *. lra.
  - intros k Hk. f_equal. apply (pinv_simp_value s us (g t) E f0). exact f_affine.
Qed.
End Controls.

(** ** Natural systems *)
Section Natural.
Variables (D : env -> Prop) (s : lagrange) (m : emat) (V : expr).
Hypothesis NAT : natural D s m V.
Lemma natural_C' rho i j : D rho -> (i < lg_n s)%nat -> (j < lg_n s)%nat ->
  eval rho (C_matrix s i j) =
  rsum (lg_n s) (fun k => rho (lg_q s 1 k) *
    (partial (fun r => eval r (m i j)) (lg_q s 0 k) rho + partial (fun r => eval r (m i k)) (lg_q s 0 j) rho - partial (fun r => eval r (m k j)) (lg_q s 0 i) rho) / 2).
Proof.
  intros Hr Hi Hj. rewrite (natural_C D s m V NAT) by auto. apply rsum_ext. intros k Hk.
  rewrite !partial_diff; [reflexivity | | |]; apply (nat_m _ _ _ _ NAT); auto.
Qed.
Lemma natural_G' rho i : D rho -> (i < lg_n s)%nat -> eval rho (G_matrix s i) = partial (fun r => eval r V) (lg_q s 0 i) rho.
Proof. intros Hr Hi. rewrite (natural_G D s m V NAT) by auto. rewrite partial_diff; auto. apply (proj1 (nat_V _ _ _ _ NAT)); auto. Qed.
Lemma energy_constant g : motion g -> (forall t, D (g t)) ->
  (forall t i, (i < lg_n s)%nat ->
     rsum (lg_n s) (fun j => eval (g t) (m_d s i j) * g t (lg_q s 2 j)) +
     rsum (lg_n s) (fun j => eval (g t) (C_matrix s i j) * g t (lg_q s 1 j)) + eval (g t) (G_matrix s i) = 0) ->
  forall t t', energy s m V (g t) = energy s m V (g t').
Proof.
  intros Hg HD He.
  assert (Hd : forall t, is_derive (fun r => energy s m V (g r)) t 0).
  { intros t. pose proof (power D s m V NAT g t (fun _ => 0) Hg (HD t) (He t)) as X.
    rewrite (rsum_zero (lg_n s)) in X; [exact X | intros; ring]. }
  assert (K : forall a b, a < b -> energy s m V (g a) = energy s m V (g b)).
  { intros a b Hab. destruct (MVT_gen (fun r => energy s m V (g r)) a b (fun _ => 0)) as (c & _ & Hc).
    - intros x _. apply Hd.
    - intros x _. apply derivable_continuous_pt. exists 0. apply is_derive_Reals, Hd.
    - lra. }
  intros t t'. destruct (Rtotal_order t t') as [H|[->|H]]; auto. symmetry. auto.
Qed.
End Natural.
Lemma reduced_part s r i : (i < lg_n s - length (lg_coneqs s))%nat ->
  nth i (rhs_reduced_list (lg_n s) (length (lg_coneqs s)) (fun i => Var (lg_q s 1 i)) r) (Num 0) =
  nth i (rhs_complete_list (lg_n s) (length (lg_coneqs s)) (fun i => Var (lg_q s 1 i)) r) (Num 0) /\
  nth (lg_n s - length (lg_coneqs s) + i) (rhs_reduced_list (lg_n s) (length (lg_coneqs s)) (fun i => Var (lg_q s 1 i)) r) (Num 0) =
  nth (lg_n s + i) (rhs_complete_list (lg_n s) (length (lg_coneqs s)) (fun i => Var (lg_q s 1 i)) r) (Num 0).
Proof.
  intros Hi. unfold rhs_reduced_list, rhs_complete_list, n_ind. set (n := lg_n s) in *. set (m := length (lg_coneqs s)) in *. split.
  - rewrite !app_nth1 by (rewrite map_length, seq_length; lia). rewrite !nth_map_seq by lia. reflexivity.
  - rewrite !app_nth2 by (rewrite map_length, seq_length; lia). rewrite !map_length, !seq_length.
    replace (n - m + i - (n - m))%nat with i by lia. replace (n + i - n)%nat with i by lia.
    rewrite app_nth1 by (rewrite map_length, seq_length; lia). reflexivity.
Qed.
