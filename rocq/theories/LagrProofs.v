(** Lagrange's equations: the Christoffel form. *)
From Coq Require Import String Lia Lra.
From Coquelicot Require Import Coquelicot.
From Verif Require Import Prelude PreludeFacts PwInterpModel SymModel LagrModel LagrSpec LagrFacts.
Open Scope R_scope.
Open Scope list_scope.

Lemma rsum_pick' n i (f : nat -> R) : (i < n)%nat -> rsum n (fun k => (if (k =? i)%nat then 1 else 0) * f k) = f i.
Proof.
  intros Hi. rewrite <- (rsum_pick n i (f i) Hi). apply rsum_ext. intros k _.
  destruct (Nat.eqb_spec k i); subst; ring.
Qed.
Lemma unit_qd qs k i j : NoDup qs -> (i < length qs)%nat -> (j < length qs)%nat ->
  unit_env (qd qs k i) (qd qs k j) = if (j =? i)%nat then 1 else 0.
Proof.
  intros Hn Hi Hj. unfold unit_env. destruct (atom_eq_dec (qd qs k j) (qd qs k i)) as [E|E].
  - apply qd_inj in E; auto. subst. now rewrite Nat.eqb_refl.
  - destruct (Nat.eqb_spec j i); [subst; congruence | reflexivity].
Qed.
Lemma unit_qd_other qs k l i j : k <> l -> unit_env (qd qs k i) (qd qs l j) = 0.
Proof.
  intros H. unfold unit_env. destruct (atom_eq_dec (qd qs l j) (qd qs k i)) as [E|E]; [|reflexivity].
  unfold qd in E. inversion E. congruence.
Qed.
Lemma position_tangent rho qs k j e : of_position qs e -> tangent rho (unit_env (qd qs (S k) j)) e = 0.
Proof.
  intros H. apply tangent_none. intros a Ha. unfold unit_env.
  destruct (atom_eq_dec a (qd qs (S k) j)) as [E|]; [|reflexivity].
  destruct (H a Ha) as [(n & ->) | (n & _ & ->)]; unfold qd in E; inversion E.
Qed.
(** The derivative of a function of the position. *)
Lemma position_ddt rho qs e : NoDup qs -> of_position qs e ->
  eval rho (ddt e) = rsum (length qs) (fun k => rho (qd qs 1 k) * eval rho (diff (qd qs 0 k) e)).
Proof.
  intros Hn H. rewrite eval_ddt.
  rewrite (tangent_chain rho (next_env rho) (qd qs 0) (length qs) e).
  - apply rsum_ext. reflexivity.
  - intros. eapply qd_inj; eauto.
  - intros a Ha. destruct (H a Ha) as [(n & ->) | (n & Hin & ->)]; [left; reflexivity|].
    right. apply (In_nth _ _ ""%string) in Hin. destruct Hin as (i & Hi & <-). exists i. auto.
Qed.
Lemma position_up_to qs e : of_position qs e -> up_to 0 e.
Proof. intros H n j Hj. destruct (H _ Hj) as [(x & E) | (x & _ & E)]; inversion E; lia. Qed.

(** ** Any Lagrangian *)
Lemma eval_m_d rho s i j : up_to 1 (lg_L s) -> no_acc (lg_qs s) (lg_forces s i) -> (j < lg_n s)%nat ->
  eval rho (m_d s i j) = eval rho (diff (lg_q s 1 j) (diff (lg_q s 1 i) (lg_L s))).
Proof.
  intros Hu Hf Hj. unfold m_d, without_lam. rewrite eval_diff, !tangent_Minus, <- !eval_diff.
  unfold term1, term2, lg_q in *. rewrite diff_qdd_ddt by (apply up_to_diff; auto).
  rewrite (diff_none rho _ (diff (qd (lg_qs s) 0 i) (lg_L s))) by (apply up_to_no_qdd; auto; apply up_to_diff; auto).
  rewrite (diff_none rho _ (lg_forces s i)) by (apply Hf; auto; apply nth_In; auto). ring.
Qed.
Lemma qdd_zero_Minus rho qs a b :
  eval rho (qdd_zero qs (Minus a b)) = eval rho (qdd_zero qs a) - eval rho (qdd_zero qs b).
Proof. unfold Minus, Neg. cbn [qdd_zero eval]. ring. Qed.
(** Mass matrix and forcing: M q'' - f = d/dt dL/dq' - dL/dq - forces. *)
Lemma mass_forcing rho s i : NoDup (lg_qs s) -> up_to 1 (lg_L s) -> no_acc (lg_qs s) (lg_forces s i) ->
  rsum (lg_n s) (fun j => eval rho (m_d s i j) * rho (lg_q s 2 j)) - eval rho (f_d s i) =
  eval rho (term1 s i) - eval rho (term2 s i) - eval rho (lg_forces s i).
Proof.
  intros Hn Hu Hf. unfold f_d. rewrite eval_Neg. unfold without_lam. rewrite !qdd_zero_Minus.
  assert (U : up_to 1 (diff (qd (lg_qs s) 0 i) (lg_L s))) by (apply up_to_diff; auto).
  assert (U' : up_to 1 (diff (qd (lg_qs s) 1 i) (lg_L s))) by (apply up_to_diff; auto).
  rewrite (eval_qdd_zero_none rho (lg_qs s) (term2 s i)) by (intros n Hq X; apply U in X; lia).
  rewrite (eval_qdd_zero_none rho (lg_qs s) (lg_forces s i)) by (intros n Hq; apply Hf; auto).
  unfold term1, lg_q. rewrite (ddt_affine rho (lg_qs s) _ Hn U').
  rewrite (rsum_ext _ (fun j => eval rho (m_d s i j) * rho (qd (lg_qs s) 2 j))
     (fun j => rho (qd (lg_qs s) 2 j) * eval rho (diff (qd (lg_qs s) 1 j) (diff (qd (lg_qs s) 1 i) (lg_L s))))).
  - unfold lg_n. ring.
  - intros j Hj. rewrite (eval_m_d rho s i j) by auto. unfold lg_q. ring.
Qed.
Lemma euler_lagrange_value s i g t : motion g -> (forall r, smooth_at (g r) (lg_L s)) ->
  euler_lagrange (fun r => eval r (lg_L s)) (lg_qs s) i g t = eval (g t) (term1 s i) - eval (g t) (term2 s i).
Proof.
  intros Hm Hs. unfold euler_lagrange, term1, term2, lg_q. rewrite partial_diff by auto. f_equal.
  rewrite (Derive_ext _ (fun r => eval (g r) (diff (qd (lg_qs s) 1 i) (lg_L s)))).
  - apply is_derive_unique, ddt_derive; auto. apply smooth_diff; auto.
  - intros r. apply partial_diff; auto.
Qed.
Lemma mass_forcing_motion s i g t : NoDup (lg_qs s) -> up_to 1 (lg_L s) -> no_acc (lg_qs s) (lg_forces s i) ->
  motion g -> (forall r, smooth_at (g r) (lg_L s)) ->
  rsum (lg_n s) (fun j => eval (g t) (m_d s i j) * g t (lg_q s 2 j)) - eval (g t) (f_d s i) =
  euler_lagrange (fun r => eval r (lg_L s)) (lg_qs s) i g t - eval (g t) (lg_forces s i).
Proof. intros Hn Hu Hf Hm Hs. rewrite mass_forcing, euler_lagrange_value by auto. reflexivity. Qed.
Lemma mcg rho s i :
  rsum (lg_n s) (fun j => eval rho (m_d s i j) * rho (lg_q s 2 j)) +
  rsum (lg_n s) (fun j => eval rho (C_matrix s i j) * rho (lg_q s 1 j)) + eval rho (G_matrix s i) =
  eval rho (term1 s i) - eval rho (term2 s i).
Proof. unfold G_matrix. rewrite !eval_Minus, !eval_emulv. cbn [eval]. ring. Qed.
Lemma mcg_motion s i g t : motion g -> (forall r, smooth_at (g r) (lg_L s)) ->
  rsum (lg_n s) (fun j => eval (g t) (m_d s i j) * g t (lg_q s 2 j)) +
  rsum (lg_n s) (fun j => eval (g t) (C_matrix s i j) * g t (lg_q s 1 j)) + eval (g t) (G_matrix s i) =
  euler_lagrange (fun r => eval r (lg_L s)) (lg_qs s) i g t.
Proof. intros. rewrite mcg, euler_lagrange_value; auto. Qed.

(** ** The C matrix *)
Lemma eval_fold_sum rho (f : nat -> expr) n init :
  eval rho (fold_left (fun c k => Plus c (f k)) (seq 0 n) init) = eval rho init + rsum n (fun k => eval rho (f k)).
Proof.
  induction n; [cbn; ring|]. rewrite seq_S, fold_left_app. cbn [fold_left eval rsum]. rewrite IHn. cbn [Nat.add]. ring.
Qed.
Lemma eval_C rho M qs i j :
  eval rho (C_from_M M qs i j) =
  rsum (length qs) (fun k => rho (qd qs 1 k) *
    (eval rho (diff (qd qs 0 k) (M i j)) + eval rho (diff (qd qs 0 j) (M i k)) - eval rho (diff (qd qs 0 i) (M k j))) / 2).
Proof.
  unfold C_from_M.
  rewrite (eval_fold_sum rho (fun k => Times (Times (Var (qd qs 1 k))
                (Minus (Plus (diff (qd qs 0 k) (M i j)) (diff (qd qs 0 j) (M i k))) (diff (qd qs 0 i) (M k j))))
                (Num (/ 2))) (length qs)). cbn [eval]. rewrite Rmult_0_r, Rplus_0_l. apply rsum_ext. intros k _.
  rewrite eval_Minus. cbn [eval]. reflexivity.
Qed.
(** M' - 2 C is skew-symmetric. *)
Lemma skew rho D M qs i j : NoDup qs -> line_open D -> D rho ->
  (forall a b, (a < length qs)%nat -> (b < length qs)%nat ->
     smooth_at rho (M a b) /\ exists m, smooth_at rho m /\ of_position qs m /\ forall r, D r -> eval r (M a b) = eval r m) ->
  (forall r a b, D r -> (a < length qs)%nat -> (b < length qs)%nat -> eval r (M a b) = eval r (M b a)) ->
  (i < length qs)%nat -> (j < length qs)%nat ->
  eval rho (ddt (M i j)) - 2 * eval rho (C_from_M M qs i j) = - (eval rho (ddt (M j i)) - 2 * eval rho (C_from_M M qs j i)).
Proof.
  intros Hn Ho Hr HM Hsym Hi Hj.
  assert (T : forall a b, (a < length qs)%nat -> (b < length qs)%nat ->
     eval rho (ddt (M a b)) = rsum (length qs) (fun k => rho (qd qs 1 k) * eval rho (diff (qd qs 0 k) (M a b)))).
  { intros a b Ha Hb. destruct (HM a b Ha Hb) as (Hs & m & Hm & Hp & E).
    rewrite (ddt_value D (M a b) m rho) by auto. rewrite (position_ddt rho qs m) by auto.
    apply rsum_ext. intros k _. rewrite (diff_value D (M a b) m rho) by auto. reflexivity. }
  assert (S' : forall a b x, (a < length qs)%nat -> (b < length qs)%nat -> eval rho (diff x (M a b)) = eval rho (diff x (M b a))).
  { intros a b x Ha Hb. apply (diff_value D); auto; try apply HM; auto. }
  rewrite !T, !eval_C by auto.
  apply Rminus_diag_uniq. ring_simplify. 
  rewrite <- !rsum_scal, <- ?rsum_plus, <- ?rsum_minus. rewrite <- ?rsum_plus, <- ?rsum_minus. apply rsum_zero.
  intros k Hk. rewrite (S' j i (qd qs 0 k)), (S' j k (qd qs 0 i)), (S' k i (qd qs 0 j)) by auto. field.
Qed.

(** ** Natural systems *)
Definition momentum (s : lagrange) (m : emat) (i : nat) : expr := esum (lg_n s) (fun j => Times (m i j) (Var (lg_q s 1 j))).
Definition L_of (s : lagrange) (m : emat) (V : expr) : expr :=
  Minus (Times (Num (/ 2)) (esum (lg_n s) (fun i => esum (lg_n s) (fun j => Times (Times (m i j) (Var (lg_q s 1 i))) (Var (lg_q s 1 j)))))) V.
Section Natural.
Variables (D : env -> Prop) (s : lagrange) (m : emat) (V : expr).
Hypothesis N : natural D s m V.
Let n := lg_n s.
Let q := lg_q s.

Lemma L_of_value rho : D rho -> eval rho (lg_L s) = eval rho (L_of s m V).
Proof.
  intros Hr. rewrite (nat_value _ _ _ _ N rho Hr). unfold L_of. rewrite eval_Minus. cbn [eval]. rewrite eval_esum.
  f_equal. f_equal. apply rsum_ext. intros i _. rewrite eval_esum. reflexivity.
Qed.
Lemma L_of_smooth rho : D rho -> smooth_at rho (L_of s m V).
Proof.
  intros Hr. apply smooth_Minus.
  - split; [exact I|]. apply smooth_esum. intros i Hi. apply smooth_esum. intros j Hj. repeat split; auto.
    apply (nat_m _ _ _ _ N i j Hi Hj); auto.
  - apply (nat_V _ _ _ _ N); auto.
Qed.
Lemma momentum_smooth rho i : D rho -> (i < n)%nat -> smooth_at rho (momentum s m i).
Proof. intros Hr Hi. apply smooth_esum. intros j Hj. split; [apply (nat_m _ _ _ _ N i j Hi Hj); auto | exact I]. Qed.
Lemma L_qdot rho i : D rho -> (i < n)%nat -> eval rho (diff (q 1 i) (lg_L s)) = eval rho (momentum s m i).
Proof.
  intros Hr Hi. rewrite (diff_value D _ (L_of s m V)) by (first [apply N | apply L_of_smooth | apply L_of_value | idtac]; auto).
  rewrite eval_diff. unfold L_of. rewrite tangent_Minus. cbn [tangent eval].
  unfold q, lg_q. rewrite (position_tangent rho (lg_qs s) 0 i V) by apply (nat_V _ _ _ _ N).
  rewrite tangent_esum.
  assert (Hn := nat_names _ _ _ _ N).
  transitivity (/ 2 * rsum n (fun a => rsum n (fun b =>
      (if (a =? i)%nat then 1 else 0) * (eval rho (m a b) * rho (q 1 b)) + (if (b =? i)%nat then 1 else 0) * (eval rho (m a b) * rho (q 1 a))))).
  { rewrite (rsum_ext _ (fun a => tangent rho _ _) (fun a => rsum n (fun b =>
      (if (a =? i)%nat then 1 else 0) * (eval rho (m a b) * rho (q 1 b)) + (if (b =? i)%nat then 1 else 0) * (eval rho (m a b) * rho (q 1 a))))).
    - unfold n. ring.
    - intros a Ha. rewrite tangent_esum. apply rsum_ext. intros b Hb. cbn [tangent eval].
      unfold q, lg_q. rewrite (position_tangent rho (lg_qs s) 0 i (m a b)) by apply (nat_m _ _ _ _ N a b Ha Hb).
      rewrite !(unit_qd (lg_qs s)) by auto. ring. }
  rewrite (rsum_ext _ _ (fun a => (if (a =? i)%nat then 1 else 0) * rsum n (fun b => eval rho (m a b) * rho (q 1 b)) + eval rho (m a i) * rho (q 1 a))).
  2:{ intros a Ha. rewrite rsum_plus, rsum_scal. f_equal. rewrite rsum_pick' by auto. reflexivity. }
  rewrite rsum_plus, rsum_pick' by auto.
  unfold momentum. rewrite eval_esum. cbn [eval].
  rewrite (rsum_ext n (fun a => eval rho (m a i) * rho (q 1 a)) (fun j => eval rho (m i j) * rho (q 1 j))).
  - unfold n, q. field.
  - intros a Ha. rewrite (nat_sym _ _ _ _ N rho a i); auto.
Qed.
Lemma natural_M rho i j : D rho -> (i < n)%nat -> (j < n)%nat -> eval rho (m_d s i j) = eval rho (m i j).
Proof.
  intros Hr Hi Hj. rewrite eval_m_d by (auto; apply N; auto).
  rewrite (diff_value D _ (momentum s m i)).
  - rewrite eval_diff. unfold momentum. rewrite tangent_esum.
    rewrite (rsum_ext _ _ (fun b => (if (b =? j)%nat then 1 else 0) * eval rho (m i b))).
    + apply rsum_pick'. auto.
    + intros b Hb. cbn [tangent eval]. unfold lg_q.
      rewrite (position_tangent rho (lg_qs s) 0 j (m i b)) by apply (nat_m _ _ _ _ N i b Hi Hb).
      rewrite (unit_qd (lg_qs s)) by (auto; apply N). ring.
  - apply N.
  - auto.
  - apply smooth_diff. apply N; auto.
  - apply momentum_smooth; auto.
  - intros r Hr'. apply L_qdot; auto.
Qed.
Lemma m_d_smooth rho i j : D rho -> (i < n)%nat -> smooth_at rho (m_d s i j).
Proof.
  intros Hr Hi. unfold m_d, without_lam. apply smooth_diff. apply smooth_Minus; [apply smooth_Minus|].
  - apply smooth_ddt, smooth_diff. apply N; auto.
  - apply smooth_diff. apply N; auto.
  - apply (nat_forces_smooth _ _ _ _ N); auto.
Qed.
Lemma diff_M rho i j x : D rho -> (i < n)%nat -> (j < n)%nat -> eval rho (diff x (m_d s i j)) = eval rho (diff x (m i j)).
Proof.
  intros Hr Hi Hj. apply (diff_value D); auto.
  - apply N.
  - apply m_d_smooth; auto.
  - apply (nat_m _ _ _ _ N i j Hi Hj); auto.
  - intros r Hr'. apply natural_M; auto.
Qed.
Lemma natural_C rho i j : D rho -> (i < n)%nat -> (j < n)%nat ->
  eval rho (C_matrix s i j) = rsum n (fun k => rho (q 1 k) *
    (eval rho (diff (q 0 k) (m i j)) + eval rho (diff (q 0 j) (m i k)) - eval rho (diff (q 0 i) (m k j))) / 2).
Proof.
  intros Hr Hi Hj. unfold C_matrix. rewrite eval_C. apply rsum_ext. intros k Hk. rewrite !diff_M by auto. reflexivity.
Qed.
Lemma natural_term1 rho i : D rho -> (i < n)%nat ->
  eval rho (term1 s i) = rsum n (fun j => rsum n (fun k => rho (q 1 k) * eval rho (diff (q 0 k) (m i j))) * rho (q 1 j)) +
    rsum n (fun j => eval rho (m i j) * rho (q 2 j)).
Proof.
  intros Hr Hi. unfold term1. rewrite (ddt_value D _ (momentum s m i)).
  - rewrite eval_ddt. unfold momentum. rewrite tangent_esum, <- rsum_plus. apply rsum_ext. intros j Hj. cbn [tangent eval].
    rewrite <- eval_ddt. rewrite (position_ddt rho (lg_qs s) (m i j)); [reflexivity | apply N | apply (nat_m _ _ _ _ N i j Hi Hj)].
  - apply N.
  - auto.
  - apply smooth_diff. apply N; auto.
  - apply momentum_smooth; auto.
  - intros r Hr'. apply L_qdot; auto.
Qed.
Lemma natural_term2 rho i : D rho -> (i < n)%nat ->
  eval rho (term2 s i) = / 2 * rsum n (fun j => rsum n (fun k => eval rho (diff (q 0 i) (m j k)) * rho (q 1 j) * rho (q 1 k)))
    - eval rho (diff (q 0 i) V).
Proof.
  intros Hr Hi. unfold term2. rewrite (diff_value D _ (L_of s m V)) by (first [apply N | apply L_of_smooth | apply L_of_value | idtac]; auto).
  rewrite eval_diff. unfold L_of. rewrite tangent_Minus. cbn [tangent eval]. rewrite eval_diff. f_equal.
  rewrite tangent_esum, Rmult_0_l, Rplus_0_l. f_equal. apply rsum_ext. intros j Hj. rewrite tangent_esum. apply rsum_ext. intros k Hk.
  cbn [tangent eval]. rewrite eval_diff. unfold lg_q, q. rewrite !unit_qd_other by lia. unfold lg_q. ring.
Qed.
(** G is the gradient of V. *)
Lemma natural_G rho i : D rho -> (i < n)%nat -> eval rho (G_matrix s i) = eval rho (diff (q 0 i) V).
Proof.
  intros Hr Hi. unfold G_matrix. rewrite !eval_Minus, !eval_emulv. cbn [eval].
  fold n. fold q.
  rewrite (rsum_ext n (fun l => eval rho (m_d s i l) * rho (q 2 l)) (fun j => eval rho (m i j) * rho (q 2 j)))
    by (intros; rewrite natural_M; auto).
  rewrite natural_term1, natural_term2 by auto.
  set (X := rsum n (fun j => eval rho (m i j) * rho (q 2 j))).
  rewrite (rsum_ext n (fun l => eval rho (C_matrix s i l) * rho (q 1 l))
    (fun j => / 2 * (rsum n (fun k => rho (q 1 k) * eval rho (diff (q 0 k) (m i j))) * rho (q 1 j)) +
              / 2 * rsum n (fun k => eval rho (diff (q 0 j) (m i k)) * rho (q 1 j) * rho (q 1 k)) -
              / 2 * rsum n (fun k => eval rho (diff (q 0 i) (m k j)) * rho (q 1 j) * rho (q 1 k)))).
  2:{ intros j Hj. rewrite natural_C by auto.
      rewrite <- !rsum_scal_r, <- !rsum_scal, <- rsum_plus, <- rsum_minus. apply rsum_ext. intros k Hk. field. }
  rewrite rsum_minus, rsum_plus, !rsum_scal.
  rewrite (rsum_swap n n (fun j k => eval rho (diff (q 0 j) (m i k)) * rho (q 1 j) * rho (q 1 k))).
  rewrite (rsum_swap n n (fun j k => eval rho (diff (q 0 i) (m k j)) * rho (q 1 j) * rho (q 1 k))).
  rewrite (rsum_ext n (fun j => rsum n (fun i0 => eval rho (diff (q 0 i0) (m i j)) * rho (q 1 i0) * rho (q 1 j)))
    (fun j => rsum n (fun k => rho (q 1 k) * eval rho (diff (q 0 k) (m i j))) * rho (q 1 j))).
  2:{ intros j Hj. rewrite <- rsum_scal_r. apply rsum_ext. intros; ring. }
  rewrite (rsum_ext n (fun j => rsum n (fun i0 => eval rho (diff (q 0 i) (m j i0)) * rho (q 1 i0) * rho (q 1 j)))
    (fun j => rsum n (fun k => eval rho (diff (q 0 i) (m j k)) * rho (q 1 j) * rho (q 1 k)))).
  2:{ intros j Hj. apply rsum_ext. intros; ring. }
  field.
Qed.
Lemma natural_skew rho i j : D rho -> (i < n)%nat -> (j < n)%nat ->
  eval rho (ddt (m_d s i j)) - 2 * eval rho (C_matrix s i j) = - (eval rho (ddt (m_d s j i)) - 2 * eval rho (C_matrix s j i)).
Proof.
  intros Hr Hi Hj. apply (skew rho D (m_d s) (lg_qs s) i j); auto; try apply N.
  - intros a b Ha Hb. split; [apply m_d_smooth; auto|]. exists (m a b). destruct (nat_m _ _ _ _ N a b Ha Hb).
    split; auto. split; auto. intros r Hr'. apply natural_M; auto.
  - intros r a b Hr' Ha Hb. rewrite !natural_M by auto. apply (nat_sym _ _ _ _ N); auto.
Qed.
Lemma natural_skew_motion g t i j : motion g -> D (g t) -> (i < n)%nat -> (j < n)%nat ->
  Derive (fun r => eval (g r) (m_d s i j)) t - 2 * eval (g t) (C_matrix s i j) =
  - (Derive (fun r => eval (g r) (m_d s j i)) t - 2 * eval (g t) (C_matrix s j i)).
Proof.
  intros Hm Hr Hi Hj.
  pose proof (is_derive_unique _ _ _ (ddt_derive g t (m_d s i j) Hm (m_d_smooth _ i j Hr Hi))) as E1.
  pose proof (is_derive_unique _ _ _ (ddt_derive g t (m_d s j i) Hm (m_d_smooth _ j i Hr Hj))) as E2.
  cbv beta in E1, E2. etransitivity; [apply f_equal2; [exact E1|reflexivity]|].
  etransitivity; [|apply f_equal, f_equal2; [symmetry; exact E2|reflexivity]].
  apply natural_skew; auto.
Qed.
(** The energy of a motion. *)
Definition energy (rho : env) : R :=
  / 2 * rsum n (fun i => rsum n (fun j => eval rho (m i j) * rho (q 1 i) * rho (q 1 j))) + eval rho V.
Definition E_of : expr :=
  Plus (Times (Num (/ 2)) (esum n (fun i => esum n (fun j => Times (Times (m i j) (Var (q 1 i))) (Var (q 1 j)))))) V.
Lemma rsum2_ext k (f g : nat -> nat -> R) : (forall i j, (i < k)%nat -> (j < k)%nat -> f i j = g i j) ->
  rsum k (fun i => rsum k (f i)) = rsum k (fun i => rsum k (g i)).
Proof. intros H. apply rsum_ext. intros i Hi. apply rsum_ext. intros j Hj. auto. Qed.
Lemma skew_quadratic k (A : nat -> nat -> R) (v : nat -> R) : (forall i j, (i < k)%nat -> (j < k)%nat -> A i j = - A j i) ->
  rsum k (fun i => rsum k (fun j => v i * A i j * v j)) = 0.
Proof.
  intros H. set (X := rsum k _). assert (X = - X); [|lra]. unfold X at 1. rewrite rsum_swap.
  rewrite (rsum2_ext k _ (fun j i => (-1) * (v j * A j i * v i))).
  - rewrite (rsum_ext k _ (fun j => (-1) * rsum k (fun i => v j * A j i * v i))) by (intros; apply rsum_scal).
    rewrite rsum_scal. unfold X. ring.
  - intros a b Ha Hb. rewrite (H b a) by auto. ring.
Qed.
Lemma ddt_energy rho (F : nat -> R) : D rho ->
  (forall i, (i < n)%nat ->
    rsum n (fun j => eval rho (m_d s i j) * rho (q 2 j)) + rsum n (fun j => eval rho (C_matrix s i j) * rho (q 1 j)) + eval rho (G_matrix s i) = F i) ->
  eval rho (ddt E_of) = rsum n (fun i => rho (q 1 i) * F i).
Proof.
  intros Hr HF. rewrite eval_ddt. unfold E_of. cbn [tangent eval]. rewrite tangent_esum, Rmult_0_l, Rplus_0_l.
  rewrite <- (eval_ddt rho V). rewrite (position_ddt rho (lg_qs s) V) by apply N. fold n.
  rewrite (rsum_ext n (fun i => rho (q 1 i) * F i) (fun i =>
     rsum n (fun j => rho (q 1 i) * eval rho (m i j) * rho (q 2 j)) + rsum n (fun j => rho (q 1 i) * eval rho (C_matrix s i j) * rho (q 1 j))
     + rho (q 1 i) * eval rho (diff (q 0 i) V))).
  2:{ intros i Hi. rewrite <- HF by auto. rewrite natural_G by auto. rewrite !Rmult_plus_distr_l, <- !rsum_scal.
      f_equal. f_equal; apply rsum_ext; intros j Hj; rewrite ?natural_M by auto; ring. }
  rewrite rsum_plus.
  replace (rsum n (fun k => rho (qd (lg_qs s) 1 k) * eval rho (diff (qd (lg_qs s) 0 k) V)))
    with (rsum n (fun i => rho (q 1 i) * eval rho (diff (q 0 i) V))) by reflexivity.
  f_equal.
  transitivity (/ 2 * rsum n (fun i => rsum n (fun j =>
     eval rho (ddt (m i j)) * rho (q 1 i) * rho (q 1 j) + eval rho (m i j) * rho (q 2 i) * rho (q 1 j) + eval rho (m i j) * rho (q 1 i) * rho (q 2 j)))).
  { f_equal. apply rsum_ext. intros i Hi. rewrite tangent_esum. apply rsum_ext. intros j Hj. cbn [tangent eval].
    rewrite <- eval_ddt. unfold q, lg_q, qd. cbn [next_env]. ring. }
  assert (Z := skew_quadratic n (fun i j => eval rho (ddt (m_d s i j)) - 2 * eval rho (C_matrix s i j)) (fun i => rho (q 1 i))
                 (fun i j Hi Hj => natural_skew rho i j Hr Hi Hj)).
  rewrite (rsum2_ext n _ (fun i j => rho (q 1 i) * eval rho (ddt (m i j)) * rho (q 1 j) - 2 * (rho (q 1 i) * eval rho (C_matrix s i j) * rho (q 1 j)))) in Z.
  2:{ intros i j Hi Hj. rewrite (ddt_value D (m_d s i j) (m i j) rho).
      - ring.
      - apply N.
      - auto.
      - apply m_d_smooth; auto.
      - apply (nat_m _ _ _ _ N i j Hi Hj); auto.
      - intros r Hr'. apply natural_M; auto. }
  rewrite (rsum_ext n _ (fun i => rsum n (fun j => rho (q 1 i) * eval rho (ddt (m i j)) * rho (q 1 j)) - 2 * rsum n (fun j => rho (q 1 i) * eval rho (C_matrix s i j) * rho (q 1 j)))) in Z
    by (intros; rewrite rsum_minus, rsum_scal; reflexivity).
  rewrite rsum_minus, rsum_scal in Z.
  rewrite (rsum_ext n _ (fun i => rsum n (fun j => rho (q 1 i) * eval rho (ddt (m i j)) * rho (q 1 j)) +
       rsum n (fun j => rho (q 2 i) * eval rho (m i j) * rho (q 1 j)) + rsum n (fun j => rho (q 1 i) * eval rho (m i j) * rho (q 2 j)))).
  2:{ intros i Hi. rewrite <- !rsum_plus. apply rsum_ext. intros; ring. }
  rewrite !rsum_plus.
  assert (Y : rsum n (fun i => rsum n (fun j => rho (q 2 i) * eval rho (m i j) * rho (q 1 j))) = rsum n (fun i => rsum n (fun j => rho (q 1 i) * eval rho (m i j) * rho (q 2 j)))).
  { rewrite rsum_swap. apply rsum2_ext. intros a b Ha Hb. rewrite (nat_sym _ _ _ _ N rho a b); auto. ring. }
  rewrite Y. lra.
Qed.
(** Power balance. *)
Lemma power g t (F : nat -> R) : motion g -> D (g t) ->
  (forall i, (i < n)%nat ->
    rsum n (fun j => eval (g t) (m_d s i j) * g t (q 2 j)) + rsum n (fun j => eval (g t) (C_matrix s i j) * g t (q 1 j)) + eval (g t) (G_matrix s i) = F i) ->
  is_derive (fun r => energy (g r)) t (rsum n (fun i => g t (q 1 i) * F i)).
Proof.
  intros Hm Hr HF. rewrite <- (ddt_energy (g t) F Hr HF).
  apply is_derive_ext with (f := fun r => eval (g r) E_of).
  - intros r. unfold E_of, energy. cbn [eval]. rewrite eval_esum. f_equal. f_equal. apply rsum_ext. intros i _.
    rewrite eval_esum. reflexivity.
  - apply ddt_derive; auto. split; [split; [exact I|]|].
    + apply smooth_esum. intros i Hi. apply smooth_esum. intros j Hj. repeat split; auto.
      apply (nat_m _ _ _ _ N i j Hi Hj); auto.
    + apply (nat_V _ _ _ _ N); auto.
Qed.
End Natural.
