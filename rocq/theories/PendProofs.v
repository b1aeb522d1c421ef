From Coquelicot Require Import Coquelicot.
From Verif Require Import Prelude NumpyModel PendModel PendSpec.
Open Scope R_scope.

Ltac rd := repeat match goal with K : is_derive ?f ?t ?v |- context [Derive ?h ?t] => replace (Derive h t) with v by (symmetry; apply is_derive_unique; exact K) end.
Ltac der := apply is_derive_Reals; auto_derive; [repeat split; auto|].
(** The velocities of the masses are those of the energy. *)
Theorem pend_velocities l_0 l_1 q_0 q_1 t v_0 v_1 : derivable_pt_lim q_0 t v_0 -> derivable_pt_lim q_1 t v_1 ->
  is_velocity (fun s => pend_x0 l_0 (q_0 s)) t (l_0 * cos (q_0 t) * v_0) /\
  is_velocity (fun s => pend_y0 l_0 (q_0 s)) t (l_0 * sin (q_0 t) * v_0) /\
  is_velocity (fun s => pend_x1 l_0 l_1 (q_0 s) (q_1 s)) t (l_0 * cos (q_0 t) * v_0 + l_1 * cos (q_1 t) * v_1) /\
  is_velocity (fun s => pend_y1 l_0 l_1 (q_0 s) (q_1 s)) t (l_0 * sin (q_0 t) * v_0 + l_1 * sin (q_1 t) * v_1).
Proof.
  intros H0 H1. apply is_derive_Reals in H0, H1. unfold is_velocity, pend_x1, pend_y1, pend_x0, pend_y0.
  assert (E0 : ex_derive q_0 t) by (eexists; eauto). assert (E1 : ex_derive q_1 t) by (eexists; eauto).
  repeat split; der; rd; ring.
Qed.

Section Pend.
Variables m_0 m_1 l_0 l_1 g : R.
Hypothesis M0 : 0 < m_0.
Hypothesis M1 : 0 < m_1.
Hypothesis L0 : l_0 <> 0.
Hypothesis L1 : l_1 <> 0.
Notation L := (pend_L m_0 m_1 l_0 l_1 g).
Lemma pend_det a : m_0 - m_1 * cos a ^ 2 + m_1 <> 0.
Proof.
  assert (cos a ^ 2 <= 1). { pose proof (sin2_cos2 a) as S. unfold Rsqr in S. pose proof (Rle_0_sqr (sin a)) as Z. unfold Rsqr in Z. nra. }
  nra.
Qed.
Definition mom0 (q_0 q_1 v_0 v_1 : R) : R := (m_0 + m_1) * l_0 ^ 2 * v_0 + m_1 * l_0 * l_1 * v_1 * cos (q_0 - q_1).
Definition mom1 (q_0 q_1 v_0 v_1 : R) : R := m_1 * l_1 ^ 2 * v_1 + m_1 * l_0 * l_1 * v_0 * cos (q_0 - q_1).
Definition for0 (q_0 q_1 v_0 v_1 : R) : R := - m_1 * l_0 * l_1 * v_0 * v_1 * sin (q_0 - q_1) - (m_0 + m_1) * g * l_0 * sin q_0.
Definition for1 (q_0 q_1 v_0 v_1 : R) : R := m_1 * l_0 * l_1 * v_0 * v_1 * sin (q_0 - q_1) - m_1 * g * l_1 * sin q_1.
Lemma sc a : sin a ^ 2 = 1 - cos a ^ 2.
Proof. pose proof (sin2_cos2 a) as S. unfold Rsqr in S. lra. Qed.
Lemma mom0_ok a b v w : derivable_pt_lim (fun z => L a b z w) v (mom0 a b v w).
Proof. unfold pend_L, pend_energy. der. unfold mom0. rewrite cos_minus. apply Rminus_diag_uniq. transitivity ((m_0 + m_1) * l_0 ^ 2 * v * (sin a ^ 2 - (1 - cos a ^ 2))); [field|rewrite sc; ring]. Qed.
Lemma mom1_ok a b v w : derivable_pt_lim (fun z => L a b v z) w (mom1 a b v w).
Proof. unfold pend_L, pend_energy. der. unfold mom1. rewrite cos_minus. apply Rminus_diag_uniq. transitivity (m_1 * l_1 ^ 2 * w * (sin b ^ 2 - (1 - cos b ^ 2))); [field|rewrite sc; ring]. Qed.
Lemma for0_ok a b v w : derivable_pt_lim (fun z => L z b v w) a (for0 a b v w).
Proof. unfold pend_L, pend_energy, pend_y1, pend_y0. der. unfold for0. rewrite sin_minus. field. Qed.
Lemma for1_ok a b v w : derivable_pt_lim (fun z => L a z v w) b (for1 a b v w).
Proof. unfold pend_L, pend_energy, pend_y1, pend_y0. der. unfold for1. rewrite sin_minus. field. Qed.

(** The two equations of motion *)
Definition eq0 (a b v w x y u : R) : Prop :=
  (m_0 + m_1) * l_0 ^ 2 * x + m_1 * l_0 * l_1 * (y * cos (a - b) - w * sin (a - b) * (v - w)) = for0 a b v w + u.
Definition eq1 (a b v w x y u : R) : Prop :=
  m_1 * l_1 ^ 2 * y + m_1 * l_0 * l_1 * (x * cos (a - b) - v * sin (a - b) * (v - w)) = for1 a b v w + u.
Lemma pend_solves a b v w u0 u1 r0 r1 r2 r3 r4 x y :
  doub_pend_F [a; b; v; w] [u0; u1] [r0; r1; r2; r3; r4; m_1; l_1; l_0; m_0; g] = Ok [v; w; x; y] <-> eq0 a b v w x y u0 /\ eq1 a b v w x y u1.
Proof.
  pose proof (pend_det (a - b)) as D. assert (M1' : m_1 <> 0) by lra.
  unfold doub_pend_F, doub_pend_params. cbn [length Nat.eqb rbind]. unfold eq0, eq1, for0, for1. set (c := cos (a - b)) in *. set (s := sin (a - b)) in *.
  set (s0 := sin a). set (s1 := sin b). assert (D2 : m_0 - m_1 * (c * c) + m_1 <> 0) by (replace (c * c) with (c ^ 2) by ring; exact D). split.
  - intros H. injection H as <- <-. split; field; repeat split; auto.
  - intros [A B].
    assert (DD : m_1 * l_0 ^ 2 * l_1 ^ 2 * (m_0 - m_1 * c ^ 2 + m_1) <> 0).
    { repeat apply Rmult_integral_contrapositive_currified; auto using pow_nonzero. }
    do 2 f_equal. f_equal. f_equal; [|f_equal].
    + apply (Rmult_eq_reg_l (m_1 * l_0 ^ 2 * l_1 ^ 2 * (m_0 - m_1 * c ^ 2 + m_1))); auto.
      assert (X : m_1 * l_0 ^ 2 * l_1 ^ 2 * (m_0 - m_1 * c ^ 2 + m_1) * x = m_1 * l_1 ^ 2 * ((m_0 + m_1) * l_0 ^ 2 * x + m_1 * l_0 * l_1 * (y * c - w * s * (v - w)) + m_1 * l_0 * l_1 * w * s * (v - w)) - m_1 * l_0 * l_1 * c * (m_1 * l_1 ^ 2 * y + m_1 * l_0 * l_1 * (x * c - v * s * (v - w)) + m_1 * l_0 * l_1 * v * s * (v - w))) by ring.
      rewrite X, A, B. field. repeat split; auto.
    + apply (Rmult_eq_reg_l (m_1 * l_0 ^ 2 * l_1 ^ 2 * (m_0 - m_1 * c ^ 2 + m_1))); auto.
      assert (X : m_1 * l_0 ^ 2 * l_1 ^ 2 * (m_0 - m_1 * c ^ 2 + m_1) * y = (m_0 + m_1) * l_0 ^ 2 * (m_1 * l_1 ^ 2 * y + m_1 * l_0 * l_1 * (x * c - v * s * (v - w)) + m_1 * l_0 * l_1 * v * s * (v - w)) - m_1 * l_0 * l_1 * c * ((m_0 + m_1) * l_0 ^ 2 * x + m_1 * l_0 * l_1 * (y * c - w * s * (v - w)) + m_1 * l_0 * l_1 * w * s * (v - w))) by ring.
      rewrite X, A, B. field. repeat split; auto.
Qed.
(** The trajectories of doub_pend_F are those of the Euler-Lagrange equations. *)
Theorem pend_motion q_0 q_1 v_0 v_1 a_0 a_1 u_0 u_1 r0 r1 r2 r3 r4 :
  (forall t, derivable_pt_lim q_0 t (v_0 t) /\ derivable_pt_lim q_1 t (v_1 t) /\ derivable_pt_lim v_0 t (a_0 t) /\ derivable_pt_lim v_1 t (a_1 t)) ->
  ((forall t, doub_pend_F [q_0 t; q_1 t; v_0 t; v_1 t] [u_0 t; u_1 t] [r0; r1; r2; r3; r4; m_1; l_1; l_0; m_0; g] = Ok [v_0 t; v_1 t; a_0 t; a_1 t]) <->
   euler_lagrange2 L q_0 q_1 v_0 v_1 u_0 u_1).
Proof.
  intros HM.
  assert (K0 : forall t, derivable_pt_lim (fun s => mom0 (q_0 s) (q_1 s) (v_0 s) (v_1 s)) t
     ((m_0 + m_1) * l_0 ^ 2 * a_0 t + m_1 * l_0 * l_1 * (a_1 t * cos (q_0 t - q_1 t) - v_1 t * sin (q_0 t - q_1 t) * (v_0 t - v_1 t)))).
  { intros t. destruct (HM t) as (A & B & C & D). apply is_derive_Reals in A, B, C, D. unfold mom0.
    assert (EA : ex_derive q_0 t) by (eexists; eauto). assert (EB : ex_derive q_1 t) by (eexists; eauto). assert (EC : ex_derive v_0 t) by (eexists; eauto). assert (ED : ex_derive v_1 t) by (eexists; eauto).
    der. rd. replace (q_0 t + - q_1 t) with (q_0 t - q_1 t) by ring. ring. }
  assert (K1 : forall t, derivable_pt_lim (fun s => mom1 (q_0 s) (q_1 s) (v_0 s) (v_1 s)) t
     (m_1 * l_1 ^ 2 * a_1 t + m_1 * l_0 * l_1 * (a_0 t * cos (q_0 t - q_1 t) - v_0 t * sin (q_0 t - q_1 t) * (v_0 t - v_1 t)))).
  { intros t. destruct (HM t) as (A & B & C & D). apply is_derive_Reals in A, B, C, D. unfold mom1.
    assert (EA : ex_derive q_0 t) by (eexists; eauto). assert (EB : ex_derive q_1 t) by (eexists; eauto). assert (EC : ex_derive v_0 t) by (eexists; eauto). assert (ED : ex_derive v_1 t) by (eexists; eauto).
    der. rd. replace (q_0 t + - q_1 t) with (q_0 t - q_1 t) by ring. ring. }
  split.
  - intros H. exists (fun t => mom0 (q_0 t) (q_1 t) (v_0 t) (v_1 t)), (fun t => mom1 (q_0 t) (q_1 t) (v_0 t) (v_1 t)), (fun t => for0 (q_0 t) (q_1 t) (v_0 t) (v_1 t)), (fun t => for1 (q_0 t) (q_1 t) (v_0 t) (v_1 t)).
    intros t. specialize (H t). apply pend_solves in H. destruct H as [A B]. split; [apply mom0_ok|split; [apply mom1_ok|split; [apply for0_ok|split; [apply for1_ok|]]]].
    rewrite <- A, <- B. auto.
  - intros (P0 & P1 & D0 & D1 & H) t. apply pend_solves.
    assert (EP0 : forall s, P0 s = mom0 (q_0 s) (q_1 s) (v_0 s) (v_1 s)) by (intros s; destruct (H s) as (A & _); eapply uniqueness_limite; [exact A|apply mom0_ok]).
    assert (EP1 : forall s, P1 s = mom1 (q_0 s) (q_1 s) (v_0 s) (v_1 s)) by (intros s; destruct (H s) as (_ & A & _); eapply uniqueness_limite; [exact A|apply mom1_ok]).
    destruct (H t) as (_ & _ & F0 & F1 & G0 & G1).
    rewrite (uniqueness_limite _ _ _ _ F0 (for0_ok _ _ _ _)) in G0. rewrite (uniqueness_limite _ _ _ _ F1 (for1_ok _ _ _ _)) in G1.
    split.
    + unfold eq0. eapply uniqueness_limite; [apply K0|]. apply is_derive_Reals. apply is_derive_Reals in G0. eapply is_derive_ext; [|exact G0]. intros s; cbn. apply EP0.
    + unfold eq1. eapply uniqueness_limite; [apply K1|]. apply is_derive_Reals. apply is_derive_Reals in G1. eapply is_derive_ext; [|exact G1]. intros s; cbn. apply EP1.
Qed.
End Pend.
(** It needs ten parameters: the five default ones are refused. *)
Theorem pend_params x u ps y : doub_pend_F x u ps = Ok y -> length x = 4%nat /\ length u = 2%nat /\ length ps = 10%nat.
Proof.
  unfold doub_pend_F, doub_pend_params. destruct x as [|? [|? [|? [|? [|]]]]]; try discriminate. destruct u as [|? [|? [|]]]; try discriminate.
  destruct (length ps =? 10)%nat eqn:E; cbn [rbind]; [|discriminate]. intros _. apply Nat.eqb_eq in E. auto.
Qed.
Theorem pend_default x u : exists e, doub_pend_F x u doub_pend_default = Err e.
Proof. destruct (doub_pend_F x u doub_pend_default) as [y|e] eqn:E; [|eauto]. apply pend_params in E. cbn in E. lia. Qed.
Lemma ex_pend : doub_pend_F [0; 0; 0; 0] [1; 0] [9; 9; 9; 9; 9; 1; 1; 1; 1; 10] = Ok [0; 0; 1; - 1].
Proof.
  apply (pend_solves 1 1 1 1 10); [lra|lra|lra|lra|]. unfold eq0, eq1, for0, for1. replace (0 - 0) with 0 by ring. rewrite sin_0, cos_0. split; ring.
Qed.
(** a pendulum at rest *)
Lemma ex_pend_rest : euler_lagrange2 (pend_L 1 1 1 1 10) (fun _ => 0) (fun _ => 0) (fun _ => 0) (fun _ => 0) (fun _ => 0) (fun _ => 0).
Proof.
  apply (pend_motion 1 1 1 1 10 ltac:(lra) ltac:(lra) ltac:(lra) ltac:(lra) _ _ _ _ (fun _ => 0) (fun _ => 0) _ _ 0 0 0 0 0).
  - intros t. repeat split; apply derivable_pt_lim_const.
  - intros t. apply (pend_solves 1 1 1 1 10); [lra|lra|lra|lra|]. unfold eq0, eq1, for0, for1. replace (0 - 0) with 0 by ring. rewrite sin_0, cos_0. split; ring.
Qed.
