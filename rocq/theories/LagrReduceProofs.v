(** Constrained equations of motion: the reduction solves them. *)
From Coq Require Import String FunctionalExtensionality.
From Coquelicot Require Import Coquelicot.
From Verif Require Import Prelude PreludeFacts PwInterpModel SymModel LagrModel LagrSpec LagrFacts LagrProofs LagrAlgebra.
Open Scope R_scope.
Open Scope list_scope.

Lemma line_open_upd D rho a : line_open D -> D rho -> locally (rho a) (fun x => D (upd rho a x)).
Proof.
  intros Ho Hr. destruct (Ho rho (unit_env a) Hr) as [eps He]. exists eps. intros x Hx. change (D (upd rho a x)).
  assert (E : forall y : R, upd rho a y = fun b => rho b + (y - rho a) * unit_env a b).
  { intros y. apply functional_extensionality. intros b. unfold upd, unit_env. destruct (atom_eq_dec b a); [subst|]; ring. }
  rewrite E. apply He. unfold ball in *. cbn in *. unfold AbsRing_ball, abs, minus, plus, opp in *. cbn in *.
  replace (x - rho a + - 0) with (x + - rho a) by ring. exact Hx.
Qed.
Lemma partial_partial D e a b rho : line_open D -> smooth_on D e -> D rho ->
  partial (partial (fun r => eval r e) a) b rho = eval rho (diff b (diff a e)).
Proof.
  intros Ho Hs Hr. rewrite <- partial_diff by (apply smooth_diff; auto). unfold partial at 1 3.
  apply Derive_ext_loc. destruct (line_open_upd D rho b Ho Hr) as [eps He]. exists eps. intros x Hx.
  apply partial_diff. auto.
Qed.
(** Second derivatives commute. *)
Lemma diff_comm rho a b e : eval rho (diff a (diff b e)) = eval rho (diff b (diff a e)).
Proof.
  induction e as [r | c | e1 IH1 e2 IH2 | e1 IH1 e2 IH2 | f k e IH]; cbn [diff eval].
  - reflexivity.
  - destruct (atom_eq_dec c a), (atom_eq_dec c b); reflexivity.
  - now rewrite IH1, IH2.
  - rewrite IH1, IH2. ring.
  - rewrite IH. ring.
Qed.

Lemma Rminus_plus_distr' x y z : x - (y + z) = x - y - z.
Proof. ring. Qed.

Section Mechanism.
Variables (D : env -> Prop) (s : lagrange) (B : emat).
Hypothesis ME : mechanism D s B.
Let n := lg_n s.
Let m := length (lg_coneqs s).
Let a := (n - m)%nat.
Let con k := nth k (lg_coneqs s) (Num 0).
Let q := lg_q s.
Let q1 : evec := fun i => Var (q 1 i).
Lemma n_split : n = (a + m)%nat.
Proof. unfold a. pose proof (me_count _ _ _ ME). unfold n, m. lia. Qed.
Lemma me_m_d rho i j : D rho -> (i < n)%nat -> (j < n)%nat ->
  eval rho (m_d s i j) = partial (partial (fun r => eval r (lg_L s)) (q 1 i)) (q 1 j) rho.
Proof.
  intros Hr Hi Hj. rewrite (partial_partial D) by (first [apply ME | auto]; auto).
  apply eval_m_d; auto; [apply ME | apply ME; auto].
Qed.
Lemma me_sym rho i j : D rho -> (i < n)%nat -> (j < n)%nat -> eval rho (m_d s i j) = eval rho (m_d s j i).
Proof.
  intros Hr Hi Hj. rewrite !eval_m_d by (first [apply ME | auto]; auto). apply diff_comm.
Qed.
Lemma me_posdef rho : D rho -> posdef n (ev rho (m_d s)).
Proof.
  intros Hr x Hx. pose proof (me_mass _ _ _ ME rho Hr x Hx) as H. eapply Rlt_le_trans; [exact H|]. right.
  apply rsum_ext. intros i Hi. f_equal. apply mv_ext; auto. intros j Hj. symmetry. apply me_m_d; auto.
Qed.
(** The coefficients of the multipliers. *)
Definition con_of (k : nat) : expr := esum n (fun j => Times (B k j) (Var (q 1 j))).
Lemma con_of_value rho k : D rho -> (k < m)%nat -> eval rho (con k) = eval rho (con_of k).
Proof.
  intros Hr Hk. destruct (me_con _ _ _ ME k Hk) as (_ & _ & H). unfold con. rewrite H by auto.
  unfold con_of. rewrite eval_esum. reflexivity.
Qed.
Lemma con_of_smooth rho k : D rho -> (k < m)%nat -> smooth_at rho (con_of k).
Proof. intros Hr Hk. apply smooth_esum. intros j Hj. split; [apply (me_B _ _ _ ME k j Hk Hj); auto | exact I]. Qed.
Lemma lam_smooth rho k j : D rho -> (k < m)%nat -> smooth_at rho (lam_coeffs s k j).
Proof. intros Hr Hk. apply smooth_Neg, smooth_diff. apply (proj1 (me_con _ _ _ ME k Hk)); auto. Qed.
Lemma lam_value rho k j : D rho -> (k < m)%nat -> (j < n)%nat -> eval rho (lam_coeffs s k j) = - eval rho (B k j).
Proof.
  intros Hr Hk Hj. unfold lam_coeffs. rewrite eval_Neg. f_equal.
  rewrite (diff_value D _ (con_of k) rho).
  - rewrite eval_diff. unfold con_of. rewrite tangent_esum. cbn [tangent eval].
    rewrite (rsum_ext n _ (fun l => (if (l =? j)%nat then 1 else 0) * eval rho (B k l))).
    + apply rsum_pick'; auto.
    + intros l Hl. unfold q, lg_q. rewrite (position_tangent rho (lg_qs s) 0 j) by (apply (me_B _ _ _ ME k l Hk Hl)).
      rewrite unit_qd by (auto; apply ME). ring.
  - apply ME.
  - auto.
  - apply (proj1 (me_con _ _ _ ME k Hk)); auto.
  - apply con_of_smooth; auto.
  - intros r Hr'. apply con_of_value; auto.
Qed.
Lemma con_value rho k : D rho -> (k < m)%nat -> eval rho (con k) = - mv n (ev rho (lam_coeffs s)) (fun j => rho (q 1 j)) k.
Proof.
  intros Hr Hk. rewrite con_of_value by auto. unfold con_of. rewrite eval_esum.
  rewrite <- mv_Mopp. unfold mv. apply rsum_ext. intros j Hj. cbn [eval]. unfold ev. rewrite lam_value by auto. ring.
Qed.
(** ... and of the derivatives of the constraints *)
Lemma con_ddt rho k : D rho -> (k < m)%nat ->
  eval rho (ddt (con k)) = - (mv n (ev rho (lam_coeffs s)) (fun j => rho (q 2 j)) k +
                              mv n (fun k j => eval rho (ddt (lam_coeffs s k j))) (fun j => rho (q 1 j)) k).
Proof.
  intros Hr Hk. rewrite (ddt_value D _ (Neg (emulv n (lam_coeffs s) q1 k))).
  - rewrite eval_ddt, tangent_Neg. unfold emulv. rewrite tangent_esum. f_equal.
    unfold mv. rewrite <- rsum_plus. apply rsum_ext. intros j Hj. cbn [tangent eval]. rewrite <- eval_ddt.
    unfold q1, q, lg_q, qd. cbn [tangent eval next_env]. unfold ev. ring.
  - apply ME.
  - auto.
  - apply (proj1 (me_con _ _ _ ME k Hk)); auto.
  - apply smooth_Neg, smooth_esum. intros j Hj. split; [apply lam_smooth; auto | exact I].
  - intros r Hr'. rewrite con_value by auto. rewrite eval_Neg, eval_emulv. reflexivity.
Qed.

Section Reduced.
Variables (inv : nat -> emat -> Res emat) (r : reduction).
Hypothesis Hinv : inverts inv.
Hypothesis Hr : reduce inv n m (m_d s) (lam_coeffs s) (f_d s) q1 = Ok r.
Let P := rd_phi_de_inv r.
Lemma reduce_parts : exists h_inv,
  inv m (phi_q_de n m (lam_coeffs s)) = Ok P /\
  rd_R r = emul m (fun i j => Neg (P i j)) (lam_coeffs s) /\
  rd_R_dot r = (fun i j => ddt (rd_R r i j)) /\
  rd_H r = (fun i j => Plus (Plus (Plus (m_d s i j) (emul m (M_con n m (m_d s)) (rd_R r) i j)) (emul m (M_con n m (m_d s)) (rd_R r) j i))
                            (emul m (emul m (etr (rd_R r)) (M_de n m (m_d s))) (rd_R r) i j)) /\
  rd_K r = (fun i j => Plus (emul m (emul m (etr (rd_R r)) (M_de n m (m_d s))) (rd_R_dot r) i j) (emul m (M_con n m (m_d s)) (rd_R_dot r) i j)) /\
  rd_Fa r = (fun i => Plus (f_d s i) (emulv m (etr (rd_R r)) (Q_de n m (f_d s)) i)) /\
  inv a (rd_H r) = Ok h_inv /\
  rd_q_dotdot_in r = emulv a h_inv (fun i => Minus (rd_Fa r i) (emulv a (rd_K r) q1 i)) /\
  rd_q_dot_de r = emulv a (rd_R r) q1.
Proof.
  unfold reduce in Hr. destruct (inv m (phi_q_de n m (lam_coeffs s))) as [P0|] eqn:E1; cbn [rbind] in Hr; [|discriminate].
  match type of Hr with context [inv (n_ind n m) ?H] => destruct (inv (n_ind n m) H) as [h|] eqn:E2 end; cbn [rbind] in Hr; [|discriminate].
  inversion Hr as [E]. exists h. subst r. unfold P. cbn. repeat split; auto.
Qed.
Section At.
Variable rho : env.
Hypothesis Hd : D rho.
Let Mn := ev rho (m_d s).
Let phi := ev rho (lam_coeffs s).
Let phid : nat -> nat -> R := fun k j => eval rho (ddt (lam_coeffs s k j)).
Let Pn := ev rho P.
Let Rn : nat -> nat -> R := fun i j => - mm m Pn phi i j.
Let Rdn := ev rho (rd_R_dot r).
Let Q := evv rho (f_d s).
Let v : nat -> R := fun j => rho (q 1 j).
Let acc : nat -> R := fun j => rho (q 2 j).
Lemma de_invertible r0 : D r0 -> exists N, inverse m (ev r0 (phi_q_de n m (lam_coeffs s))) N.
Proof.
  intros Hd0. destruct (me_dependent _ _ _ ME r0 Hd0) as [N [H1 H2]]. exists (fun i j => - N i j).
  assert (E : forall i j, (i < m)%nat -> (j < m)%nat -> ev r0 (phi_q_de n m (lam_coeffs s)) i j = - eval r0 (B i (n - m + j)%nat)).
  { intros i j Hi Hj. unfold ev, phi_q_de. change (n_ind n m) with a. rewrite lam_value; auto. rewrite n_split. lia. }
  split; intros i j Hi Hj.
  - rewrite <- (H1 i j) by auto. apply rsum_ext. intros l Hl. rewrite E by auto. fold n. fold m. ring.
  - rewrite <- (H2 i j) by auto. apply rsum_ext. intros l Hl. rewrite E by auto. fold n. fold m. ring.
Qed.
Lemma P_inverse r0 : D r0 -> inverse m (ev r0 (phi_q_de n m (lam_coeffs s))) (ev r0 P).
Proof.
  intros Hd0. destruct reduce_parts as (h & E & _). exact (proj1 (Hinv m _ P E r0 (de_invertible r0 Hd0))).
Qed.
Lemma P_smooth r0 i j : D r0 -> (i < m)%nat -> (j < m)%nat -> smooth_at r0 (P i j).
Proof.
  intros Hd0 Hi Hj. destruct reduce_parts as (h & E & _). apply (proj2 (Hinv m _ P E r0 (de_invertible r0 Hd0))); auto.
  intros x y Hx Hy. apply lam_smooth; auto.
Qed.
Lemma R_value r0 i j : eval r0 (rd_R r i j) = - mm m (ev r0 P) (ev r0 (lam_coeffs s)) i j.
Proof.
  destruct reduce_parts as (h & _ & E & _). rewrite E, eval_emul.
  transitivity ((-1) * mm m (ev r0 P) (ev r0 (lam_coeffs s)) i j); [|ring]. unfold mm. rewrite <- rsum_scal. apply rsum_ext.
  intros l _. rewrite eval_Neg. unfold ev. ring.
Qed.
Lemma R_smooth r0 i j : D r0 -> (i < m)%nat -> smooth_at r0 (rd_R r i j).
Proof.
  intros Hd0 Hi. destruct reduce_parts as (h & _ & E & _). rewrite E. apply smooth_esum. intros l Hl.
  split; [apply smooth_Neg, P_smooth; auto | apply lam_smooth; auto].
Qed.
Lemma R_dot_identity k j : (k < m)%nat -> (j < a)%nat ->
  phid k j + mm m (fun k l => phid k (a + l)%nat) Rn k j + mm m (fun i j => phi i (a + j)%nat) Rdn k j = 0.
Proof.
  intros Hk Hj.
  assert (E : eval rho (ddt (emul m (phi_q_de n m (lam_coeffs s)) (rd_R r) k j)) = eval rho (ddt (Neg (lam_coeffs s k j)))).
  { apply (ddt_value D).
    - apply ME.
    - auto.
    - apply smooth_esum. intros l Hl. split; [apply lam_smooth; auto | apply R_smooth; auto].
    - apply smooth_Neg, lam_smooth; auto.
    - intros r0 Hd0. rewrite eval_emul, eval_Neg.
      pose proof (mv_inv_r m _ _ (fun l => - eval r0 (lam_coeffs s l j)) k (P_inverse r0 Hd0) Hk) as X. rewrite <- X.
      unfold mv at 1. apply rsum_ext. intros l Hl. f_equal. rewrite R_value, mv_opp. reflexivity. }
  rewrite !eval_ddt, tangent_Neg in E. unfold emul in E. rewrite tangent_esum in E.
  cbn [tangent] in E. rewrite rsum_plus in E.
  assert (E2 : mm m (fun k l => phid k (a + l)%nat) Rn k j = rsum m (fun l => tangent rho (next_env rho) (phi_q_de n m (lam_coeffs s) k l) * eval rho (rd_R r l j))).
  { unfold mm. apply rsum_ext. intros l Hl. rewrite R_value. unfold phid. rewrite eval_ddt. reflexivity. }
  assert (E3 : mm m (fun i j => phi i (a + j)%nat) Rdn k j = rsum m (fun l => eval rho (phi_q_de n m (lam_coeffs s) k l) * tangent rho (next_env rho) (rd_R r l j))).
  { unfold mm. apply rsum_ext. intros l Hl. unfold Rdn, ev. destruct reduce_parts as (h & _ & _ & Ed & _). rewrite Ed, eval_ddt. reflexivity. }
  rewrite E2, E3. unfold phid. rewrite eval_ddt. lra.
Qed.
Lemma velocity : (forall k, (k < m)%nat -> eval rho (con k) = 0) -> forall k, (k < m)%nat -> v (a + k)%nat = mv a Rn v k.
Proof.
  intros Hc k Hk.
  assert (E : forall l, (l < m)%nat -> mv m (fun i j => phi i (a + j)%nat) (fun j => v (a + j)%nat) l = - mv a phi v l).
  { intros l Hl. specialize (Hc l Hl). rewrite con_value in Hc by auto.
    assert (X : mv n phi v l = 0) by (change (mv n phi v l) with (mv n (ev rho (lam_coeffs s)) (fun j => rho (q 1 j)) l); lra).
    rewrite n_split in X. rewrite split_mv in X. lra. }
  rewrite <- (mv_inv_l m _ _ (fun j => v (a + j)%nat) k (P_inverse rho Hd) Hk).
  rewrite (mv_ext m (ev rho P) Pn _ (fun l => - mv a phi v l) k); auto.
  rewrite mv_opp. unfold Rn. rewrite mv_Mopp, mv_mm. reflexivity.
Qed.
Lemma M_sym : forall i j, (i < a)%nat -> (j < m)%nat -> Mn (a + j)%nat i = Mn i (a + j)%nat.
Proof. intros i j Hi Hj. apply me_sym; auto; rewrite n_split; lia. Qed.
Let Hn : nat -> nat -> R := fun i j =>
  Mn i j + mm m (fun i j => Mn i (a + j)%nat) Rn i j + mm m (fun i j => Mn i (a + j)%nat) Rn j i +
  mm m (mm m (tr Rn) (fun i j => Mn (a + i)%nat (a + j)%nat)) Rn i j.
Lemma R_value' i j : eval rho (rd_R r i j) = Rn i j.
Proof. apply R_value. Qed.
Lemma H_value i j : eval rho (rd_H r i j) = Hn i j.
Proof.
  destruct reduce_parts as (h & _ & _ & _ & E & _). rewrite E. cbn [eval]. rewrite !eval_emul. unfold Hn. f_equal; [f_equal; [f_equal|]|].
  - apply rsum_ext. intros l _. rewrite R_value'. reflexivity.
  - apply rsum_ext. intros l _. rewrite R_value'. reflexivity.
  - apply rsum_ext. intros l _. rewrite R_value'. f_equal. rewrite eval_emul. apply rsum_ext. intros p _.
    unfold etr. rewrite R_value'. reflexivity.
Qed.
Lemma K_value i j : eval rho (rd_K r i j) = mm m (mm m (tr Rn) (fun i j => Mn (a + i)%nat (a + j)%nat)) Rdn i j + mm m (fun i j => Mn i (a + j)%nat) Rdn i j.
Proof.
  destruct reduce_parts as (h & _ & _ & _ & _ & E & _). rewrite E. cbn [eval]. rewrite !eval_emul. f_equal.
  apply rsum_ext. intros l _. unfold Rdn, ev. f_equal. rewrite eval_emul. apply rsum_ext. intros p _. unfold etr. rewrite R_value'. reflexivity.
Qed.
Lemma Fa_value i : eval rho (rd_Fa r i) = Q i + mv m (tr Rn) (fun k => Q (a + k)%nat) i.
Proof.
  destruct reduce_parts as (h & _ & _ & _ & _ & _ & E & _). rewrite E. cbn [eval]. rewrite eval_emulv. f_equal.
  apply rsum_ext. intros l _. unfold etr. rewrite R_value'. reflexivity.
Qed.
Lemma H_posdef : posdef a Hn.
Proof. apply reduced_posdef; [apply M_sym|]. rewrite <- n_split. apply me_posdef; auto. Qed.
Lemma inverse_ext k A A' N : (forall i j, (i < k)%nat -> (j < k)%nat -> A i j = A' i j) -> inverse k A N -> inverse k A' N.
Proof.
  intros H [H1 H2]. split; intros i j Hi Hj.
  - rewrite <- (H1 i j) by auto. apply rsum_ext. intros l Hl. rewrite H; auto.
  - rewrite <- (H2 i j) by auto. apply rsum_ext. intros l Hl. rewrite H; auto.
Qed.
Lemma acc_in i : exists hn, inverse a Hn hn /\
  eval rho (rd_q_dotdot_in r i) = mv a hn (fun j => (Q j + mv m (tr Rn) (fun k => Q (a + k)%nat) j) -
      mv a (fun i j => mm m (mm m (tr Rn) (fun i j => Mn (a + i)%nat (a + j)%nat)) Rdn i j + mm m (fun i j => Mn i (a + j)%nat) Rdn i j) v j) i.
Proof.
  destruct reduce_parts as (h & _ & _ & _ & _ & _ & _ & Eh & E & _). exists (ev rho h). split.
  - apply (inverse_ext a (ev rho (rd_H r))); [intros; apply H_value|].
    apply (proj1 (Hinv a _ h Eh rho ltac:(destruct (posdef_inverse a Hn H_posdef) as [N HN]; exists N; apply (inverse_ext a Hn); auto; intros; symmetry; apply H_value))).
  - rewrite E, eval_emulv. unfold mv at 1. apply rsum_ext. intros j Hj. f_equal. rewrite eval_Minus, Fa_value, eval_emulv. f_equal.
    unfold mv at 1. apply rsum_ext. intros l Hl. rewrite K_value. reflexivity.
Qed.
Lemma acc_all : exists hn, inverse a Hn hn /\ forall i, (i < n)%nat ->
  eval rho (q_dotdot n m q1 r i) =
  let s_in i := mv a hn (fun j => (Q j + mv m (tr Rn) (fun k => Q (a + k)%nat) j) -
      mv a (fun i j => mm m (mm m (tr Rn) (fun i j => Mn (a + i)%nat (a + j)%nat)) Rdn i j + mm m (fun i j => Mn i (a + j)%nat) Rdn i j) v j) i in
  if (i <? a)%nat then s_in i else mv a Rdn v (i - a) + mv a Rn s_in (i - a).
Proof.
  destruct reduce_parts as (h & _ & _ & _ & _ & _ & _ & Eh & E & _). 
  assert (X : forall i, eval rho (rd_q_dotdot_in r i) = mv a (ev rho h) (fun j => (Q j + mv m (tr Rn) (fun k => Q (a + k)%nat) j) -
      mv a (fun i j => mm m (mm m (tr Rn) (fun i j => Mn (a + i)%nat (a + j)%nat)) Rdn i j + mm m (fun i j => Mn i (a + j)%nat) Rdn i j) v j) i).
  { intros i. rewrite E, eval_emulv. unfold mv at 1. apply rsum_ext. intros j Hj. f_equal. rewrite eval_Minus, Fa_value, eval_emulv. f_equal.
    unfold mv at 1. apply rsum_ext. intros l Hl. rewrite K_value. reflexivity. }
  exists (ev rho h). split.
  - apply (inverse_ext a (ev rho (rd_H r))); [intros; apply H_value|].
    apply (proj1 (Hinv a _ h Eh rho ltac:(destruct (posdef_inverse a Hn H_posdef) as [N HN]; exists N; apply (inverse_ext a Hn); auto; intros; symmetry; apply H_value))).
  - intros i Hi. cbv zeta. unfold q_dotdot, q_dotdot_de. change (n_ind n m) with a. destruct (Nat.ltb_spec i a); [apply X|].
    cbn [eval]. rewrite !eval_emulv. f_equal.
    unfold mv at 1. apply rsum_ext. intros j Hj. rewrite X, R_value'. reflexivity.
Qed.
Lemma w_value (S : nat -> R) j : (j < m)%nat -> (forall i, (i < n)%nat -> eval rho (q_dotdot n m q1 r i) = S i) ->
  w a m Mn Q S j =
  eval rho (f_d s (a + j)%nat) - rsum n (fun i => eval rho (m_d s (a + j)%nat i) * eval rho (q_dotdot n m q1 r i)).
Proof.
  intros Hj HS. rewrite (rsum_ext n _ (fun i => Mn (a + j)%nat i * S i)) by (intros i Hi; rewrite HS; auto).
  replace (rsum n (fun i => Mn (a + j)%nat i * S i)) with (rsum (a + m) (fun i => Mn (a + j)%nat i * S i)) by (rewrite <- n_split; reflexivity).
  rewrite rsum_split, Rminus_plus_distr'. unfold w. f_equal. f_equal.
  apply rsum_ext. intros i Hi. f_equal. symmetry. apply M_sym; auto.
Qed.
(** The accelerations are those of the constrained system, and the multipliers
    are determined. *)
Theorem reduced_solves l : (forall k, (k < m)%nat -> eval rho (con k) = 0) ->
  ((forall k, (k < m)%nat -> eval rho (ddt (con k)) = 0) /\
   (forall i, (i < n)%nat -> eval rho (term1 s i) - eval rho (term2 s i) + rsum m (fun k => eval rho (lam_coeffs s k i) * l k) = eval rho (lg_forces s i))) <->
  ((forall i, (i < n)%nat -> rho (q 2 i) = eval rho (q_dotdot n m q1 r i)) /\
   (forall k, (k < m)%nat -> l k = rsum m (fun j => eval rho (P j k) *
      (eval rho (f_d s (a + j)%nat) - rsum n (fun i => eval rho (m_d s (a + j)%nat i) * eval rho (q_dotdot n m q1 r i)))))).
Proof.
  intros Hc. destruct acc_all as (hn & Hh & Ha).
  pose proof (reduction_solves a m Mn phi phid Pn Rdn Q v M_sym (P_inverse rho Hd) R_dot_identity (velocity Hc) hn Hh acc l) as X.
  cbv zeta in X.
  assert (A1 : forall k, (k < m)%nat -> (eval rho (ddt (con k)) = 0 <-> mv (a + m) phi acc k + mv (a + m) phid v k = 0)).
  { intros k Hk. rewrite con_ddt by auto. rewrite n_split. fold phi phid v acc. split; intros; lra. }
  assert (A2 : forall i, (i < n)%nat ->
     (eval rho (term1 s i) - eval rho (term2 s i) + rsum m (fun k => eval rho (lam_coeffs s k i) * l k) = eval rho (lg_forces s i) <->
      mv (a + m) Mn acc i + mv m (tr phi) l i = Q i)).
  { intros i Hi. rewrite <- n_split.
    pose proof (mass_forcing rho s i (me_names _ _ _ ME) (proj2 (me_L _ _ _ ME)) (me_forces _ _ _ ME i Hi)) as Y.
    change (rsum (lg_n s) (fun j => eval rho (m_d s i j) * rho (lg_q s 2 j))) with (mv n Mn acc i) in Y.
    change (mv m (tr phi) l i) with (rsum m (fun k => eval rho (lam_coeffs s k i) * l k)). change (Q i) with (eval rho (f_d s i)).
    split; intros; lra. }
  transitivity ((forall k, (k < m)%nat -> mv (a + m) phi acc k + mv (a + m) phid v k = 0) /\
                (forall i, (i < a + m)%nat -> mv (a + m) Mn acc i + mv m (tr phi) l i = Q i)).
  { rewrite <- n_split in *. split; intros [H1 H2]; split; intros; (apply A1 || apply A2); auto. }
  rewrite X. clear X A1 A2. rewrite <- n_split.
  split; intros [H1 H2].
  - split.
    + intros i Hi. rewrite Ha by auto. exact (H1 i Hi).
    + intros k Hk. rewrite (H2 k Hk). apply rsum_ext. intros j Hj. unfold tr. f_equal. apply w_value; auto.
  - split.
    + intros i Hi. transitivity (eval rho (q_dotdot n m q1 r i)); [apply (H1 i Hi) | apply Ha; auto].
    + intros k Hk. rewrite (H2 k Hk). apply rsum_ext. intros j Hj. unfold tr. f_equal. symmetry. apply w_value; auto.
Qed.
End At.
Lemma reduced_motion g t : motion g -> (forall x, D (g x)) -> (forall x k, (k < m)%nat -> eval (g x) (con k) = 0) ->
  ((exists l, forall i, (i < n)%nat ->
      euler_lagrange (fun rho => eval rho (lg_L s)) (lg_qs s) i g t =
      eval (g t) (lg_forces s i) + rsum m (fun k => l k * partial (fun rho => eval rho (con k)) (q 1 i) (g t))) <->
   (forall i, (i < n)%nat -> g t (q 2 i) = eval (g t) (q_dotdot n m q1 r i))).
Proof.
  intros Hm HD Hc.
  assert (Hdc : forall k, (k < m)%nat -> eval (g t) (ddt (con k)) = 0).
  { intros k Hk. pose proof (ddt_derive g t (con k) Hm (proj1 (me_con _ _ _ ME k Hk) _ (HD t))) as E.
    apply is_derive_unique in E. rewrite (Derive_ext _ (fun _ => 0)) in E by (intros; apply Hc; auto). rewrite Derive_const in E. auto. }
  assert (Hl : forall k i, (k < m)%nat -> partial (fun rho => eval rho (con k)) (q 1 i) (g t) = - eval (g t) (lam_coeffs s k i)).
  { intros k i Hk. rewrite partial_diff by (apply (proj1 (me_con _ _ _ ME k Hk)); auto).
    unfold lam_coeffs. rewrite eval_Neg. fold q. unfold con. ring. }
  assert (He : forall i, euler_lagrange (fun rho => eval rho (lg_L s)) (lg_qs s) i g t = eval (g t) (term1 s i) - eval (g t) (term2 s i)).
  { intros i. apply euler_lagrange_value; auto. intros x. apply (proj1 (me_L _ _ _ ME)); auto. }
  assert (Hs : forall l i, rsum m (fun k => l k * partial (fun rho => eval rho (con k)) (q 1 i) (g t)) = - rsum m (fun k => eval (g t) (lam_coeffs s k i) * l k)).
  { intros l i. transitivity ((-1) * rsum m (fun k => eval (g t) (lam_coeffs s k i) * l k)); [|ring].
    rewrite <- rsum_scal. apply rsum_ext. intros k Hk. rewrite Hl by auto. ring. }
  split.
  - intros [l E].
    assert (E' : forall i, (i < n)%nat -> eval (g t) (term1 s i) - eval (g t) (term2 s i) + rsum m (fun k => eval (g t) (lam_coeffs s k i) * l k) = eval (g t) (lg_forces s i)).
    { intros i Hi. specialize (E i Hi). rewrite He, Hs in E. lra. }
    exact (proj1 (proj1 (reduced_solves (g t) (HD t) l (Hc t)) (conj Hdc E'))).
  - intros E. set (l := fun k => rsum m (fun j => eval (g t) (P j k) *
      (eval (g t) (f_d s (a + j)%nat) - rsum n (fun i => eval (g t) (m_d s (a + j)%nat i) * eval (g t) (q_dotdot n m q1 r i))))).
    exists l.
    intros i Hi. rewrite He.
    pose proof (proj2 (proj2 (reduced_solves (g t) (HD t) l (Hc t)) (conj E (fun k Hk => eq_refl))) i Hi) as X.
    pose proof (Hs l i) as Y. cbv beta in *. rewrite Y. lra.
Qed.
Lemma multipliers_unique rho l l' : D rho -> (forall k, (k < m)%nat -> eval rho (con k) = 0) -> (forall k, (k < m)%nat -> eval rho (ddt (con k)) = 0) ->
  (forall i, (i < n)%nat -> eval rho (term1 s i) - eval rho (term2 s i) + rsum m (fun k => eval rho (lam_coeffs s k i) * l k) = eval rho (lg_forces s i)) ->
  (forall i, (i < n)%nat -> eval rho (term1 s i) - eval rho (term2 s i) + rsum m (fun k => eval rho (lam_coeffs s k i) * l' k) = eval rho (lg_forces s i)) ->
  forall k, (k < m)%nat -> l k = l' k.
Proof.
  intros Hd Hc Hdc H1 H2 k Hk.
  rewrite (proj2 (proj1 (reduced_solves rho Hd l Hc) (conj Hdc H1)) k Hk).
  rewrite (proj2 (proj1 (reduced_solves rho Hd l' Hc) (conj Hdc H2)) k Hk). reflexivity.
Qed.
Lemma lambda_right rho : D rho -> (forall k, (k < m)%nat -> eval rho (con k) = 0) ->
  (forall i j, (i < a)%nat -> (j < m)%nat -> eval rho (m_d s i (a + j)%nat) = 0) ->
  (forall k j, (k < m)%nat -> (j < m)%nat -> eval rho (rd_phi_de_inv r k j) = eval rho (rd_phi_de_inv r j k)) ->
  (forall i, (i < n)%nat -> rho (q 2 i) = eval rho (q_dotdot n m q1 r i)) ->
  forall i, (i < n)%nat -> eval rho (term1 s i) - eval rho (term2 s i) +
    rsum m (fun k => eval rho (lam_coeffs s k i) * eval rho (lambda_vector n m (m_d s) (f_d s) q1 r k)) = eval rho (lg_forces s i).
Proof.
  intros Hd Hc HM HP E. apply (proj2 (reduced_solves rho Hd (fun k => eval rho (lambda_vector n m (m_d s) (f_d s) q1 r k)) Hc)).
  split; auto. intros k Hk. unfold lambda_vector. rewrite eval_emulv. apply rsum_ext. intros j Hj.
  rewrite (HP k j) by auto. unfold P. f_equal. rewrite eval_Minus, eval_emulv. unfold Q_de, M_de. change (n_ind n m) with a. f_equal.
  transitivity (rsum (a + m) (fun i => eval rho (m_d s (a + j)%nat i) * eval rho (q_dotdot n m q1 r i))).
  - rewrite rsum_split. rewrite (rsum_zero a); [rewrite Rplus_0_l|].
    + apply rsum_ext. intros i Hi. f_equal. unfold q_dotdot. change (n_ind n m) with a.
      destruct (Nat.ltb_spec (a + i) a); [lia|]. replace (a + i - a)%nat with i by lia. reflexivity.
    + intros i Hi. rewrite (me_sym rho (a + j) i) by (auto; rewrite n_split; lia). rewrite HM by auto. ring.
  - rewrite <- n_split. reflexivity.
Qed.
(** Accelerations of the complete right-hand side keep the constraints. *)
Lemma constraints_kept g t0 : motion g -> (forall t, D (g t)) -> (forall k, (k < m)%nat -> eval (g t0) (con k) = 0) ->
  (forall t i, (i < n)%nat -> g t (q 2 i) = eval (g t) (q_dotdot n m q1 r i)) ->
  forall t k, (k < m)%nat -> eval (g t) (con k) = 0.
Proof.
  intros Hm HD H0 Ha.
  set (f := fun k t => g t (q 1 (a + k)%nat) - eval (g t) (emulv a (rd_R r) q1 k)).
  assert (Hf : forall k t, (k < m)%nat -> is_derive (f k) t 0).
  { intros k t Hk. unfold f.
    pose proof (ddt_derive g t (emulv a (rd_R r) q1 k) Hm) as E1.
    assert (S1 : smooth_at (g t) (emulv a (rd_R r) q1 k)).
    { apply smooth_esum. intros j Hj. split; [apply R_smooth; auto | exact I]. }
    specialize (E1 S1). pose proof (proj1 Hm (nth (a + k) (lg_qs s) ""%string) 1%nat t) as E2.
    pose proof (is_derive_minus _ _ t _ _ E2 E1) as E3.
    replace 0 with (minus (g t (Dyn (nth (a + k) (lg_qs s) ""%string) 2)) (eval (g t) (ddt (emulv a (rd_R r) q1 k)))); [exact E3|].
    assert (N1 : (a + k < n)%nat) by (rewrite n_split; lia).
    pose proof (Ha t (a + k)%nat N1) as E4. unfold q, lg_q, qd in E4. rewrite E4.
    unfold minus, plus, opp. cbn -[eval ddt emulv q_dotdot].
    apply Rminus_diag_eq. unfold q_dotdot. change (n_ind n m) with a.
    destruct (Nat.ltb_spec (a + k) a); [lia|]. replace (a + k - a)%nat with k by lia.
    unfold q_dotdot_de. cbn [eval]. rewrite !eval_emulv, eval_ddt. unfold emulv. rewrite tangent_esum, <- rsum_plus.
    apply rsum_ext. intros j Hj. cbn [tangent eval]. rewrite <- eval_ddt.
    destruct reduce_parts as (h & _ & _ & Ed & _). rewrite Ed.
    assert (N2 : (j < n)%nat) by (rewrite n_split; lia).
    pose proof (Ha t j N2) as E5. unfold q_dotdot in E5. change (n_ind n m) with a in E5. destruct (Nat.ltb_spec j a); [|lia].
    change (q_dot_in q1 j) with (Var (q 1 j)). change (q1 j) with (Var (q 1 j)). cbn [tangent eval].
    rewrite <- E5. unfold q, lg_q, qd. cbn [next_env]. reflexivity. }
  assert (Z0 : forall k, (k < m)%nat -> f k t0 = 0).
  { intros k Hk. unfold f. pose proof (velocity (g t0) (HD t0) H0 k Hk) as V. cbv zeta in V. rewrite V.
    rewrite eval_emulv. apply Rminus_diag_eq. apply rsum_ext. intros j Hj. rewrite R_value. reflexivity. }
  assert (Z : forall t k, (k < m)%nat -> f k t = 0).
  { intros t k Hk. destruct (Rtotal_order t t0) as [L|[L|L]].
    - rewrite <- (Z0 k Hk). apply eq_is_derive; auto.
    - subst. auto.
    - rewrite <- (Z0 k Hk). symmetry. apply eq_is_derive; auto. }
  intros t k Hk. rewrite con_value by auto.
  replace (mv n (ev (g t) (lam_coeffs s)) (fun j => g t (q 1 j)) k)
    with (mv (a + m) (ev (g t) (lam_coeffs s)) (fun j => g t (q 1 j)) k) by (rewrite <- n_split; reflexivity).
  rewrite split_mv.
  pose proof (de_R a m (ev (g t) (lam_coeffs s)) (ev (g t) P) (P_inverse (g t) (HD t)) (fun j => g t (q 1 j)) k Hk) as E. cbv zeta in E.
  rewrite (mv_ext m _ (fun i j => ev (g t) (lam_coeffs s) i (a + j)%nat) _ (mv a (fun i j => - mm m (ev (g t) P) (ev (g t) (lam_coeffs s)) i j) (fun j => g t (q 1 j))) k); auto.
  - rewrite E. ring.
  - intros l Hl. specialize (Z t l Hl). unfold f in Z. rewrite eval_emulv in Z.
    replace (mv a (fun i j => - mm m (ev (g t) P) (ev (g t) (lam_coeffs s)) i j) (fun j => g t (q 1 j)) l) with
      (rsum a (fun l0 => eval (g t) (rd_R r l l0) * eval (g t) (q1 l0))); [lra|].
    apply rsum_ext. intros j Hj. rewrite R_value. reflexivity.
Qed.
End Reduced.
End Mechanism.
