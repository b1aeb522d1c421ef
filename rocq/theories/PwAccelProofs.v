(** State restrictions against acceleration restrictions (C04) and the
    interior point formulas (C05). *)
From Verif Require Import Prelude PreludeFacts PwModel PwFacts PwSpec PwSchemeProofs.
Open Scope R_scope.
Open Scope vec_scope.

Section OrderM.
  Context {P : Type}.
  Variable F : vec -> vec -> P -> vec.
  Variable p : P.
  Variables M n : nat.
  Hypothesis HM : (0 < M)%nat.
  Hypothesis Hn : (0 < n)%nat.
  Hypothesis HF : order_form M n F p.
  Variables x x_n u u_n u_c : vec.
  Variable dt : R.
  Hypothesis Hx : length x = (M * n)%nat.
  Hypothesis Hxn : length x_n = (M * n)%nat.

  Lemma Mn_ge : (n <= M * n)%nat.
  Proof. nia. Qed.

  Lemma F_length y w : length y = (M * n)%nat -> length (F y w p) = (M * n)%nat.
  Proof. intros; now apply HF. Qed.
  Lemma accel_F_length y w : length y = (M * n)%nat -> length (accel n (F y w p)) = n.
  Proof. intros H. unfold accel. rewrite skipn_length, F_length by auto. pose proof Mn_ge. lia. Qed.
  Lemma F_split y w : length y = (M * n)%nat -> F y w p = skipn n y ++ accel n (F y w p).
  Proof.
    intros H. rewrite <- (firstn_skipn ((M - 1) * n) (F y w p)) at 1.
    f_equal; [now apply HF|]. unfold accel. rewrite F_length by auto. f_equal. nia.
  Qed.
  Lemma dim_is_n a : length a = n -> (vec_len x / order_from_x_a x a)%nat = n.
  Proof.
    intros Ha. unfold order_from_x_a, vec_len. rewrite Hx, Ha.
    rewrite Nat.div_mul by lia. rewrite Nat.mul_comm, Nat.div_mul; lia.
  Qed.
  Lemma x_dot_is_F y w : length y = (M * n)%nat ->
    x_dot_of n x y (accel n (F y w p)) = F y w p.
  Proof.
    intros Hy. rewrite x_dot_of_eq; [symmetry; now apply F_split|congruence|now apply accel_F_length|].
    rewrite Hx. apply Mn_ge.
  Qed.

  Lemma euler_accel_eq a_n :
    euler_accel_restr x x_n (accel n (F x u p)) a_n dt = euler_restr F x x_n u u_n dt p.
  Proof.
    unfold euler_accel_restr. rewrite dim_is_n by now apply accel_F_length.
    now rewrite x_dot_is_F.
  Qed.
  Lemma trapz_accel_eq :
    trapz_accel_restr x x_n (accel n (F x u p)) (accel n (F x_n u_n p)) dt
    = trapz_restr F x x_n u u_n dt p.
  Proof.
    unfold trapz_accel_restr. rewrite dim_is_n by now apply accel_F_length.
    now rewrite !x_dot_is_F.
  Qed.
  Lemma hs_half_eq :
    hs_half_x x x_n (accel n (F x u p)) (accel n (F x_n u_n p)) dt
    = (x +v x_n) /v 2 +v (dt / 8) *v (F x u p -v F x_n u_n p).
  Proof.
    unfold hs_half_x. rewrite dim_is_n by now apply accel_F_length.
    now rewrite !x_dot_is_F.
  Qed.
  Lemma hs_accel_equiv :
    let x_c := hs_half_x x x_n (accel n (F x u p)) (accel n (F x_n u_n p)) dt in
    vzero (hs_accel_restr x x_n (accel n (F x u p)) (accel n (F x_n u_n p)) dt
             (accel n (F x_c u_c p)))
    <-> vzero (hs_parab_restr F x x_n u u_n dt p u_c).
  Proof.
    cbv zeta. unfold hs_accel_restr. rewrite dim_is_n by now apply accel_F_length.
    rewrite !x_dot_is_F by auto. rewrite hs_half_eq. unfold hs_parab_restr.
    pose proof (F_length x u Hx) as L1. pose proof (F_length x_n u_n Hxn) as L2.
    set (x_c := (x +v x_n) /v 2 +v (dt / 8) *v (F x u p -v F x_n u_n p)).
    assert (Lc : length x_c = (M * n)%nat) by (unfold x_c; len).
    rewrite (x_dot_is_F x_c) by auto.
    pose proof (F_length x_c u_c Lc) as L3. clearbody x_c.
    apply vzero_opp_iff. rewrite (x_dot_is_F x_n) by auto. vext. ring.
  Qed.
End OrderM.

Section Second.
  Context {P : Type}.
  Variable F : vec -> vec -> P -> vec.
  Variable p : P.
  Variable m : nat.
  Hypothesis HF : same_size (2 * m) F p.
  Variables x x_n u u_n u_c : vec.
  Variable dt : R.
  Hypothesis Hx : length x = (2 * m)%nat.
  Hypothesis Hxn : length x_n = (2 * m)%nat.

  Lemma accel_skipn y w : length y = (2 * m)%nat -> accel m (F y w p) = skipn m (F y w p).
  Proof. intros H. unfold accel. rewrite (HF _ _ H). f_equal. lia. Qed.

  Section Data.
    Variables a a_n : vec.
    Hypothesis Ha : length a = m.
    Hypothesis Han : length a_n = m.
    Local Notation q := (firstn m x).
    Local Notation v := (skipn m x).
    Local Notation q_n := (firstn m x_n).
    Local Notation v_n := (skipn m x_n).

    Lemma trapz_mod_accel_nf :
      trapz_mod_accel_restr x x_n a a_n dt =
      (q_n -v (q +v dt *v v +v (dt ^ 2 / 6) *v (a_n +v 2 *v a)))
      ++ (v_n -v (v +v (dt / 2) *v (a +v a_n))).
    Proof.
      unfold trapz_mod_accel_restr. rewrite (half_dim m x Hx).
      rewrite (get_last_skipn m x Hx). unfold get_first. rewrite (put_both m x Hx) by len.
      rewrite <- (halves m x_n) at 1. apply vsub_app. len.
    Qed.
    Lemma hs_mod_half_nf :
      hs_mod_half_x x x_n a a_n dt =
      (q +v (dt / 32) *v (13 *v v +v 3 *v v_n) +v (dt ^ 2 / 192) *v (11 *v a -v 5 *v a_n))
      ++ ((v +v v_n) /v 2 +v (dt / 8) *v (a -v a_n)).
    Proof.
      unfold hs_mod_half_x. rewrite (half_dim m x Hx).
      rewrite (get_last_skipn m x Hx), (get_last_skipn m x_n Hxn). unfold get_first.
      apply (put_both' m x Hx); len.
    Qed.
    Lemma hsj_half_nf :
      hsj_half_x x x_n a a_n dt =
      ((561 *v q +v 64 *v q_n +v (186 * dt) *v v +v (dt ^ 2) *v (22 *v a -v 4 *v a_n)) /v 625)
      ++ ((81 *v v +v 44 *v v_n) /v 125 +v (dt / 125) *v (18 *v a -v 12 *v a_n)).
    Proof.
      unfold hsj_half_x. rewrite (half_dim m x Hx).
      rewrite (get_last_skipn m x Hx), (get_last_skipn m x_n Hxn). unfold get_first.
      apply (put_both' m x Hx); len.
    Qed.
    Variable a_c : vec.
    Hypothesis Hac : length a_c = m.
    Lemma hs_mod_accel_nf :
      hs_mod_accel_restr x x_n a a_n dt a_c =
      (q_n -v (q +v dt *v v +v (dt ^ 2 / 6) *v (a +v 2 *v a_c)))
      ++ (v_n -v (v +v (dt / 6) *v (a +v 4 *v a_c +v a_n))).
    Proof.
      unfold hs_mod_accel_restr. rewrite (half_dim m x Hx).
      rewrite (get_last_skipn m x Hx). unfold get_first. rewrite (put_both m x Hx) by len.
      rewrite <- (halves m x_n) at 1. apply vsub_app. len.
    Qed.
    Lemma hsj_accel_nf :
      hsj_accel_restr x x_n a a_n dt a_c =
      (q_n -v (q +v dt *v v +v (dt ^ 2 / 72) *v (9 *v a +v 25 *v a_c +v 2 *v a_n)))
      ++ (v_n -v (v +v (dt / 36) *v (3 *v a +v 25 *v a_c +v 8 *v a_n))).
    Proof.
      unfold hsj_accel_restr. rewrite (half_dim m x Hx).
      rewrite (get_last_skipn m x Hx). unfold get_first. rewrite (put_both m x Hx) by len.
      rewrite <- (halves m x_n) at 1. apply vsub_app. len.
    Qed.

    (** Pointwise content of a pair of residuals. *)
    Lemma pair_zero A B : length A = m -> length B = m ->
      (vzero ((q_n -v A) ++ (v_n -v B)) <-> q_n = A /\ v_n = B).
    Proof.
      intros LA LB. rewrite vzero_app, !vzero_vsub_iff by len. tauto.
    Qed.

    Lemma hs_mod_interior :
      vzero (hs_mod_accel_restr x x_n a a_n dt a_c) ->
      hs_mod_half_x x x_n a a_n dt = hsm_xc m x x_n dt a a_n.
    Proof.
      rewrite hs_mod_accel_nf, pair_zero by len. intros [Eq Ev].
      rewrite hs_mod_half_nf. unfold hsm_xc. f_equal.
      vext.
      assert (Eqi := f_equal (fun l => vnth l i) Eq). cbn beta in Eqi.
      assert (Evi := f_equal (fun l => vnth l i) Ev). cbn beta in Evi.
      revert Eqi Evi. comp. intros Eqi Evi. rewrite Eqi, Evi. field.
    Qed.
    Lemma hsj_interior :
      vzero (hsj_accel_restr x x_n a a_n dt a_c) ->
      hsj_half_x x x_n a a_n dt = hsj_xc m x x_n dt a a_n.
    Proof.
      rewrite hsj_accel_nf, pair_zero by len. intros [Eq Ev].
      rewrite hsj_half_nf. unfold hsj_xc. f_equal.
      vext.
      assert (Eqi := f_equal (fun l => vnth l i) Eq). cbn beta in Eqi.
      assert (Evi := f_equal (fun l => vnth l i) Ev). cbn beta in Evi.
      revert Eqi Evi. comp. intros Eqi Evi. rewrite Eqi, Evi. field.
    Qed.
  End Data.

  Local Notation a := (accel m (F x u p)).
  Local Notation a_n := (accel m (F x_n u_n p)).
  Lemma accel2_length y w : length y = (2 * m)%nat -> length (accel m (F y w p)) = m.
  Proof. intros H. rewrite accel_skipn, skipn_length, (HF _ _ H) by auto. lia. Qed.

  Lemma trapz_mod_accel_eq :
    trapz_mod_accel_restr x x_n a a_n dt = trapz_mod_restr F x x_n u u_n dt p.
  Proof.
    rewrite trapz_mod_accel_nf by now apply accel2_length.
    rewrite (trapz_mod_restr_nf F p m HF x x_n u u_n dt Hx Hxn).
    now rewrite !accel_skipn.
  Qed.

  (** Same residual at any interior state [x_c]. *)
  Lemma hs_mod_accel_at x_c : length x_c = (2 * m)%nat -> x_c = hsm_xc m x x_n dt a a_n ->
    hs_mod_accel_restr x x_n a a_n dt (accel m (F x_c u_c p))
    = hs_mod_parab_restr F x x_n u u_n dt p u_c.
  Proof.
    intros Lc Ec. rewrite hs_mod_accel_nf by now apply accel2_length.
    rewrite (hs_mod_parab_restr_nf F p m HF x x_n u u_n u_c dt Hx Hxn).
    rewrite (accel_skipn x_c) by auto. rewrite Ec. now rewrite !accel_skipn.
  Qed.
  Lemma hsj_accel_at x_c : length x_c = (2 * m)%nat -> x_c = hsj_xc m x x_n dt a a_n ->
    hsj_accel_restr x x_n a a_n dt (accel m (F x_c u_c p))
    = hsj_parab_restr F x x_n u u_n dt p u_c.
  Proof.
    intros Lc Ec. rewrite hsj_accel_nf by now apply accel2_length.
    rewrite (hsj_parab_restr_nf F p m HF x x_n u u_n u_c dt Hx Hxn).
    rewrite (accel_skipn x_c) by auto. rewrite Ec. now rewrite !accel_skipn.
  Qed.

  Lemma hs_mod_half_length : length (hs_mod_half_x x x_n a a_n dt) = (2 * m)%nat.
  Proof.
    pose proof (accel2_length x u Hx). pose proof (accel2_length x_n u_n Hxn).
    rewrite hs_mod_half_nf by auto. len.
  Qed.
  Lemma hsj_half_length : length (hsj_half_x x x_n a a_n dt) = (2 * m)%nat.
  Proof.
    pose proof (accel2_length x u Hx). pose proof (accel2_length x_n u_n Hxn).
    rewrite hsj_half_nf by auto. len.
  Qed.

  Lemma hs_mod_accel_equiv :
    vzero (hs_mod_accel_restr x x_n a a_n dt
             (accel m (F (hs_mod_half_x x x_n a a_n dt) u_c p)))
    <-> vzero (hs_mod_parab_restr F x x_n u u_n dt p u_c).
  Proof.
    pose proof (accel2_length x u Hx) as L1. pose proof (accel2_length x_n u_n Hxn) as L2.
    pose proof hs_mod_half_length as Lh.
    assert (Lc : length (hsm_xc m x x_n dt a a_n) = (2 * m)%nat).
    { unfold hsm_xc. len. }
    split; intros H.
    - assert (E : hs_mod_half_x x x_n a a_n dt = hsm_xc m x x_n dt a a_n).
      { eapply hs_mod_interior; [auto|auto| |exact H]. now apply accel2_length. }
      rewrite <- (hs_mod_accel_at _ Lh E). exact H.
    - rewrite <- (hs_mod_accel_at _ Lc eq_refl) in H.
      assert (E : hs_mod_half_x x x_n a a_n dt = hsm_xc m x x_n dt a a_n).
      { eapply hs_mod_interior; [auto|auto| |exact H]. now apply accel2_length. }
      rewrite E. exact H.
  Qed.
  Lemma hsj_accel_equiv :
    vzero (hsj_accel_restr x x_n a a_n dt
             (accel m (F (hsj_half_x x x_n a a_n dt) u_c p)))
    <-> vzero (hsj_parab_restr F x x_n u u_n dt p u_c).
  Proof.
    pose proof (accel2_length x u Hx) as L1. pose proof (accel2_length x_n u_n Hxn) as L2.
    pose proof hsj_half_length as Lh.
    assert (Lc : length (hsj_xc m x x_n dt a a_n) = (2 * m)%nat).
    { unfold hsj_xc. len. }
    split; intros H.
    - assert (E : hsj_half_x x x_n a a_n dt = hsj_xc m x x_n dt a a_n).
      { eapply hsj_interior; [auto|auto| |exact H]. now apply accel2_length. }
      rewrite <- (hsj_accel_at _ Lh E). exact H.
    - rewrite <- (hsj_accel_at _ Lc eq_refl) in H.
      assert (E : hsj_half_x x x_n a a_n dt = hsj_xc m x x_n dt a a_n).
      { eapply hsj_interior; [auto|auto| |exact H]. now apply accel2_length. }
      rewrite E. exact H.
  Qed.

  (** The midpoints recomputed when interpolating are those of the restriction. *)
  Lemma hs_mod_midpoint_eq :
    hs_mod_midpoint x x_n (F x u p) (F x_n u_n p) dt = hsm_xc m x x_n dt a a_n.
  Proof.
    unfold hs_mod_midpoint. rewrite (half_dim m x Hx). unfold hsm_xc.
    pose proof (HF x u Hx). pose proof (HF x_n u_n Hxn).
    rewrite !accel_skipn by auto. f_equal. vext. field.
  Qed.
  Lemma hsj_midpoint_eq :
    hsj_midpoint x x_n (F x u p) (F x_n u_n p) dt = hsj_xc m x x_n dt a a_n.
  Proof.
    unfold hsj_midpoint. rewrite (half_dim m x Hx). unfold hsj_xc.
    rewrite !accel_skipn by auto. reflexivity.
  Qed.
End Second.
