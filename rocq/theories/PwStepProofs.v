(** One step of every scheme, through the names the drivers use (C10, C13). *)
From Coquelicot Require Import Coquelicot.
From Coq Require Import String.
From Verif Require Import Prelude PreludeFacts Poly PolyFacts PwModel PwInterpModel PwFacts PwSpec PwInterpSpec PwSchemeProofs PwAccelProofs PwMotionProofs PwDynProofs.
Open Scope R_scope.
Open Scope vec_scope.

(** On one step, the interpolation I (I d = derivative of order d) follows
    polynomials, one per coordinate, and joins x to x_n. *)
Definition smooth_step (dmax : nat -> Prop) (M n : nat) (h : R) (x x_n : vec) (I : nat -> R -> vec) : Prop :=
  (exists c : nat -> list R, forall d tau k j, dmax d -> (k < M)%nat -> (j < n)%nat ->
     coord n (I d tau) k j = D (k + d) (c j) tau) /\
  (forall d tau, dmax d -> length (I d tau) = (M * n)%nat) /\
  I 0%nat 0 = x /\ I 0%nat h = x_n.

Lemma order_form_same_size {P} M n (F : vec -> vec -> P -> vec) p :
  order_form M n F p -> same_size (M * n) F p.
Proof. intros H x u Hx. now destruct (H x u Hx). Qed.
Lemma same_size_order_form {P} n (F : vec -> vec -> P -> vec) p :
  same_size n F p -> order_form 1 n F p.
Proof.
  intros H x u Hx. rewrite Nat.mul_1_l in *. split; [now apply H|].
  simpl. now rewrite skipn_all2 by lia.
Qed.
Lemma lastn_accel n f : (0 < n)%nat -> lastn n f = accel n f.
Proof. intros Hn. destruct n; [lia|reflexivity]. Qed.

Section S.
  Context {P : Type}.
  Variable F : vec -> vec -> P -> vec.
  Variable p : P.

  Lemma tz_smooth M n h x x_n u u_n : (0 < M)%nat -> order_form M n F p -> h <> 0 ->
    length x = (M * n)%nat -> length x_n = (M * n)%nat ->
    vzero (trapz_m_accel_restr M x x_n (accel n (F x u p)) (accel n (F x_n u_n p)) h) ->
    smooth_step (fun _ => True) M n h x x_n
      (fun d tau => tz_interp M d x x_n (F x u p) (F x_n u_n p) tau h).
  Proof.
    intros HM HF Hh Hx Hxn Hr.
    pose proof (trapz_m_dynamics F p M n HM HF h Hh x x_n u u_n Hx Hxn Hr) as [[E0 _] [[E1 _] _]].
    split; [|split; [|split; auto]].
    - destruct (choose_motions n (fun j c => tz_motion M n h x (accel n (F x u p)) (accel n (F x_n u_n p)) j c)) as [c Hc].
      { intros j. now apply tz_motion_exists. }
      exists c. intros d tau k j _ Hk Hj. apply tz_interp_value; auto; now apply (FL F p M n HF).
    - intros d tau _. apply tz_interp_length; auto; now apply (FL F p M n HF).
  Qed.

  Lemma hs_smooth M n h x x_n u u_n u_c : (0 < M)%nat -> order_form M n F p -> h <> 0 ->
    length x = (M * n)%nat -> length x_n = (M * n)%nat ->
    let x_c := hs_m_half_x M x x_n (accel n (F x u p)) (accel n (F x_n u_n p)) h in
    vzero (hs_m_accel_restr M x x_n (accel n (F x u p)) (accel n (F x_n u_n p)) h (accel n (F x_c u_c p))) ->
    smooth_step (fun _ => True) M n h x x_n
      (fun d tau => hs_interp M d x x_n (F x u p) (F x_n u_n p) tau h (F x_c u_c p)).
  Proof.
    intros HM HF Hh Hx Hxn x_c Hr.
    assert (Hxc : length x_c = (M * n)%nat).
    { unfold x_c. apply hs_m_half_length; auto; apply (AL F p M n HM HF); auto. }
    pose proof (hs_m_dynamics F p M n HM HF h Hh x x_n u u_n Hx Hxn u_c Hr) as [[E0 _] [_ [[E1 _] _]]].
    split; [|split; [|split; auto]].
    - destruct (choose_motions n (fun j c => hs_motion M n h x (accel n (F x u p)) (accel n (F x_c u_c p)) (accel n (F x_n u_n p)) j c)) as [c Hc].
      { intros j. now apply hs_motion_exists. }
      exists c. intros d tau k j _ Hk Hj. apply hs_interp_value; auto; now apply (FL F p M n HF).
    - intros d tau _. apply hs_interp_length; auto; now apply (FL F p M n HF).
  Qed.

  Definition hsj_d (x x_n xd xdn xdc : vec) (h : R) (d : nat) (tau : R) : vec :=
    match d with
    | 0%nat => hsj_interp x x_n xd xdn tau h xdc
    | 1%nat => hsj_dot_interp x x_n xd xdn tau h xdc
    | _ => hsj_dot_dot_interp x x_n xd xdn tau h xdc
    end.
  Lemma hsj_smooth n h x x_n u u_n u_c : order_form 2 n F p -> h <> 0 ->
    length x = (2 * n)%nat -> length x_n = (2 * n)%nat ->
    let x_c := hsj_half_x x x_n (accel n (F x u p)) (accel n (F x_n u_n p)) h in
    vzero (hsj_accel_restr x x_n (accel n (F x u p)) (accel n (F x_n u_n p)) h (accel n (F x_c u_c p))) ->
    smooth_step (fun d => (d <= 2)%nat) 2 n h x x_n
      (hsj_d x x_n (F x u p) (F x_n u_n p) (F x_c u_c p) h).
  Proof.
    intros HF Hh Hx Hxn x_c Hr.
    assert (Hxc : length x_c = (2 * n)%nat).
    { unfold x_c. apply (hsj_half_length F p n (order_form_same_size 2 n F p HF)); auto. }
    pose proof (hsj_dynamics F p n HF h Hh x x_n u u_n u_c Hx Hxn Hr) as [[E0 _] [_ [[E1 _] _]]].
    split; [|split; [|split; auto]].
    - destruct (choose_motions n (fun j c => hsj_motion n h x (accel n (F x u p)) (accel n (F x_c u_c p)) (accel n (F x_n u_n p)) j c)) as [c Hc].
      { intros j. now apply hsj_motion_exists. }
      exists c. intros d tau k j Hd Hk Hj.
      destruct (hsj_interp_values n h Hh x x_n (F x u p) (F x_n u_n p) (F x_c u_c p) Hx
        (FL F p 2 n HF _ _ Hx) (FL F p 2 n HF _ _ Hxn) (FL F p 2 n HF _ _ Hxc) tau (c j) j (Hc j Hj) Hj k Hk) as [V0 [V1 V2]].
      destruct d as [|[|[|d]]]; cbn [hsj_d]; [rewrite Nat.add_0_r|..]; auto. lia.
    - intros d tau Hd.
      destruct (hsj_interp_lengths n h x x_n (F x u p) (F x_n u_n p) (F x_c u_c p) Hx
        (FL F p 2 n HF _ _ Hx) (FL F p 2 n HF _ _ Hxn) (FL F p 2 n HF _ _ Hxc) tau) as [V0 [V1 V2]].
      destruct d as [|[|d]]; auto.
  Qed.

  (** The interior point the interpolation drivers recompute. *)
  Definition driver_xdc (scheme : string) (h : R) (x x_n u u_n u_c : vec) : vec :=
    F (midpoint_of scheme x x_n (F x u p) (F x_n u_n p) h) u_c p.

  Definition is_interp_of (scheme : string) (I : nat -> R -> vec) (M : nat) (h : R) (x x_n xd xdn xdc : vec) : Prop :=
    forall sp XC z, (scheme = "trapz_n"%string -> sp_order sp = Some M) ->
      (contains "hs" scheme = true -> sp_x_dot_c sp = Some XC /\ pyget XC z = Ok xdc) ->
      (forall tau, interp_scheme scheme sp z x x_n xd xdn tau h = Ok (I 0%nat tau)) /\
      (forall d tau, (0 < d)%nat -> dmax_of scheme d ->
         interp_der_scheme scheme d sp z x x_n xd xdn tau h = Ok (I d tau)).

  (** What one step of scheme [scheme] gives once its restriction holds. *)
  Definition step_facts (scheme : string) (M n : nat) (h : R) (x x_n u u_n u_c : vec) : Prop :=
    exists I, is_interp_of scheme I M h x x_n (F x u p) (F x_n u_n p) (driver_xdc scheme h x x_n u u_n u_c) /\
      smooth_step (dmax_of scheme) M n h x x_n I /\
      obeys_at (M * n) F p (I 0%nat) 0 u /\
      obeys_at (M * n) F p (I 0%nat) h u_n /\
      consistent_blocks M n (I 0%nat) /\
      (forall r, scheme_interior scheme = Some r ->
         I 0%nat (r * h) = midpoint_of scheme x x_n (F x u p) (F x_n u_n p) h /\
         obeys_at (M * n) F p (I 0%nat) (r * h) u_c).

  Lemma is_interp_tz scheme M h x x_n xd xdn xdc :
    (scheme = "trapz"%string /\ M = 1%nat) \/ (scheme = "trapz_mod"%string /\ M = 2%nat) \/ scheme = "trapz_n"%string ->
    is_interp_of scheme (fun d tau => tz_interp M d x x_n xd xdn tau h) M h x x_n xd xdn xdc.
  Proof.
    intros [[-> ->]|[[-> ->]| ->]] sp XC z Ho Hc; split; intros; auto;
      unfold interp_scheme, interp_der_scheme; simpl; rewrite (Ho eq_refl); reflexivity.
  Qed.
  Lemma is_interp_hs scheme M h x x_n xd xdn xdc :
    ((scheme = "hs"%string \/ scheme = "hs_parab"%string) /\ M = 1%nat) \/
    ((scheme = "hs_mod"%string \/ scheme = "hs_mod_parab"%string) /\ M = 2%nat) ->
    is_interp_of scheme (fun d tau => hs_interp M d x x_n xd xdn tau h xdc) M h x x_n xd xdn xdc.
  Proof.
    intros [[[-> | ->] ->]|[[-> | ->] ->]] sp XC z Ho Hc; destruct (Hc eq_refl) as [Hc1 Hc2];
      split; intros; unfold interp_scheme, interp_der_scheme; simpl; rewrite Hc1; simpl; rewrite Hc2; reflexivity.
  Qed.
  Lemma is_interp_hsj scheme h x x_n xd xdn xdc :
    scheme = "hsj"%string \/ scheme = "hsj_parab"%string ->
    is_interp_of scheme (hsj_d x x_n xd xdn xdc h) 2 h x x_n xd xdn xdc.
  Proof.
    intros [-> | ->] sp XC z Ho Hc; destruct (Hc eq_refl) as [Hc1 Hc2];
      (split; [intros; unfold interp_scheme; simpl; rewrite Hc1; simpl; rewrite Hc2; reflexivity|]);
      intros d tau Hd Hd2; unfold interp_der_scheme; simpl; rewrite Hc1; simpl; rewrite Hc2; simpl;
      unfold dmax_of in Hd2; simpl in Hd2; (destruct d as [|[|[|d]]]; [lia|reflexivity|reflexivity|lia]).
  Qed.

  Lemma scheme_step scheme order M n h x x_n u u_n u_c r :
    scheme_blocks scheme order = Some M -> (0 < M)%nat -> (0 < n)%nat -> order_form M n F p -> h <> 0 ->
    length x = (M * n)%nat -> length x_n = (M * n)%nat ->
    scheme_restr scheme M n F x x_n u u_n h p u_c = Some r -> vzero r ->
    step_facts scheme M n h x x_n u u_n u_c.
  Proof.
    intros Hb HM Hn HF Hh Hx Hxn Hs Hr.
    assert (Hcases : (scheme = "trapz"%string /\ M = 1%nat) \/ (scheme = "trapz_mod"%string /\ M = 2%nat) \/
      scheme = "trapz_n"%string \/ ((scheme = "hs"%string \/ scheme = "hs_parab"%string) /\ M = 1%nat) \/
      ((scheme = "hs_mod"%string \/ scheme = "hs_mod_parab"%string) /\ M = 2%nat) \/
      ((scheme = "hsj"%string \/ scheme = "hsj_parab"%string) /\ M = 2%nat)).
    { unfold scheme_blocks in Hb. simpl in Hb.
      repeat match type of Hb with
      | context [(?a =? ?b)%string] => destruct (String.eqb_spec a b); [subst; simpl in Hb; inversion Hb; subst; tauto|]; simpl in Hb
      end.
      destruct (String.eqb_spec scheme "trapz_n"); [tauto|discriminate]. }
    pose proof (FL F p M n HF _ u Hx) as LF. pose proof (FL F p M n HF _ u_n Hxn) as LFn.
    pose proof (AL F p M n HM HF _ u Hx) as LA. pose proof (AL F p M n HM HF _ u_n Hxn) as LAn.
    pose proof (order_form_same_size M n F p HF) as HS.
    destruct Hcases as [[E1 E2]|[[E1 E2]|[E1|[[E1 E2]|[[E1 E2]|[E1 E2]]]]]].
    - (* trapz *)
      subst scheme M. injection Hs as <-.
      assert (Hm : vzero (trapz_m_accel_restr 1 x x_n (accel n (F x u p)) (accel n (F x_n u_n p)) h)).
      { rewrite <- (trapz_1 n) by (auto; lia). rewrite (trapz_accel_eq F p 1 n) by auto. auto. }
      destruct (trapz_m_dynamics F p 1 n HM HF h Hh x x_n u u_n Hx Hxn Hm) as [[_ O0] [[_ O1] C]].
      eexists; split; [apply (is_interp_tz "trapz" 1); auto|].
      split; [exact (tz_smooth 1 n h x x_n u u_n HM HF Hh Hx Hxn Hm)|]. split; [exact O0|split; [exact O1|split; [exact C|intros q Hq; discriminate Hq]]].
    - (* trapz_mod *)
      subst scheme M. injection Hs as <-.
      assert (Hm : vzero (trapz_m_accel_restr 2 x x_n (accel n (F x u p)) (accel n (F x_n u_n p)) h)).
      { rewrite <- (trapz_2 n) by auto. rewrite (trapz_mod_accel_eq F p n) by auto. auto. }
      destruct (trapz_m_dynamics F p 2 n HM HF h Hh x x_n u u_n Hx Hxn Hm) as [[_ O0] [[_ O1] C]].
      eexists; split; [apply (is_interp_tz "trapz_mod" 2); auto|].
      split; [exact (tz_smooth 2 n h x x_n u u_n HM HF Hh Hx Hxn Hm)|]. split; [exact O0|split; [exact O1|split; [exact C|intros q Hq; discriminate Hq]]].
    - (* trapz_n *)
      subst scheme. injection Hs as <-. rewrite !lastn_accel in Hr by auto.
      destruct (trapz_m_dynamics F p M n HM HF h Hh x x_n u u_n Hx Hxn Hr) as [[_ O0] [[_ O1] C]].
      eexists; split; [apply (is_interp_tz "trapz_n" M); auto|].
      split; [exact (tz_smooth M n h x x_n u u_n HM HF Hh Hx Hxn Hr)|]. split; [exact O0|split; [exact O1|split; [exact C|intros q Hq; discriminate Hq]]].
    - (* hs *)
      subst M.
      assert (Er : r = hs_parab_restr F x x_n u u_n h p u_c) by (destruct E1; subst scheme; injection Hs; auto).
      subst r.
      set (x_c := hs_m_half_x 1 x x_n (accel n (F x u p)) (accel n (F x_n u_n p)) h) in *.
      assert (Exc : midpoint_of scheme x x_n (F x u p) (F x_n u_n p) h = x_c).
      { unfold x_c. rewrite <- (hs_half_1 n) by (auto; lia). rewrite (hs_half_eq F p 1 n) by auto.
        destruct E1; subst scheme; reflexivity. }
      assert (Hm : vzero (hs_m_accel_restr 1 x x_n (accel n (F x u p)) (accel n (F x_n u_n p)) h (accel n (F x_c u_c p)))).
      { rewrite <- (hs_1 n); auto; try lia.
        - apply (hs_accel_equiv F p 1 n HM Hn HF x x_n u u_n u_c h Hx Hxn) in Hr.
          unfold x_c. rewrite <- (hs_half_1 n) by (auto; lia). exact Hr.
        - apply (AL F p 1 n HM HF). unfold x_c. apply hs_m_half_length; auto. }
      destruct (hs_m_dynamics F p 1 n HM HF h Hh x x_n u u_n Hx Hxn u_c Hm) as [[_ O0] [[Em Om] [[_ O1] C]]].
      unfold step_facts, driver_xdc. rewrite Exc.
      eexists; split; [apply (is_interp_hs scheme 1); auto|].
      split; [|split; [|split; [|split]]].
      + replace (dmax_of scheme) with (fun _ : nat => True) by (destruct E1; subst; reflexivity).
        exact (hs_smooth 1 n h x x_n u u_n u_c HM HF Hh Hx Hxn Hm).
      + exact O0.
      + exact O1.
      + exact C.
      + intros q Hq. assert (q = 1 / 2) by (destruct E1; subst; injection Hq; auto). subst q.
        replace (1 / 2 * h) with (h / 2) by field. split; [exact Em|exact Om].
    - (* hs_mod *)
      subst M.
      assert (Er : r = hs_mod_parab_restr F x x_n u u_n h p u_c) by (destruct E1; subst scheme; injection Hs; auto).
      subst r.
      set (x_c := hs_m_half_x 2 x x_n (accel n (F x u p)) (accel n (F x_n u_n p)) h) in *.
      pose proof (proj2 (hs_mod_accel_equiv F p n HS x x_n u u_n u_c h Hx Hxn) Hr) as Hr2. clear Hr. rename Hr2 into Hr.
      assert (Lxc : length x_c = (2 * n)%nat) by (unfold x_c; apply hs_m_half_length; auto).
      assert (LAc : length (accel n (F x_c u_c p)) = n) by (apply (AL F p 2 n HM HF); auto).
      assert (Ex2 : hs_mod_half_x x x_n (accel n (F x u p)) (accel n (F x_n u_n p)) h = x_c) by (apply (hs_half_2 n); auto).
      rewrite Ex2 in Hr.
      assert (Exc : midpoint_of scheme x x_n (F x u p) (F x_n u_n p) h = x_c).
      { rewrite <- Ex2. rewrite (hs_mod_interior n x x_n h Hx Hxn _ _ LA LAn _ LAc Hr).
        rewrite <- (hs_mod_midpoint_eq F p n HS x x_n u u_n h Hx Hxn).
        destruct E1; subst scheme; reflexivity. }
      assert (Hm : vzero (hs_m_accel_restr 2 x x_n (accel n (F x u p)) (accel n (F x_n u_n p)) h (accel n (F x_c u_c p)))).
      { rewrite <- (hs_2 n) by auto. exact Hr. }
      destruct (hs_m_dynamics F p 2 n HM HF h Hh x x_n u u_n Hx Hxn u_c Hm) as [[_ O0] [[Em Om] [[_ O1] C]]].
      unfold step_facts, driver_xdc. rewrite Exc.
      eexists; split; [apply (is_interp_hs scheme 2); auto|].
      split; [|split; [|split; [|split]]].
      + replace (dmax_of scheme) with (fun _ : nat => True) by (destruct E1; subst; reflexivity).
        exact (hs_smooth 2 n h x x_n u u_n u_c HM HF Hh Hx Hxn Hm).
      + exact O0.
      + exact O1.
      + exact C.
      + intros q Hq. assert (q = 1 / 2) by (destruct E1; subst; injection Hq; auto). subst q.
        replace (1 / 2 * h) with (h / 2) by field. split; [exact Em|exact Om].
    - (* hsj *)
      subst M.
      assert (Er : r = hsj_parab_restr F x x_n u u_n h p u_c) by (destruct E1; subst scheme; injection Hs; auto).
      subst r.
      set (x_c := hsj_half_x x x_n (accel n (F x u p)) (accel n (F x_n u_n p)) h) in *.
      apply (hsj_accel_equiv F p n HS x x_n u u_n u_c h Hx Hxn) in Hr. fold x_c in Hr.
      assert (Lxc : length x_c = (2 * n)%nat) by (unfold x_c; apply (hsj_half_length F p n HS); auto).
      assert (LAc : length (accel n (F x_c u_c p)) = n) by (apply (AL F p 2 n HM HF); auto).
      assert (Exc : midpoint_of scheme x x_n (F x u p) (F x_n u_n p) h = x_c).
      { unfold x_c. rewrite (hsj_interior n x x_n h Hx Hxn _ _ LA LAn _ LAc Hr).
        rewrite <- (hsj_midpoint_eq F p n HS x x_n u u_n h Hx Hxn).
        destruct E1; subst scheme; reflexivity. }
      destruct (hsj_dynamics F p n HF h Hh x x_n u u_n u_c Hx Hxn Hr) as [[_ O0] [[Em Om] [[_ O1] C]]].
      unfold step_facts, driver_xdc. rewrite Exc.
      eexists; split; [apply (is_interp_hsj scheme); auto|].
      split; [|split; [|split; [|split]]].
      + replace (dmax_of scheme) with (fun d : nat => (d <= 2)%nat) by (destruct E1; subst; reflexivity).
        exact (hsj_smooth n h x x_n u u_n u_c HF Hh Hx Hxn Hr).
      + exact O0.
      + exact O1.
      + exact C.
      + intros q Hq. assert (q = 2 / 5) by (destruct E1; subst; injection Hq; auto). subst q.
        replace (2 / 5 * h) with (2 * h / 5) by field. split; [exact Em|exact Om].
  Qed.
End S.
