(** Packaged forms of the piecewise results (C01, C02, C05, C08, C09, C11,
    C12, C14, C65). *)
From Coquelicot Require Import Coquelicot.
From Coq Require Import String.
From Verif Require Import Prelude PreludeFacts Poly PolyFacts PwModel PwInterpModel PwFacts PwSpec PwInterpSpec PwIntegrProofs PwSchemeProofs PwAccelProofs PwMotionProofs PwDynProofs PwStepProofs PwInterpProofs PwMoreProofs PwLiveProofs.
Open Scope R_scope.
Open Scope vec_scope.
Open Scope list_scope.

(** ** C01, C02 *)
Lemma last_nth' {A} (l : list A) d : l <> [] -> last l d = nth (length l - 1) l d.
Proof.
  induction l as [|a l IH]; [congruence|]. intros _. destruct l as [|b l]; [reflexivity|].
  change (last (a :: b :: l) d) with (last (b :: l) d). rewrite IH by discriminate. simpl. now rewrite Nat.sub_0_r.
Qed.

Lemma trajectory_ext n x0 g g' xs : (forall i x, (i < n)%nat -> g i x = g' i x) ->
  trajectory n x0 g xs -> trajectory n x0 g' xs.
Proof. intros E (H1 & H2 & H3). split; [auto|split; auto]. intros i Hi. rewrite H3 by auto. auto. Qed.

Section Traj.
  Context {P : Type}.
  Variables (x_0 : vec) (u : tape) (dt : R) (p : P).
  Hypothesis Hu : tape_wf u.

  Lemma integrate_implicit_tape (step : vec -> vec -> vec -> R -> P -> vec) :
    exists xs, integrate_with (fun _ x a b => Ok (step x a b dt p)) (fun _ x a b => Ok (step x a b dt p)) x_0 u = Ok xs /\
      trajectory (length (tape_rows u)) x_0 (tape_step (tape_rows u) (fun x a b => step x a b dt p)) xs.
  Proof.
    destruct (integrate_implicit_spec x_0 u dt p Hu step) as [xs [E T]]. exists xs. split; [exact E|].
    eapply trajectory_ext; [|exact T]. intros i x Hi. unfold tape_step.
    destruct Hu as [Hne _]. rewrite (last_nth' (tape_rows u)) by auto. reflexivity.
  Qed.

  Lemma integrate_parab_tape (stepc : vec -> vec -> vec -> R -> P -> vec -> vec) (step : vec -> vec -> vec -> R -> P -> vec) c :
    (length (tape_rows u) - 1 <= length c)%nat ->
    exists xs, integrate_with (fun ii x a b => do cc <- pyget c (Z.of_nat ii); Ok (stepc x a b dt p cc))
        (fun _ x a b => Ok (step x a b dt p)) x_0 u = Ok xs /\
      trajectory (length (tape_rows u)) x_0
        (tape_step_c (tape_rows u) (fun x a b cc => stepc x a b dt p cc) (fun x a => step x a a dt p) (fun i => nth i c [])) xs.
  Proof.
    intros Hc. destruct (integrate_parab_spec x_0 u dt p Hu stepc step c Hc) as [xs [E T]]. exists xs. split; [exact E|].
    eapply trajectory_ext; [|exact T]. intros i x Hi. unfold tape_step_c.
    destruct Hu as [Hne _]. rewrite (last_nth' (tape_rows u)) by auto. reflexivity.
  Qed.

  Lemma integrate_rk4_tape (F : vec -> vec -> P -> vec) uc :
    (forall c, uc = Some c -> (length (tape_rows u) - 1 <= length c)%nat) ->
    exists xs, integrate_rk4 F x_0 u dt p uc = Ok xs /\
      trajectory (length (tape_rows u)) x_0
        (tape_step_c (tape_rows u) (fun x a b c => rk4_step F x a b dt p c) (fun x a => rk4_step F x a a dt p a)
          (fun i => match uc with
                    | Some c => nth i c []
                    | None => (nth i (tape_rows u) [] +v nth (S i) (tape_rows u) []) /v 2 end)) xs.
  Proof.
    intros Hc. destruct (integrate_rk4_spec F x_0 u dt p Hu uc Hc) as [xs [E T]]. exists xs. split; [exact E|].
    eapply trajectory_ext; [|exact T]. intros i x Hi. unfold tape_step_c.
    destruct Hu as [Hne _]. rewrite (last_nth' (tape_rows u)) by auto. reflexivity.
  Qed.
End Traj.

Lemma causal_generic (r r' : Res (list vec)) (n n' k : nat) x0 g g' xs xs' :
  (exists ys, r = Ok ys /\ trajectory n x0 g ys) -> (exists ys, r' = Ok ys /\ trajectory n' x0 g' ys) ->
  (k <= n)%nat -> (k <= n')%nat -> (forall i x, (i < k)%nat -> g i x = g' i x) ->
  r = Ok xs -> r' = Ok xs' -> forall j, (j <= k)%nat -> nth j xs [] = nth j xs' [].
Proof.
  intros [ys [E T]] [ys' [E' T']] Hn Hn' Hg Er Er' j Hj. rewrite Er in E. rewrite Er' in E'.
  injection E as <-. injection E' as <-. eapply (trajectory_prefix n n'); eauto.
Qed.

Lemma tape_step_agree us us' step k : agree (S k) us us' -> (k < length us)%nat -> (k < length us')%nat ->
  forall i x, (i < k)%nat -> tape_step us step i x = tape_step us' step i x.
Proof.
  intros A L L' i x Hi. unfold tape_step.
  destruct (Nat.ltb_spec (S i) (length us)); [|lia]. destruct (Nat.ltb_spec (S i) (length us')); [|lia].
  rewrite (A i), (A (S i)) by lia. reflexivity.
Qed.
Lemma tape_step_c_agree us us' step fin fin' uc uc' k : agree (S k) us us' -> (k < length us)%nat -> (k < length us')%nat ->
  (forall i, (i < k)%nat -> uc i = uc' i) ->
  forall i x, (i < k)%nat -> tape_step_c us step fin uc i x = tape_step_c us' step fin' uc' i x.
Proof.
  intros A L L' C i x Hi. unfold tape_step_c.
  destruct (Nat.ltb_spec (S i) (length us)); [|lia]. destruct (Nat.ltb_spec (S i) (length us')); [|lia].
  rewrite (A i), (A (S i)), (C i) by lia. reflexivity.
Qed.

Section Causal.
  Context {P : Type}.
  Variables (x_0 : vec) (u u' : tape) (dt : R) (p : P) (k : nat).
  Hypothesis Hu : tape_wf u.
  Hypothesis Hu' : tape_wf u'.

  Lemma euler_causal (F : vec -> vec -> P -> vec) xs xs' :
    agree k (tape_rows u) (tape_rows u') -> (k <= length (tape_rows u))%nat -> (k <= length (tape_rows u'))%nat ->
    integrate_euler F x_0 u dt p = Ok xs -> integrate_euler F x_0 u' dt p = Ok xs' ->
    forall j, (j <= k)%nat -> nth j xs [] = nth j xs' [].
  Proof.
    intros A L L'. eapply causal_generic; [apply integrate_euler_spec; auto|apply integrate_euler_spec; auto|auto|auto|].
    intros i x Hi. cbn beta. now rewrite (A i Hi).
  Qed.

  Hypothesis A : agree (S k) (tape_rows u) (tape_rows u').
  Hypothesis L : (k < length (tape_rows u))%nat.
  Hypothesis L' : (k < length (tape_rows u'))%nat.

  Lemma implicit_causal (step : vec -> vec -> vec -> R -> P -> vec) xs xs' :
    integrate_with (fun _ x a b => Ok (step x a b dt p)) (fun _ x a b => Ok (step x a b dt p)) x_0 u = Ok xs ->
    integrate_with (fun _ x a b => Ok (step x a b dt p)) (fun _ x a b => Ok (step x a b dt p)) x_0 u' = Ok xs' ->
    forall j, (j <= k)%nat -> nth j xs [] = nth j xs' [].
  Proof.
    eapply causal_generic; [apply integrate_implicit_tape; auto|apply integrate_implicit_tape; auto|lia|lia|].
    apply tape_step_agree; auto.
  Qed.

  Lemma parab_causal (stepc : vec -> vec -> vec -> R -> P -> vec -> vec) (step : vec -> vec -> vec -> R -> P -> vec) c c' xs xs' :
    agree k c c' -> (length (tape_rows u) - 1 <= length c)%nat -> (length (tape_rows u') - 1 <= length c')%nat ->
    integrate_with (fun ii x a b => do cc <- pyget c (Z.of_nat ii); Ok (stepc x a b dt p cc)) (fun _ x a b => Ok (step x a b dt p)) x_0 u = Ok xs ->
    integrate_with (fun ii x a b => do cc <- pyget c' (Z.of_nat ii); Ok (stepc x a b dt p cc)) (fun _ x a b => Ok (step x a b dt p)) x_0 u' = Ok xs' ->
    forall j, (j <= k)%nat -> nth j xs [] = nth j xs' [].
  Proof.
    intros AC LC LC'.
    eapply causal_generic; [apply integrate_parab_tape; auto|apply integrate_parab_tape; auto|lia|lia|].
    apply tape_step_c_agree; auto.
  Qed.

  Lemma rk4_causal (F : vec -> vec -> P -> vec) xs xs' :
    integrate_rk4 F x_0 u dt p None = Ok xs -> integrate_rk4 F x_0 u' dt p None = Ok xs' ->
    forall j, (j <= k)%nat -> nth j xs [] = nth j xs' [].
  Proof.
    eapply causal_generic; [apply integrate_rk4_tape; [auto|discriminate]|apply integrate_rk4_tape; [auto|discriminate]|lia|lia|].
    apply tape_step_c_agree; auto. intros i Hi. cbn beta. now rewrite (A i), (A (S i)) by lia.
  Qed.
  Lemma rk4_causal_c (F : vec -> vec -> P -> vec) c c' xs xs' :
    agree k c c' -> (length (tape_rows u) - 1 <= length c)%nat -> (length (tape_rows u') - 1 <= length c')%nat ->
    integrate_rk4 F x_0 u dt p (Some c) = Ok xs -> integrate_rk4 F x_0 u' dt p (Some c') = Ok xs' ->
    forall j, (j <= k)%nat -> nth j xs [] = nth j xs' [].
  Proof.
    intros AC LC LC'.
    eapply causal_generic; [apply integrate_rk4_tape; [auto|]|apply integrate_rk4_tape; [auto|]|lia|lia|].
    - intros ? E. injection E as <-. auto.
    - intros ? E. injection E as <-. auto.
    - apply tape_step_c_agree; auto.
  Qed.
End Causal.

(** ** C05 *)
Section Interior.
  Context {P : Type}.
  Variable F : vec -> vec -> P -> vec.
  Variable p : P.

  Lemma hs_points M n (x x_n u u_n u_c : vec) (h : R) :
    (0 < M)%nat -> (0 < n)%nat -> order_form M n F p -> h <> 0 ->
    length x = (M * n)%nat -> length x_n = (M * n)%nat ->
    let f := F x u p in let f_n := F x_n u_n p in
    let x_c := hs_half_x x x_n (accel n f) (accel n f_n) h in
    hs_midpoint x x_n f f_n h = x_c /\
    hs_parab_restr F x x_n u u_n h p u_c = x +v (h / 6) *v (f +v 4 *v F x_c u_c p +v f_n) -v x_n /\
    (vzero (hs_parab_restr F x x_n u u_n h p u_c) -> hs_interp 1 0 x x_n f f_n (h / 2) h (F x_c u_c p) = x_c).
  Proof.
    intros HM Hn HF Hh Hx Hxn f f_n x_c.
    assert (Exc : hs_midpoint x x_n f f_n h = x_c).
    { unfold x_c, f, f_n. rewrite (hs_half_eq F p M n) with (u := u) (u_n := u_n); auto. }
    split; [exact Exc|]. split.
    { rewrite <- Exc. reflexivity. }
    intros Z.
    assert (HF1 : order_form 1 (M * n) F p).
    { apply same_size_order_form, order_form_same_size, HF. }
    assert (Hx1 : length x = (1 * (M * n))%nat) by lia. assert (Hxn1 : length x_n = (1 * (M * n))%nat) by lia.
    assert (Lf := FL F p _ _ HF1 x u Hx1). assert (Lfn := FL F p _ _ HF1 x_n u_n Hxn1). fold f in Lf. fold f_n in Lfn.
    assert (A1 : forall y, length y = (1 * (M * n))%nat -> accel (M * n) y = y).
    { intros y Hy. unfold accel. rewrite Hy. replace (1 * (M * n) - M * n)%nat with 0%nat by lia. reflexivity. }
    assert (HMn : (0 < M * n)%nat) by nia.
    assert (E2 : x_c = hs_m_half_x 1 x x_n (accel (M * n) f) (accel (M * n) f_n) h).
    { rewrite <- (hs_half_1 (M * n)); [|auto|lia|lia|rewrite A1; lia|rewrite A1; lia].
      rewrite <- Exc. unfold f, f_n. rewrite (hs_half_eq F p 1 (M * n)) with (u := u) (u_n := u_n); auto. }
    pose proof (hs_accel_equiv F p 1 (M * n) ltac:(lia) HMn HF1 x x_n u u_n u_c h Hx1 Hxn1) as HE. cbn zeta in HE.
    assert (E3 : hs_half_x x x_n (accel (M * n) (F x u p)) (accel (M * n) (F x_n u_n p)) h = x_c).
    { rewrite (hs_half_eq F p 1 (M * n)) with (u := u) (u_n := u_n); auto. }
    rewrite E3 in HE. apply (proj2 HE) in Z.
    assert (Lxc : length x_c = (1 * (M * n))%nat).
    { rewrite E2. apply hs_m_half_length; try lia; rewrite A1; lia. }
    rewrite (hs_1 (M * n)) in Z; [|auto|lia|lia|rewrite A1; fold f; lia|rewrite A1; fold f_n; lia|].
    2:{ rewrite A1; rewrite (FL F p _ _ HF1 _ _ Lxc); lia. }
    assert (HD := hs_m_dynamics F p 1 (M * n) ltac:(lia) HF1 h Hh x x_n u u_n Hx1 Hxn1 u_c). cbn zeta in HD.
    fold f f_n in HD, Z. rewrite <- E2 in HD. destruct (HD Z) as (_ & (E & _) & _). exact E.
  Qed.

  Lemma hs_mod_points n (x x_n u u_n u_c : vec) (h : R) :
    order_form 2 n F p -> h <> 0 -> length x = (2 * n)%nat -> length x_n = (2 * n)%nat ->
    let f := F x u p in let f_n := F x_n u_n p in
    let x_m := hs_mod_midpoint x x_n f f_n h in
    let x_c := hs_mod_half_x x x_n (accel n f) (accel n f_n) h in
    hs_mod_parab_restr F x x_n u u_n h p u_c =
      hs_mod_accel_restr x x_n (accel n f) (accel n f_n) h (accel n (F x_m u_c p)) /\
    (vzero (hs_mod_parab_restr F x x_n u u_n h p u_c) ->
     x_m = x_c /\ hs_interp 2 0 x x_n f f_n (h / 2) h (F x_c u_c p) = x_c).
  Proof.
    intros HF Hh Hx Hxn f f_n x_m x_c.
    assert (HS : same_size (2 * n) F p) by (apply order_form_same_size, HF).
    assert (Em : x_m = hsm_xc n x x_n h (accel n f) (accel n f_n)).
    { apply (hs_mod_midpoint_eq F p n HS x x_n u u_n h Hx Hxn). }
    assert (La := AL F p 2 n ltac:(lia) HF x u Hx). assert (Lan := AL F p 2 n ltac:(lia) HF x_n u_n Hxn).
    fold f in La. fold f_n in Lan.
    assert (Lm : length x_m = (2 * n)%nat).
    { rewrite Em. apply (hsm_xc_length F p n HS x x_n u u_n); auto. }
    assert (ER : hs_mod_parab_restr F x x_n u u_n h p u_c =
      hs_mod_accel_restr x x_n (accel n f) (accel n f_n) h (accel n (F x_m u_c p))).
    { symmetry. apply hs_mod_accel_at; auto. }
    split; [exact ER|]. intros Z.
    assert (Lc := AL F p 2 n ltac:(lia) HF x_m u_c Lm).
    assert (Emc : x_m = x_c).
    { rewrite ER in Z. rewrite Em. unfold x_c. symmetry.
      apply (hs_mod_interior n x x_n h Hx Hxn _ _ La Lan _ Lc Z). }
    split; [exact Emc|].
    rewrite ER, Emc in Z. rewrite (hs_2 n) in Z; auto.
    2:{ rewrite <- Emc. auto. }
    assert (HD := hs_m_dynamics F p 2 n ltac:(lia) HF h Hh x x_n u u_n Hx Hxn u_c). cbn zeta in HD.
    fold f f_n in HD. rewrite <- (hs_half_2 n) in HD by auto. fold x_c in HD.
    destruct (HD Z) as (_ & (E & _) & _). exact E.
  Qed.

  Lemma hsj_points n (x x_n u u_n u_c : vec) (h : R) :
    order_form 2 n F p -> h <> 0 -> length x = (2 * n)%nat -> length x_n = (2 * n)%nat ->
    let f := F x u p in let f_n := F x_n u_n p in
    let x_m := hsj_midpoint x x_n f f_n h in
    let x_c := hsj_half_x x x_n (accel n f) (accel n f_n) h in
    hsj_parab_restr F x x_n u u_n h p u_c =
      hsj_accel_restr x x_n (accel n f) (accel n f_n) h (accel n (F x_m u_c p)) /\
    (vzero (hsj_parab_restr F x x_n u u_n h p u_c) ->
     x_m = x_c /\ hsj_interp x x_n f f_n (2 * h / 5) h (F x_c u_c p) = x_c).
  Proof.
    intros HF Hh Hx Hxn f f_n x_m x_c.
    assert (HS : same_size (2 * n) F p) by (apply order_form_same_size, HF).
    assert (Em : x_m = hsj_xc n x x_n h (accel n f) (accel n f_n)).
    { apply (hsj_midpoint_eq F p n HS x x_n u u_n h Hx Hxn). }
    assert (La := AL F p 2 n ltac:(lia) HF x u Hx). assert (Lan := AL F p 2 n ltac:(lia) HF x_n u_n Hxn).
    fold f in La. fold f_n in Lan.
    assert (Lm : length x_m = (2 * n)%nat).
    { rewrite Em. apply (hsj_xc_length F p n HS x x_n u u_n); auto. }
    assert (ER : hsj_parab_restr F x x_n u u_n h p u_c =
      hsj_accel_restr x x_n (accel n f) (accel n f_n) h (accel n (F x_m u_c p))).
    { symmetry. apply hsj_accel_at; auto. }
    split; [exact ER|]. intros Z.
    assert (Lc := AL F p 2 n ltac:(lia) HF x_m u_c Lm).
    assert (Emc : x_m = x_c).
    { rewrite ER in Z. rewrite Em. unfold x_c. symmetry.
      apply (hsj_interior n x x_n h Hx Hxn _ _ La Lan _ Lc Z). }
    split; [exact Emc|].
    rewrite ER, Emc in Z.
    assert (HD := hsj_dynamics F p n HF h Hh x x_n u u_n u_c Hx Hxn). cbn zeta in HD.
    fold f f_n in HD. fold x_c in HD.
    destruct (HD Z) as (_ & (E & _) & _). exact E.
  Qed.
End Interior.

(** ** C08, C09 *)
Lemma split_index M n i : (0 < M)%nat -> (i < M * n)%nat -> exists k j, (k < M)%nat /\ (j < n)%nat /\ i = (k * n + j)%nat.
Proof.
  intros HM Hi. assert (n <> 0)%nat by nia. exists (i / n)%nat, (i mod n)%nat.
  split; [apply Nat.div_lt_upper_bound; lia|]. split; [apply Nat.mod_upper_bound; auto|].
  pose proof (Nat.div_mod i n). lia.
Qed.

Section Derivs.
  Variables (M n : nat).
  Hypothesis HM : (0 < M)%nat.
  Variable h : R.
  Hypothesis Hh : h <> 0.
  Variables x x_n xd xdn : vec.
  Hypothesis Hx : length x = (M * n)%nat.
  Hypothesis Hxd : length xd = (M * n)%nat.
  Hypothesis Hxdn : length xdn = (M * n)%nat.

  Lemma tz_derives d i tau : (i < M * n)%nat ->
    is_derive (fun t => vnth (tz_interp M d x x_n xd xdn t h) i) tau (vnth (tz_interp M (S d) x x_n xd xdn tau h) i).
  Proof using Hxdn Hxd Hx Hh HM.
    intros Hi. destruct (split_index M n i HM Hi) as [k [j [Hk [Hj ->]]]].
    destruct (tz_motion_exists M n HM h Hh x (accel n xd) (accel n xdn) j) as [c Hc].
    assert (V := fun t d => tz_interp_value M n HM h Hh x x_n xd xdn Hx Hxd Hxdn t c k d j Hc Hk Hj).
    unfold coord in V. rewrite V.
    apply is_derive_ext with (f := D (k + d) c); [intros t; symmetry; apply V|].
    replace (k + S d)%nat with (S (k + d)) by lia. apply D_is_derive.
  Qed.

  Lemma hs_derives d i tau xdc : length xdc = (M * n)%nat -> (i < M * n)%nat ->
    is_derive (fun t => vnth (hs_interp M d x x_n xd xdn t h xdc) i) tau (vnth (hs_interp M (S d) x x_n xd xdn tau h xdc) i).
  Proof using Hxdn Hxd Hx Hh HM.
    intros Hxdc Hi. destruct (split_index M n i HM Hi) as [k [j [Hk [Hj ->]]]].
    destruct (hs_motion_exists M n HM h Hh x (accel n xd) (accel n xdc) (accel n xdn) j) as [c Hc].
    assert (V := fun t d => hs_interp_value M n HM h Hh x x_n xd xdn Hx Hxd Hxdn t xdc Hxdc c k d j Hc Hk Hj).
    unfold coord in V. rewrite V.
    apply is_derive_ext with (f := D (k + d) c); [intros t; symmetry; apply V|].
    replace (k + S d)%nat with (S (k + d)) by lia. apply D_is_derive.
  Qed.

  (** Block k of the derivative of order d is block k+1 of the derivative of
      order d-1; the last block of the first derivative is the acceleration. *)
  Lemma tz_blocks j : (j < n)%nat ->
    (forall k d tau, (S k < M)%nat -> coord n (tz_interp M (S d) x x_n xd xdn tau h) k j = coord n (tz_interp M d x x_n xd xdn tau h) (S k) j) /\
    coord n (tz_interp M 1 x x_n xd xdn 0 h) (M - 1) j = vnth (accel n xd) j /\
    coord n (tz_interp M 1 x x_n xd xdn h h) (M - 1) j = vnth (accel n xdn) j.
  Proof using Hxdn Hxd Hx Hh HM.
    intros Hj.
    destruct (tz_motion_exists M n HM h Hh x (accel n xd) (accel n xdn) j) as [c Hc].
    assert (V := fun t k d Hk => tz_interp_value M n HM h Hh x x_n xd xdn Hx Hxd Hxdn t c k d j Hc Hk Hj).
    split; [|split].
    - intros k d tau Hk. rewrite !V by lia. f_equal. lia.
    - rewrite V by lia. replace (M - 1 + 1)%nat with M by lia. apply Hc.
    - rewrite V by lia. replace (M - 1 + 1)%nat with M by lia. apply Hc.
  Qed.
  Lemma hs_blocks j xdc : length xdc = (M * n)%nat -> (j < n)%nat ->
    (forall k d tau, (S k < M)%nat -> coord n (hs_interp M (S d) x x_n xd xdn tau h xdc) k j = coord n (hs_interp M d x x_n xd xdn tau h xdc) (S k) j) /\
    coord n (hs_interp M 1 x x_n xd xdn 0 h xdc) (M - 1) j = vnth (accel n xd) j /\
    coord n (hs_interp M 1 x x_n xd xdn (h / 2) h xdc) (M - 1) j = vnth (accel n xdc) j /\
    coord n (hs_interp M 1 x x_n xd xdn h h xdc) (M - 1) j = vnth (accel n xdn) j.
  Proof using Hxdn Hxd Hx Hh HM.
    intros Hxdc Hj.
    destruct (hs_motion_exists M n HM h Hh x (accel n xd) (accel n xdc) (accel n xdn) j) as [c Hc].
    assert (V := fun t k d Hk => hs_interp_value M n HM h Hh x x_n xd xdn Hx Hxd Hxdn t xdc Hxdc c k d j Hc Hk Hj).
    split; [|split; [|split]].
    - intros k d tau Hk. rewrite !V by lia. f_equal. lia.
    - rewrite V by lia. replace (M - 1 + 1)%nat with M by lia. apply Hc.
    - rewrite V by lia. replace (M - 1 + 1)%nat with M by lia. apply Hc.
    - rewrite V by lia. replace (M - 1 + 1)%nat with M by lia. apply Hc.
  Qed.
End Derivs.

Section DerivsJ.
  Variables (n : nat) (h : R) (x x_n xd xdn xdc : vec).
  Hypothesis Hh : h <> 0.
  Hypothesis Hx : length x = (2 * n)%nat.
  Hypothesis Hxd : length xd = (2 * n)%nat.
  Hypothesis Hxdn : length xdn = (2 * n)%nat.
  Hypothesis Hxdc : length xdc = (2 * n)%nat.

  Lemma hsj_derives i tau : (i < 2 * n)%nat ->
    is_derive (fun t => vnth (hsj_interp x x_n xd xdn t h xdc) i) tau (vnth (hsj_dot_interp x x_n xd xdn tau h xdc) i) /\
    is_derive (fun t => vnth (hsj_dot_interp x x_n xd xdn t h xdc) i) tau (vnth (hsj_dot_dot_interp x x_n xd xdn tau h xdc) i).
  Proof using Hxdc Hxdn Hxd Hx Hh.
    intros Hi. destruct (split_index 2 n i ltac:(lia) Hi) as [k [j [Hk [Hj ->]]]].
    destruct (hsj_motion_exists n h Hh x (accel n xd) (accel n xdc) (accel n xdn) j) as [c Hc].
    assert (V := fun t => hsj_interp_values n h Hh x x_n xd xdn xdc Hx Hxd Hxdn Hxdc t c j Hc Hj k Hk).
    unfold coord in V. destruct (V tau) as [_ [-> ->]]. split.
    - apply is_derive_ext with (f := D k c); [intros t; symmetry; apply V|].
      rewrite Nat.add_1_r. apply D_is_derive.
    - apply is_derive_ext with (f := D (k + 1) c); [intros t; symmetry; apply V|].
      replace (k + 2)%nat with (S (k + 1)) by lia. apply D_is_derive.
  Qed.

  Lemma hsj_blocks j : (j < n)%nat ->
    (forall tau, coord n (hsj_dot_interp x x_n xd xdn tau h xdc) 0 j = coord n (hsj_interp x x_n xd xdn tau h xdc) 1 j) /\
    coord n (hsj_dot_interp x x_n xd xdn 0 h xdc) 1 j = vnth (accel n xd) j /\
    coord n (hsj_dot_interp x x_n xd xdn (2 * h / 5) h xdc) 1 j = vnth (accel n xdc) j /\
    coord n (hsj_dot_interp x x_n xd xdn h h xdc) 1 j = vnth (accel n xdn) j.
  Proof using Hxdc Hxdn Hxd Hx Hh.
    intros Hj.
    destruct (hsj_motion_exists n h Hh x (accel n xd) (accel n xdc) (accel n xdn) j) as [c Hc].
    assert (V := fun t k Hk => hsj_interp_values n h Hh x x_n xd xdn xdc Hx Hxd Hxdn Hxdc t c j Hc Hj k Hk).
    assert (V1 : forall t k, (k < 2)%nat -> coord n (hsj_dot_interp x x_n xd xdn t h xdc) k j = D (k + 1) c t) by (intros; now apply V).
    assert (V0 : forall t k, (k < 2)%nat -> coord n (hsj_interp x x_n xd xdn t h xdc) k j = D k c t) by (intros; now apply V).
    split; [|split; [|split]].
    - intros tau. now rewrite V1, V0 by lia.
    - rewrite V1 by lia. apply Hc.
    - rewrite V1 by lia. apply Hc.
    - rewrite V1 by lia. apply Hc.
  Qed.
End DerivsJ.

(** ** C11 *)
Lemma acc_len_gen M n y : (0 < M)%nat -> length y = (M * n)%nat -> length (accel n y) = n.
Proof. intros HM H. unfold accel. rewrite skipn_length, H. nia. Qed.

Section Exact.
  Variables (M n : nat).
  Hypothesis HM : (0 < M)%nat.
  Variable h : R.
  Hypothesis Hh : h <> 0.
  Variable c : nat -> list R.
  Variables x x_n : vec.
  Hypothesis Hx : length x = (M * n)%nat.
  Hypothesis Hxn : length x_n = (M * n)%nat.
  Hypothesis H0 : forall j, (j < n)%nat -> passes_at M n (c j) 0 x j.
  Hypothesis H1 : forall j, (j < n)%nat -> passes_at M n (c j) h x_n j.
  Variables xd xdn : vec.
  Hypothesis Hxd : length xd = (M * n)%nat.
  Hypothesis Hxdn : length xdn = (M * n)%nat.
  Hypothesis A0 : forall j, (j < n)%nat -> vnth (accel n xd) j = D M (c j) 0.
  Hypothesis A1 : forall j, (j < n)%nat -> vnth (accel n xdn) j = D M (c j) h.

  Lemma tz_exact : (forall j, (j < n)%nat -> (length (c j) <= M + 2)%nat) ->
    vzero (trapz_m_accel_restr M x x_n (accel n xd) (accel n xdn) h) /\
    forall j k d tau, (j < n)%nat -> (k < M)%nat ->
      coord n (tz_interp M d x x_n xd xdn tau h) k j = D (k + d) (c j) tau.
  Proof using All.
    intros HL.
    assert (Hm : forall j, (j < n)%nat -> tz_motion M n h x (accel n xd) (accel n xdn) j (c j)).
    { intros j Hj. split; [auto|]. split; [exact (H0 j Hj)|]. split; symmetry; auto. }
    split.
    - apply (trapz_m_arrives M n HM h Hh x x_n (accel n xd) (accel n xdn) Hx Hxn (acc_len_gen M n _ HM Hxd) (acc_len_gen M n _ HM Hxdn) c Hm). exact H1.
    - intros j k d tau Hj Hk. apply (tz_interp_value M n HM h Hh); auto.
  Qed.

  Variable xdc : vec.
  Hypothesis Hxdc : length xdc = (M * n)%nat.
  Hypothesis AC : forall j, (j < n)%nat -> vnth (accel n xdc) j = D M (c j) (h / 2).

  Lemma hs_exact : (forall j, (j < n)%nat -> (length (c j) <= M + 3)%nat) ->
    vzero (hs_m_accel_restr M x x_n (accel n xd) (accel n xdn) h (accel n xdc)) /\
    (forall j k, (j < n)%nat -> (k < M)%nat ->
      coord n (hs_m_half_x M x x_n (accel n xd) (accel n xdn) h) k j = D k (c j) (h / 2)) /\
    forall j k d tau, (j < n)%nat -> (k < M)%nat ->
      coord n (hs_interp M d x x_n xd xdn tau h xdc) k j = D (k + d) (c j) tau.
  Proof using All.
    intros HL.
    assert (Hm : forall j, (j < n)%nat -> hs_motion M n h x (accel n xd) (accel n xdc) (accel n xdn) j (c j)).
    { intros j Hj. split; [auto|]. split; [exact (H0 j Hj)|]. split; [|split]; symmetry; auto. }
    split; [|split].
    - apply (hs_m_arrives M n HM h Hh x x_n (accel n xd) (accel n xdn) Hx Hxn (acc_len_gen M n _ HM Hxd) (acc_len_gen M n _ HM Hxdn) _ (acc_len_gen M n _ HM Hxdc) c Hm). exact H1.
    - intros j k Hj Hk.
      apply (hs_m_half_value M n HM h Hh x x_n _ _ Hx Hxn (acc_len_gen M n _ HM Hxd) (acc_len_gen M n _ HM Hxdn) _ (acc_len_gen M n _ HM Hxdc)); auto.
      apply H1; auto. lia.
    - intros j k d tau Hj Hk. apply (hs_interp_value M n HM h Hh); auto.
  Qed.

  (** The top block (Simpson's rule) is exact one degree further. *)
  Lemma hs_top_exact : (forall j, (j < n)%nat -> (length (c j) <= M + 4)%nat) ->
    forall j, (j < n)%nat ->
      coord n (hs_m_accel_restr M x x_n (accel n xd) (accel n xdn) h (accel n xdc)) (M - 1) j = 0.
  Proof using All.
    intros HL j Hj.
    rewrite (hs_m_comp M n HM x x_n _ _ Hx Hxn (acc_len_gen M n _ HM Hxd) (acc_len_gen M n _ HM Hxdn) h _ (acc_len_gen M n _ HM Hxdc)) by lia.
    replace (M - (M - 1))%nat with 1%nat by lia.
    rewrite A0, A1, AC by auto. rewrite <- (H1 j Hj) by lia.
    cbn [rsum]. rewrite Nat.add_0_r. rewrite <- (H0 j Hj) by lia.
    specialize (HL j Hj).
    rewrite (D_taylor (M - 1) (c j) h 5) by lia.
    rewrite (D_taylor M (c j) h 4), (D_taylor M (c j) (h / 2) 4) by lia.
    rewrite rsum5, !rsum4.
    replace (M - 1 + 0)%nat with (M - 1)%nat by lia. replace (M - 1 + 1)%nat with M by lia.
    replace (M - 1 + 2)%nat with (M + 1)%nat by lia. replace (M - 1 + 3)%nat with (M + 2)%nat by lia.
    replace (M - 1 + 4)%nat with (M + 3)%nat by lia. rewrite !Nat.add_0_r.
    change (INR 1) with 1.
    replace (INR (fact 0)) with 1 by (simpl; lra). replace (INR (fact 1)) with 1 by (simpl; lra).
    replace (INR (fact 2)) with 2 by (simpl; lra). replace (INR (fact 3)) with 6 by (simpl; lra).
    replace (INR (fact 4)) with 24 by (simpl; lra). replace (INR (fact (1 + 2))) with 6 by (simpl; lra).
    field.
  Qed.
End Exact.

(** ** C12 at the level of the API *)
Section Api.
  Context {P : Type}.
  Variable u_other : string -> R -> Res vec.
  Variable hermite : list R -> list vec -> list vec -> R -> vec.
  Variables (X U : list vec) (h : R) (ts : list R) (p : P) (F : option (vec -> vec -> P -> vec)) (Xd : option (list vec)).
  Variables (scheme u_scheme : string) (sp : option sparams) (nX nU : list vec) (sp' : sparams).
  Hypothesis Hscheme : scheme <> "hs_scipy"%string.
  Hypothesis Hok : interpolated_array u_other hermite X U h ts p F Xd scheme u_scheme sp = Ok (nX, nU, sp').

  Lemma interp_newpoints : exists Xd' sp1, length nX = length ts /\ X <> [] /\
    forall k, (k < length ts)%nat -> newpoint X Xd' h (nth k ts 0) scheme sp1 = Ok (nth k nX []).
  Proof using Hok Hscheme.
    unfold interpolated_array in Hok.
    destruct (negb (mem scheme supported_schemes)); [discriminate|].
    destruct (negb (mem u_scheme supported_u_schemes)); [discriminate|].
    destruct (contains "j" scheme && (u_scheme =? "parab")%string); [discriminate|].
    destruct (contains "j" u_scheme && negb (contains "j" scheme)); [discriminate|].
    destruct (if contains "hsn" scheme || contains "trapz_n" scheme then _ else _); cbn [rbind] in Hok; [|discriminate].
    destruct (prepare_interp X U h ts) as [[U' ot]|] eqn:EP; cbn [rbind] in Hok; [|discriminate].
    destruct (calculate_missing _ _ _ _ _ _ _ _ _) as [[X1 s1]|] eqn:E; cbn [rbind] in Hok; [|discriminate].
    destruct (match F with Some _ => _ | None => _ end); cbn [rbind] in Hok; [|discriminate].
    destruct (interpolate_u _ _ _ _ _ _); cbn [rbind] in Hok; [|discriminate].
    apply String.eqb_neq in Hscheme. rewrite Hscheme in Hok.
    destruct (mapm _ ts) eqn:EM; cbn [rbind] in Hok; [|discriminate]. injection Hok as <- <- <-.
    apply mapm_ok in EM. destruct EM as [L EM]. exists X1, s1. split; [auto|]. split.
    - intros ->. unfold prepare_interp in EP. destruct (if (length _ =? _)%nat then _ else _); cbn [rbind] in EP; [|discriminate].
      destruct (negb _); [discriminate|]. destruct (pyget ts _); cbn [rbind] in EP; [|discriminate]. discriminate.
    - intros k Hk. apply EM. auto.
  Qed.

  Lemma interp_hits_samples : 0 < h -> length nX = length ts /\
    forall k i, (k < length ts)%nat -> (i < length X)%nat -> Rabs (nth k ts 0 - INR i * h) < h * snap ->
      nth k nX [] = nth i X [].
  Proof using Hok Hscheme.
    intros Hh. destruct interp_newpoints as [Xd' [sp1 [L [_ E]]]]. split; [auto|].
    intros k i Hk Hi Ht. specialize (E k Hk). rewrite (newpoint_snap _ _ _ _ _ _ i) in E; auto. now injection E.
  Qed.

  Lemma interp_no_later_times : 0 < h -> forall t, In t ts -> t < (INR (length X) - 1) * h + h * snap.
  Proof using Hok Hscheme.
    intros Hh t Ht. destruct interp_newpoints as [Xd' [sp1 [L [HX E]]]].
    destruct (Rlt_dec t ((INR (length X) - 1) * h + h * snap)) as [|Hge]; [auto|exfalso].
    apply In_nth with (d := 0) in Ht. destruct Ht as [k [Hk <-]]. specialize (E k Hk).
    destruct (newpoint_after X Xd' h (nth k ts 0) scheme sp1) as [e [Ee _]]; auto; [lra|]. congruence.
  Qed.
End Api.

Local Arguments newpoint : simpl never.
(** A negative time is answered, with the last sample. *)
Lemma negative_time_answered (u_other : string -> R -> Res vec) (hermite : list R -> list vec -> list vec -> R -> vec) :
  exists (X U : list vec) (nX nU : list vec) sp',
    interpolated_array u_other hermite X U 1 [-1; 0] tt (Some (fun x u (_ : unit) => u)) None "trapz" "lin" (Some no_params) = Ok (nX, nU, sp') /\
    nth 0 nX [] = last X [] /\ last X [] <> nth 0 X [].
Proof.
  exists [[0]; [1]], [[1]; [1]].
  assert (E0 : forall Xd, newpoint [[0]; [1]] Xd 1 (-1) "trapz" no_params = Ok [1]).
  { intros. apply (newpoint_minus_h [[0]; [1]] Xd 1 "trapz" no_params); [lra|discriminate]. }
  assert (E1 : forall Xd, newpoint [[0]; [1]] Xd 1 0 "trapz" no_params = Ok [0]).
  { intros. apply (newpoint_snap [[0]; [1]] Xd 1 0 "trapz" no_params 0); [lra|simpl; lia|].
    simpl. rewrite Rabs_pos_eq; [|lra]. pose proof snap_pos. lra. }
  unfold interpolated_array, prepare_interp, calculate_missing. simpl.
  change (pyget [-1; 0] (-1)) with (@Ok R 0). cbn [rbind].
  change (pyget [0 * 1; 1 * 1] (-1)) with (@Ok R (1 * 1)). cbn [rbind].
  destruct (Rlt_dec (1 / 1000000000) (0 - 1 * 1)) as [Y|_]; [exfalso; lra|]. cbn [rbind].
  change (pyget [[1]; [1]] 0) with (@Ok vec [1]). change (pyget [[1]; [1]] 1) with (@Ok vec [1]). cbn [rbind].
  rewrite E0. cbn [rbind]. rewrite E1. cbn [rbind].
  unfold interpolate_u. cbn [String.eqb Ascii.eqb Bool.eqb mapm np_interp_rows combine rbind].
  do 3 eexists. split; [reflexivity|]. split; [reflexivity|]. intros E. injection E. lra.
Qed.

(** ** C14: parabolic controls through the API *)
Section ControlApi.
  Variable u_other : string -> R -> Res vec.

  Lemma newpoint_u_snap U h t us sp i : 0 < h -> (i < length U)%nat -> Rabs (t - INR i * h) < h * snap ->
    newpoint_u u_other U h t us sp = Ok (nth i U []).
  Proof.
    intros Hh Hi Ht. pose proof (newpoint_snap U U h t "none" sp i Hh Hi Ht) as E. unfold newpoint in E. unfold newpoint_u.
    destruct (Z.of_nat (length U) <? seg_index t h + 1)%Z; [discriminate|].
    destruct (Rlt_dec (Rabs (seg_tau t h)) (h * snap)); [exact E|].
    destruct (Rlt_dec (Rabs (seg_tau t h - h)) (h * snap)); [exact E|].
    exfalso.
    destruct (pyget U (seg_index t h)); cbn [rbind] in E; [|discriminate].
    destruct (pyget U (seg_index t h + 1)); cbn [rbind] in E; [|discriminate]. discriminate.
  Qed.

  Lemma newpoint_u_segment U h t us sp i : 0 < h -> (i + 1 < length U)%nat ->
    INR i * h + h * snap <= t <= (INR i + 1) * h - h * snap ->
    us = "parab"%string \/ us = "parab_j"%string ->
    newpoint_u u_other U h t us sp =
      (do UC <- getkey (sp_u_c sp); do u_c <- pyget UC (Z.of_nat i);
       Ok ((if (us =? "parab")%string then interp_parab else interp_parab_j) (t - INR i * h) h (nth i U []) u_c (nth (i + 1) U []))).
  Proof.
    intros Hh Hi Ht Hus. pose proof snap_pos as S1. pose proof snap_small as S2.
    unfold newpoint_u. rewrite INR_IZR_INZ in *.
    assert (En : seg_index t h = Z.of_nat i) by (apply seg_index_eq; nra).
    unfold seg_tau. rewrite En.
    destruct (Z.ltb_spec (Z.of_nat (length U)) (Z.of_nat i + 1)); [lia|].
    destruct (Rlt_dec _ _) as [Y|_].
    { rewrite Rabs_pos_eq in Y; nra. }
    destruct (Rlt_dec _ _) as [Y|_].
    { rewrite Rabs_left1 in Y; nra. }
    replace (Z.of_nat i + 1)%Z with (Z.of_nat (i + 1)) by lia.
    rewrite (pyget_nat U i []), (pyget_nat U (i + 1) []) by lia.
    destruct Hus as [-> | ->]; reflexivity.
  Qed.

  Lemma newpoint_u_after U h t us sp : 0 < h -> U <> [] -> (INR (length U) - 1) * h + h * snap <= t ->
    exists e, newpoint_u u_other U h t us sp = Err e.
  Proof.
    intros Hh HX Ht. destruct (newpoint_after U U h t "none" sp Hh HX Ht) as [e [E _]].
    unfold newpoint in E. unfold newpoint_u.
    destruct (Z.of_nat (length U) <? seg_index t h + 1)%Z; [eauto|].
    destruct (Rlt_dec (Rabs (seg_tau t h)) (h * snap)); [eauto|].
    destruct (Rlt_dec (Rabs (seg_tau t h - h)) (h * snap)); [eauto|].
    pose proof (seg_bounds t h Hh) as B. pose proof (seg_time t h) as E'.
    assert (HL : (0 < length U)%nat) by (destruct U; simpl; [congruence|lia]).
    assert (Hz : (Z.of_nat (length U) - 1 <= seg_index t h)%Z).
    { pose proof snap_pos. pose proof snap_small. rewrite INR_IZR_INZ in Ht.
      assert (IZR (Z.of_nat (length U)) - 1 < IZR (seg_index t h) + 1) by nra.
      assert (IZR (Z.of_nat (length U) - 1) < IZR (seg_index t h + 1)) as HH by (rewrite minus_IZR, plus_IZR; lra).
      apply lt_IZR in HH. lia. }
    destruct (pyget U (seg_index t h)); cbn [rbind]; [|eauto].
    replace (seg_index t h + 1)%Z with (Z.of_nat (Z.to_nat (seg_index t h + 1))) by lia.
    rewrite pyget_nat_out by lia. cbn [rbind]. eauto.
  Qed.

  (** Parabolic controls reproduce every quadratic control, and only its own
      samples matter. *)
  Lemma quadratic_controls (a b c : vec) m U UC h ts us sp r : 0 < h -> (2 <= length U)%nat ->
    length a = m -> length b = m -> length c = m ->
    us = "parab"%string \/ us = "parab_j"%string ->
    let u := fun t => a +v t *v b +v (t ^ 2) *v c in
    (forall i, (i < length U)%nat -> nth i U [] = u (INR i * h)) ->
    sp_u_c sp = Some UC -> length UC = (length U - 1)%nat ->
    (forall i, (i < length UC)%nat -> nth i UC [] = u (INR i * h + (if (us =? "parab")%string then 1 / 2 else 2 / 5) * h)) ->
    (forall t, In t ts -> 0 <= t) ->
    interpolate_u u_other U (map (fun i => INR i * h) (seq 0 (length U))) ts us sp = Ok r ->
    length r = length ts /\ forall k, (k < length ts)%nat -> is_value_of U h u (nth k ts 0) (nth k r []).
  Proof.
    intros Hh HL Ha Hb Hc Hus u HU EUC LUC HUC Hts E.
    unfold interpolate_u in E.
    replace (us =? "lin")%string with false in E by (destruct Hus as [-> | ->]; reflexivity).
    rewrite (pyget_last _ 0) in E.
    2:{ intros E2. apply (f_equal (@length R)) in E2. rewrite map_length, seq_length in E2. simpl in E2. lia. }
    change 0%Z with (Z.of_nat 0) in E. rewrite (pyget_nat _ 0 0) in E by (rewrite map_length, seq_length; lia).
    cbn [rbind] in E. rewrite map_length, seq_length in E.
    rewrite !(nth_map' _ _ _ 0%nat) in E by (rewrite seq_length; lia).
    rewrite !seq_nth in E by lia. rewrite !Nat.add_0_l in E. rewrite minus_INR in E by lia.
    change (INR 1) with 1 in E. change (INR 0) with 0 in E.
    assert (HN : 1 < INR (length U)) by (apply (lt_INR 1); lia).
    replace (((INR (length U) - 1) * h - 0 * h) / (INR (length U) - 1)) with h in E by (field; lra).
    apply mapm_ok in E. destruct E as [LR E]. split; [exact LR|]. intros k Hk.
    assert (Ht : 0 <= nth k ts 0) by (apply Hts, nth_In; auto).
    specialize (E k 0 [] Hk). revert Ht E. generalize (nth k ts 0) (nth k r []). clear - Hh HL Ha Hb Hc Hus HU EUC LUC HUC.
    intros t y Ht NN.
    destruct (Rlt_le_dec t ((INR (length U) - 1) * h + h * snap)) as [Hsn|Hfar].
    2:{ destruct (newpoint_u_after U h t us sp Hh) as [e E]; auto; [intros ->; simpl in HL; lia|]. congruence. }
    pose proof snap_pos as S1. pose proof snap_small as S2.
    pose proof (seg_bounds t h Hh) as B. pose proof (seg_time t h) as E.
    set (z := seg_index t h) in *. set (tau := seg_tau t h) in *. clearbody z tau.
    assert (Hz0 : (0 <= z)%Z).
    { assert (IZR (-1) < IZR z) as HH by nra. apply lt_IZR in HH. lia. }
    assert (Hz1 : (z < Z.of_nat (length U))%Z).
    { apply lt_IZR. rewrite <- INR_IZR_INZ. nra. }
    assert (Ez : z = Z.of_nat (Z.to_nat z)) by lia. set (i := Z.to_nat z) in *. clearbody i.
    subst z. rewrite <- INR_IZR_INZ in E.
    destruct (Rlt_dec tau (h * snap)) as [Hlo|Hlo].
    { assert (Hab : Rabs (t - INR i * h) < h * snap) by (rewrite Rabs_pos_eq; lra).
      rewrite (newpoint_u_snap U h t us sp i Hh ltac:(lia) Hab) in NN. injection NN as NN.
      right. exists i. split; [lia|]. split; auto. }
    destruct (Nat.eq_dec i (length U - 1)) as [->|Hne].
    { exfalso. rewrite minus_INR in E by lia. change (INR 1) with 1 in E. nra. }
    destruct (Rlt_dec (h - tau) (h * snap)) as [Hhi|Hhi].
    { assert (Hab : Rabs (t - INR (S i) * h) < h * snap).
      { rewrite S_INR. rewrite Rabs_left1; lra. }
      rewrite (newpoint_u_snap U h t us sp (S i) Hh ltac:(lia) Hab) in NN. injection NN as NN.
      right. exists (S i). split; [lia|]. split; auto. }
    left. rewrite (newpoint_u_segment U h t us sp i) in NN; [|auto|lia|lra|auto].
    rewrite EUC in NN. cbn [getkey rbind] in NN. rewrite (pyget_nat UC i []) in NN by lia. cbn [rbind] in NN.
    injection NN as <-. rewrite !HU, HUC by lia. rewrite plus_INR. change (INR 1) with 1.
    replace t with (INR i * h + tau) by lra. replace (INR i * h + tau - INR i * h) with tau by lra.
    destruct Hus as [-> | ->]; cbn [String.eqb Ascii.eqb Bool.eqb]; unfold interp_parab, interp_parab_j, u;
      (apply vec_ext; [len | intros j Hj; comp; field; lra]).
  Qed.
End ControlApi.

(** ** C65: what the explicit steps compute *)
Section Explicit.
  Context {P : Type}.
  Variables (p : P) (N : nat) (dt : R).

  (** Linear dynamics: the step is the Taylor polynomial of the flow. *)
  Lemma linear_steps (A : vec -> vec) (x u u_n u_c : vec) :
    (forall y, length y = N -> length (A y) = N) ->
    (forall y z, length y = N -> length z = N -> A (y +v z) = A y +v A z) ->
    (forall k y, length y = N -> A (k *v y) = k *v A y) ->
    length x = N ->
    let F := fun y (_ : vec) (_ : P) => A y in
    euler_step F x u dt p = x +v dt *v A x /\
    rk4_step F x u u_n dt p u_c =
      x +v dt *v A x +v (dt ^ 2 / 2) *v A (A x) +v (dt ^ 3 / 6) *v A (A (A x)) +v (dt ^ 4 / 24) *v A (A (A (A x))).
  Proof.
    intros HL Hadd Hsc Hx F. split; [reflexivity|]. unfold rk4_step, F.
    assert (L1 := HL _ Hx). assert (L2 := HL _ L1). assert (L3 := HL _ L2). assert (L4 := HL _ L3).
    repeat first [rewrite Hadd by len | rewrite Hsc by len].
    vext. field.
  Qed.

  (** Dynamics that depend on the control only: Euler is the left-endpoint
      rule, RK4 is Simpson's rule. *)
  Lemma quadrature_steps (x u u_n u_c : vec) :
    length x = N -> length u = N -> length u_n = N -> length u_c = N ->
    let F := fun (_ : vec) (w : vec) (_ : P) => w in
    euler_step F x u dt p = x +v dt *v u /\
    rk4_step F x u u_n dt p u_c = x +v (dt / 6) *v (u +v 4 *v u_c +v u_n).
  Proof.
    intros Hx Hu Hun Huc F. split; [reflexivity|]. unfold rk4_step, F. vext. field.
  Qed.
End Explicit.

(** ** C03: the schemes without a given interior control *)
Lemma hs_mod_equiv {P} (F : vec -> vec -> P -> vec) (p : P) (m : nat) : same_size (2 * m) F p ->
  forall (x x_n u u_n : vec) (dt : R), length x = (2 * m)%nat -> length x_n = (2 * m)%nat ->
  (vzero (hs_mod_opti_step F x_n x u u_n dt p) <-> vzero (hs_mod_restr F x x_n u u_n dt p)).
Proof. intros HF x x_n u u_n dt Hx Hxn. rewrite hs_mod_opti_parab, hs_mod_restr_parab. now apply (hs_mod_parab_equiv F p m). Qed.
Lemma hsj_equiv {P} (F : vec -> vec -> P -> vec) (p : P) (m : nat) : same_size (2 * m) F p ->
  forall (x x_n u u_n : vec) (dt : R), length x = (2 * m)%nat -> length x_n = (2 * m)%nat ->
  (vzero (hsj_opti_step F x_n x u u_n dt p) <-> vzero (hsj_restr F x x_n u u_n dt p)).
Proof. intros HF x x_n u u_n dt Hx Hxn. rewrite hsj_opti_parab, hsj_restr_parab. now apply (hsj_parab_equiv F p m). Qed.

Lemma increase_order_q_fails {P} (F : list vec -> vec -> P -> vec) (n m k : nat) : (k <= m)%nat ->
  increase_order_q F n m k = Err UnboundLocalError.
Proof. intros H. unfold increase_order_q. destruct (Nat.leb_spec k m); [reflexivity|lia]. Qed.
