(** Fixed schemes as instances of the order-M ones (C06) and the dynamics at
    the collocation points of a step (C10). *)
From Coquelicot Require Import Coquelicot.
From Verif Require Import Prelude PreludeFacts Poly PolyFacts PwModel PwFacts PwSpec PwSchemeProofs PwAccelProofs PwMotionProofs.
Open Scope R_scope.
Open Scope vec_scope.

Lemma coord_ext M n (y z : vec) : length y = (M * n)%nat -> length z = (M * n)%nat ->
  (forall k j, (k < M)%nat -> (j < n)%nat -> coord n y k j = coord n z k j) -> y = z.
Proof.
  intros Ly Lz H. apply vec_ext; [congruence|]. intros i Hi. rewrite Ly in Hi.
  destruct (index_split M n i Hi) as (k & j & Hk & Hj & ->). now apply H.
Qed.
Lemma vzero_coord M n (y : vec) : length y = (M * n)%nat ->
  (vzero y <-> (forall k j, (k < M)%nat -> (j < n)%nat -> coord n y k j = 0)).
Proof.
  intros Ly. rewrite vzero_iff, Ly. split; intros H.
  - intros k j Hk Hj. apply H. now apply index_bound.
  - intros i Hi. destruct (index_split M n i Hi) as (k & j & Hk & Hj & ->). now apply H.
Qed.

(** ** C06 *)
Section One.
  Variable n : nat.
  Hypothesis Hn : (0 < n)%nat.
  Variables x x_n a a_n : vec.
  Variable h : R.
  Hypothesis Hx : length x = n.
  Hypothesis Hxn : length x_n = n.
  Hypothesis Ha : length a = n.
  Hypothesis Han : length a_n = n.
  Lemma L1 (y : vec) : length y = n -> length y = (1 * n)%nat.
  Proof. lia. Qed.
  Lemma coord_0 (y : vec) j : coord n y 0 j = vnth y j.
  Proof. reflexivity. Qed.
  Lemma dim1 : (vec_len x / order_from_x_a x a)%nat = n.
  Proof. apply (dim_is_n 1 n ltac:(lia) Hn x x); lia. Qed.
  Lemma x_dot1 y b : length y = n -> length b = n -> x_dot_of n x y b = b.
  Proof. intros Hy Hb. rewrite x_dot_of_eq by (auto; lia). now rewrite skipn_all2 by lia. Qed.

  Lemma trapz_1 : trapz_accel_restr x x_n a a_n h = trapz_m_accel_restr 1 x x_n a a_n h.
  Proof.
    apply (coord_ext 1 n).
    - unfold trapz_accel_restr. rewrite dim1, !x_dot1 by auto. len.
    - apply trapz_m_length; auto; lia.
    - intros k j Hk Hj. destruct k; [|lia]. rewrite trapz_m_comp by (auto; lia).
      unfold trapz_accel_restr. rewrite dim1, !x_dot1 by auto. unfold coord at 1. comp.
      cbn. rewrite !coord_0. unfold coord. cbn [Nat.mul Nat.add]. field.
  Qed.
  Lemma hs_half_1 : hs_half_x x x_n a a_n h = hs_m_half_x 1 x x_n a a_n h.
  Proof.
    apply (coord_ext 1 n).
    - unfold hs_half_x. rewrite dim1, !x_dot1 by auto. len.
    - apply hs_m_half_length; auto; lia.
    - intros k j Hk Hj. destruct k; [|lia]. rewrite hs_m_half_comp by (auto; lia).
      unfold hs_half_x. rewrite dim1, !x_dot1 by auto. unfold coord at 1. comp.
      cbn. rewrite !coord_0. unfold coord. cbn [Nat.mul Nat.add]. field.
  Qed.
  Lemma hs_1 a_c : length a_c = n ->
    hs_accel_restr x x_n a a_n h a_c = hs_m_accel_restr 1 x x_n a a_n h a_c.
  Proof.
    intros Hac. assert (Lc : length (hs_half_x x x_n a a_n h) = n).
    { unfold hs_half_x. rewrite dim1, !x_dot1 by auto. len. }
    apply (coord_ext 1 n).
    - unfold hs_accel_restr. rewrite dim1, !x_dot1 by auto. len.
    - apply hs_m_length; auto; lia.
    - intros k j Hk Hj. destruct k; [|lia]. rewrite hs_m_comp by (auto; lia).
      unfold hs_accel_restr. rewrite dim1, !x_dot1 by auto. unfold coord at 1. comp.
      cbn. rewrite !coord_0. unfold coord. cbn [Nat.mul Nat.add]. field.
  Qed.
End One.

Section Two.
  Variable n : nat.
  Variables x x_n a a_n : vec.
  Variable h : R.
  Hypothesis Hx : length x = (2 * n)%nat.
  Hypothesis Hxn : length x_n = (2 * n)%nat.
  Hypothesis Ha : length a = n.
  Hypothesis Han : length a_n = n.
  Ltac two k := destruct k as [|[|k]]; [| |lia].

  Lemma trapz_2 : trapz_mod_accel_restr x x_n a a_n h = trapz_m_accel_restr 2 x x_n a a_n h.
  Proof.
    apply (coord_ext 2 n).
    - rewrite (trapz_mod_accel_nf n) by auto. len.
    - apply trapz_m_length; auto; lia.
    - intros k j Hk Hj. rewrite trapz_m_comp by (auto; lia).
      rewrite (trapz_mod_accel_nf n) by auto. two k.
      + rewrite coord0_app by (auto; len). comp. cbn. rewrite !coord0, coord1 by auto. field.
      + rewrite coord1_app by len. comp. cbn. rewrite !coord1. field.
  Qed.
  Lemma hs_half_2 : hs_mod_half_x x x_n a a_n h = hs_m_half_x 2 x x_n a a_n h.
  Proof.
    apply (coord_ext 2 n).
    - rewrite (hs_mod_half_nf n) by auto. len.
    - apply hs_m_half_length; auto; lia.
    - intros k j Hk Hj. rewrite hs_m_half_comp by (auto; lia).
      rewrite (hs_mod_half_nf n) by auto. two k.
      + rewrite coord0_app by (auto; len). comp. cbn. rewrite !coord0, !coord1 by auto. field.
      + rewrite coord1_app by len. comp. cbn. rewrite !coord1. field.
  Qed.
  Lemma hs_2 a_c : length a_c = n ->
    hs_mod_accel_restr x x_n a a_n h a_c = hs_m_accel_restr 2 x x_n a a_n h a_c.
  Proof.
    intros Hac. apply (coord_ext 2 n).
    - rewrite (hs_mod_accel_nf n) by auto. len.
    - apply hs_m_length; auto; lia.
    - intros k j Hk Hj. rewrite hs_m_comp by (auto; lia).
      rewrite (hs_mod_accel_nf n) by auto. two k.
      + rewrite coord0_app by (auto; len). comp. cbn. rewrite !coord0, coord1 by auto. field.
      + rewrite coord1_app by len. comp. cbn. rewrite !coord1. field.
  Qed.
End Two.

(** ** Restrictions are "the motion arrives at x_n" (C07) *)
Section Arrive.
  Variables M n : nat.
  Hypothesis HM : (0 < M)%nat.
  Variable h : R.
  Hypothesis Hh : h <> 0.
  Variables x x_n a a_n : vec.
  Hypothesis Hx : length x = (M * n)%nat.
  Hypothesis Hxn : length x_n = (M * n)%nat.
  Hypothesis Ha : length a = n.
  Hypothesis Han : length a_n = n.

  Lemma trapz_m_arrives (c : nat -> list R) :
    (forall j, (j < n)%nat -> tz_motion M n h x a a_n j (c j)) ->
    (vzero (trapz_m_accel_restr M x x_n a a_n h) <->
     (forall j, (j < n)%nat -> passes_at M n (c j) h x_n j)).
  Proof.
    intros Hc. rewrite (vzero_coord M n) by (apply trapz_m_length; auto).
    unfold passes_at. split; intros H.
    - intros j Hj k Hk. specialize (H k j Hk Hj). rewrite (trapz_m_value M n HM h Hh x x_n a a_n Hx Hxn Ha Han (c j)) in H by auto. lra.
    - intros k j Hk Hj. rewrite (trapz_m_value M n HM h Hh x x_n a a_n Hx Hxn Ha Han (c j)) by auto. rewrite H by auto. ring.
  Qed.
  Variable a_c : vec.
  Hypothesis Hac : length a_c = n.
  Lemma hs_m_arrives (c : nat -> list R) :
    (forall j, (j < n)%nat -> hs_motion M n h x a a_c a_n j (c j)) ->
    (vzero (hs_m_accel_restr M x x_n a a_n h a_c) <->
     (forall j, (j < n)%nat -> passes_at M n (c j) h x_n j)).
  Proof.
    intros Hc. rewrite (vzero_coord M n) by (apply hs_m_length; auto).
    unfold passes_at. split; intros H.
    - intros j Hj k Hk. specialize (H k j Hk Hj). rewrite (hs_m_value M n HM h Hh x x_n a a_n Hx Hxn Ha Han a_c Hac (c j)) in H by auto. lra.
    - intros k j Hk Hj. rewrite (hs_m_value M n HM h Hh x x_n a a_n Hx Hxn Ha Han a_c Hac (c j)) by auto. rewrite H by auto. ring.
  Qed.
End Arrive.
Lemma hsj_arrives n h x x_n a a_n a_c (c : nat -> list R) : h <> 0 ->
  length x = (2 * n)%nat -> length x_n = (2 * n)%nat ->
  length a = n -> length a_n = n -> length a_c = n ->
  (forall j, (j < n)%nat -> hsj_motion n h x a a_c a_n j (c j)) ->
  (vzero (hsj_accel_restr x x_n a a_n h a_c) <->
   (forall j, (j < n)%nat -> passes_at 2 n (c j) h x_n j)).
Proof.
  intros Hh Hx Hxn Ha Han Hac Hc. rewrite (vzero_coord 2 n) by (apply hsj_length; auto).
  unfold passes_at. split; intros H.
  - intros j Hj k Hk. specialize (H k j Hk Hj). rewrite (hsj_value n h Hh x x_n Hx Hxn a a_n a_c Ha Han Hac (c j)) in H by auto. lra.
  - intros k j Hk Hj. rewrite (hsj_value n h Hh x x_n Hx Hxn a a_n a_c Ha Han Hac (c j)) by auto. rewrite H by auto. ring.
Qed.

(** A choice of motions for all coordinates. *)
Lemma choose_motions n (Q : nat -> list R -> Prop) : (forall j, exists c, Q j c) ->
  exists c : nat -> list R, forall j, (j < n)%nat -> Q j (c j).
Proof.
  intros H. induction n as [|n [c IH]].
  - exists (fun _ => []). intros; lia.
  - destruct (H n) as [d Hd]. exists (fun j => if (j =? n)%nat then d else c j).
    intros j Hj. destruct (Nat.eqb_spec j n) as [->|]; auto. apply IH. lia.
Qed.

(** ** Dynamics at collocation points *)
Section Colloc.
  Context {P : Type}.
  Variable F : vec -> vec -> P -> vec.
  Variable p : P.
  Variables M n : nat.
  Hypothesis HM : (0 < M)%nat.
  Hypothesis HF : order_form M n F p.
  Variable h : R.
  Hypothesis Hh : h <> 0.

  Lemma FL y w : length y = (M * n)%nat -> length (F y w p) = (M * n)%nat.
  Proof. apply HF. Qed.
  Lemma AL y w : length y = (M * n)%nat -> length (accel n (F y w p)) = n.
  Proof. intros H. unfold accel. rewrite skipn_length, FL by auto. nia. Qed.
  Lemma F_coord y w k j : length y = (M * n)%nat -> (S k < M)%nat -> (j < n)%nat ->
    coord n (F y w p) k j = coord n y (S k) j.
  Proof.
    intros Hy Hk Hj. destruct (HF y w Hy) as [_ E]. unfold coord.
    replace (S k * n + j)%nat with (n + (k * n + j))%nat by lia.
    rewrite <- (vnth_skipn n y), <- E, vnth_firstn.
    destruct (Nat.ltb_spec (k * n + j) ((M - 1) * n)); [reflexivity|nia].
  Qed.
  Lemma F_coord_top y w j : length y = (M * n)%nat -> (j < n)%nat ->
    coord n (F y w p) (M - 1) j = vnth (accel n (F y w p)) j.
  Proof. intros. symmetry. apply (accel_coord M n); auto. now apply FL. Qed.

  (** A motion given coordinatewise by polynomials. *)
  Lemma obeys_from (X : R -> vec) (c : nat -> list R) t y w :
    length y = (M * n)%nat ->
    (forall s, length (X s) = (M * n)%nat) ->
    (forall s k j, (k < M)%nat -> (j < n)%nat -> coord n (X s) k j = D k (c j) s) ->
    (forall j, (j < n)%nat -> passes_at M n (c j) t y j) ->
    (forall j, (j < n)%nat -> D M (c j) t = vnth (accel n (F y w p)) j) ->
    X t = y /\ obeys_at (M * n) F p X t w.
  Proof.
    intros Hy LX HX Hp Hd.
    assert (E : X t = y).
    { apply (coord_ext M n); auto. intros k j Hk Hj. rewrite HX by auto. now apply Hp. }
    split; auto. intros i Hi. destruct (index_split M n i Hi) as (k & j & Hk & Hj & ->).
    rewrite E. fold (coord n (F y w p) k j).
    apply (is_derive_ext (fun s => D k (c j) s)).
    { intros s. symmetry. now apply HX. }
    replace (coord n (F y w p) k j) with (D (S k) (c j) t); [apply D_is_derive|].
    destruct (Nat.eq_dec (S k) M) as [EM|NE].
    - rewrite EM. rewrite Hd by auto. replace k with (M - 1)%nat by lia. symmetry.
      now apply F_coord_top.
    - rewrite F_coord by (auto; lia). apply Hp; auto; lia.
  Qed.
  Lemma consistent_from (X : R -> vec) (c : nat -> list R) :
    (forall s k j, (k < M)%nat -> (j < n)%nat -> coord n (X s) k j = D k (c j) s) ->
    consistent_blocks M n X.
  Proof.
    intros HX k j t Hk Hj. rewrite HX by (auto; lia).
    apply (is_derive_ext (fun s => D k (c j) s)).
    { intros s. symmetry. apply HX; auto; lia. }
    apply D_is_derive.
  Qed.

  Variables x x_n u u_n : vec.
  Hypothesis Hx : length x = (M * n)%nat.
  Hypothesis Hxn : length x_n = (M * n)%nat.
  Local Notation xd := (F x u p).
  Local Notation xdn := (F x_n u_n p).

  Lemma trapz_m_dynamics :
    vzero (trapz_m_accel_restr M x x_n (accel n xd) (accel n xdn) h) ->
    let X := fun tau => tz_interp M 0 x x_n xd xdn tau h in
    (X 0 = x /\ obeys_at (M * n) F p X 0 u) /\
    (X h = x_n /\ obeys_at (M * n) F p X h u_n) /\
    consistent_blocks M n X.
  Proof.
    intros Hz X.
    pose proof (FL x u Hx) as L1. pose proof (FL x_n u_n Hxn) as L2.
    pose proof (AL x u Hx) as A1. pose proof (AL x_n u_n Hxn) as A2.
    destruct (choose_motions n (fun j c => tz_motion M n h x (accel n xd) (accel n xdn) j c)) as [c Hc].
    { intros j. now apply tz_motion_exists. }
    pose proof (proj1 (trapz_m_arrives M n HM h Hh x x_n _ _ Hx Hxn A1 A2 c Hc) Hz) as Hp. clear Hz. rename Hp into Hz.
    assert (HX : forall s k j, (k < M)%nat -> (j < n)%nat -> coord n (X s) k j = D k (c j) s).
    { intros s k j Hk Hj. unfold X. rewrite (tz_interp_value M n HM h Hh x x_n xd xdn Hx L1 L2 s (c j) k 0 j) by auto.
      now rewrite Nat.add_0_r. }
    assert (LX : forall s, length (X s) = (M * n)%nat) by (intros s; unfold X; apply tz_interp_length; assumption).
    split; [|split].
    - apply (obeys_from X c 0 x u Hx LX HX); intros j Hj; apply Hc; auto.
    - apply (obeys_from X c h x_n u_n Hxn LX HX); intros j Hj; [now apply Hz|]. apply Hc; auto.
    - now apply (consistent_from X c).
  Qed.

  Variable u_c : vec.
  Lemma hs_m_dynamics :
    let x_c := hs_m_half_x M x x_n (accel n xd) (accel n xdn) h in
    let xdc := F x_c u_c p in
    vzero (hs_m_accel_restr M x x_n (accel n xd) (accel n xdn) h (accel n xdc)) ->
    let X := fun tau => hs_interp M 0 x x_n xd xdn tau h xdc in
    (X 0 = x /\ obeys_at (M * n) F p X 0 u) /\
    (X (h / 2) = x_c /\ obeys_at (M * n) F p X (h / 2) u_c) /\
    (X h = x_n /\ obeys_at (M * n) F p X h u_n) /\
    consistent_blocks M n X.
  Proof.
    intros x_c xdc Hz X.
    pose proof (FL x u Hx) as L1. pose proof (FL x_n u_n Hxn) as L2.
    pose proof (AL x u Hx) as A1. pose proof (AL x_n u_n Hxn) as A2.
    assert (Lc : length x_c = (M * n)%nat) by (apply hs_m_half_length; auto).
    pose proof (FL x_c u_c Lc) as L3. pose proof (AL x_c u_c Lc) as A3.
    fold xdc in L3, A3.
    destruct (choose_motions n (fun j c => hs_motion M n h x (accel n xd) (accel n xdc) (accel n xdn) j c)) as [c Hc].
    { intros j. now apply hs_motion_exists. }
    pose proof (proj1 (hs_m_arrives M n HM h Hh x x_n _ _ Hx Hxn A1 A2 _ A3 c Hc) Hz) as Hp. clear Hz. rename Hp into Hz.
    assert (HX : forall s k j, (k < M)%nat -> (j < n)%nat -> coord n (X s) k j = D k (c j) s).
    { intros s k j Hk Hj. unfold X. rewrite (hs_interp_value M n HM h Hh x x_n xd xdn Hx L1 L2 s xdc L3 (c j) k 0 j) by auto.
      now rewrite Nat.add_0_r. }
    assert (LX : forall s, length (X s) = (M * n)%nat) by (intros s; unfold X; apply hs_interp_length; assumption).
    split; [|split; [|split]].
    - apply (obeys_from X c 0 x u Hx LX HX); intros j Hj; apply Hc; auto.
    - apply (obeys_from X c (h / 2) x_c u_c Lc LX HX); intros j Hj; [|apply Hc; auto].
      intros k Hk. unfold x_c. symmetry. apply (hs_m_half_value M n HM h Hh x x_n _ _ Hx Hxn A1 A2 (accel n xdc) A3 (c j)); auto.
      apply Hz; auto; lia.
    - apply (obeys_from X c h x_n u_n Hxn LX HX); intros j Hj; [now apply Hz|]. apply Hc; auto.
    - now apply (consistent_from X c).
  Qed.
End Colloc.

Section CollocJ.
  Context {P : Type}.
  Variable F : vec -> vec -> P -> vec.
  Variable p : P.
  Variable n : nat.
  Hypothesis HF : order_form 2 n F p.
  Variable h : R.
  Hypothesis Hh : h <> 0.
  Variables x x_n u u_n u_c : vec.
  Hypothesis Hx : length x = (2 * n)%nat.
  Hypothesis Hxn : length x_n = (2 * n)%nat.
  Local Notation xd := (F x u p).
  Local Notation xdn := (F x_n u_n p).
  Lemma hsj_dynamics :
    let x_c := hsj_half_x x x_n (accel n xd) (accel n xdn) h in
    let xdc := F x_c u_c p in
    vzero (hsj_accel_restr x x_n (accel n xd) (accel n xdn) h (accel n xdc)) ->
    let X := fun tau => hsj_interp x x_n xd xdn tau h xdc in
    (X 0 = x /\ obeys_at (2 * n) F p X 0 u) /\
    (X (2 * h / 5) = x_c /\ obeys_at (2 * n) F p X (2 * h / 5) u_c) /\
    (X h = x_n /\ obeys_at (2 * n) F p X h u_n) /\
    consistent_blocks 2 n X.
  Proof.
    intros x_c xdc Hz X.
    assert (HM : (0 < 2)%nat) by lia.
    pose proof (FL F p 2 n HF x u Hx) as L1. pose proof (FL F p 2 n HF x_n u_n Hxn) as L2.
    pose proof (AL F p 2 n HM HF x u Hx) as A1. pose proof (AL F p 2 n HM HF x_n u_n Hxn) as A2.
    assert (Lc : length x_c = (2 * n)%nat).
    { unfold x_c. rewrite (hsj_half_nf n) by auto. len. }
    pose proof (FL F p 2 n HF x_c u_c Lc) as L3. pose proof (AL F p 2 n HM HF x_c u_c Lc) as A3.
    fold xdc in L3, A3.
    destruct (choose_motions n (fun j c => hsj_motion n h x (accel n xd) (accel n xdc) (accel n xdn) j c)) as [c Hc].
    { intros j. now apply hsj_motion_exists. }
    pose proof (proj1 (hsj_arrives n h x x_n _ _ _ c Hh Hx Hxn A1 A2 A3 Hc) Hz) as Hp. clear Hz. rename Hp into Hz.
    assert (HX : forall s k j, (k < 2)%nat -> (j < n)%nat -> coord n (X s) k j = D k (c j) s).
    { intros s k j Hk Hj. unfold X. apply (hsj_interp_values n h Hh x x_n xd xdn xdc); auto. }
    assert (LX : forall s, length (X s) = (2 * n)%nat).
    { intros s. unfold X. apply (hsj_interp_lengths n h x x_n xd xdn xdc); auto. }
    split; [|split; [|split]].
    - apply (obeys_from F p 2 n HM HF X c 0 x u Hx LX HX); intros j Hj; apply Hc; auto.
    - apply (obeys_from F p 2 n HM HF X c (2 * h / 5) x_c u_c Lc LX HX); intros j Hj; [|apply Hc; auto].
      intros k Hk. unfold x_c. symmetry. apply (hsj_half_value n h Hh x x_n Hx Hxn _ _ (accel n xdc) A1 A2 A3 (c j)); auto.
    - apply (obeys_from F p 2 n HM HF X c h x_n u_n Hxn LX HX); intros j Hj; [now apply Hz|]. apply Hc; auto.
    - now apply (consistent_from 2 n HM X c).
  Qed.
End CollocJ.
