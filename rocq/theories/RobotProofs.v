(** Frames, bodies and torques of a robot. *)
From Coq Require Import String FunctionalExtensionality.
From Coquelicot Require Import Coquelicot.
From Verif Require Import Prelude PreludeFacts PwInterpModel SymModel LagrModel LagrSpec LagrFacts LagrProofs RobotModel RobotSpec.
Open Scope R_scope.
Open Scope list_scope.

(** ** Sine and cosine *)
Lemma cosf_derive j x : is_derive (cosf j) x (cosf (S j) x).
Proof.
  unfold cosf. evar_last. { auto_derive; auto. }
  rewrite S_INR. replace (x + (INR j + 1) * (PI / 2)) with (PI / 2 + (x + INR j * (PI / 2))) by field. rewrite sin_cos. ring.
Qed.
Lemma sinf_derive j x : is_derive (sinf j) x (sinf (S j) x).
Proof.
  unfold sinf. evar_last. { auto_derive; auto. }
  rewrite S_INR. replace (x + (INR j + 1) * (PI / 2)) with (PI / 2 + (x + INR j * (PI / 2))) by field. rewrite (cos_sin (x + INR j * (PI / 2))). ring.
Qed.
Lemma Cos_smooth rho e : smooth_at rho e -> smooth_at rho (Cos e).
Proof. intros H. split; auto. intros j. exists (mkposreal 1 Rlt_0_1). intros y _. apply cosf_derive. Qed.
Lemma Sin_smooth rho e : smooth_at rho e -> smooth_at rho (Sin e).
Proof. intros H. split; auto. intros j. exists (mkposreal 1 Rlt_0_1). intros y _. apply sinf_derive. Qed.
Lemma cosf_0 x : cosf 0 x = cos x. Proof. unfold cosf. cbn. f_equal. ring. Qed.
Lemma sinf_0 x : sinf 0 x = sin x. Proof. unfold sinf. cbn. f_equal. ring. Qed.
Lemma cosf_1 x : cosf 1 x = - sin x.
Proof. unfold cosf. cbn [INR]. replace (x + 1 * (PI / 2)) with (PI / 2 + x) by ring. rewrite sin_cos. ring. Qed.
Lemma sinf_1 x : sinf 1 x = cos x.
Proof. unfold sinf. cbn [INR]. replace (x + 1 * (PI / 2)) with (PI / 2 + x) by ring. now rewrite <- cos_sin. Qed.
Lemma sc x : sin x * sin x = 1 - cos x * cos x.
Proof. pose proof (sin2_cos2 x) as H. unfold Rsqr in H. lra. Qed.

(** ** Turning a frame *)
Lemma orient_z_R rho f e i j : ev rho (fr_R (orient_z f e)) i j =
  let M := ev rho (fr_R f) in let x := eval rho e in
  match j with
  | 0%nat => M i 0%nat * cos x + M i 1%nat * sin x
  | 1%nat => - M i 0%nat * sin x + M i 1%nat * cos x
  | 2%nat => M i 2%nat
  | _ => 0
  end.
Proof.
  unfold ev, orient_z, emul, Cos, Sin, Neg. cbn [fr_R esum eval]. destruct j as [|[|[|j]]]; cbn [rot_z Neg Cos Sin eval];
    unfold Neg, Cos, Sin; cbn [eval]; rewrite ?cosf_0, ?sinf_0; ring.
Qed.
Lemma orient_x_R rho f e i j : ev rho (fr_R (orient_x f e)) i j =
  let M := ev rho (fr_R f) in let x := eval rho e in
  match j with
  | 0%nat => M i 0%nat
  | 1%nat => M i 1%nat * cos x + M i 2%nat * sin x
  | 2%nat => - M i 1%nat * sin x + M i 2%nat * cos x
  | _ => 0
  end.
Proof.
  unfold ev, orient_x, emul, Cos, Sin, Neg. cbn [fr_R esum eval]. destruct j as [|[|[|j]]]; cbn [rot_x Neg Cos Sin eval];
    unfold Neg, Cos, Sin; cbn [eval]; rewrite ?cosf_0, ?sinf_0; ring.
Qed.
(** The derivative of the axes. *)
Definition dR rho (f : frame) : nat -> nat -> R := fun i j => eval rho (ddt (fr_R f i j)).
Lemma orient_z_dR rho f e i j : dR rho (orient_z f e) i j =
  let M := ev rho (fr_R f) in let D := dR rho f in let x := eval rho e in let w := eval rho (ddt e) in
  match j with
  | 0%nat => D i 0%nat * cos x + D i 1%nat * sin x + w * (- M i 0%nat * sin x + M i 1%nat * cos x)
  | 1%nat => - D i 0%nat * sin x + D i 1%nat * cos x - w * (M i 0%nat * cos x + M i 1%nat * sin x)
  | 2%nat => D i 2%nat
  | _ => 0
  end.
Proof.
  unfold dR, ev, orient_z, emul. cbn [fr_R esum eval ddt]. destruct j as [|[|[|j]]]; cbn [rot_z];
    unfold Neg, Cos, Sin; cbn [eval ddt]; rewrite ?cosf_0, ?sinf_0, ?cosf_1, ?sinf_1; ring.
Qed.
Lemma orient_x_dR rho f e i j : dR rho (orient_x f e) i j =
  let M := ev rho (fr_R f) in let D := dR rho f in let x := eval rho e in let w := eval rho (ddt e) in
  match j with
  | 0%nat => D i 0%nat
  | 1%nat => D i 1%nat * cos x + D i 2%nat * sin x + w * (- M i 1%nat * sin x + M i 2%nat * cos x)
  | 2%nat => - D i 1%nat * sin x + D i 2%nat * cos x - w * (M i 1%nat * cos x + M i 2%nat * sin x)
  | _ => 0
  end.
Proof.
  unfold dR, ev, orient_x, emul. cbn [fr_R esum eval ddt]. destruct j as [|[|[|j]]]; cbn [rot_x];
    unfold Neg, Cos, Sin; cbn [eval ddt]; rewrite ?cosf_0, ?sinf_0, ?cosf_1, ?sinf_1; ring.
Qed.
(** Rotations of the axes. *)
Lemma rotation_ext M M' : (forall i j, (i < 3)%nat -> (j < 3)%nat -> M i j = M' i j) -> rotation M -> rotation M'.
Proof.
  intros E [H1 H2]. split.
  - intros j k Hj Hk. rewrite <- (H1 j k Hj Hk). unfold dot3, col. apply rsum_ext. intros i Hi. now rewrite !E.
  - intros i Hi. specialize (H2 i Hi). unfold col, cross in *. rewrite <- !(E i) by (auto; lia).
    rewrite <- !(E 0%nat) by lia. rewrite <- !(E 1%nat) by lia. rewrite <- !(E 2%nat) by lia. exact H2.
Qed.
Section Turn.
Variables (M : nat -> nat -> R) (c s : R).
Hypothesis HM : rotation M.
Hypothesis cs : s * s = 1 - c * c.
Definition turn_z (i j : nat) : R :=
  match j with 0%nat => M i 0%nat * c + M i 1%nat * s | 1%nat => - M i 0%nat * s + M i 1%nat * c | 2%nat => M i 2%nat | _ => 0 end.
Definition turn_x (i j : nat) : R :=
  match j with 0%nat => M i 0%nat | 1%nat => M i 1%nat * c + M i 2%nat * s | 2%nat => - M i 1%nat * s + M i 2%nat * c | _ => 0 end.
Lemma dot3_comm v w : dot3 v w = dot3 w v.
Proof. unfold dot3. apply rsum_ext. intros. ring. Qed.
Lemma dot3_lin v w x a b : dot3 (fun i => v i * a + w i * b) x = a * dot3 v x + b * dot3 w x.
Proof. unfold dot3. cbn [rsum]. ring. Qed.
Lemma dot3_lin' v w x a b : dot3 (fun i => - v i * a + w i * b) x = - a * dot3 v x + b * dot3 w x.
Proof. unfold dot3. cbn [rsum]. ring. Qed.
Lemma dot3_z0 x : dot3 (col turn_z 0) x = c * dot3 (col M 0) x + s * dot3 (col M 1) x. Proof. unfold dot3, col. cbn [rsum turn_z]. ring. Qed.
Lemma dot3_z1 x : dot3 (col turn_z 1) x = - s * dot3 (col M 0) x + c * dot3 (col M 1) x. Proof. unfold dot3, col. cbn [rsum turn_z]. ring. Qed.
Lemma dot3_z2 x : dot3 (col turn_z 2) x = dot3 (col M 2) x. Proof. reflexivity. Qed.
Lemma dot3_x0 x : dot3 (col turn_x 0) x = dot3 (col M 0) x. Proof. reflexivity. Qed.
Lemma dot3_x1 x : dot3 (col turn_x 1) x = c * dot3 (col M 1) x + s * dot3 (col M 2) x. Proof. unfold dot3, col. cbn [rsum turn_x]. ring. Qed.
Lemma dot3_x2 x : dot3 (col turn_x 2) x = - s * dot3 (col M 1) x + c * dot3 (col M 2) x. Proof. unfold dot3, col. cbn [rsum turn_x]. ring. Qed.
Lemma rot_dots j k : (j < 3)%nat -> (k < 3)%nat -> dot3 (col M j) (col M k) = delta j k.
Proof. apply HM. Qed.
Ltac crossed A := transitivity ((c * c + s * s) * A); [cbn; ring|].
Lemma turn_z_rotation : rotation turn_z.
Proof.
  assert (cs' : c * c + s * s = 1) by (rewrite cs; ring). split.
  - intros j k Hj Hk. destruct j as [|[|[|j]]]; [| | |exfalso; lia];
    rewrite ?dot3_z0, ?dot3_z1, ?dot3_z2, ?(dot3_comm (col M 0) (col turn_z k)), ?(dot3_comm (col M 1) (col turn_z k)), ?(dot3_comm (col M 2) (col turn_z k));
    (destruct k as [|[|[|k]]]; [| | |exfalso; lia]); rewrite ?dot3_z0, ?dot3_z1, ?dot3_z2, ?(dot3_z2 (col M 0)), ?(dot3_z2 (col M 1)), ?(dot3_z2 (col M 2)), !rot_dots by lia; unfold delta; cbn [Nat.eqb]; ring [cs].
  - destruct HM as [_ H2]. intros i Hi. specialize (H2 i Hi). destruct H2 as (A & B & C). repeat apply conj.
    + rewrite <- A at 1.
      transitivity ((c * c + s * s) * cross (col M 0) (col M 1) i); [|rewrite cs'; rewrite A; apply Rmult_1_l].
      destruct i as [|[|[|i]]]; [| | |exfalso; lia]; unfold cross, col; cbn [turn_z]; ring.
    + transitivity (c * cross (col M 1) (col M 2) i + s * cross (col M 2) (col M 0) i); [|rewrite B, C; cbn [turn_z]; ring].
      destruct i as [|[|[|i]]]; [| | |exfalso; lia]; unfold cross, col; cbn [turn_z]; ring.
    + transitivity (- s * cross (col M 1) (col M 2) i + c * cross (col M 2) (col M 0) i); [|rewrite B, C; cbn [turn_z]; ring].
      destruct i as [|[|[|i]]]; [| | |exfalso; lia]; unfold cross, col; cbn [turn_z]; ring.
Qed.
Lemma turn_x_rotation : rotation turn_x.
Proof.
  assert (cs' : c * c + s * s = 1) by (rewrite cs; ring). split.
  - intros j k Hj Hk. destruct j as [|[|[|j]]]; [| | |exfalso; lia];
    rewrite ?dot3_x0, ?dot3_x1, ?dot3_x2, ?(dot3_comm (col M 0) (col turn_x k)), ?(dot3_comm (col M 1) (col turn_x k)), ?(dot3_comm (col M 2) (col turn_x k));
    (destruct k as [|[|[|k]]]; [| | |exfalso; lia]); rewrite ?dot3_x0, ?dot3_x1, ?dot3_x2, ?(dot3_x0 (col M 0)), ?(dot3_x0 (col M 1)), ?(dot3_x0 (col M 2)), !rot_dots by lia; unfold delta; cbn [Nat.eqb]; ring [cs].
  - destruct HM as [_ H2]. intros i Hi. specialize (H2 i Hi). destruct H2 as (A & B & C). repeat apply conj.
    + transitivity (c * cross (col M 0) (col M 1) i - s * cross (col M 2) (col M 0) i); [|rewrite A, C; cbn [turn_x]; ring].
      destruct i as [|[|[|i]]]; [| | |exfalso; lia]; unfold cross, col; cbn [turn_x]; ring.
    + transitivity ((c * c + s * s) * cross (col M 1) (col M 2) i); [|rewrite cs'; rewrite B; apply Rmult_1_l].
      destruct i as [|[|[|i]]]; [| | |exfalso; lia]; unfold cross, col; cbn [turn_x]; ring.
    + transitivity (s * cross (col M 0) (col M 1) i + c * cross (col M 2) (col M 0) i); [|rewrite A, C; cbn [turn_x]; ring].
      destruct i as [|[|[|i]]]; [| | |exfalso; lia]; unfold cross, col; cbn [turn_x]; ring.
Qed.
End Turn.

(** ** Angular velocity *)
Definition spins (rho : env) (f : frame) : Prop :=
  rotation (ev rho (fr_R f)) /\
  forall i j, (i < 3)%nat -> (j < 3)%nat -> dR rho f i j = cross (evv rho (fr_w f)) (col (ev rho (fr_R f)) j) i.
Lemma inertial_spins rho : spins rho inertial.
Proof.
  split; [split|].
  - intros j k Hj Hk. destruct j as [|[|[|j]]]; [| | |lia]; (destruct k as [|[|[|k]]]; [| | |lia]); cbn; unfold ev; cbn; unfold delta; cbn; ring.
  - intros i Hi. destruct i as [|[|[|i]]]; [| | |lia]; cbn; unfold ev, col; cbn; repeat apply conj; ring.
  - intros i j Hi Hj. destruct i as [|[|[|i]]]; [| | |lia]; (destruct j as [|[|[|j]]]; [| | |lia]); unfold dR, cross, evv, col, ev; cbn; ring.
Qed.
Lemma cross_lin a b v w x i : cross (fun k => a * v k + b * w k) x i = a * cross v x i + b * cross w x i.
Proof. unfold cross. destruct i as [|[|i]]; ring. Qed.
Lemma orient_z_spins rho f e : spins rho f -> spins rho (orient_z f e).
Proof.
  intros [Hr Hs]. split.
  - apply (rotation_ext (turn_z (ev rho (fr_R f)) (cos (eval rho e)) (sin (eval rho e)))).
    + intros i j Hi Hj. rewrite orient_z_R. destruct j as [|[|[|j]]]; reflexivity.
    + apply turn_z_rotation; auto using sc.
  - intros i j Hi Hj. rewrite orient_z_dR. cbv zeta.
    pose proof (Hs i 0%nat Hi ltac:(lia)) as S0. pose proof (Hs i 1%nat Hi ltac:(lia)) as S1. pose proof (Hs i 2%nat Hi ltac:(lia)) as S2.
    destruct Hr as [_ HC]. destruct (HC i Hi) as (A & B & C).
    set (M := ev rho (fr_R f)) in *. set (w := eval rho (ddt e)). set (W := evv rho (fr_w f)) in *. set (x := eval rho e).
    assert (EW : evv rho (fr_w (orient_z f e)) = fun k => W k + w * M k 2%nat) by reflexivity. rewrite EW.
    assert (EC : forall k, col (ev rho (fr_R (orient_z f e))) j k =
      match j with 0%nat => M k 0%nat * cos x + M k 1%nat * sin x | 1%nat => - M k 0%nat * sin x + M k 1%nat * cos x | 2%nat => M k 2%nat | _ => 0 end).
    { intros k. unfold col. rewrite orient_z_R. destruct j as [|[|[|j]]]; reflexivity. }
    destruct j as [|[|[|j]]]; [| | |lia].
    + rewrite S0, S1. rewrite <- B, <- C.
      destruct i as [|[|[|i]]]; [| | |lia]; unfold cross; rewrite !EC; unfold cross, col; ring.
    + rewrite S0, S1. rewrite <- B, <- C.
      destruct i as [|[|[|i]]]; [| | |lia]; unfold cross; rewrite !EC; unfold cross, col; ring.
    + rewrite S2. destruct i as [|[|[|i]]]; [| | |lia]; unfold cross; rewrite !EC; unfold cross, col; ring.
Qed.
Lemma orient_x_spins rho f e : spins rho f -> spins rho (orient_x f e).
Proof.
  intros [Hr Hs]. split.
  - apply (rotation_ext (turn_x (ev rho (fr_R f)) (cos (eval rho e)) (sin (eval rho e)))).
    + intros i j Hi Hj. rewrite orient_x_R. destruct j as [|[|[|j]]]; reflexivity.
    + apply turn_x_rotation; auto using sc.
  - intros i j Hi Hj. rewrite orient_x_dR. cbv zeta.
    pose proof (Hs i 0%nat Hi ltac:(lia)) as S0. pose proof (Hs i 1%nat Hi ltac:(lia)) as S1. pose proof (Hs i 2%nat Hi ltac:(lia)) as S2.
    destruct Hr as [_ HC]. destruct (HC i Hi) as (A & B & C).
    set (M := ev rho (fr_R f)) in *. set (w := eval rho (ddt e)). set (W := evv rho (fr_w f)) in *. set (x := eval rho e).
    assert (EW : evv rho (fr_w (orient_x f e)) = fun k => W k + w * M k 0%nat) by reflexivity. rewrite EW.
    assert (EC : forall k, col (ev rho (fr_R (orient_x f e))) j k =
      match j with 0%nat => M k 0%nat | 1%nat => M k 1%nat * cos x + M k 2%nat * sin x | 2%nat => - M k 1%nat * sin x + M k 2%nat * cos x | _ => 0 end).
    { intros k. unfold col. rewrite orient_x_R. destruct j as [|[|[|j]]]; reflexivity. }
    destruct j as [|[|[|j]]]; [| | |lia].
    + rewrite S0. destruct i as [|[|[|i]]]; [| | |lia]; unfold cross; rewrite !EC; unfold cross, col; ring.
    + rewrite S1, S2. rewrite <- A, <- C.
      destruct i as [|[|[|i]]]; [| | |lia]; unfold cross; rewrite !EC; unfold cross, col; ring.
    + rewrite S1, S2. rewrite <- A, <- C.
      destruct i as [|[|[|i]]]; [| | |lia]; unfold cross; rewrite !EC; unfold cross, col; ring.
Qed.

(** ** The bodies *)
Definition turned (f : frame) (lk : link) (rp : replacedict) (q : expr) : frame :=
  orient_z (orient_z (orient_x f (p_alpha lk rp)) (p_theta lk rp)) q.
Definition moved (f : frame) (p : evec) (lk : link) (rp : replacedict) : evec := fun i =>
  Plus (p i) (Plus (Times (p_d lk rp) (fr_R (orient_z (orient_x f (p_alpha lk rp)) (p_theta lk rp)) i 2%nat)) (Times (p_a lk rp) (fr_R f i 0%nat))).
(** The frames and points of links ii, ii + 1, ... *)
Fixpoint frame_at (ii : nat) (links : list link) (reps : list replacedict) (f : frame) (k : nat) : frame :=
  match k, links, reps with
  | S k', lk :: links', rp :: reps' => frame_at (S ii) links' reps' (turned f lk rp (joint ii rp)) k'
  | _, _, _ => f
  end.
Fixpoint point_at (ii : nat) (links : list link) (reps : list replacedict) (f : frame) (p : evec) (k : nat) : evec :=
  match k, links, reps with
  | S k', lk :: links', rp :: reps' => point_at (S ii) links' reps' (turned f lk rp (joint ii rp)) (moved f p lk rp) k'
  | _, _, _ => p
  end.
Definition inertia_of (M : emat) : nat -> nat -> R := fun a b =>
  if ((a <? 3) && (b <? 3))%nat%bool then eval (fun _ => 0) (M (Nat.min a b) (Nat.max a b)) else 0.
Definition body_of (f : frame) (p : evec) (lk : link) (rp : replacedict) : body :=
  let cm := fun i => Plus (p i) (arr_to_vect (p_r lk rp) f i) in
  {| bo_frame := f; bo_cm := cm; bo_m := p_m lk rp; bo_I := inertia_of (p_I lk rp);
     bo_V := Times (Times (p_m lk rp) (Num (98 / 10))) (cm 2%nat) |}.
Lemma to_float_ok e x : to_float e = Ok x -> atoms e = [] /\ x = eval (fun _ => 0) e.
Proof. unfold to_float. destruct (atoms e); intros E; inversion E; auto. Qed.
Lemma matrix_ok M v : matrix_to_6_vect M = Ok v -> upper M /\
  v = map (fun ij => eval (fun _ => 0) (M (fst ij) (snd ij))) [(0, 0); (1, 1); (2, 2); (0, 1); (1, 2); (0, 2)]%nat.
Proof.
  unfold matrix_to_6_vect.
  destruct (to_float (M 0 0)%nat) eqn:E0; [cbn [rbind]|discriminate]. destruct (to_float (M 1 1)%nat) eqn:E1; [cbn [rbind]|discriminate].
  destruct (to_float (M 2 2)%nat) eqn:E2; [cbn [rbind]|discriminate]. destruct (to_float (M 0 1)%nat) eqn:E3; [cbn [rbind]|discriminate].
  destruct (to_float (M 1 2)%nat) eqn:E4; [cbn [rbind]|discriminate]. destruct (to_float (M 0 2)%nat) eqn:E5; [cbn [rbind]|discriminate].
  intros E. inversion E; subst.
  apply to_float_ok in E0, E1, E2, E3, E4, E5. destruct E0, E1, E2, E3, E4, E5. subst. split; [|reflexivity].
  intros i j Hij Hj. destruct i as [|[|[|i]]]; (destruct j as [|[|[|j]]]); try lia; assumption.
Qed.
Lemma matrix_ok' M : upper M -> matrix_to_6_vect M = Ok (map (fun ij => eval (fun _ => 0) (M (fst ij) (snd ij))) [(0, 0); (1, 1); (2, 2); (0, 1); (1, 2); (0, 2)]%nat).
Proof. intros H. unfold matrix_to_6_vect, to_float. rewrite !H by lia. reflexivity. Qed.
Lemma symbody_ok lk rp f p q r : dhlink_rot_mod_to_symbody lk rp f p q = Ok r ->
  upper (p_I lk rp) /\ r = (body_of (turned f lk rp q) (moved f p lk rp) lk rp, turned f lk rp q, moved f p lk rp).
Proof.
  unfold dhlink_rot_mod_to_symbody. change (search (rp_I rp) (lk_I lk)) with (p_I lk rp).
  destruct (matrix_to_6_vect (p_I lk rp)) as [v|] eqn:E; [cbn [rbind]|discriminate]. apply matrix_ok in E. destruct E as [U ->].
  intros E. inversion E; subst; clear E. split; auto.
  unfold body_of. cbn [map nth fst snd].
  assert (EI : inertia (eval (fun _ => 0) (p_I lk rp 0%nat 0%nat)) (eval (fun _ => 0) (p_I lk rp 1%nat 1%nat)) (eval (fun _ => 0) (p_I lk rp 2%nat 2%nat))
     (eval (fun _ => 0) (p_I lk rp 0%nat 1%nat)) (eval (fun _ => 0) (p_I lk rp 1%nat 2%nat)) (eval (fun _ => 0) (p_I lk rp 0%nat 2%nat)) = inertia_of (p_I lk rp)).
  { extensionality i. extensionality j. unfold inertia, inertia_of. destruct i as [|[|[|i]]]; (destruct j as [|[|[|j]]]); reflexivity. }
  rewrite EI. reflexivity.
Qed.
Lemma built links : forall reps ii f p bs, bodies_from ii links reps f p = Ok bs ->
  length bs = length links /\ (length links <= length reps)%nat /\
  forall k, (k < length links)%nat ->
    let lk := nth k links no_link in let rp := nth k reps no_replace in
    let F := frame_at ii links reps f in let P := point_at ii links reps f p in
    lk_mdh lk = true /\ lk_isrevolute lk = true /\ upper (p_I lk rp) /\
    F (S k) = turned (F k) lk rp (joint (ii + k) rp) /\
    P (S k) = moved (F k) (P k) lk rp /\
    nth_body bs k = body_of (F (S k)) (P (S k)) lk rp.
Proof.
  induction links as [|lk links IH]; intros reps ii f p bs E.
  - inversion E. cbn [length]. repeat apply conj; auto; try lia. 
  - destruct reps as [|rp reps]; [discriminate|]. cbn [bodies_from] in E.
    destruct (lk_mdh lk) eqn:E1; [cbn [negb] in E|discriminate]. destruct (lk_isrevolute lk) eqn:E2; [cbn [negb] in E|discriminate].
    change (search (rp_q rp) (Var (Dyn (q_name ii) 0))) with (joint ii rp) in E.
    destruct (dhlink_rot_mod_to_symbody lk rp f p (joint ii rp)) as [[[b f1] p1]|] eqn:E3; [cbn [rbind] in E|discriminate].
    apply symbody_ok in E3. destruct E3 as [U E3]. inversion E3; subst; clear E3.
    destruct (bodies_from (S ii) links reps (turned f lk rp (joint ii rp)) (moved f p lk rp)) as [bs'|] eqn:E4; [cbn [rbind] in E|discriminate].
    inversion E; subst; clear E. destruct (IH _ _ _ _ _ E4) as (L & L' & H). cbn [length]. repeat apply conj; try lia.
    intros [|k] Hk.
    + cbn zeta. cbn [nth frame_at point_at]. rewrite Nat.add_0_r.
      assert (Z : forall ii links reps f, frame_at ii links reps f 0 = f) by (intros ? [|] [|] ?; reflexivity).
      assert (Z' : forall ii links reps f p, point_at ii links reps f p 0 = p) by (intros ? [|] [|] ? ?; reflexivity).
      rewrite Z, Z'. repeat apply conj; auto.
    + cbn zeta. cbn [nth frame_at point_at]. specialize (H k ltac:(lia)). cbn zeta in H.
      replace (ii + S k)%nat with (S ii + k)%nat by lia. exact H.
Qed.

(** ** Which robots are accepted *)
Lemma matrix_recovers M v : matrix_to_6_vect M = Ok v ->
  (forall i j, (i < 3)%nat -> (j < 3)%nat -> inertia (nth 0 v 0) (nth 1 v 0) (nth 2 v 0) (nth 3 v 0) (nth 4 v 0) (nth 5 v 0) i j = eval (fun _ => 0) (M i j)) <->
  symmetric3 (ev (fun _ => 0) M).
Proof.
  intros E. apply matrix_ok in E. destruct E as [_ ->]. cbn [map nth fst snd]. unfold symmetric3, ev. split.
  - intros H i j Hi Hj. rewrite <- (H i j Hi Hj), <- (H j i Hj Hi). destruct i as [|[|[|i]]]; (destruct j as [|[|[|j]]]); try lia; reflexivity.
  - intros H i j Hi Hj. destruct i as [|[|[|i]]]; (destruct j as [|[|[|j]]]); try lia; cbn [inertia]; auto; apply H; lia.
Qed.
Lemma matrix_accepted M : (exists v, matrix_to_6_vect M = Ok v) <-> upper M.
Proof. split; [intros [v E]; apply matrix_ok in E; apply E | intros U; eexists; now apply matrix_ok']. Qed.
Lemma matrix_refused M : ~ upper M -> matrix_to_6_vect M = Err TypeError.
Proof.
  intros H. destruct (matrix_to_6_vect M) as [v|e] eqn:E; [exfalso; apply H; apply matrix_ok in E; apply E|].
  unfold matrix_to_6_vect, to_float in E. 
  repeat match type of E with context [match atoms ?x with _ => _ end] => destruct (atoms x); cbn [rbind] in E end; congruence.
Qed.
Lemma bodies_accepted links : forall reps ii f p,
  (forall k, (k < length links)%nat -> translatable links reps k) -> exists bs, bodies_from ii links reps f p = Ok bs.
Proof.
  induction links as [|lk links IH]; intros reps ii f p H; [eexists; reflexivity|].
  destruct (H 0%nat ltac:(cbn [length]; lia)) as (L & M1 & M2 & U). destruct reps as [|rp reps]; [cbn in L; lia|].
  cbn [bodies_from]. cbn [nth] in M1, M2. rewrite M1, M2. cbn [negb].
  change (upper (p_I lk rp)) in U. unfold dhlink_rot_mod_to_symbody. change (search (rp_I rp) (lk_I lk)) with (p_I lk rp). rewrite (matrix_ok' _ U). cbn [rbind].
  edestruct (IH reps) as [bs E]; [|rewrite E; eexists; reflexivity].
  intros k Hk. destruct (H (S k) ltac:(cbn [length]; lia)) as (L' & A & B & C). cbn [length] in L'. repeat apply conj; auto. lia.
Qed.
Lemma robot_accepted links reps : (exists s, robot_to_sympy links reps false = Ok s) <-> (forall k, (k < length links)%nat -> translatable links reps k).
Proof.
  unfold robot_to_sympy. split.
  - intros [s E]. destruct (bodies_from 0 links reps inertial (fun _ => Num 0)) as [bs|] eqn:EB; [|discriminate].
    destruct (built _ _ _ _ _ _ EB) as (_ & L & H). intros k Hk. destruct (H k Hk) as (A & B & C & _). repeat apply conj; auto. lia.
  - intros H. destruct (bodies_accepted links reps 0 inertial (fun _ => Num 0) H) as [bs E]. rewrite E. eexists. reflexivity.
Qed.
(** The first link that cannot be translated decides the exception. *)
Lemma bodies_refused links : forall reps ii f p k, (k < length links)%nat ->
  (forall j, (j < k)%nat -> translatable links reps j) -> ~ translatable links reps k ->
  bodies_from ii links reps f p =
    Err (if (length reps <=? k)%nat then IndexError
         else if (lk_mdh (nth k links no_link) && lk_isrevolute (nth k links no_link))%bool then TypeError else NotImplementedError).
Proof.
  induction links as [|lk links IH]; intros reps ii f p k Hk Hb Hn; [cbn in Hk; lia|].
  destruct reps as [|rp reps]; [reflexivity|]. cbn [bodies_from].
  destruct k as [|k].
  - cbn [length Nat.leb nth]. unfold translatable in Hn. cbn [length nth] in Hn.
    destruct (lk_mdh lk); [|reflexivity]. destruct (lk_isrevolute lk); [|reflexivity]. cbn [negb andb].
    unfold dhlink_rot_mod_to_symbody. change (search (rp_I rp) (lk_I lk)) with (p_I lk rp).
    rewrite matrix_refused; [reflexivity|]. intros U. apply Hn. repeat apply conj; auto. lia.
  - destruct (Hb 0%nat ltac:(lia)) as (L & M1 & M2 & U). cbn [nth] in M1, M2. rewrite M1, M2. cbn [negb].
    change (upper (p_I lk rp)) in U. unfold dhlink_rot_mod_to_symbody. change (search (rp_I rp) (lk_I lk)) with (p_I lk rp). rewrite (matrix_ok' _ U). cbn [rbind].
    rewrite (IH reps _ _ _ k).
    + cbn [length Nat.leb nth rbind]. reflexivity.
    + cbn [length] in Hk. lia.
    + intros j Hj. destruct (Hb (S j) ltac:(lia)) as (L' & A & B & C). cbn [length] in L'. repeat apply conj; auto. lia.
    + intros (L' & A & B & C). apply Hn. repeat apply conj; auto. cbn [length]. lia.
Qed.
Lemma robot_refused links reps k : (k < length links)%nat ->
  (forall j, (j < k)%nat -> translatable links reps j) -> ~ translatable links reps k ->
  robot_to_sympy links reps false =
    Err (if (length reps <=? k)%nat then IndexError
         else if (lk_mdh (nth k links no_link) && lk_isrevolute (nth k links no_link))%bool then TypeError else NotImplementedError).
Proof. intros. unfold robot_to_sympy. now rewrite (bodies_refused links reps 0 inertial (fun _ => Num 0) k). Qed.
