(** Two robots: a spatial arm of three links whose last joint angle is q_0 - q_2,
    and a single link turning about the vertical axis. *)
From Coq Require Import String FunctionalExtensionality.
From Coquelicot Require Import Coquelicot.
From Verif Require Import Prelude PreludeFacts PwInterpModel SymModel LagrModel LagrSpec LagrFacts LagrProofs LagrMotionProofs RobotModel RobotSpec RobotProofs RobotChainProofs RobotEnergyProofs RobotMotionProofs.
Import ListNotations.
Open Scope R_scope.
Open Scope list_scope.

Definition diag3 (a b c : R) : emat := fun i j =>
  match i, j with 0%nat, 0%nat => Num a | 1%nat, 1%nat => Num b | 2%nat, 2%nat => Num c | _, _ => Num 0 end.
Definition arm_link (alpha a d : R) (m : string) : link :=
  {| lk_mdh := true; lk_isrevolute := true; lk_theta := Num 0; lk_alpha := Num alpha; lk_d := Num d; lk_a := Num a; lk_m := Var (Static m);
     lk_r := fun i => match i with 0%nat => Num (/ 2) | 1%nat => Var (Static "r"%string) | _ => Num 1 end; lk_I := diag3 1 2 3 |}.
Definition arm : list link := [arm_link 0 0 1 "m0"%string; arm_link (PI / 2) 2 0 "m1"%string; arm_link (- PI / 2) 1 1 "m2"%string].
Definition arm_reps : list replacedict :=
  [no_replace; no_replace;
   {| rp_theta := None; rp_alpha := None; rp_d := None; rp_a := Some (Var (Static "a"%string)); rp_m := None; rp_r := None; rp_I := None;
      rp_q := Some (Minus (Var (Dyn "q_0"%string 0)) (Var (Dyn "q_2"%string 0))) |}].
Lemma arm_sound : sound arm arm_reps.
Proof.
  assert (N : forall x, steady (Num x)) by (intros x; split; [intros a []|intros; exact I]).
  assert (V : forall s, steady (Var (Static s))) by (intros s; split; [intros a [<-|[]]; eexists; reflexivity|intros; exact I]).
  intros i Hi. cbn [arm length] in Hi.
  assert (R3 : forall k (f : nat -> expr), (f = fun i => match i with 0%nat => Num (/ 2) | 1%nat => Var (Static "r"%string) | _ => Num 1 end) -> (k < 3)%nat -> steady (f k)).
  { intros k f -> Hk. destruct k as [|[|k]]; auto. }
  destruct i as [|[|[|i]]]; [| | |lia]; (refine (conj _ (conj _ (conj _ (conj _ (conj _ (conj _ (conj _ _))))))); cbn [nth arm arm_reps]; try (match goal with |- steady _ => first [apply N | apply V] end)).
  - intros k Hk. now apply R3.
  - intros a [<-|[]]. right. exists "q_0"%string. split; [now left | reflexivity].
  - intros; exact I.
  - intros k Hk. now apply R3.
  - intros a [<-|[]]. right. exists "q_1"%string. split; [right; now left | reflexivity].
  - intros; exact I.
  - intros k Hk. now apply R3.
  - cbn [joint rp_q]. intros a Ha. cbn [Minus Neg atoms In app] in Ha. destruct Ha as [<-|[<-|[]]]; right; [exists "q_0"%string | exists "q_2"%string]; (split; [|reflexivity]); cbn; tauto.
  - intros rho. cbn. tauto.
Qed.
Lemma arm_translatable k : (k < length arm)%nat -> translatable arm arm_reps k.
Proof.
  intros Hk. cbn [arm length] in Hk. destruct k as [|[|[|k]]]; [| | |lia]; (repeat apply conj; [cbn; lia | reflexivity | reflexivity |]);
  intros i j Hij Hj; (destruct i as [|[|[|i]]]; (destruct j as [|[|[|j]]]; try lia; reflexivity)).
Qed.
Lemma arm_ok : exists s, robot_to_sympy arm arm_reps false = Ok s.
Proof. apply robot_accepted. apply arm_translatable. Qed.

(** ** One link, pushed by a constant torque u *)
Definition rod : list link :=
  [{| lk_mdh := true; lk_isrevolute := true; lk_theta := Num 0; lk_alpha := Num 0; lk_d := Num 0; lk_a := Num 0; lk_m := Num 2;
      lk_r := fun i => match i with 0%nat => Num 1 | _ => Num 0 end; lk_I := diag3 1 1 4 |}].
Definition rod_reps : list replacedict := [no_replace].
(** I_zz + m r^2 = 6 *)
Definition spin (t : R) : env := fun a =>
  match a with
  | Dyn _ 0 => t ^ 2 / 2
  | Dyn _ 1 => t
  | Dyn _ 2 => 1
  | Dyn _ _ => 0
  | Static _ => 6
  end.
Lemma spin_motion : motion spin.
Proof.
  split; [|reflexivity]. intros nm k t. cbn [spin]. destruct k as [|[|[|k]]].
  - evar_last; [auto_derive; auto|]. simpl. field.
  - evar_last; [auto_derive; auto|]. reflexivity.
  - apply @is_derive_const.
  - apply @is_derive_const.
Qed.
Lemma rod_sound : sound rod rod_reps.
Proof.
  assert (N : forall x, steady (Num x)) by (intros x; split; [intros a []|intros; exact I]).
  intros i Hi. cbn [rod length] in Hi. destruct i as [|i]; [|lia]. refine (conj _ (conj _ (conj _ (conj _ (conj _ (conj _ (conj _ _))))))); cbn [nth rod rod_reps]; try (match goal with |- steady _ => apply N end).
  - intros k Hk. destruct k; apply N.
  - intros a [<-|[]]. right. exists "q_0"%string. split; [now left | reflexivity].
  - intros; exact I.
Qed.
Lemma rod_translatable k : (k < length rod)%nat -> translatable rod rod_reps k.
Proof.
  intros Hk. cbn [rod length] in Hk. destruct k as [|k]; [|lia]. repeat apply conj; [cbn; lia | reflexivity | reflexivity |].
  intros i j Hij Hj; (destruct i as [|[|[|i]]]; (destruct j as [|[|[|j]]]; try lia; reflexivity)).
Qed.
Lemma rod_bodies : exists bs, bodies_from 0 rod rod_reps inertial (fun _ => Num 0) = Ok bs.
Proof. apply bodies_accepted. apply rod_translatable. Qed.
Section Rod.
Variable b : body.
Hypothesis B : bodies_from 0 rod rod_reps inertial (fun _ => Num 0) = Ok [b].
Definition q0 : atom := Dyn "q_0"%string 0.
Lemma rod_body : b = body_of (frame_at 0 rod rod_reps inertial 1) (point_at 0 rod rod_reps inertial (fun _ => Num 0) 1) (nth 0 rod no_link) (nth 0 rod_reps no_replace).
Proof. exact (body_k rod rod_reps [b] B 0%nat ltac:(cbn; lia)). Qed.
Lemma rod_R rho i j : (i < 3)%nat -> (j < 3)%nat -> eval rho (fr_R (frame_at 0 rod rod_reps inertial 1) i j) =
     match i, j with 2%nat, 2%nat => 1 | 0%nat, 0%nat => cos (rho q0) | 1%nat, 1%nat => cos (rho q0)
       | 0%nat, 1%nat => - sin (rho q0) | 1%nat, 0%nat => sin (rho q0) | _, _ => 0 end.
Proof.
  intros Hi Hj. change (eval rho (fr_R (frame_at 0 rod rod_reps inertial 1) i j)) with (ev rho (fr_R (frame_at 0 rod rod_reps inertial 1)) i j).
  cbn [frame_at rod rod_reps]. rewrite turned_R. cbn. rewrite sin_0, cos_0. unfold ev. cbn. rewrite !Rplus_0_l. unfold q0.
  destruct i as [|[|[|i]]]; [| | |lia]; (destruct j as [|[|[|j]]]; [| | |lia]); cbn; ring.
Qed.
Definition rod_cm (i : nat) : expr := match i with 0%nat => Cos (Var q0) | 1%nat => Sin (Var q0) | _ => Num 0 end.
Lemma rod_cm_value rho i : (i < 3)%nat -> eval rho (bo_cm b i) = eval rho (rod_cm i).
Proof.
  intros Hi. change (evv rho (bo_cm (nth_body [b] 0)) i = eval rho (rod_cm i)).
  rewrite (centre_p rod rod_reps [b] B rho 0%nat i) by (cbn; lia). unfold centre, pose. cbn [chain rsum].
  unfold mm4, joint_T, at_link. cbn [rsum rod rod_reps nth p_alpha p_a p_theta p_d p_r no_replace rp_alpha rp_a rp_theta rp_d rp_r rp_q joint lk_alpha lk_a lk_theta lk_d lk_r eval].
  change (Dyn ("q_" ++ str_nat 0)%string 0) with q0. rewrite !Rplus_0_l.
  destruct i as [|[|[|i]]]; [| | |lia]; unfold rod_cm, Cos, Sin, delta; cbn [eval craig Nat.eqb]; rewrite ?sin_0, ?cos_0, ?cosf_0, ?sinf_0; ring.
Qed.
Lemma all_open : line_open (fun _ => True). Proof. intros rho d _. exists (mkposreal 1 Rlt_0_1). auto. Qed.
Lemma rod_cm_diff rho x i : (i < 3)%nat -> eval rho (diff x (bo_cm b i)) = eval rho (diff x (rod_cm i)).
Proof.
  intros Hi. apply (diff_value (fun _ => True)); auto using all_open.
  - apply (fine_cm rod rod_reps [b] B rod_sound 0%nat i). cbn; lia.
  - destruct i as [|[|i]]; [apply Cos_smooth | apply Sin_smooth|]; exact I.
  - intros r _. now apply rod_cm_value.
Qed.
Lemma rod_mass rho : eval rho (mass rod rod_reps [b] 0%nat 0%nat) = 6.
Proof.
  unfold mass. rewrite eval_esum. cbn [rod length rsum]. cbn [eval]. rewrite eval_quad, eval_dot. unfold nth_body. cbn [nth].
  assert (EA : forall i, (i < 3)%nat -> evv rho (Aw rod rod_reps 0 0) i = if (i =? 2)%nat then 1 else 0).
  { intros i Hi. unfold evv, Aw. rewrite eval_esum. cbn [rsum eval]. rewrite rod_R by lia. cbn.
    destruct i as [|[|[|i]]]; [| | |lia]; cbn; ring. }
  assert (EJ : forall i, (i < 3)%nat -> evv rho (Jv rod [b] 0 0) i = match i with 0%nat => - sin (rho q0) | 1%nat => cos (rho q0) | _ => 0 end).
  { intros i Hi. unfold evv, Jv, nth_body. cbn [nth]. rewrite rod_cm_diff by auto.
    destruct i as [|[|[|i]]]; [| | |lia]; unfold rod_cm, Cos, Sin; cbn [diff eval qd names map seq nth]; rewrite ?cosf_1, ?sinf_1; cbn; ring. }
  rewrite (quad_ext _ _ _ _ _ EA EA), (quad_ext delta _ _ _ _ EJ EJ).
  assert (EW : ev rho (world_inertia b) 2%nat 2%nat = 4).
  { unfold ev, world_inertia. rewrite eval_emul. cbn [rsum]. rewrite !eval_emul. cbn [rsum]. unfold etr. rewrite rod_body. cbn [body_of bo_frame bo_I]. rewrite !rod_R by lia.
    cbn. ring. }
  assert (EM : eval rho (bo_m b) = 2) by (rewrite rod_body; reflexivity).
  rewrite EM. pose proof (sc (rho q0)) as SC. unfold quad, delta. cbn [rsum Nat.eqb]. rewrite EW.
  transitivity (4 + 2 * (sin (rho q0) * sin (rho q0) + cos (rho q0) * cos (rho q0))); [ring|]. rewrite SC. ring.
Qed.
Lemma rod_V rho x : eval rho (diff x (potential rod [b])) = 0.
Proof.
  rewrite (diff_value (fun _ => True) _ (Num 0)); auto using all_open.
  - apply (fine_potential rod rod_reps [b] B rod_sound).
  - exact I.
  - intros r _. unfold potential. rewrite eval_esum. cbn [rod length rsum nth_body nth]. unfold nth_body. cbn [nth].
    pose proof (rod_cm_value r 2%nat ltac:(lia)) as C. rewrite rod_body in C |- *. cbn [body_of bo_V bo_cm] in C |- *. cbn [eval]. cbn [eval] in C. cbn [rod_cm eval] in C.
    rewrite C. ring.
Qed.
End Rod.
Lemma rod_obeys s t : robot_to_sympy rod rod_reps false = Ok s -> obeys s spin t (fun _ => 0).
Proof.
  intros E. apply robot_ok in E. destruct E as (bs & B & ->).
  pose proof (robot_natural rod rod_reps bs B rod_sound) as N.
  pose proof (length_bs rod rod_reps bs B) as L. destruct bs as [|b [|b' bs']]; try discriminate.
  intros i Hi. change (i < 1)%nat in Hi. assert (i = 0)%nat by lia. subst i. clear Hi.
  rewrite <- mcg_motion; [|exact spin_motion|intros r; apply (fair_L rod rod_reps [b] B rod_sound)].
  change (lg_n (robot rod [b])) with 1%nat. cbn [rsum].
  rewrite (natural_M _ _ _ _ N), (natural_C _ _ _ _ N), (natural_G _ _ _ _ N) by (auto; change (lg_n (robot rod [b])) with 1%nat; lia).
  rewrite (robot_force rod rod_reps [b] B rod_sound) by (cbn; lia).
  change (lg_n (robot rod [b])) with 1%nat. cbn [rsum robot lg_coneqs length].
  assert (DM : forall x, eval (spin t) (diff x (mass rod rod_reps [b] 0%nat 0%nat)) = 0).
  { intros x. rewrite (diff_value (fun _ => True) _ (Num 6)); auto using all_open.
    - apply (fine_mass rod rod_reps [b] B rod_sound).
    - exact I.
    - intros r _. apply (rod_mass b B). }
  rewrite !DM, (rod_mass b B), (rod_V b B). cbn. field.
Qed.
Lemma diag_upper : upper (diag3 1 2 3).
Proof. intros i j Hij Hj; (destruct i as [|[|[|i]]]; (destruct j as [|[|[|j]]]; try lia; reflexivity)). Qed.
Lemma diag_symmetric : symmetric3 (ev (fun _ => 0) (diag3 1 2 3)).
Proof. intros i j Hi Hj. destruct i as [|[|[|i]]]; (destruct j as [|[|[|j]]]; try lia; reflexivity). Qed.
