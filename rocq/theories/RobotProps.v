(** Properties C62, C63, C75, C76 and C77: robots.  Only statements. *)
From Coq Require Import Reals List String.
From Coquelicot Require Import Coquelicot.
From Verif Require Import Prelude PwInterpModel SymModel LagrModel LagrSpec RobotModel RobotSpec RobotProofs RobotChainProofs RobotEnergyProofs RobotMotionProofs RobotExamples.
Import ListNotations.
Open Scope R_scope.
Open Scope list_scope.

(** ** C62: the six numbers of an inertia matrix *)

(** sympy's inertia makes of the six numbers the matrix, exactly if that is symmetric. *)
Theorem C62_recovered :
  forall M v, matrix_to_6_vect M = Ok v ->
  (forall i j, (i < 3)%nat -> (j < 3)%nat ->
     inertia (nth 0 v 0) (nth 1 v 0) (nth 2 v 0) (nth 3 v 0) (nth 4 v 0) (nth 5 v 0) i j = eval (fun _ => 0) (M i j)) <->
  symmetric3 (ev (fun _ => 0) M).
Proof. exact (matrix_recovers). Qed.
Print Assumptions C62_recovered.

(** The function succeeds exactly on matrices of numbers (below the diagonal anything). *)
Theorem C62_accepted_partial :
  forall M, (exists v, matrix_to_6_vect M = Ok v) <-> upper M.
Proof. exact (matrix_accepted). Qed.
Print Assumptions C62_accepted_partial.

(** A symmetric matrix with a symbol in it is refused, although masses and lengths may be symbols. *)
Theorem C62_symbols_refuted :
  forall x, let M := fun i j => if (i =? j)%nat then Var (Static x) else Num 0 in
  (forall i j, M i j = M j i) /\ matrix_to_6_vect M = Err TypeError.
Proof. exact (fun x => conj (fun i j => f_equal (fun b : bool => if b then Var (Static x) else Num 0) (Nat.eqb_sym i j)) eq_refl). Qed.
Print Assumptions C62_symbols_refuted.

Example C62_example :
  exists v, matrix_to_6_vect (diag3 1 2 3) = Ok v /\ symmetric3 (ev (fun _ => 0) (diag3 1 2 3)).
Proof. exact (ex_intro _ _ (conj (matrix_ok' _ diag_upper) diag_symmetric)). Qed.

(** ** C63: torques of the motors *)

(** The torques on all the bodies add up to that of the first motor, about the first axis, whatever the number of links. *)
Theorem C63_total :
  forall links reps bs rho i, bodies_from 0 links reps inertial (fun _ => Num 0) = Ok bs -> (i < 3)%nat ->
  fold_right (fun ft s => evv rho (snd ft) i + s) 0 (force_list bs) =
  if (length links =? 0)%nat then 0 else rho (u_symb 0) * pose links reps rho 0 i 2%nat.
Proof. exact (torques_total). Qed.
Print Assumptions C63_total.

(** Each motor works on its own angle: the generalised force of a coordinate is the sum of u_k times the derivative of the k-th joint angle. *)
Theorem C63_forces :
  forall links reps s rho j, sound links reps -> robot_to_sympy links reps false = Ok s -> (j < length links)%nat ->
  eval rho (lg_forces s j) =
  rsum (length links) (fun k => rho (u_symb k) *
    partial (fun r => eval r (joint k (nth k reps no_replace))) (qd (names (length links)) 0 j) rho).
Proof. exact (forces_value). Qed.
Print Assumptions C63_forces.

(** It is u_j when the angles are the coordinates. *)
Theorem C63_own :
  forall links reps s rho j, sound links reps -> robot_to_sympy links reps false = Ok s -> (j < length links)%nat ->
  (forall k, (k < length links)%nat -> rp_q (nth k reps no_replace) = None) -> eval rho (lg_forces s j) = rho (u_symb j).
Proof. exact (forces_own). Qed.
Print Assumptions C63_own.

Example C63_example :
  sound arm arm_reps /\ (exists s, robot_to_sympy arm arm_reps false = Ok s) /\ length arm = 3%nat.
Proof. exact (conj arm_sound (conj arm_ok eq_refl)). Qed.

(** ** C75: where the bodies are *)

(** Frame and centre of mass of each body are given by the product of the modified Denavit-Hartenberg matrices, and the axes are orthonormal and right-handed. *)
Theorem C75_poses :
  forall links reps bs rho k, bodies_from 0 links reps inertial (fun _ => Num 0) = Ok bs -> (k < length links)%nat ->
  length bs = length links /\ rotation (pose links reps rho k) /\
  forall i, (i < 3)%nat ->
    (forall j, (j < 3)%nat -> eval rho (fr_R (bo_frame (nth k bs no_body)) i j) = pose links reps rho k i j) /\
    eval rho (bo_cm (nth k bs no_body) i) = centre links reps rho k i.
Proof. exact (bodies_at). Qed.
Print Assumptions C75_poses.

(** The angular velocity of each body is that with which its axes turn. *)
Theorem C75_turning :
  forall links reps bs g t k, sound links reps -> motion g -> bodies_from 0 links reps inertial (fun _ => Num 0) = Ok bs ->
  (k < length links)%nat ->
  turning (fun r => pose links reps (g r) k) t (evv (g t) (fr_w (bo_frame (nth k bs no_body)))).
Proof. exact (bodies_turn). Qed.
Print Assumptions C75_turning.

Example C75_example :
  sound arm arm_reps /\ (exists bs, bodies_from 0 arm arm_reps inertial (fun _ => Num 0) = Ok bs) /\ motion spin.
Proof. exact (conj arm_sound (conj (bodies_accepted arm arm_reps 0 inertial (fun _ => Num 0) arm_translatable) spin_motion)). Qed.

(** ** C76: Lagrangian and energy *)

(** Along every motion the Lagrangian is the kinetic energy of the bodies, moving and turning, minus their potential energy. *)
Theorem C76_lagrangian :
  forall links reps s g t (w : nat -> nat -> R), sound links reps -> robot_to_sympy links reps false = Ok s -> motion g ->
  (forall k, (k < length links)%nat -> turning (fun r => pose links reps (g r) k) t (w k)) ->
  eval (g t) (lg_L s) = rsum (length links) (fun k => kinetic links reps g t (w k) k - weight links reps (g t) k).
Proof. exact (robot_L). Qed.
Print Assumptions C76_lagrangian.

(** Such angular velocities exist. *)
Theorem C76_turning :
  forall links reps s g t, sound links reps -> robot_to_sympy links reps false = Ok s -> motion g ->
  exists w : nat -> nat -> R, forall k, (k < length links)%nat -> turning (fun r => pose links reps (g r) k) t (w k).
Proof. exact (robot_turning). Qed.
Print Assumptions C76_turning.

(** Everything proved of natural systems (C60, C71) holds of robots. *)
Theorem C76_natural :
  forall links reps s, sound links reps -> robot_to_sympy links reps false = Ok s ->
  exists m V, natural (fun _ => True) s m V.
Proof. exact (robot_is_natural). Qed.
Print Assumptions C76_natural.

Theorem C76_coordinates :
  forall links reps s, robot_to_sympy links reps false = Ok s -> lg_qs s = names (length links) /\ lg_coneqs s = [].
Proof. exact (robot_names). Qed.
Print Assumptions C76_coordinates.

(** Where the equations of motion hold, the energy of the bodies grows with the power of the motors, torque times speed of the joint. *)
Theorem C76_power :
  forall links reps s g t (w : R -> nat -> nat -> R), sound links reps -> robot_to_sympy links reps false = Ok s -> motion g ->
  (forall r k, (k < length links)%nat -> turning (fun x => pose links reps (g x) k) r (w r k)) -> obeys s g t (fun _ => 0) ->
  is_derive (fun r => rsum (length links) (fun k => kinetic links reps g r (w r k) k + weight links reps (g r) k)) t
    (rsum (length links) (fun k => g t (u_symb k) * Derive (fun r => eval (g r) (joint k (nth k reps no_replace))) t)).
Proof. exact (robot_power). Qed.
Print Assumptions C76_power.

(** A link pushed by a constant torque. *)
Example C76_example :
  sound rod rod_reps /\ (exists s, robot_to_sympy rod rod_reps false = Ok s) /\ motion spin /\
  forall s t, robot_to_sympy rod rod_reps false = Ok s -> obeys s spin t (fun _ => 0).
Proof. exact (conj rod_sound (conj (proj2 (robot_accepted rod rod_reps) rod_translatable) (conj spin_motion rod_obeys))). Qed.

(** ** C77: which robots are translated *)

Theorem C77_accepted :
  forall links reps,
  (exists s, robot_to_sympy links reps false = Ok s) <-> (forall k, (k < length links)%nat -> translatable links reps k).
Proof. exact (robot_accepted). Qed.
Print Assumptions C77_accepted.

(** The first link that cannot be translated decides the exception. *)
Theorem C77_refused :
  forall links reps k, (k < length links)%nat ->
  (forall j, (j < k)%nat -> translatable links reps j) -> ~ translatable links reps k ->
  robot_to_sympy links reps false =
    Err (if (length reps <=? k)%nat then IndexError
         else if (lk_mdh (nth k links no_link) && lk_isrevolute (nth k links no_link))%bool then TypeError else NotImplementedError).
Proof. exact (robot_refused). Qed.
Print Assumptions C77_refused.

Theorem C77_end_effector :
  forall links reps, robot_to_sympy links reps true = Err NotImplementedError.
Proof. exact (fun links reps => eq_refl). Qed.
Print Assumptions C77_end_effector.

Example C77_example :
  (forall k, (k < length arm)%nat -> translatable arm arm_reps k) /\ ~ translatable arm (firstn 2 arm_reps) 2%nat.
Proof. exact (conj arm_translatable (fun H => Nat.lt_irrefl 2 (proj1 H))). Qed.
