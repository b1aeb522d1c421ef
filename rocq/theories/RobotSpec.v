(** Chains of rigid bodies, without sympy. *)
From Coq Require Import String.
From Coquelicot Require Import Coquelicot.
From Verif Require Import Prelude PwInterpModel SymModel LagrModel LagrSpec RobotModel.
Open Scope R_scope.
Open Scope list_scope.

(** ** Links *)
(** The parameters in force for each link: the replaced ones or the link's. *)
Definition p_theta (lk : link) (rp : replacedict) : expr := match rp_theta rp with Some x => x | None => lk_theta lk end.
Definition p_alpha (lk : link) (rp : replacedict) : expr := match rp_alpha rp with Some x => x | None => lk_alpha lk end.
Definition p_d (lk : link) (rp : replacedict) : expr := match rp_d rp with Some x => x | None => lk_d lk end.
Definition p_a (lk : link) (rp : replacedict) : expr := match rp_a rp with Some x => x | None => lk_a lk end.
Definition p_m (lk : link) (rp : replacedict) : expr := match rp_m rp with Some x => x | None => lk_m lk end.
Definition p_r (lk : link) (rp : replacedict) : evec := match rp_r rp with Some x => x | None => lk_r lk end.
Definition p_I (lk : link) (rp : replacedict) : emat := match rp_I rp with Some x => x | None => lk_I lk end.
(** The angle of joint i. *)
Definition joint (i : nat) (rp : replacedict) : expr := match rp_q rp with Some x => x | None => Var (Dyn ("q_" ++ str_nat i)%string 0) end.
(** Constants: no dynamic symbol. *)
Definition steady (e : expr) : Prop := (forall a, In a (atoms e) -> exists n, a = Static n) /\ forall rho, smooth_at rho e.
Definition names (n : nat) : list string := map (fun i => ("q_" ++ str_nat i)%string) (seq 0 n).
(** A robot whose parameters are constants and whose joint angles depend only on
    the coordinates. *)
Definition sound_link (n i : nat) (lk : link) (rp : replacedict) : Prop :=
  steady (p_theta lk rp) /\ steady (p_alpha lk rp) /\ steady (p_d lk rp) /\ steady (p_a lk rp) /\ steady (p_m lk rp) /\
  (forall k, (k < 3)%nat -> steady (p_r lk rp k)) /\
  of_position (names n) (joint i rp) /\ (forall rho, smooth_at rho (joint i rp)).
Definition no_link : link :=
  {| lk_mdh := true; lk_isrevolute := true; lk_theta := Num 0; lk_alpha := Num 0; lk_d := Num 0; lk_a := Num 0; lk_m := Num 0;
     lk_r := fun _ => Num 0; lk_I := fun _ _ => Num 0 |}.
Definition no_replace : replacedict :=
  {| rp_theta := None; rp_alpha := None; rp_d := None; rp_a := None; rp_m := None; rp_r := None; rp_I := None; rp_q := None |}.
Definition sound (links : list link) (reps : list replacedict) : Prop :=
  forall i, (i < length links)%nat -> sound_link (length links) i (nth i links no_link) (nth i reps no_replace).

(** ** Modified Denavit-Hartenberg chains *)
(** Craig's matrix of the transformation between neighbouring links. *)
Definition craig (alpha a theta d : R) : nat -> nat -> R := fun i j =>
  match i, j with
  | 0, 0 => (cos theta)%R | 0, 1 => (- sin theta)%R | 0, 3 => a
  | 1, 0 => (sin theta * cos alpha)%R | 1, 1 => (cos theta * cos alpha)%R | 1, 2 => (- sin alpha)%R | 1, 3 => (- d * sin alpha)%R
  | 2, 0 => (sin theta * sin alpha)%R | 2, 1 => (cos theta * sin alpha)%R | 2, 2 => (cos alpha)%R | 2, 3 => (d * cos alpha)%R
  | 3, 3 => 1%R
  | _, _ => 0%R
  end%nat.
Definition mm4 (A B : nat -> nat -> R) : nat -> nat -> R := fun i j => rsum 4 (fun l => A i l * B l j).
(** The product of the first k matrices. *)
Fixpoint chain (T : nat -> nat -> nat -> R) (k : nat) : nat -> nat -> R :=
  match k with O => delta | S k' => mm4 (chain T k') (T k') end.

(** ** Vectors *)
Definition cross (v w : nat -> R) : nat -> R := fun i =>
  match i with
  | 0%nat => v 1%nat * w 2%nat - v 2%nat * w 1%nat
  | 1%nat => v 2%nat * w 0%nat - v 0%nat * w 2%nat
  | _ => v 0%nat * w 1%nat - v 1%nat * w 0%nat
  end.
Definition dot3 (v w : nat -> R) : R := rsum 3 (fun i => v i * w i).
Definition col (M : nat -> nat -> R) (j : nat) : nat -> R := fun i => M i j.
(** The columns are orthonormal and right-handed. *)
Definition rotation (M : nat -> nat -> R) : Prop :=
  (forall j k, (j < 3)%nat -> (k < 3)%nat -> dot3 (col M j) (col M k) = delta j k) /\
  (forall i, (i < 3)%nat ->
     cross (col M 0) (col M 1) i = M i 2%nat /\ cross (col M 1) (col M 2) i = M i 0%nat /\ cross (col M 2) (col M 0) i = M i 1%nat).

(** ** The chain of bodies *)
Section Chain.
Variables (links : list link) (reps : list replacedict).
Definition at_link {A} (p : link -> replacedict -> A) (k : nat) : A := p (nth k links no_link) (nth k reps no_replace).
(** From link k - 1 to link k. *)
Definition joint_T (rho : env) (k : nat) : nat -> nat -> R :=
  craig (eval rho (at_link p_alpha k)) (eval rho (at_link p_a k)) (eval rho (at_link p_theta k) + eval rho (at_link (fun _ => joint k) k)) (eval rho (at_link p_d k)).
(** Position and orientation of link k, its centre of mass, in the inertial frame. *)
Definition pose (rho : env) (k : nat) : nat -> nat -> R := chain (joint_T rho) (S k).
Definition centre (rho : env) (k i : nat) : R := rsum 3 (fun l => pose rho k i l * eval rho (at_link p_r k l)) + pose rho k i 3%nat.
(** Inertia of link k about its centre of mass, in its own axes: a symmetric matrix
    given by its upper half. *)
Definition inertia_at (rho : env) (k a b : nat) : R := eval rho (at_link p_I k (Nat.min a b) (Nat.max a b)).
(** The axes of P turn with angular velocity w. *)
Definition turning (P : R -> nat -> nat -> R) (t : R) (w : nat -> R) : Prop :=
  forall i j, (i < 3)%nat -> (j < 3)%nat -> is_derive (fun s => P s i j) t (cross w (col (P t) j) i).
(** Kinetic energy of link k along a motion, of which w is the angular velocity,
    and its weight. *)
Definition kinetic (g : R -> env) (t : R) (w : nat -> R) (k : nat) : R :=
  / 2 * eval (g t) (at_link p_m k) * rsum 3 (fun i => Derive (fun s => centre (g s) k i) t ^ 2) +
  / 2 * rsum 3 (fun a => rsum 3 (fun b => dot3 (col (pose (g t) k) a) w * inertia_at (g t) k a b * dot3 (col (pose (g t) k) b) w)).
Definition weight (rho : env) (k : nat) : R := eval rho (at_link p_m k) * (98 / 10) * centre rho k 2%nat.
End Chain.

(** ** Inertia matrices and acceptable robots *)
Definition symmetric3 (M : nat -> nat -> R) : Prop := forall i j, (i < 3)%nat -> (j < 3)%nat -> M i j = M j i.
(** The entries on and above the diagonal are numbers. *)
Definition upper (M : emat) : Prop := forall i j, (i <= j)%nat -> (j < 3)%nat -> atoms (M i j) = [].
(** Link k can be translated. *)
Definition translatable (links : list link) (reps : list replacedict) (k : nat) : Prop :=
  (k < length reps)%nat /\ lk_mdh (nth k links no_link) = true /\ lk_isrevolute (nth k links no_link) = true /\ upper (at_link links reps p_I k).
