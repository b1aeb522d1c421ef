(** Model of chords/robots.py.

    Expressions, matrices and Lagrangians are those of SymModel.v and
    LagrModel.v.  Frames and points are given by their components in the inertial
    frame N: that is how sympy's vectors are compared, differentiated in N and
    dotted.  The robot is the list of its links; Panda_Simp builds one with the
    Robotics Toolbox and is not modelled. *)
From Coq Require Import String.
From Verif Require Import Prelude PwInterpModel SymModel LagrModel.
Open Scope R_scope.
Open Scope list_scope.

(** sympy: cos and sin, with their derivatives *)
Definition cosf (j : nat) (x : R) : R := cos (x + INR j * (PI / 2)).
Definition sinf (j : nat) (x : R) : R := sin (x + INR j * (PI / 2)).
Definition Cos (e : expr) : expr := Func cosf 0 e.
Definition Sin (e : expr) : expr := Func sinf 0 e.

(** ** Vectors and frames (sympy.physics.mechanics) *)
(** A reference frame: its axes x, y, z are the columns of [fr_R]; [fr_w] is its
    angular velocity in N. *)
Record frame := { fr_R : emat; fr_w : evec }.
Definition inertial : frame :=
  {| fr_R := fun i j => if (i =? j)%nat then Num 1 else Num 0; fr_w := fun _ => Num 0 |}.
Definition rot_x (e : expr) : emat := fun i j =>
  match i, j with
  | 0, 0 => Num 1
  | 1, 1 | 2, 2 => Cos e
  | 1, 2 => Neg (Sin e)
  | 2, 1 => Sin e
  | _, _ => Num 0
  end%nat.
Definition rot_z (e : expr) : emat := fun i j =>
  match i, j with
  | 2, 2 => Num 1
  | 0, 0 | 1, 1 => Cos e
  | 0, 1 => Neg (Sin e)
  | 1, 0 => Sin e
  | _, _ => Num 0
  end%nat.
(** f.orientnew(name, "Axis", [e, f.x]) and the same with f.z *)
Definition orient_x (f : frame) (e : expr) : frame :=
  {| fr_R := emul 3 (fr_R f) (rot_x e); fr_w := fun i => Plus (fr_w f i) (Times (ddt e) (fr_R f i 0%nat)) |}.
Definition orient_z (f : frame) (e : expr) : frame :=
  {| fr_R := emul 3 (fr_R f) (rot_z e); fr_w := fun i => Plus (fr_w f i) (Times (ddt e) (fr_R f i 2%nat)) |}.
(** inertia(frame, ixx, iyy, izz, ixy, iyz, izx): the components in the frame *)
Definition inertia (ixx iyy izz ixy iyz izx : R) : nat -> nat -> R := fun i j =>
  match i, j with
  | 0, 0 => ixx
  | 1, 1 => iyy
  | 2, 2 => izz
  | 0, 1 | 1, 0 => ixy
  | 1, 2 | 2, 1 => iyz
  | 0, 2 | 2, 0 => izx
  | _, _ => 0%R
  end%nat.

(** ** robots.py:33-46 *)
(** numpy: a number is stored in an array of floats; an expression with symbols
    cannot be. *)
Definition to_float (e : expr) : Res R := match atoms e with [] => Ok (eval (fun _ => 0) e) | _ => Err TypeError end.
(** robots.py:33-41 [matrix_to_6_vect] *)
Definition matrix_to_6_vect (M : emat) : Res (list R) :=
  do i0 <- to_float (M 0 0)%nat;
  do i1 <- to_float (M 1 1)%nat;
  do i2 <- to_float (M 2 2)%nat;
  do i3 <- to_float (M 0 1)%nat;
  do i4 <- to_float (M 1 2)%nat;
  do i5 <- to_float (M 0 2)%nat;
  Ok [i0; i1; i2; i3; i4; i5].
(** robots.py:44-45 [arr_to_vect] *)
Definition arr_to_vect (v : evec) (f : frame) : evec := fun i =>
  Plus (Plus (Times (v 0%nat) (fr_R f i 0%nat)) (Times (v 1%nat) (fr_R f i 1%nat))) (Times (v 2%nat) (fr_R f i 2%nat)).

(** ** Links *)
Record link := {
  lk_mdh : bool; lk_isrevolute : bool;
  lk_theta : expr; lk_alpha : expr; lk_d : expr; lk_a : expr; lk_m : expr; lk_r : evec; lk_I : emat }.
(** The dictionary of replaced attributes. *)
Record replacedict := {
  rp_theta : option expr; rp_alpha : option expr; rp_d : option expr; rp_a : option expr; rp_m : option expr;
  rp_r : option evec; rp_I : option emat; rp_q : option expr }.
(** robots.py:48-55 [make_search_func] *)
Definition search {A} (o : option A) (x : A) : A := match o with Some y => y | None => x end.
Record body := { bo_frame : frame; bo_cm : evec; bo_m : expr; bo_I : nat -> nat -> R; bo_V : expr }.
(** robots.py:58-92 [dhlink_rot_mod_to_symbody]; velocities are the derivatives
    of the positions and are written where they are used. *)
Definition dhlink_rot_mod_to_symbody (lk : link) (rp : replacedict) (ref_frame : frame) (ref_point : evec) (q : expr) : Res (body * frame * evec) :=
  let theta := search (rp_theta rp) (lk_theta lk) in
  let alpha := search (rp_alpha rp) (lk_alpha lk) in
  let d := search (rp_d rp) (lk_d lk) in
  let a := search (rp_a rp) (lk_a lk) in
  let m := search (rp_m rp) (lk_m lk) in
  do inert <- matrix_to_6_vect (search (rp_I rp) (lk_I lk));
  let Nint := orient_x ref_frame alpha in
  let N1 := orient_z Nint theta in
  let Nbody := orient_z N1 q in
  let P1 := fun i => Plus (ref_point i) (Plus (Times d (fr_R N1 i 2%nat)) (Times a (fr_R ref_frame i 0%nat))) in
  let cm_pos := arr_to_vect (search (rp_r rp) (lk_r lk)) Nbody in
  let CM0 := fun i => Plus (P1 i) (cm_pos i) in
  let I_0 := inertia (nth 0 inert 0) (nth 1 inert 0) (nth 2 inert 0) (nth 3 inert 0) (nth 4 inert 0) (nth 5 inert 0) in
  Ok ({| bo_frame := Nbody; bo_cm := CM0; bo_m := m; bo_I := I_0; bo_V := Times (Times m (Num (98 / 10))) (CM0 2%nat) |}, Nbody, P1).

(** ** robots.py:95-155 [robot_to_sympy] *)
Definition q_name (ii : nat) : string := ("q_" ++ str_nat ii)%string.
(** robots.py:114-136: the loop, from link ii on *)
Fixpoint bodies_from (ii : nat) (links : list link) (reps : list replacedict) (f : frame) (p : evec) : Res (list body) :=
  match links, reps with
  | [], _ => Ok []
  | _ :: _, [] => Err IndexError
  | lk :: links', rp :: reps' =>
      let q := search (rp_q rp) (Var (Dyn (q_name ii) 0)) in
      if negb (lk_mdh lk) then Err NotImplementedError
      else if negb (lk_isrevolute lk) then Err NotImplementedError
      else do (bf, p1) <- dhlink_rot_mod_to_symbody lk rp f p q;
           let (b, f1) := bf : body * frame in
           do bs <- bodies_from (S ii) links' reps' f1 p1;
           Ok (b :: bs)
  end.
Definition no_body : body :=
  {| bo_frame := inertial; bo_cm := fun _ => Num 0; bo_m := Num 0; bo_I := fun _ _ => 0; bo_V := Num 0 |}.
Definition nth_body (bs : list body) (k : nat) : body := nth k bs no_body.
(** sympy: RigidBody.kinetic_energy; the inertia in N is R I R^T. *)
Definition world_inertia (b : body) : emat :=
  emul 3 (emul 3 (fr_R (bo_frame b)) (fun i j => Num (bo_I b i j))) (etr (fr_R (bo_frame b))).
Definition edot (v w : evec) : expr := esum 3 (fun i => Times (v i) (w i)).
Definition kinetic_energy (b : body) : expr :=
  Plus (Times (Num (/ 2)) (edot (fr_w (bo_frame b)) (emulv 3 (world_inertia b) (fr_w (bo_frame b)))))
       (Times (Num (/ 2)) (Times (bo_m b) (edot (fun i => ddt (bo_cm b i)) (fun i => ddt (bo_cm b i))))).
(** sympy: Lagrangian(N, *bodies) *)
Definition Lagrangian (bs : list body) : expr :=
  Minus (esum (length bs) (fun k => kinetic_energy (nth_body bs k))) (esum (length bs) (fun k => bo_V (nth_body bs k))).
(** robots.py:143-149: frames and torques; [z] is the axis of the body's frame *)
Definition axis_z (b : body) : evec := fun i => fr_R (bo_frame b) i 2%nat.
Definition force_list (bs : list body) : list (frame * evec) :=
  let n := length bs in
  map (fun ii => (bo_frame (nth_body bs ii), fun i => Times (Var (u_symb ii)) (axis_z (nth_body bs ii) i))) (seq 0 n) ++
  map (fun ii => (bo_frame (nth_body bs ii), fun i => Times (Neg (Var (u_symb (ii + 1)))) (axis_z (nth_body bs (ii + 1)) i))) (seq 0 (n - 1)).
(** sympy: the generalised force of a coordinate with derivative qd, as
    LagrangesMethod computes it from torques on frames *)
Definition generalised_force (fl : list (frame * evec)) (qdot : atom) : expr :=
  fold_left (fun s ft => Plus s (edot (fun i => diff qdot (fr_w (fst ft) i)) (snd ft))) fl (Num 0).
Definition robot_to_sympy (links : list link) (reps : list replacedict) (end_effector : bool) : Res lagrange :=
  if end_effector then Err NotImplementedError
  else
    do bs <- bodies_from 0 links reps inertial (fun _ => Num 0);
    let n := length links in
    Ok {| lg_L := Lagrangian bs; lg_qs := map q_name (seq 0 n);
          lg_forces := fun j => generalised_force (force_list bs) (Dyn (q_name j) 1);
          lg_coneqs := [] |}.
