(** What it means for the values of an equispaced problem to meet a scheme.
    Uses only the polynomial motions of PwSpec. *)
From Coq Require Import String.
From Verif Require Import Prelude Mat Poly PwSpec EquiModel.
Open Scope string_scope.
Open Scope list_scope.
Open Scope R_scope.

(** The arrays have the sizes opti_setup gives them. *)
Definition eq_sizes (M n n_u N : nat) (v : eq_values) : Prop :=
  shaped (N + 1) (M * n) (ev_x v) /\ shaped (N + 1) (M * n) (ev_x_d v) /\ shaped (N + 1) n_u (ev_u v) /\
  shaped N (M * n) (ev_x_c v) /\ shaped N (M * n) (ev_x_d_c v) /\ shaped N n_u (ev_u_c v).

(** The equations of the dynamics at every node, and at every interior point. *)
Definition at_nodes (dyn : vec -> vec -> vec -> vec -> vec -> vec) (N : nat) (p : vec) (v : eq_values) : Prop :=
  forall i, (i <= N)%nat -> vzero (dyn (mrow i (ev_x v)) (mrow i (ev_x_d v)) (mrow i (ev_u v)) (mrow i (ev_lam v)) p).
Definition at_middles (dyn : vec -> vec -> vec -> vec -> vec -> vec) (N : nat) (p : vec) (v : eq_values) : Prop :=
  forall i, (i < N)%nat -> vzero (dyn (mrow i (ev_x_c v)) (mrow i (ev_x_d_c v)) (mrow i (ev_u_c v)) (mrow i (ev_lam_c v)) p).

(** The dynamics include the definitions of the derivatives: q' is q', ... *)
Definition kinematic (M n : nat) (dyn : vec -> vec -> vec -> vec -> vec -> vec) (p : vec) : Prop :=
  forall x xd u lam, length x = (M * n)%nat -> length xd = (M * n)%nat -> vzero (dyn x xd u lam p) ->
    firstn ((M - 1) * n) xd = skipn n x.

(** In every interval and for every coordinate there is a motion of the kind of
    the scheme from the state at its start to the state at its end. *)
Definition steps_trapz (M n N : nat) (h : R) (v : eq_values) : Prop :=
  forall i j, (i < N)%nat -> (j < n)%nat ->
    exists c, tz_motion M n h (mrow i (ev_x v)) (accel n (mrow i (ev_x_d v))) (accel n (mrow (i + 1) (ev_x_d v))) j c /\
      passes_at M n c h (mrow (i + 1) (ev_x v)) j.
(** ... through the state at the middle *)
Definition steps_hs (M n N : nat) (h : R) (v : eq_values) : Prop :=
  forall i j, (i < N)%nat -> (j < n)%nat ->
    exists c, hs_motion M n h (mrow i (ev_x v)) (accel n (mrow i (ev_x_d v))) (accel n (mrow i (ev_x_d_c v)))
        (accel n (mrow (i + 1) (ev_x_d v))) j c /\
      passes_at M n c (h / 2) (mrow i (ev_x_c v)) j /\ passes_at M n c h (mrow (i + 1) (ev_x v)) j.
(** ... through the state at two fifths *)
Definition steps_hsj (n N : nat) (h : R) (v : eq_values) : Prop :=
  forall i j, (i < N)%nat -> (j < n)%nat ->
    exists c, hsj_motion n h (mrow i (ev_x v)) (accel n (mrow i (ev_x_d v))) (accel n (mrow i (ev_x_d_c v)))
        (accel n (mrow (i + 1) (ev_x_d v))) j c /\
      passes_at 2 n c (2 * h / 5) (mrow i (ev_x_c v)) j /\ passes_at 2 n c h (mrow (i + 1) (ev_x v)) j.

(** The control is affine in each interval, tau of the way at the interior point. *)
Definition affine_controls (tau : R) (n_u N : nat) (v : eq_values) : Prop :=
  forall i j, (i < N)%nat -> (j < n_u)%nat ->
    mget (ev_u_c v) i j = mget (ev_u v) i j + tau * (mget (ev_u v) (i + 1) j - mget (ev_u v) i j).

(** The schemes meant for systems of second order. *)
Definition second_order_schemes : list string := ["trapz_mod"; "hs_mod"; "hs_mod_parab"; "hsj"; "hsj_parab"; "hsj_parab_mod"].
(** The system q''' = 0 of third order with one coordinate. *)
Definition no_jerk (x xd u lam p : vec) : vec := (skipn 1 x -v firstn 2 xd) ++ skipn 2 xd.
