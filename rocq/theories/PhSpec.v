(** Specification vocabulary for the multi-segment problems.  Nothing here
    mentions a function of the model. *)
From Coq Require Import String.
From Coquelicot Require Import Coquelicot.
From Verif Require Import Prelude Poly PolyInterp Mat PsSpec BuTdSpec.
Open Scope R_scope.
Open Scope list_scope.

(** With [ns] points in the segments, the arrays begin with the start of the
    first segment; each segment then has its points and its end.  The number
    of the row of the knot [k] (0: the start, length ns: the end), and of point
    [i] of segment [s]. *)
Definition knot_row (ns : list nat) (k : nat) : nat := (list_sum (firstn k ns) + k)%nat.
Definition point_row (ns : list nat) (s i : nat) : nat := (knot_row ns s + 1 + i)%nat.
(** Number of points before point [i] of segment [s]. *)
Definition point_number (ns : list nat) (s i : nat) : nat := (list_sum (firstn s ns) + i)%nat.

(** The times of the knots and ends. *)
Definition knot_times (t_start t_end : R) (knots : list R) : list R := t_start :: knots ++ [t_end].

(** Knots inside the horizon, increasing. *)
Definition good_knots (t_start t_end : R) (knots : list R) : Prop :=
  Forall (fun t => t_start < t < t_end) knots /\ increasing knots.

(** [P], a polynomial of degree < [n] for each coordinate, solves the equations
    of motion of order [M] at the times [tc], with states [xs] at [t0] and [xe]
    at [t1]. *)
Definition motion_on (dyn : list R -> list R -> list R -> list R -> list R) (n nq M : nat) (t0 t1 : R)
  (xs xe : list R) (tc : list R) (x x_d u lam : nat -> list R) (P : list (list R)) : Prop :=
  length P = nq /\ Forall (fun c => (length c <= n)%nat) P /\
  full_state M P t0 = xs /\ full_state M P t1 = xe /\
  forall k, (k < length tc)%nat ->
    x k = full_state M P (vnth tc k) /\ x_d k = full_rate M P (vnth tc k) /\
    Forall (fun r => r = 0) (dyn (x k) (x_d k) (u k) (lam k)).

(** The same with one polynomial for each component of the state. *)
Definition state_motion_on (dyn : list R -> list R -> list R -> list R -> list R) (n m : nat) (t0 t1 : R)
  (xs xe : list R) (tc : list R) (x x_d u lam : nat -> list R) (P : list (list R)) : Prop :=
  length P = m /\ Forall (fun c => (length c <= n)%nat) P /\
  state_at P t0 = xs /\ state_at P t1 = xe /\
  forall k, (k < length tc)%nat ->
    x k = state_at P (vnth tc k) /\ x_d k = rate_at P (vnth tc k) /\
    Forall (fun r => r = 0) (dyn (x k) (x_d k) (u k) (lam k)).

(** The entries of a list of times, and the rows of an array, that belong to
    the points of segment [s]. *)
Definition seg_times (t : list R) (ns : list nat) (s : nat) : list R :=
  map (fun i => vnth t (point_row ns s i)) (seq 0 (nth s ns 0%nat)).
Definition seg_part (X : mat) (ns : list nat) (s : nat) : mat :=
  map (fun i => mrow (point_row ns s i) X) (seq 0 (nth s ns 0%nat)).

(** [v] is the value at [t] of the polynomials through the [m] columns of [X]
    at the times [ts]. *)
Definition extrapolates (ts : list R) (X : mat) (m : nat) (t : R) (v : list R) : Prop :=
  exists U, length U = m /\ traj_through ts X U /\ v = state_at U t.

(** Every knot and end of the problem has the control that the polynomials
    through the controls of a neighbouring segment have there: the segment
    that starts at the knot, and the last one at the end. *)
Definition knot_controls (t : list R) (ns : list nat) (u : mat) (m : nat) : Prop :=
  (forall s, (s < length ns)%nat ->
     extrapolates (seg_times t ns s) (seg_part u ns s) m (vnth t (knot_row ns s)) (mrow (knot_row ns s) u)) /\
  extrapolates (seg_times t ns (length ns - 1)) (seg_part u ns (length ns - 1)) m
    (vnth t (knot_row ns (length ns))) (mrow (knot_row ns (length ns)) u).

(** Segment [s] of a problem with times [t] and values [x], [x_d], [u], [lam]
    is a motion [P] of order [M]. *)
Definition segment_motion (dyn : list R -> list R -> list R -> list R -> list R) (n nq M : nat)
  (t : list R) (ns : list nat) (x x_d u lam : mat) (s : nat) (P : list (list R)) : Prop :=
  motion_on dyn n nq M (vnth t (knot_row ns s)) (vnth t (knot_row ns (s + 1)))
    (mrow (knot_row ns s) x) (mrow (knot_row ns (s + 1)) x) (seg_times t ns s)
    (fun i => mrow (point_row ns s i) x) (fun i => mrow (point_row ns s i) x_d)
    (fun i => mrow (point_row ns s i) u) (fun i => mrow (point_number ns s i) lam) P.
Definition segment_state_motion (dyn : list R -> list R -> list R -> list R -> list R) (n m : nat)
  (t : list R) (ns : list nat) (x x_d u lam : mat) (s : nat) (P : list (list R)) : Prop :=
  state_motion_on dyn n m (vnth t (knot_row ns s)) (vnth t (knot_row ns (s + 1)))
    (mrow (knot_row ns s) x) (mrow (knot_row ns (s + 1)) x) (seg_times t ns s)
    (fun i => mrow (point_row ns s i) x) (fun i => mrow (point_row ns s i) x_d)
    (fun i => mrow (point_row ns s i) u) (fun i => mrow (point_number ns s i) lam) P.
