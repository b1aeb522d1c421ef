(** Specification vocabulary for the piecewise schemes.  Nothing in this file
    refers to the model: it only talks about lists of states, components of
    vectors and polynomials. *)
From Coquelicot Require Import Coquelicot.
From Verif Require Import Prelude Poly.
Open Scope R_scope.

(** [xs] is the trajectory of n steps that starts at [x0]; step number i maps
    the state before it to the state after it. *)
Definition trajectory (n : nat) (x0 : vec) (step : nat -> vec -> vec) (xs : list vec) : Prop :=
  length xs = S n /\
  nth 0 xs [] = x0 /\
  (forall i, (i < n)%nat -> nth (S i) xs [] = step i (nth i xs [])).

(** Component j of derivative block k of a state made of blocks of n numbers:
    x = [q, q', q'', ...], each of n entries. *)
Definition coord (n : nat) (x : vec) (k j : nat) : R := vnth x (k * n + j).

(** The dynamics return a state derivative of the same size as the state. *)
Definition same_size {P} (N : nat) (F : vec -> vec -> P -> vec) (p : P) : Prop :=
  forall x u, length x = N -> length (F x u p) = N.

(** Second-order form: state (q, v), the first half of F is v. *)
Definition second_order {P} (n : nat) (F : vec -> vec -> P -> vec) (p : P) : Prop :=
  forall x u, length x = (2 * n)%nat ->
    length (F x u p) = (2 * n)%nat /\ firstn n (F x u p) = skipn n x.

(** Order-M form: state of M blocks of n numbers, all blocks of F but the last
    are the blocks of the state but the first. *)
Definition order_form {P} (M n : nat) (F : vec -> vec -> P -> vec) (p : P) : Prop :=
  forall x u, length x = (M * n)%nat ->
    length (F x u p) = (M * n)%nat /\ firstn ((M - 1) * n) (F x u p) = skipn n x.

(** The accelerations: the last n entries of a state derivative. *)
Definition accel (n : nat) (f : vec) : vec := skipn (length f - n) f.

(** A polynomial motion c (coefficient list) of one coordinate, in the local
    time of a step of length h.  D k c t is its k-th derivative at t. *)
Definition D (k : nat) (c : list R) (t : R) : R := peval (pderiv_n k c) t.

(** c starts with derivatives x_0 ... x_(M-1) given by block values. *)
Definition starts_with (M n : nat) (c : list R) (x : vec) (j : nat) : Prop :=
  forall k, (k < M)%nat -> D k c 0 = coord n x k j.

(** The order-M motion of coordinate j in a step of length h under the
    trapezoidal hypothesis: the M-th derivative is affine and takes the given
    accelerations at both ends. *)
Definition tz_motion (M n : nat) (h : R) (x a a_n : vec) (j : nat) (c : list R) : Prop :=
  (length c <= M + 2)%nat /\ starts_with M n c x j /\
  D M c 0 = vnth a j /\ D M c h = vnth a_n j.

(** Same under the Hermite-Simpson hypothesis: the M-th derivative is a
    parabola through the accelerations at start, middle and end. *)
Definition hs_motion (M n : nat) (h : R) (x a a_c a_n : vec) (j : nat) (c : list R) : Prop :=
  (length c <= M + 3)%nat /\ starts_with M n c x j /\
  D M c 0 = vnth a j /\ D M c (h / 2) = vnth a_c j /\ D M c h = vnth a_n j.

(** Second-order motion whose acceleration is a parabola through the values
    at 0, 2h/5 and h (the "j" schemes). *)
Definition hsj_motion (n : nat) (h : R) (x a a_c a_n : vec) (j : nat) (c : list R) : Prop :=
  (length c <= 5)%nat /\ starts_with 2 n c x j /\
  D 2 c 0 = vnth a j /\ D 2 c (2 * h / 5) = vnth a_c j /\ D 2 c h = vnth a_n j.

(** The motion arrives at state x at local time t. *)
Definition passes_at (M n : nat) (c : list R) (t : R) (x : vec) (j : nat) : Prop :=
  forall k, (k < M)%nat -> D k c t = coord n x k j.

(** The motion X of a state of N entries obeys x' = F(x, u, p) at time t. *)
Definition obeys_at {P} (N : nat) (F : vec -> vec -> P -> vec) (p : P)
  (X : R -> vec) (t : R) (u : vec) : Prop :=
  forall i, (i < N)%nat -> is_derive (fun s => vnth (X s) i) t (vnth (F (X t) u p) i).

(** Every block of the motion is the derivative of the previous one, at all
    times. *)
Definition consistent_blocks (M n : nat) (X : R -> vec) : Prop :=
  forall k j t, (S k < M)%nat -> (j < n)%nat ->
    is_derive (fun s => coord n (X s) k j) t (coord n (X t) (S k) j).
