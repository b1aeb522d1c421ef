(** Specification vocabulary for the costs.  Nothing here mentions a function
    of the model. *)
From Coquelicot Require Import Coquelicot.
From Verif Require Import Prelude Poly PolyInterp Mat.
Open Scope R_scope.
Open Scope list_scope.

(** Time of node [i] of [N] equal steps from [t0] to [tf]; the point a
    fraction [f] into step [i]. *)
Definition node_time (t0 tf : R) (N i : nat) : R := t0 + INR i * ((tf - t0) / INR N).
Definition step_time (t0 tf : R) (N i : nat) (f : R) : R :=
  t0 + (INR i + f) * ((tf - t0) / INR N).

(** [w] is, on each of the [N] equal steps, a polynomial with at most [d]
    coefficients. *)
Definition stepwise_poly (d : nat) (t0 tf : R) (N : nat) (w : R -> R) : Prop :=
  forall i, (i < N)%nat -> exists c, (length c <= d)%nat /\
    forall t, node_time t0 tf N i <= t <= node_time t0 tf N (S i) -> w t = peval c t.

(** The column [j] of [A] holds the values of [w] at the [N] + 1 nodes; the
    column [j] of [B] those a fraction [f] into each step.  [g] is applied to
    the entries first. *)
Definition at_nodes (g : R -> R) (t0 tf : R) (N : nat) (A : mat) (j : nat) (w : R -> R) : Prop :=
  forall i, (i <= N)%nat -> w (node_time t0 tf N i) = g (mget A i j).
Definition at_steps (g : R -> R) (f t0 tf : R) (N : nat) (B : mat) (j : nat) (w : R -> R) : Prop :=
  forall i, (i < N)%nat -> w (step_time t0 tf N i f) = g (mget B i j).

(** One polynomial in time per column of [A], with at most [d] coefficients,
    that takes the entries of the column (or their squares) at the times
    [ts]. *)
Definition cols_through (d : nat) (ts : list R) (squared : bool) (A : mat) (C : list (list R)) : Prop :=
  forall j, (j < length C)%nat -> (length (nth j C []) <= d)%nat /\
    forall i, (i < length ts)%nat ->
      peval (nth j C []) (vnth ts i) = (if squared then mget A i j ^ 2 else mget A i j).
