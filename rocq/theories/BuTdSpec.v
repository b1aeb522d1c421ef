(** Specification vocabulary for the bottom-up and top-down schemes.  Nothing
    here mentions a function of the model. *)
From Coq Require Import String.
From Coquelicot Require Import Coquelicot.
From Verif Require Import Prelude Poly PolyInterp Mat PsSpec.
Open Scope R_scope.
Open Scope vec_scope.
Open Scope list_scope.

Section Names.
Local Open Scope string_scope.
(** The schemes offered with the prefixes BU_ and TD_. *)
Definition bt_schemes : list string :=
  ["LG"; "JG"; "CG"; "LGR"; "JGR"; "CGR"; "LGR_inv"; "JGR_inv"; "CGR_inv"; "LGL"; "JGL"; "CGL"].
End Names.

(** State of a problem of order [M] whose configuration follows [P]: q, q', ...,
    q^(M-1) one after the other; and its time derivative. *)
Definition full_state (M : nat) (P : list (list R)) (t : R) : list R :=
  flat_map (fun k => rate_n_at k P t) (seq 0 M).
Definition full_rate (M : nat) (P : list (list R)) (t : R) : list R :=
  flat_map (fun k => rate_n_at (S k) P t) (seq 0 M).

(** The residual of dynamics of order [M] contains the equations "each block of
    the state is the derivative of the one before". *)
Definition residual_has_chain (nq M : nat) (dyn : list R -> list R -> list R -> list R -> list R) : Prop :=
  forall x x_d u lam, length x = (M * nq)%nat -> length x_d = (M * nq)%nat ->
    Forall (fun r => r = 0) (dyn x x_d u lam) -> firstn ((M - 1) * nq) x_d = skipn nq x.

(** [P], one polynomial of degree < [n] per coordinate, is a solution by
    collocation of a problem of order [M]: at all the times [ts] the rows of
    [x] are its state and the last [nq] entries of the rows of [x_d] its M-th
    derivative; at the collocation times [tc] the rows of [x_d] are the
    derivative of the state and the residual of the dynamics is zero. *)
Definition order_solution (dyn : list R -> list R -> list R -> list R -> list R)
  (n nq M : nat) (ts tc : list R) (x x_d u lam : mat) (P : list (list R)) : Prop :=
  length P = nq /\ Forall (fun c => (length c <= n)%nat) P /\
  (forall i, (i < length ts)%nat -> mrow i x = full_state M P (vnth ts i)) /\
  (forall i, (i < length ts)%nat -> lastn nq (mrow i x_d) = rate_n_at M P (vnth ts i)) /\
  (forall i k, (i < length ts)%nat -> (k < length tc)%nat -> vnth ts i = vnth tc k ->
     mrow i x_d = full_rate M P (vnth tc k)) /\
  (forall k, (k < length tc)%nat ->
     Forall (fun r => r = 0)
       (dyn (full_state M P (vnth tc k)) (full_rate M P (vnth tc k)) (mrow k u) (mrow k lam))).

(** The dynamic errors at time [t] of the trajectory [P]: entry [jj], [ii] is
    how far the derivative number [ii + jj + 1] of the coordinates is from what
    it should be.  The last one should be [f], the value predicted by the
    dynamics; the others agree for every trajectory. *)
Definition defects (M nq : nat) (P : list (list R)) (f : vec) (t : R) (errs : list (list vec)) : Prop :=
  length errs = M /\
  forall jj, (jj < M)%nat -> length (nth jj errs []) = (M - jj)%nat /\
    forall ii, (ii < M - jj)%nat ->
      nth ii (nth jj errs []) [] = if (ii + jj + 1 =? M)%nat then rate_n_at M P t -v f else repeat 0 nq.
