(** What a Hermite interpolation is.  Nothing here mentions a function of the
    model. *)
From Coquelicot Require Import Coquelicot.
From Verif Require Import Prelude Poly Mat PolyInterp PsSpec.
Open Scope R_scope.
Open Scope list_scope.

(** [Ps]: on each interval between consecutive times of [ts], for each
    component, the cubic with the values [ys] and the derivatives [ds] at both
    ends. *)
Definition hermite_cubics (ts : vec) (ys ds : mat) (Ps : list (list (list R))) : Prop :=
  length Ps = (length ts - 1)%nat /\
  forall i, (i + 1 < length ts)%nat ->
    Forall (fun c => (length c <= 4)%nat) (nth i Ps []) /\
    state_at (nth i Ps []) (vnth ts i) = mrow i ys /\
    state_at (nth i Ps []) (vnth ts (i + 1)) = mrow (i + 1) ys /\
    rate_n_at 1 (nth i Ps []) (vnth ts i) = mrow i ds /\
    rate_n_at 1 (nth i Ps []) (vnth ts (i + 1)) = mrow (i + 1) ds.

(** [X k] is the derivative number [k] of the curve made of the cubics [Ps]. At
    a time of [ts] the cubic to the right is taken, but at the last one. *)
Definition follows_cubics (ts : vec) (Ps : list (list (list R))) (X : nat -> R -> vec) : Prop :=
  forall k i t, (i + 1 < length ts)%nat -> vnth ts i <= t -> t <= vnth ts (i + 1) ->
    (t < vnth ts (i + 1) \/ (i + 2 = length ts)%nat) -> X k t = rate_n_at k (nth i Ps []) t.

(** The curve [X], with derivative [X'], goes through the values with the
    given derivatives, without jumps or kinks. *)
Definition smooth_through (ts : vec) (ys ds : mat) (m : nat) (X X' : R -> vec) : Prop :=
  (forall i, (i < length ts)%nat -> X (vnth ts i) = mrow i ys /\ X' (vnth ts i) = mrow i ds) /\
  (forall t j, (j < m)%nat -> is_derive (fun s => vnth (X s) j) t (vnth (X' t) j)) /\
  (forall t j, (j < m)%nat -> continuous (fun s => vnth (X' s) j) t).
