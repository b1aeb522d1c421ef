(** Specification vocabulary for the pseudospectral methods.  Nothing here
    mentions a function of the model, only the mathematical notions used in
    the statements. *)
From Coq Require Import String Sorting.Sorted.
From Coquelicot Require Import Coquelicot.
From Verif Require Import Prelude Poly PolyInterp Mat.
Open Scope R_scope.
Open Scope list_scope.

(** [rs] lists the real roots of the polynomial [c] in non-decreasing order,
    each as often as its multiplicity: [c] is the product of the (x - r) times
    a polynomial without real roots.  This is what sympy documents for
    [Poly.real_roots()]. *)
Definition roots_with_multiplicity (c rs : list R) : Prop :=
  StronglySorted Rle rs /\
  exists d, (forall x, peval d x <> 0) /\
            forall x, peval c x = peval (pfromroots rs) x * peval d x.

(** An oracle that returns those roots for every non-zero polynomial. *)
Definition real_roots_ok (real_roots : list R -> list R) : Prop :=
  forall c, (exists x, peval c x <> 0) -> roots_with_multiplicity c (real_roots c).

(** The families a scheme belongs to, by what the literature says of their
    collocation points: does the set contain tau = -1, does it contain tau = 1. *)
Section Names.
Local Open Scope string_scope.
Definition schemes_with_start : list string := ["LGR"; "JGR"; "CGR"; "LGL"; "JGL"; "CGL"; "D2"].
Definition schemes_with_end : list string := ["LGR_inv"; "JGR_inv"; "CGR_inv"; "LGL"; "JGL"; "CGL"; "D2"].
Definition all_schemes : list string :=
  ["LG"; "JG"; "CG"; "LG_inv"; "JG_inv"; "CG_inv"; "LG2"; "JG2"; "CG2"; "LGLm";
   "LGR"; "JGR"; "CGR"; "LGR_inv"; "JGR_inv"; "CGR_inv"; "LGL"; "JGL"; "CGL"; "D2"].
Definition lobatto_schemes : list string := ["LGL"; "JGL"; "CGL"; "D2"].
Definition gauss_schemes : list string := ["LG"; "JG"; "CG"].
Definition gauss_inv_schemes : list string := ["LG_inv"; "JG_inv"; "CG_inv"].
Definition second_order_schemes : list string := ["LG2"; "JG2"; "CG2"; "LGLm"; "D2"].
Definition jacobi_schemes : list string := ["JG"; "JG_inv"; "JG2"; "JGR"; "JGR_inv"; "JGL"].
(** The schemes other than LG, CG, LG_inv and CG_inv. *)
Definition not_extended : list string :=
  ["JG"; "JG_inv"; "LG2"; "JG2"; "CG2"; "LGLm"; "LGR"; "JGR"; "CGR"; "LGR_inv"; "JGR_inv"; "CGR_inv";
   "LGL"; "JGL"; "CGL"; "D2"].
End Names.

(** Smallest number of collocation points of a scheme: the Lobatto sets
    contain both ends. *)
Definition enough_points (scheme : string) (N : nat) : Prop :=
  (1 <= N)%nat /\ (In scheme lobatto_schemes -> (2 <= N)%nat).

(** A set of [n] collocation points: increasing, in [-1, 1], with -1 (1) in it
    exactly when [l] ([r]) is true. *)
Definition point_set (l r : Prop) (n : nat) (c : list R) : Prop :=
  length c = n /\ increasing c /\ Forall (fun x => -1 <= x <= 1) c /\
  (In (-1) c <-> l) /\ (In 1 c <-> r).

(** The polynomial in time that takes the values [ys] at the times [ts]: the
    coefficient list of the unique one of degree < length ts. *)
Definition time_poly (ts ys c : list R) : Prop := interpolates ts ys c.

(** State of a vector trajectory given by one polynomial per component, and
    its derivative. *)
Definition state_at (cs : list (list R)) (t : R) : list R := map (fun c => peval c t) cs.
Definition rate_at (cs : list (list R)) (t : R) : list R := map (fun c => Derive (peval c) t) cs.

(** The k-th derivative. *)
Definition rate_n_at (k : nat) (P : list (list R)) (t : R) : list R := map (fun c => Derive_n (peval c) k t) P.

(** [cs] is the polynomial trajectory through the rows of [X] at times [ts]:
    component [j] interpolates column [j]. *)
Definition traj_through (ts : list R) (X : mat) (cs : list (list R)) : Prop :=
  forall j, (j < length cs)%nat -> interpolates ts (mcol j X) (nth j cs []).

(** [P], one polynomial of degree < [n] per state component, is a collocation
    solution: at all the times [ts] its value is the row of [x] and its last
    [nq] derivatives are the row of [hi]; at the collocation times [tc] the
    residual of the dynamics is zero. *)
Definition collocation_solution (dyn : list R -> list R -> list R -> list R -> list R)
  (n nq : nat) (ts tc : list R) (x hi u lam : mat) (P : list (list R)) : Prop :=
  Forall (fun c => (length c <= n)%nat) P /\
  (forall i, (i < length ts)%nat -> mrow i x = state_at P (vnth ts i)) /\
  (forall i, (i < length ts)%nat -> mrow i hi = lastn nq (rate_at P (vnth ts i))) /\
  (forall k, (k < length tc)%nat ->
     Forall (fun r => r = 0)
       (dyn (state_at P (vnth tc k)) (rate_at P (vnth tc k)) (mrow k u) (mrow k lam))).

(** The residual of second order dynamics contains the equation "first half of
    the derivative = second half of the state". *)
Definition residual_has_velocity (nq : nat) (dyn : list R -> list R -> list R -> list R -> list R) : Prop :=
  forall x x_d u lam, length x = (2 * nq)%nat -> length x_d = (2 * nq)%nat ->
    Forall (fun r => r = 0) (dyn x x_d u lam) -> firstn nq x_d = skipn nq x.
