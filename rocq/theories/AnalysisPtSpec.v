(** Specification of the analysis functions of AnalysisPtModel.v. *)
From Coquelicot Require Import Coquelicot.
From Verif Require Import Prelude Mat PwInterpModel.
Open Scope R_scope.
Open Scope vec_scope.
Open Scope list_scope.

(** The dynamics of an implicit system M q'' = F: the velocities and the
    accelerations. *)
Definition solved_dynamics {P} (solve : mat -> vec -> vec) (M : vec -> P -> mat) (F_impl : vec -> vec -> P -> vec)
    (x u : vec) (p : P) : vec := skipn (length x / 2) x ++ solve (M x p) (F_impl x u p).

(** Controls interpolated between samples at distance h: the sample itself when
    it is close, the line between two samples otherwise. *)
Definition control_at (U : list vec) (h t : R) (u : vec) : Prop :=
  (exists i, (i < length U)%nat /\ Rabs (t - INR i * h) < h * snap /\ u = nth i U []) \/
  (exists i, (i + 1 < length U)%nat /\ INR i * h + h * snap <= t <= (INR i + 1) * h - h * snap /\
    u = (((INR i + 1) * h - t) *v nth i U [] +v (t - INR i * h) *v nth (i + 1) U []) /v h).

(** A quadrature without error *)
Definition quad_exact (quad : (R -> Res R) -> R -> R -> list R -> Res R) : Prop :=
  forall f g a b points, a <= b -> (forall t, a <= t <= b -> f t = Ok (g t)) -> ex_RInt g a b -> quad f a b points = Ok (RInt g a b).
(** A quadrature of a function that always raises, raises. *)
Definition quad_raises (quad : (R -> Res R) -> R -> R -> list R -> Res R) : Prop :=
  forall f a b points, (forall t, exists e, f t = Err e) -> exists e, quad f a b points = Err e.

(** q (with derivative qd) is an interpolation of the rows X with derivatives
    Xd, for all times. *)
Definition interpolates (ts : list R) (X Xd : list vec) (q qd : R -> vec) : Prop :=
  (forall k, (k < length X)%nat -> q (vnth ts k) = nth k X [] /\ qd (vnth ts k) = nth k Xd []) /\
  (forall t, length (q t) = mwidth X /\ length (qd t) = mwidth X) /\
  forall i t, is_derive (fun s => vnth (q s) i) t (vnth (qd t) i).
