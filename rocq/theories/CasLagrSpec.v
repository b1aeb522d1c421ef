(** The motions of a Lagrangian system with constraints. *)
From Coq Require Import String.
From Coquelicot Require Import Coquelicot.
From Verif Require Import Prelude SymModel SymSpec LagrModel LagrSpec.
Open Scope R_scope.
Open Scope list_scope.

(** The equations of motion with constraints at a time of a motion. *)
Definition constrained_motion (s : lagrange) (g : R -> atom -> R) (t : R) : Prop :=
  (forall i, (i < length (lg_qs s))%nat ->
     euler_lagrange (fun r => eval r (lg_L s)) (lg_qs s) i g t = eval (g t) (lg_forces s i) +
     rsum (length (lg_coneqs s)) (fun k => g t (lam k) * partial (fun r => eval r (nth k (lg_coneqs s) (Num 0))) (Dyn (nth i (lg_qs s) ""%string) 1) (g t))) /\
  (forall k, (k < length (lg_coneqs s))%nat -> is_derive (fun x => eval (g x) (nth k (lg_coneqs s) (Num 0))) t 0).
(** Lagrangian and constraints depend on coordinates and velocities, forces not
    on accelerations, and they have derivatives along the motion. *)
Definition regular (s : lagrange) (g : R -> atom -> R) : Prop :=
  up_to 1 (lg_L s) /\ (forall i, (i < length (lg_qs s))%nat -> no_acc (lg_qs s) (lg_forces s i)) /\
  (forall k, (k < length (lg_coneqs s))%nat -> up_to 1 (nth k (lg_coneqs s) (Num 0))) /\
  motion g /\ (forall x, smooth_at (g x) (lg_L s)) /\
  (forall x k, (k < length (lg_coneqs s))%nat -> smooth_at (g x) (nth k (lg_coneqs s) (Num 0))).

