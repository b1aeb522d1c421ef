(** What inverse dynamics should give. *)
From Coq Require Import String.
From Coquelicot Require Import Coquelicot.
From Verif Require Import Prelude PwInterpModel SymModel LagrModel LagrSpec.
Open Scope R_scope.
Open Scope list_scope.

(** Evaluating an expression keeps its value and brings no new symbols. *)
Definition tidies (tidy : expr -> expr) : Prop :=
  forall e, (forall rho, eval rho (tidy e) = eval rho e) /\ incl (atoms (tidy e)) (atoms e).
(** The names in an expression that are not dynamic symbols. *)
Definition has_name (x : string) (e : expr) : Prop := In (Static x) (atoms e).
(** The values of the coordinates (k = 0), speeds, accelerations. *)
Definition values_of (s : lagrange) (k : nat) (rho : env) : vec := map (fun n => rho (Dyn n k)) (lg_qs s).
(** The only symbols are coordinates, speeds, accelerations and the names in ps. *)
Definition only_args (s : lagrange) (ps : list string) (e : expr) : Prop :=
  forall a, In a (atoms e) -> (exists x k, a = Dyn x k /\ In x (lg_qs s) /\ (k <= 2)%nat) \/ (exists x, a = Static x /\ In x ps).
(** What the constraint forces with multipliers l add to equation i. *)
Definition constraint_force (s : lagrange) (rho : env) (l : nat -> R) (i : nat) : R :=
  rsum (length (lg_coneqs s)) (fun k => l k * partial (fun r => eval r (nth k (lg_coneqs s) (Num 0))) (lg_q s 1 i) rho).
