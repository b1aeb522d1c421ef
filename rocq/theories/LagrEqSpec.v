(** Lagrange's equations with time, and what is asked of sympy's simplify. *)
From Coq Require Import String.
From Coquelicot Require Import Coquelicot.
From Verif Require Import Prelude PwInterpModel SymModel LagrModel LagrSpec.
Open Scope R_scope.
Open Scope list_scope.

(** A motion: each dynamic symbol is a function of time and its derivatives are
    its derivatives; the symbol t is time and other symbols are constant. *)
Definition timed_motion (g : R -> env) : Prop :=
  (forall n k t, is_derive (fun s => g s (Dyn n k)) t (g t (Dyn n (S k)))) /\
  (forall n t t', n <> "t"%string -> g t (Static n) = g t' (Static n)) /\
  (forall t, g t (Static "t") = t).
(** d/dt (dL/dq') - dL/dq along a motion, for the coordinate q = Dyn n k *)
Definition lagrange_value (L : env -> R) (n : string) (k : nat) (g : R -> env) (t : R) : R :=
  Derive (fun s => partial L (Dyn n (S k)) (g s)) t - partial L (Dyn n k) (g t).
(** Expressions are changed without changing their values on D; no symbols
    appear, and none goes into a function. *)
Definition keeps_values (D : env -> Prop) (f : expr -> expr) : Prop := forall e, smooth_on D e ->
  smooth_on D (f e) /\ (forall rho, D rho -> eval rho (f e) = eval rho e) /\
  (forall a, In a (atoms (f e)) -> In a (atoms e)) /\ (forall a, outside a e -> outside a (f e)).
(** ** The coordinates q_0, ..., q_(n-1) *)
Definition q_name (i : nat) : string := ("q_" ++ str_nat i)%string.
(** Only these coordinates, their velocities, time and constants, that are not
    called a_0, ..., a_(n-1). *)
Definition of_state (n : nat) (e : expr) : Prop := forall a, In a (atoms e) ->
  (exists s, a = Static s /\ forall j, (j < n)%nat -> a <> a_symb j) \/
  (exists i k, (i < n)%nat /\ (k <= 1)%nat /\ a = Dyn (q_name i) k).
(** The set D depends only on the values of the symbols [l]. *)
Definition depends_on (l : list atom) (D : env -> Prop) : Prop :=
  forall rho rho', (forall a, In a l -> rho a = rho' a) -> D rho -> D rho'.
