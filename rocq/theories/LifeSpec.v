(** Vocabulary for statements about sequences of method calls. *)
From Verif Require Import Prelude DispatchModel LifeModel.
Open Scope list_scope.

(** The methods a kind of problem offers (with at least one repetition for
    chrono_solve). *)
Definition offered (c : sch_class) (m : method) : bool :=
  match m with
  | M_trapz_cost _ => match c with Equispaced => false | _ => true end
  | M_sq_cost _ => match c with Equispaced => true | _ => false end
  | M_chrono_solve n => negb (n =? 0)%nat
  | _ => true
  end.
Definition sets_cost (m : method) : bool :=
  match m with M_u_sq_cost | M_quad_cost _ | M_trapz_cost _ | M_sq_cost _ => true | _ => false end.
Definition solves (m : method) : bool :=
  match m with M_simple_solve | M_chrono_solve _ => true | _ => false end.
Definition is_dynamic_setup (m : method) : bool := match m with M_dynamic_setup _ => true | _ => false end.
Definition is_opti_setup (m : method) : bool := match m with M_opti_setup _ => true | _ => false end.

(** In [ms] a cost is chosen before every solve. *)
Fixpoint cost_before_solve (chosen : bool) (ms : list method) : bool :=
  match ms with
  | [] => true
  | m :: r => (negb (solves m) || chosen) && cost_before_solve (chosen || sets_cost m) r
  end.

(** The calls [ms] on problem [i], not stopped by anything. *)
Definition calls_on (i : nat) (ms : list method) : list call := map (fun m => Build_call i m None) ms.

(** The history has no call of a method [f] on problem [i]. *)
Definition without (f : method -> bool) (i : nat) (h : list call) : Prop :=
  Forall (fun c => c_problem c = i -> f (c_method c) = false) h.

(** [w] with problem [i] replaced by a new problem. *)
Definition with_new_problem (w : world) (i : nat) : world :=
  {| w_attrs := fun j => if Nat.eqb i j then new_attrs else w_attrs w j; w_lm := w_lm w |}.

(** The methods the class really has working: the trapz_cost of several
    segments is left out (see C37_multi_trapz_refuted). *)
Definition really_offered (c : sch_class) (m : method) : bool :=
  offered c m && match m, c with M_trapz_cost _, multi_pseudospectral => false | _, _ => true end.

(** The methods that check for opti_setup. *)
Definition needs_opti_setup (c : sch_class) (m : method) : bool :=
  match m with
  | M_apply_scheme | M_initial_guess _ | M_simple_solve => true
  | M_chrono_solve n => negb (n =? 0)%nat
  | M_u_sq_cost => match c with Pseudospectral => false | _ => true end
  | _ => false
  end.

(** Dynamics from a LagrangesMethod object, which problems may share. *)
Definition symbolic (c : option dyn_class) : Prop := c = Some Explicit_Dynamics \/ c = Some Implicit_Dynamics.
