(** Property C38: the constraints of an equispaced problem.  Only statements.
    [M] is the order, [n] the number of coordinates, [N] the number of
    intervals, [v] any values of the optimisation variables, [dyn] any function
    giving the residual of the dynamics.  The vocabulary is in EquiSpec and PwSpec. *)
From Coq Require Import String.
From Verif Require Import Prelude Mat Poly PwSpec CostModel EquiModel EquiSpec EquiProofs EquiMoreProofs EquiThirdProofs EquiExamples DispatchModel DispatchSpec.
Open Scope string_scope.
Open Scope list_scope.
Open Scope R_scope.

(** The first order trapezoidal scheme on the whole state. *)
Theorem C38_trapz :
  forall dyn M n n_u N t_start t_end p v, (0 < M)%nat -> (0 < n)%nat -> (0 < N)%nat -> t_start <> t_end -> eq_sizes M n n_u N v -> kinematic M n dyn p ->
  exists cs, eq_apply_scheme dyn "trapz" M n N t_start t_end p v = Ok cs /\
  (rows_satisfied cs <-> at_nodes dyn N p v /\
   steps_trapz 1 (M * n) N ((t_end - t_start) / INR N) v).
Proof. exact (eq_trapz). Qed.
Print Assumptions C38_trapz.

Theorem C38_trapz_n :
  forall dyn M n n_u N t_start t_end p v, (0 < M)%nat -> (0 < n)%nat -> (0 < N)%nat -> t_start <> t_end -> eq_sizes M n n_u N v ->
  exists cs, eq_apply_scheme dyn "trapz_n" M n N t_start t_end p v = Ok cs /\
  (rows_satisfied cs <-> at_nodes dyn N p v /\
   steps_trapz M n N ((t_end - t_start) / INR N) v).
Proof. exact (eq_trapz_n). Qed.
Print Assumptions C38_trapz_n.

(** Order 2 only: the scheme is offered for other orders too. *)
Theorem C38_trapz_mod_partial :
  forall dyn M n n_u N t_start t_end p v, (0 < M)%nat -> (0 < n)%nat -> (0 < N)%nat -> t_start <> t_end -> eq_sizes M n n_u N v -> M = 2%nat ->
  exists cs, eq_apply_scheme dyn "trapz_mod" M n N t_start t_end p v = Ok cs /\
  (rows_satisfied cs <-> at_nodes dyn N p v /\
   steps_trapz M n N ((t_end - t_start) / INR N) v).
Proof. exact (eq_trapz_mod). Qed.
Print Assumptions C38_trapz_mod_partial.

(** The first order Hermite-Simpson schemes on the whole state. *)
Theorem C38_hs :
  forall dyn M n n_u N t_start t_end p v, (0 < M)%nat -> (0 < n)%nat -> (0 < N)%nat -> t_start <> t_end -> eq_sizes M n n_u N v -> kinematic M n dyn p ->
  forall scheme, scheme = "hs" \/ scheme = "hs_parab" ->
  exists cs, eq_apply_scheme dyn scheme M n N t_start t_end p v = Ok cs /\
  (rows_satisfied cs <-> at_nodes dyn N p v /\
   at_middles dyn N p v /\ steps_hs 1 (M * n) N ((t_end - t_start) / INR N) v /\
   (scheme = "hs" -> affine_controls (1 / 2) n_u N v)).
Proof. exact (eq_hs). Qed.
Print Assumptions C38_hs.

Theorem C38_hsn :
  forall dyn M n n_u N t_start t_end p v, (0 < M)%nat -> (0 < n)%nat -> (0 < N)%nat -> t_start <> t_end -> eq_sizes M n n_u N v ->
  forall scheme, scheme = "hsn" \/ scheme = "hsn_parab" ->
  exists cs, eq_apply_scheme dyn scheme M n N t_start t_end p v = Ok cs /\
  (rows_satisfied cs <-> at_nodes dyn N p v /\
   at_middles dyn N p v /\ steps_hs M n N ((t_end - t_start) / INR N) v /\
   (scheme = "hsn" -> affine_controls (1 / 2) n_u N v)).
Proof. exact (eq_hsn). Qed.
Print Assumptions C38_hsn.

Theorem C38_hs_mod_partial :
  forall dyn M n n_u N t_start t_end p v, (0 < M)%nat -> (0 < n)%nat -> (0 < N)%nat -> t_start <> t_end -> eq_sizes M n n_u N v ->
  forall scheme, M = 2%nat -> scheme = "hs_mod" \/ scheme = "hs_mod_parab" ->
  exists cs, eq_apply_scheme dyn scheme M n N t_start t_end p v = Ok cs /\
  (rows_satisfied cs <-> at_nodes dyn N p v /\
   at_middles dyn N p v /\ steps_hs M n N ((t_end - t_start) / INR N) v /\
   (scheme = "hs_mod" -> affine_controls (1 / 2) n_u N v)).
Proof. exact (eq_hs_mod). Qed.
Print Assumptions C38_hs_mod_partial.

Theorem C38_hsj_partial :
  forall dyn M n n_u N t_start t_end p v, (0 < M)%nat -> (0 < n)%nat -> (0 < N)%nat -> t_start <> t_end -> eq_sizes M n n_u N v ->
  forall scheme, M = 2%nat -> scheme = "hsj" \/ scheme = "hsj_parab" \/ scheme = "hsj_parab_mod" ->
  exists cs, eq_apply_scheme dyn scheme M n N t_start t_end p v = Ok cs /\
  (rows_satisfied cs <-> at_nodes dyn N p v /\
   at_middles dyn N p v /\ steps_hsj n N ((t_end - t_start) / INR N) v /\
   (scheme = "hsj" -> affine_controls (2 / 5) n_u N v)).
Proof. exact (eq_hsj). Qed.
Print Assumptions C38_hsj_partial.

(** With a system of third order these schemes ask for a constant velocity, ... *)
Theorem C38_third_order :
  forall dyn n_u N t_start t_end p v, (0 < N)%nat -> eq_sizes 3 1 n_u N v -> forall scheme, In scheme second_order_schemes ->
  exists cs, eq_apply_scheme dyn scheme 3 1 N t_start t_end p v = Ok cs /\
  (rows_satisfied cs -> forall i, (i < N)%nat -> coord 1 (mrow (i + 1) (ev_x v)) 1 0 = coord 1 (mrow i (ev_x v)) 1 0).
Proof. exact frozen. Qed.
Print Assumptions C38_third_order.

(** ... and refuse the motion t^2 / 2 of a system without jerk. *)
Theorem C38_second_order_refuted :
  forall scheme, In scheme second_order_schemes ->
  exists v cs c tau, eq_sizes 3 1 1 1 v /\ kinematic 3 1 no_jerk [] /\ at_nodes no_jerk 1 [] v /\ at_middles no_jerk 1 [] v /\
  affine_controls tau 1 1 v /\ (forall t, D 3 c t = 0) /\
  passes_at 3 1 c 0 (mrow 0 (ev_x v)) 0 /\ passes_at 3 1 c tau (mrow 0 (ev_x_c v)) 0 /\ passes_at 3 1 c 1 (mrow 1 (ev_x v)) 0 /\
  tau = (if sub_in "j" scheme then 2 / 5 else 1 / 2) /\
  eq_apply_scheme no_jerk scheme 3 1 1 0 1 [] v = Ok cs /\ ~ rows_satisfied cs.
Proof. exact third_refuted. Qed.
Print Assumptions C38_second_order_refuted.

Theorem C38_node_times :
  forall t_start t_end N, (0 < N)%nat ->
  length (eq_t_arr t_start t_end N) = (N + 1)%nat /\
  vnth (eq_t_arr t_start t_end N) 0 = t_start /\ vnth (eq_t_arr t_start t_end N) N = t_end /\
  forall i, (i < N)%nat -> vnth (eq_t_arr t_start t_end N) (i + 1) = vnth (eq_t_arr t_start t_end N) i + (t_end - t_start) / INR N.
Proof. exact (t_arr_nodes). Qed.
Print Assumptions C38_node_times.

Theorem C38_middle_times :
  forall scheme t_start t_end N, (0 < N)%nat ->
  length (eq_t_c_arr scheme (eq_t_arr t_start t_end N)) = N /\
  forall i, (i < N)%nat -> vnth (eq_t_c_arr scheme (eq_t_arr t_start t_end N)) i =
    vnth (eq_t_arr t_start t_end N) i + (if sub_in "j" scheme then 2 / 5 else 1 / 2) * ((t_end - t_start) / INR N).
Proof. exact (t_c_nodes). Qed.
Print Assumptions C38_middle_times.

(** The name euler is accepted, but its problems cannot apply the scheme. *)
Theorem C36_C38_euler_refuted :
  forall LM g, In g guess_names -> (exists pr, Opti_Problem LM "euler" g = Ok pr /\ op_sch pr = Equispaced) /\
  forall dyn M n N t_start t_end p v, eq_apply_scheme dyn "euler" M n N t_start t_end p v = Err KeyError.
Proof. exact (eq_euler). Qed.
Print Assumptions C36_C38_euler_refuted.

Example C38_hypotheses :
  eq_sizes 2 1 1 2 mass_values /\ kinematic 2 1 mass_dyn [] /\
  exists cs, eq_apply_scheme mass_dyn "hs" 2 1 2 0 2 [] mass_values = Ok cs /\ rows_satisfied cs /\ (8 <= length cs)%nat.
Proof. exact (conj mass_sizes (conj mass_kinematic mass_hs)). Qed.
