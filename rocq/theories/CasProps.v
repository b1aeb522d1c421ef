(** Properties C79 to C86: numeric functions made from symbolic dynamics.  Only
    statements. *)
From Coq Require Import Reals List String.
From Verif Require Import Prelude Mat SymModel SymSpec LagrModel LagrSpec PwModel FuncDynModel FuncDynSpec CasModel CasSpec CasLagrSpec NumSymModel NumpyModel PendModel PendSpec CasRhsProofs CasNameProofs CasDynProofs CasResProofs CasImplProofs CasSetupProofs NumSymProofs CasToolProofs CasLagrProofs PendProofs CasExamples CasExamples2 LagrExamples CasCacheModel CasCacheProofs.
Import ListNotations.
Open Scope R_scope.
Open Scope list_scope.

(** ** C79: casadi functions of right-hand sides *)

(** Coordinates of any names that standard_notation keeps: where the coordinates, velocities, controls and parameters have the values sigma, the functions of both modes give the velocities and the values of the right-hand sides. *)
Theorem C79_value :
  forall dyn_order sym_order, iterates dyn_order sym_order -> forall RHS names U r f g, Forall standard_name names -> length RHS = length names ->
  CasModel.arguments_of dyn_order sym_order RHS (Q_list (coords 0 names)) U false false = Ok r ->
  rhs_to_casadi_function dyn_order sym_order RHS (Q_list (coords 0 names)) U "x" = Ok f -> rhs_to_casadi_function dyn_order sym_order RHS (Q_list (coords 0 names)) U "q" = Ok g ->
  forall sigma val, (forall a, In a (coords 0 names ++ coords 1 names ++ symbols_in RHS) -> val (called a) = sigma a) ->
  cas_call f [map sigma (coords 0 names ++ coords 1 names); map val (r_u r); map (fun s => val (Static s)) (r_params r)] =
    Ok (map sigma (coords 1 names) ++ map (SymModel.eval sigma) RHS) /\
  cas_call g [map sigma (coords 0 names); map sigma (coords 1 names); map val (r_u r); map (fun s => val (Static s)) (r_params r)] =
    Ok (map (SymModel.eval sigma) RHS).
Proof. exact (to_casadi_motion). Qed.
Print Assumptions C79_value.

(** Coordinates given in any way: the value in terms of the symbols that the functions take. *)
Theorem C79_any_x :
  forall dyn_order sym_order, iterates dyn_order sym_order -> forall RHS Q U r f, CasModel.arguments_of dyn_order sym_order RHS Q U false false = Ok r -> rhs_to_casadi_function dyn_order sym_order RHS Q U "x" = Ok f ->
  forall val, cas_call f [map val (r_q r ++ r_v r); map val (r_u r); map (fun s => val (Static s)) (r_params r)] =
  Ok ((if (length (r_q r) =? length RHS)%nat then map val (r_v r) else []) ++ map (value val) RHS).
Proof. exact (to_casadi_x). Qed.
Print Assumptions C79_any_x.

Theorem C79_any_q :
  forall dyn_order sym_order, iterates dyn_order sym_order -> forall RHS Q U r f, CasModel.arguments_of dyn_order sym_order RHS Q U false false = Ok r -> rhs_to_casadi_function dyn_order sym_order RHS Q U "q" = Ok f ->
  forall val, cas_call f [map val (r_q r); map val (r_v r); map val (r_u r); map (fun s => val (Static s)) (r_params r)] =
  Ok (map (value val) (if (length (r_q r) =? length RHS)%nat then RHS else skipn (length (r_q r)) RHS)).
Proof. exact (to_casadi_q). Qed.
Print Assumptions C79_any_q.

(** Every argument of these sizes is of that form, *)
Theorem C79_every_argument :
  forall dyn_order sym_order, iterates dyn_order sym_order -> forall RHS Q U mode r f (x u p : vec), RHS <> [] -> CasModel.arguments_of dyn_order sym_order RHS Q U false false = Ok r -> rhs_to_casadi_function dyn_order sym_order RHS Q U mode = Ok f ->
  length x = (2 * length (r_q r))%nat -> length u = length (r_u r) -> length p = length (r_params r) ->
  exists val, x = map val (r_q r ++ r_v r) /\ u = map val (r_u r) /\ p = map (fun s => val (Static s)) (r_params r).
Proof. exact (every_argument). Qed.
Print Assumptions C79_every_argument.

(** and arguments of other sizes are refused. *)
Theorem C79_sizes :
  forall dyn_order sym_order, iterates dyn_order sym_order -> forall RHS Q U r f g, CasModel.arguments_of dyn_order sym_order RHS Q U false false = Ok r -> rhs_to_casadi_function dyn_order sym_order RHS Q U "x" = Ok f -> rhs_to_casadi_function dyn_order sym_order RHS Q U "q" = Ok g ->
  (forall args, map (@length R) args <> [(2 * length (r_q r))%nat; length (r_u r); length (r_params r)] -> cas_call f args = Err RuntimeError) /\
  (forall args, map (@length R) args <> [length (r_q r); length (r_q r); length (r_u r); length (r_params r)] -> cas_call g args = Err RuntimeError).
Proof. exact (fun d s IT RHS Q U r f g Hr Hf Hg => conj (fun args N => cas_sizes f args (eq_ind_r (fun z => map (@length R) args <> z) N (sizes_x d s IT RHS Q U r f Hr Hf))) (fun args N => cas_sizes g args (eq_ind_r (fun z => map (@length R) args <> z) N (sizes_q d s IT RHS Q U r g Hr Hg)))). Qed.
Print Assumptions C79_sizes.

(** What is accepted. *)
Theorem C79_accepted :
  forall dyn_order sym_order, iterates dyn_order sym_order -> forall RHS Q U mode r, RHS <> [] -> CasModel.arguments_of dyn_order sym_order RHS Q U false false = Ok r ->
  ((exists f, rhs_to_casadi_function dyn_order sym_order RHS Q U mode = Ok f) <->
   (mode = "x" \/ mode = "q")%string /\
   (length RHS = length (r_q r) \/ length RHS = 2 * length (r_q r))%nat /\
   NoDup (r_q r ++ r_v r ++ r_u r ++ map Static (r_params r))).
Proof. exact (to_casadi_iff). Qed.
Print Assumptions C79_accepted.

(** In particular coordinates given by their number, *)
Theorem C79_accepted_numbered :
  forall dyn_order sym_order, iterates dyn_order sym_order -> forall RHS n U mode, standard_controls U -> RHS <> [] -> can_be_called RHS ->
  (length RHS = n \/ length RHS = 2 * n)%nat -> (mode = "x" \/ mode = "q")%string -> exists f, rhs_to_casadi_function dyn_order sym_order RHS (Q_int n) U mode = Ok f.
Proof. exact (to_casadi_numbered). Qed.
Print Assumptions C79_accepted_numbered.

(** and those given by a list of symbols with clean names. *)
Theorem C79_accepted_named :
  forall dyn_order sym_order, iterates dyn_order sym_order -> forall RHS names U mode, standard_controls U -> RHS <> [] -> can_be_called RHS ->
  NoDup names -> Forall clean_name names -> (forall i, ~ In ("u_" ++ str_nat i)%string names) ->
  (length RHS = length names \/ length RHS = 2 * length names)%nat -> (mode = "x" \/ mode = "q")%string ->
  exists f, rhs_to_casadi_function dyn_order sym_order RHS (Q_list (coords 0 names)) U mode = Ok f.
Proof. exact (to_casadi_named). Qed.
Print Assumptions C79_accepted_named.

(** Coordinates called q1, q2, ...: the functions do not depend on them. *)
Theorem C79_short_names_refuted :
  forall dyn_order sym_order, iterates dyn_order sym_order -> forall RHS names U f, RHS <> [] -> length RHS = length names -> Forall short_name names -> standard_controls U ->
  rhs_to_casadi_function dyn_order sym_order RHS (Q_list (coords 0 names)) U "q" = Ok f ->
  forall q q' v v' u p, length q = length names -> length q' = length names -> length v = length names -> length v' = length names ->
  cas_call f [q; v; u; p] = cas_call f [q'; v'; u; p].
Proof. exact (short_names_ignored). Qed.
Print Assumptions C79_short_names_refuted.

(** Controls given as dynamic symbols: the functions do not depend on them. *)
Theorem C79_dynamic_controls_refuted :
  forall dyn_order sym_order, iterates dyn_order sym_order -> forall RHS Q names f, RHS <> [] -> rhs_to_casadi_function dyn_order sym_order RHS Q (U_list (coords 0 names)) "x" = Ok f ->
  forall x u u' p, length u = length u' -> cas_call f [x; u; p] = cas_call f [x; u'; p].
Proof. exact (dynamic_controls_ignored). Qed.
Print Assumptions C79_dynamic_controls_refuted.

Example C79_orders :
  iterates dyns plain.
Proof. exact (orders_ok). Qed.

Example C79_pendulum :
  exists f, rhs_to_casadi_function dyns plain pend_rhs (Q_list (coords 0 ["theta"%string])) (U_int 1) "x" = Ok f /\
  forall a v u g, cas_call f [[a; v]; [u]; [g]] = Ok [v; u + -1 * (g * a)].
Proof. exact (pend_x). Qed.

Example C79_pendulum_hypotheses :
  pend_rhs <> [] /\ can_be_called pend_rhs /\ Forall standard_name ["theta"%string] /\ Forall clean_name ["theta"%string] /\ NoDup ["theta"%string] /\
  (forall i, ~ In ("u_" ++ str_nat i)%string ["theta"%string]) /\ (forall i, ~ In (x_name i) ["theta"%string]) /\ standard_controls (U_int 1).
Proof. exact (pend_hyps). Qed.

Example C79_short_example :
  exists f, rhs_to_casadi_function dyns plain short_rhs (Q_list (coords 0 ["q1"%string])) U_none "q" = Ok f /\
  forall a v u g q_1, cas_call f [[a]; [v]; [u]; [g; q_1]] = Ok [u + -1 * (g * q_1)].
Proof. exact (short_fun). Qed.

Example C79_dynamic_example :
  exists f, rhs_to_casadi_function dyns plain rhs_F (Q_list (coords 0 ["theta"%string])) (U_list (coords 0 ["F"%string])) "x" = Ok f /\
  forall a v u F r, cas_call f [[a; v]; [u]; [F; r]] = Ok [v; r * F].
Proof. exact (dynamic_F). Qed.

(** ** C80: residuals of explicit dynamics *)

(** Each of the three residuals vanishes exactly where the accelerations are the values of the right-hand sides. *)
Theorem C80_motion :
  forall dyn_order sym_order, iterates dyn_order sym_order -> forall RHS names U r d, names <> [] -> Forall standard_name names -> length RHS = length names ->
  CasModel.arguments_of dyn_order sym_order RHS (Q_list (coords 0 names)) U false false = Ok r -> get_f_g_funcs dyn_order sym_order RHS (V_list (coords 0 names)) U = Ok d ->
  forall sigma val, (forall a, In a (coords 0 names ++ coords 1 names ++ symbols_in RHS) -> val (called a) = sigma a) ->
  let u := map val (r_u r) in let p := map (fun s => val (Static s)) (r_params r) in
  let solves := map sigma (coords 2 names) = map (SymModel.eval sigma) RHS in
  (holds (dynam_f_x d (map sigma (coords 0 names ++ coords 1 names)) (map sigma (coords 1 names ++ coords 2 names)) u [] p) <-> solves) /\
  (holds (dynam_g_x d (map sigma (coords 0 names ++ coords 1 names)) (map sigma (coords 1 names ++ coords 2 names)) u [] p) <-> solves) /\
  (holds (dynam_g_q d (map sigma (coords 0 names)) (map sigma (coords 1 names)) (map sigma (coords 2 names)) u [] p) <-> solves).
Proof. exact (residuals_motion). Qed.
Print Assumptions C80_motion.

(** Coordinates given in any way, right-hand sides of first or second order. *)
Theorem C80_any :
  forall dyn_order sym_order, iterates dyn_order sym_order -> forall RHS Qv U r d, RHS <> [] -> CasModel.arguments_of dyn_order sym_order RHS (as_qvars Qv) U false false = Ok r -> get_f_g_funcs dyn_order sym_order RHS Qv U = Ok d ->
  let n := length (r_q r) in
  res_n_u d = length (r_u r) /\ res_n_lambdas d = 0%nat /\
  forall val xd a, length xd = (2 * n)%nat -> length a = n ->
  let rhs := map (value val) RHS in let u := map val (r_u r) in let p := map (fun s => val (Static s)) (r_params r) in
  (holds (dynam_f_x d (map val (r_q r ++ r_v r)) xd u [] p) <-> xd = first_order n (map val (r_v r)) rhs) /\
  (holds (dynam_g_x d (map val (r_q r ++ r_v r)) xd u [] p) <-> skipn n xd = second_half n rhs) /\
  (holds (dynam_g_q d (map val (r_q r)) (map val (r_v r)) a u [] p) <-> a = second_half n rhs).
Proof. exact (residuals_ok). Qed.
Print Assumptions C80_any.

(** What is accepted. *)
Theorem C80_accepted :
  forall dyn_order sym_order, iterates dyn_order sym_order -> forall RHS Qv U r, RHS <> [] -> CasModel.arguments_of dyn_order sym_order RHS (as_qvars Qv) U false false = Ok r ->
  ((exists d, get_f_g_funcs dyn_order sym_order RHS Qv U = Ok d) <->
   (length RHS = length (r_q r) \/ length RHS = 2 * length (r_q r))%nat /\ NoDup (r_q r ++ r_v r ++ r_u r ++ map Static (r_params r))).
Proof. exact (residuals_iff). Qed.
Print Assumptions C80_accepted.

(** A tuple of coordinates, counted as one, is refused. *)
Theorem C80_tuple_refuted :
  forall dyn_order sym_order, iterates dyn_order sym_order -> forall RHS l U, exists e, get_f_g_funcs dyn_order sym_order RHS (V_tuple l) U = Err e.
Proof. exact (tuple_refused). Qed.
Print Assumptions C80_tuple_refuted.

(** dynamic_setup of an explicit problem. *)
Theorem C80_setup :
  forall dyn_order sym_order, iterates dyn_order sym_order -> forall names RHS U s, names <> [] -> Forall standard_name names -> length RHS = length names ->
  explicit_setup dyn_order sym_order (coords 0 names) RHS U = Ok s ->
  exists r, CasModel.arguments_of dyn_order sym_order RHS (Q_list (coords 0 names)) U false false = Ok r /\
  su_n_q s = length names /\ su_n_u s = length (r_u r) /\ su_n_lambdas s = 0%nat /\ su_params_sym s = r_params r /\
  forall sigma val, (forall a, In a (coords 0 names ++ coords 1 names ++ symbols_in RHS) -> val (called a) = sigma a) ->
  let u := map val (r_u r) in let p := map (fun s => val (Static s)) (su_params_sym s) in
  let solves := map sigma (coords 2 names) = map (SymModel.eval sigma) RHS in
  (holds (su_f s (map sigma (coords 0 names ++ coords 1 names)) (map sigma (coords 1 names ++ coords 2 names)) u [] p) <-> solves) /\
  (holds (su_g s (map sigma (coords 0 names)) (map sigma (coords 1 names)) (map sigma (coords 2 names)) u [] p) <-> solves).
Proof. exact (explicit_setup_ok). Qed.
Print Assumptions C80_setup.

Theorem C80_setup_accepted :
  forall dyn_order sym_order, iterates dyn_order sym_order -> forall names RHS U, standard_controls U -> RHS <> [] -> can_be_called RHS -> length RHS = length names ->
  NoDup names -> Forall clean_name names -> (forall i, ~ In ("u_" ++ str_nat i)%string names) ->
  exists s, explicit_setup dyn_order sym_order (coords 0 names) RHS U = Ok s.
Proof. exact (explicit_setup_clean). Qed.
Print Assumptions C80_setup_accepted.

Example C80_pendulum :
  exists s, explicit_setup dyns plain (coords 0 ["theta"%string]) pend_rhs (U_int 1) = Ok s /\
  su_n_q s = 1%nat /\ su_n_u s = 1%nat /\ su_n_lambdas s = 0%nat /\ su_params_sym s = ["g"%string] /\
  forall a v v' w u g, su_f s [a; v] [v'; w] [u] [] [g] = Ok [v' - v; w - (u + -1 * (g * a))].
Proof. exact (pend_setup). Qed.

(** ** C81: functions of implicit dynamics *)

(** The values of the expressions, from coordinates, velocities and accelerations; *)
Theorem C81_q :
  forall dyn_order sym_order, iterates dyn_order sym_order -> forall D names U r f, Forall standard_name names -> CasModel.arguments_of dyn_order sym_order D (Q_list (coords 0 names)) U true true = Ok r ->
  implicit_dynamic_q_to_casadi_function dyn_order sym_order D (Q_list (coords 0 names)) U = Ok f ->
  forall sigma val, (forall a, In a (coords 0 names ++ coords 1 names ++ coords 2 names ++ symbols_in D) -> val (called a) = sigma a) ->
  cas_call f [map sigma (coords 0 names); map sigma (coords 1 names); map sigma (coords 2 names); map val (r_u r);
              map (fun s => val (Static s)) (r_lambdas r); map (fun s => val (Static s)) (r_params r)] = Ok (map (SymModel.eval sigma) D).
Proof. exact (impl_q_motion). Qed.
Print Assumptions C81_q.

(** from states and their derivatives. *)
Theorem C81_x :
  forall dyn_order sym_order, iterates dyn_order sym_order -> forall D names U r f, Forall standard_name names -> CasModel.arguments_of dyn_order sym_order D (Q_list (coords 0 names)) U true false = Ok r ->
  implicit_dynamic_x_to_casadi_function dyn_order sym_order D (Q_list (coords 0 names)) U = Ok f ->
  forall sigma val, (forall a, In a (coords 0 names ++ coords 1 names ++ symbols_in D) -> val (called a) = sigma a) ->
  cas_call f [map sigma (coords 0 names); map sigma (coords 1 names); map val (r_u r);
              map (fun s => val (Static s)) (r_lambdas r); map (fun s => val (Static s)) (r_params r)] = Ok (map (SymModel.eval sigma) D).
Proof. exact (impl_x_motion). Qed.
Print Assumptions C81_x.

Theorem C81_any_q :
  forall dyn_order sym_order, iterates dyn_order sym_order -> forall D Q U vars r f, implicit_vars "q" Q = Ok vars -> CasModel.arguments_of dyn_order sym_order D (Q_list vars) U true true = Ok r -> implicit_dynamic_q_to_casadi_function dyn_order sym_order D Q U = Ok f ->
  cf_sizes f = [length (r_q r); length (r_q r); length (r_q r); length (r_u r); length (r_lambdas r); length (r_params r)] /\
  forall val, cas_call f [map val (r_q r); map val (r_v r); map val (r_a r); map val (r_u r);
                          map (fun s => val (Static s)) (r_lambdas r); map (fun s => val (Static s)) (r_params r)] = Ok (map (value val) D).
Proof. exact (impl_q_value). Qed.
Print Assumptions C81_any_q.

Theorem C81_any_x :
  forall dyn_order sym_order, iterates dyn_order sym_order -> forall D Q U vars r f, implicit_vars "x" Q = Ok vars -> CasModel.arguments_of dyn_order sym_order D (Q_list vars) U true false = Ok r -> implicit_dynamic_x_to_casadi_function dyn_order sym_order D Q U = Ok f ->
  cf_sizes f = [length (r_q r); length (r_q r); length (r_u r); length (r_lambdas r); length (r_params r)] /\
  forall val, cas_call f [map val (r_q r); map val (r_v r); map val (r_u r);
                          map (fun s => val (Static s)) (r_lambdas r); map (fun s => val (Static s)) (r_params r)] = Ok (map (value val) D).
Proof. exact (impl_x_value). Qed.
Print Assumptions C81_any_x.

(** What is accepted. *)
Theorem C81_accepted_q :
  forall dyn_order sym_order, iterates dyn_order sym_order -> forall D Q U vars r, D <> [] -> implicit_vars "q" Q = Ok vars -> CasModel.arguments_of dyn_order sym_order D (Q_list vars) U true true = Ok r ->
  ((exists f, implicit_dynamic_q_to_casadi_function dyn_order sym_order D Q U = Ok f) <-> NoDup (r_q r ++ r_v r ++ r_a r ++ r_u r ++ map Static (r_lambdas r) ++ map Static (r_params r))).
Proof. exact (impl_q_iff). Qed.
Print Assumptions C81_accepted_q.

Theorem C81_accepted_x :
  forall dyn_order sym_order, iterates dyn_order sym_order -> forall D Q U vars r, D <> [] -> implicit_vars "x" Q = Ok vars -> CasModel.arguments_of dyn_order sym_order D (Q_list vars) U true false = Ok r ->
  ((exists f, implicit_dynamic_x_to_casadi_function dyn_order sym_order D Q U = Ok f) <-> NoDup (r_q r ++ r_v r ++ r_u r ++ map Static (r_lambdas r) ++ map Static (r_params r))).
Proof. exact (impl_x_iff). Qed.
Print Assumptions C81_accepted_x.

Theorem C81_accepted_named :
  forall dyn_order sym_order, iterates dyn_order sym_order -> forall D names U, standard_controls U -> D <> [] -> can_be_called D -> NoDup names -> Forall clean_name names -> (forall i, ~ In ("u_" ++ str_nat i)%string names) ->
  (exists f, implicit_dynamic_q_to_casadi_function dyn_order sym_order D (Q_list (coords 0 names)) U = Ok f) /\ (exists f, implicit_dynamic_x_to_casadi_function dyn_order sym_order D (Q_list (coords 0 names)) U = Ok f).
Proof. exact (impl_named). Qed.
Print Assumptions C81_accepted_named.

(** dynamic_setup of an implicit problem: g gives the values of the expressions of the coordinates, and f vanishes exactly where they do. *)
Theorem C81_setup :
  forall dyn_order sym_order, iterates dyn_order sym_order -> forall names impl_x impl_q U s, NoDup names -> Forall standard_name names ->
  x_clear names -> state_form names impl_q impl_x ->
  implicit_setup dyn_order sym_order (coords 0 names) impl_x impl_q U = Ok s ->
  exists rx rq, CasModel.arguments_of dyn_order sym_order impl_x (Q_list (coords 0 (x_names (2 * length names)))) U_none true false = Ok rx /\
  CasModel.arguments_of dyn_order sym_order impl_q (Q_list (coords 0 names)) U_none true true = Ok rq /\
  su_n_q s = length names /\ su_n_u s = length (r_u rx) /\ su_n_lambdas s = length (r_lambdas rx) /\
  (forall sigma val, (forall a, In a (coords 0 names ++ coords 1 names ++ coords 2 names ++ symbols_in impl_q) -> val (called a) = sigma a) ->
     su_g s (map sigma (coords 0 names)) (map sigma (coords 1 names)) (map sigma (coords 2 names)) (map val (r_u rq))
       (map (fun s => val (Static s)) (r_lambdas rq)) (map (fun s => val (Static s)) (r_params rq)) = Ok (map (SymModel.eval sigma) impl_q)) /\
  (forall sigma rho val, follows names sigma rho ->
     (forall s k, ~ In s names -> rho (Dyn s k) = sigma (Dyn s k)) -> (forall s, rho (Static s) = sigma (Static s)) ->
     (forall a, In a (coords 0 (x_names (2 * length names)) ++ coords 1 (x_names (2 * length names)) ++ symbols_in impl_x) -> val (called a) = rho a) ->
     (holds (su_f s (map sigma (coords 0 names ++ coords 1 names)) (map sigma (coords 1 names ++ coords 2 names)) (map val (r_u rx))
       (map (fun s => val (Static s)) (r_lambdas rx)) (map (fun s => val (Static s)) (r_params rx))) <-> all_zero (map (SymModel.eval sigma) impl_q))).
Proof. exact (implicit_setup_ok). Qed.
Print Assumptions C81_setup.

Theorem C81_setup_accepted :
  forall dyn_order sym_order, iterates dyn_order sym_order -> forall names impl_x impl_q U, impl_q <> [] -> impl_x <> [] -> can_be_called impl_q -> can_be_called impl_x ->
  NoDup names -> Forall clean_name names -> (forall i, ~ In ("u_" ++ str_nat i)%string names) ->
  x_clear names -> exists s, implicit_setup dyn_order sym_order (coords 0 names) impl_x impl_q U = Ok s.
Proof. exact (implicit_setup_clean). Qed.
Print Assumptions C81_setup_accepted.

(** Of a Lagrangian system: both residuals vanish exactly where the motion obeys the Euler-Lagrange equations with multipliers and the derivatives of the constraints are 0. *)
Theorem C81_lagrange :
  forall dyn_order sym_order, iterates dyn_order sym_order -> forall s impl_x U st, NoDup (lg_qs s) -> Forall standard_name (lg_qs s) ->
  x_clear (lg_qs s) ->
  (forall k, (k < length (lg_coneqs s))%nat -> ~ In ("lam" ++ str_nat (k + 1))%string (lg_qs s)) ->
  implicit_dynamics_x s = Ok impl_x -> implicit_setup dyn_order sym_order (coords 0 (lg_qs s)) impl_x (implicit_dynamics_q s) U = Ok st ->
  exists rx rq, CasModel.arguments_of dyn_order sym_order impl_x (Q_list (coords 0 (x_names (2 * length (lg_qs s))))) U_none true false = Ok rx /\
  CasModel.arguments_of dyn_order sym_order (implicit_dynamics_q s) (Q_list (coords 0 (lg_qs s))) U_none true true = Ok rq /\
  forall g t, regular s g ->
  (forall val, (forall a, In a (coords 0 (lg_qs s) ++ coords 1 (lg_qs s) ++ coords 2 (lg_qs s) ++ symbols_in (implicit_dynamics_q s)) -> val (called a) = g t a) ->
     (holds (su_g st (map (g t) (coords 0 (lg_qs s))) (map (g t) (coords 1 (lg_qs s))) (map (g t) (coords 2 (lg_qs s))) (map val (r_u rq))
       (map (fun s => val (Static s)) (r_lambdas rq)) (map (fun s => val (Static s)) (r_params rq))) <-> constrained_motion s g t)) /\
  (forall rho val, follows (lg_qs s) (g t) rho ->
     (forall n k, ~ In n (lg_qs s) -> rho (Dyn n k) = g t (Dyn n k)) -> (forall n, rho (Static n) = g t (Static n)) ->
     (forall a, In a (coords 0 (x_names (2 * length (lg_qs s))) ++ coords 1 (x_names (2 * length (lg_qs s))) ++ symbols_in impl_x) -> val (called a) = rho a) ->
     (holds (su_f st (map (g t) (coords 0 (lg_qs s) ++ coords 1 (lg_qs s))) (map (g t) (coords 1 (lg_qs s) ++ coords 2 (lg_qs s))) (map val (r_u rx))
       (map (fun s => val (Static s)) (r_lambdas rx)) (map (fun s => val (Static s)) (r_params rx))) <-> constrained_motion s g t)).
Proof. exact (lagrange_setup). Qed.
Print Assumptions C81_lagrange.

(** params_sym of an implicit problem has accelerations that are no parameters of its functions. *)
Theorem C81_params_refuted :
  forall dyn_order sym_order, iterates dyn_order sym_order -> forall names impl_x impl_q U s rq n, NoDup names -> Forall clean_name names -> Forall standard_name names ->
  (forall i, ~ In ("u_" ++ str_nat i)%string names) ->
  x_clear names -> implicit_setup dyn_order sym_order (coords 0 names) impl_x impl_q U = Ok s ->
  CasModel.arguments_of dyn_order sym_order impl_q (Q_list (coords 0 names)) U_none true true = Ok rq -> In n names -> In (Dyn n 2) (symbols_in impl_q) ->
  (length (r_params rq) < length (su_params_sym s))%nat /\
  (forall q v a u lam p, length p = length (su_params_sym s) -> su_g s q v a u lam p = Err RuntimeError).
Proof. exact (implicit_params). Qed.
Print Assumptions C81_params_refuted.

(** The controls given by the user are not used in an implicit problem. *)
Theorem C81_controls_refuted :
  exists names RHS impl_x impl_q U s s', state_form names impl_q impl_x /\
  explicit_setup dyns plain (coords 0 names) RHS U = Ok s /\ implicit_setup dyns plain (coords 0 names) impl_x impl_q U = Ok s' /\
  U = U_list [Static "F"] /\ su_n_u s = 1%nat /\ su_n_u s' = 0%nat /\ In "F"%string (su_params_sym s').
Proof. exact (implicit_controls). Qed.
Print Assumptions C81_controls_refuted.

(** theta'' - u_2 = 0: u_2 is a control for f and a parameter for g. *)
Theorem C81_index_refuted :
  exists names impl_x impl_q s, state_form names impl_q impl_x /\
  implicit_setup dyns plain (coords 0 names) impl_x impl_q U_none = Ok s /\ su_n_u s = 1%nat /\
  (forall x xd u lam p y, su_f s x xd u lam p = Ok y -> length u = 1%nat) /\ (exists x xd u lam p y, su_f s x xd u lam p = Ok y) /\
  (forall q v a u lam p y, su_g s q v a u lam p = Ok y -> length u = 0%nat).
Proof. exact (implicit_disagree). Qed.
Print Assumptions C81_index_refuted.

Example C81_track :
  exists impl_x st rx rq, implicit_dynamics_x track = Ok impl_x /\
  implicit_setup dyns plain (coords 0 (lg_qs track)) impl_x (implicit_dynamics_q track) U_none = Ok st /\
  CasModel.arguments_of dyns plain impl_x (Q_list (coords 0 (x_names 4))) U_none true false = Ok rx /\
  CasModel.arguments_of dyns plain (implicit_dynamics_q track) (Q_list (coords 0 (lg_qs track))) U_none true true = Ok rq /\
  (r_u rq, r_lambdas rq, r_params rq) = ([Static "u_0"; Static "u_1"], ["lam1"], [])%string /\
  forall sigma : atom -> R, exists val : atom -> R, forall a, In a (coords 0 (lg_qs track) ++ coords 1 (lg_qs track) ++ coords 2 (lg_qs track) ++ symbols_in (implicit_dynamics_q track)) -> val (called a) = sigma a.
Proof. exact (track_setup). Qed.

Example C81_track_regular :
  forall g, motion g -> regular track g.
Proof. exact (track_regular). Qed.

Example C81_force_form :
  state_form ["theta"%string] impl_q_F impl_x_F.
Proof. exact (impl_F_form). Qed.

(** ** C82: casadi functions of the schemes *)

(** A scheme with scheme parameters needs their number, one without them refuses it, *)
Theorem C82_accepted :
  forall sch F n_vars n_u n_p n_s,
  (exists r, restriction2casadi sch F n_vars n_u n_p n_s = Ok r) <-> match sch with Sch7 _ => n_s = 0%nat | Sch8 _ => n_s <> 0%nat end.
Proof. exact (restriction_accepted). Qed.
Print Assumptions C82_accepted.

(** with these errors. *)
Theorem C82_errors :
  forall sch F n_vars n_u n_p n_s e, restriction2casadi sch F n_vars n_u n_p n_s = Err e ->
  e = match sch with Sch7 _ => ValueError | Sch8 _ => TypeError end.
Proof. exact (restriction_errors). Qed.
Print Assumptions C82_errors.

(** The function is that of the scheme on arguments of the right sizes and refuses others. *)
Theorem C82_value :
  forall f F n_vars n_u n_p r, restriction2casadi (Sch7 f) F n_vars n_u n_p 0 = Ok r -> forall args,
  (map (@length R) args <> [2 * n_vars; 2 * n_vars; n_u; n_u; 1; n_p]%nat -> r args = Err RuntimeError) /\
  (forall x x_n u u_n dt p, args = [x; x_n; u; u_n; [dt]; p] -> map (@length R) args = [2 * n_vars; 2 * n_vars; n_u; n_u; 1; n_p]%nat ->
   r args = Ok (f F x x_n u u_n dt p)).
Proof. exact (restriction7). Qed.
Print Assumptions C82_value.

Theorem C82_value_params :
  forall f F n_vars n_u n_p n_s r, restriction2casadi (Sch8 f) F n_vars n_u n_p n_s = Ok r -> forall args,
  (map (@length R) args <> [2 * n_vars; 2 * n_vars; n_u; n_u; 1; n_p; n_s]%nat -> r args = Err RuntimeError) /\
  (forall x x_n u u_n dt p s, args = [x; x_n; u; u_n; [dt]; p; s] -> map (@length R) args = [2 * n_vars; 2 * n_vars; n_u; n_u; 1; n_p; n_s]%nat ->
   r args = Ok (f F x x_n u u_n dt p s)).
Proof. exact (restriction8). Qed.
Print Assumptions C82_value_params.

Theorem C82_accel :
  forall f n_vars n_s order args,
  (map (@length R) args <> [order * n_vars; order * n_vars; n_vars; n_vars; 1; n_s]%nat -> accelrestriction2casadi f n_vars n_s order args = Err RuntimeError) /\
  (forall x x_n a a_n dt s, args = [x; x_n; a; a_n; [dt]; s] -> map (@length R) args = [order * n_vars; order * n_vars; n_vars; n_vars; 1; n_s]%nat ->
   accelrestriction2casadi f n_vars n_s order args = Ok (f x x_n a a_n dt s)).
Proof. exact (restriction_accel). Qed.
Print Assumptions C82_accel.

(** The trapezoidal rule over the casadi function of the dynamics. *)
Theorem C82_trapezoidal :
  forall f n n_u n_p r, cf_sizes f = [2 * n; n_u; n_p]%nat ->
  restriction2casadi (Sch7 (fun F x x_n u u_n dt p => trapz_restr F x x_n u u_n dt p)) (f_of f) n n_u n_p 0 = Ok r ->
  forall x x_n u u_n dt p y y_n, length x_n = (2 * n)%nat -> length y = (2 * n)%nat -> length y_n = (2 * n)%nat ->
  cas_call f [x; u; p] = Ok y -> cas_call f [x_n; u_n; p] = Ok y_n ->
  (holds (r [x; x_n; u; u_n; [dt]; p]) <-> forall i, (i < 2 * n)%nat -> vnth x_n i = vnth x i + dt / 2 * (vnth y i + vnth y_n i)).
Proof. exact (restriction_trapz). Qed.
Print Assumptions C82_trapezoidal.

(** ** C83: numpy functions of right-hand sides *)

(** RHS2numpy accepts what rhs_to_casadi_function accepts. *)
Theorem C83_accepted :
  forall dyn_order sym_order, iterates dyn_order sym_order -> forall RHS Q U mode, RHS <> [] ->
  ((exists F, RHS2numpy dyn_order sym_order RHS Q U mode = Ok F) <-> (exists f, rhs_to_casadi_function dyn_order sym_order RHS Q U mode = Ok f)).
Proof. exact (numpy_iff). Qed.
Print Assumptions C83_accepted.

(** On vectors both functions agree. *)
Theorem C83_vector_x :
  forall dyn_order sym_order, iterates dyn_order sym_order -> forall RHS Q U F f, RHS <> [] -> RHS2numpy dyn_order sym_order RHS Q U "x" = Ok F -> rhs_to_casadi_function dyn_order sym_order RHS Q U "x" = Ok f ->
  forall x u p y, cas_call f [x; u; p] = Ok y -> F [A1 x; A1 u; A1 p] = Ok (A1 y).
Proof. exact (numpy_casadi_x). Qed.
Print Assumptions C83_vector_x.

Theorem C83_vector_q :
  forall dyn_order sym_order, iterates dyn_order sym_order -> forall RHS Q U F f, RHS <> [] -> RHS2numpy dyn_order sym_order RHS Q U "q" = Ok F -> rhs_to_casadi_function dyn_order sym_order RHS Q U "q" = Ok f ->
  forall q v u p y, cas_call f [q; v; u; p] = Ok y -> F [A1 q; A1 v; A1 u; A1 p] = Ok (A1 y).
Proof. exact (numpy_casadi_q). Qed.
Print Assumptions C83_vector_q.

(** On arrays of samples, with a state or control in each right-hand side: row by row. *)
Theorem C83_samples :
  forall dyn_order sym_order, iterates dyn_order sym_order -> forall RHS Q U F f r, RHS2numpy dyn_order sym_order RHS Q U "x" = Ok F -> rhs_to_casadi_function dyn_order sym_order RHS Q U "x" = Ok f -> RHS <> [] -> CasModel.arguments_of dyn_order sym_order RHS Q U false false = Ok r ->
  (forall e, In e RHS -> exists a, In a (atoms e) /\ In (called a) (r_q r ++ r_v r ++ r_u r)) ->
  forall n X Uc p, n <> 1%nat -> shaped n (2 * length (r_q r)) X -> shaped n (length (r_u r)) Uc -> length p = length (r_params r) ->
  exists Y, F [A2 (2 * length (r_q r)) X; A2 (length (r_u r)) Uc; A1 p] = Ok (A2 (2 * length (r_q r)) Y) /\ length Y = n /\
  forall i, (i < n)%nat -> cas_call f [mrow i X; mrow i Uc; p] = Ok (mrow i Y).
Proof. exact (numpy_samples). Qed.
Print Assumptions C83_samples.

(** Only the total number of entries matters: entries of the state may be given as controls. *)
Theorem C83_sizes_refuted :
  forall dyn_order sym_order, iterates dyn_order sym_order -> forall RHS Q U F, RHS <> [] -> RHS2numpy dyn_order sym_order RHS Q U "x" = Ok F ->
  forall x u p x' u' p', x ++ u ++ p = x' ++ u' ++ p' -> F [A1 x; A1 u; A1 p] = F [A1 x'; A1 u'; A1 p'].
Proof. exact (numpy_total). Qed.
Print Assumptions C83_sizes_refuted.

(** Sym2Fx with a list of states gives the values of the expressions. *)
Theorem C83_sym2fx :
  forall dyn_order sym_order, iterates dyn_order sym_order -> forall RHS names U F r, RHS <> [] -> Forall standard_name names -> Sym2Fx dyn_order sym_order RHS (Q_list (coords 0 names)) U = Ok F ->
  CasModel.arguments_of dyn_order sym_order RHS (Q_list (coords 0 names)) U false false = Ok r ->
  forall sigma val, (forall a, In a (coords 0 names ++ symbols_in RHS) -> val (called a) = sigma a) ->
  F [A1 (map sigma (coords 0 names)); A1 (map val (r_u r)); A1 (map (fun s => val (Static s)) (r_params r))] = Ok (A1 (map (SymModel.eval sigma) RHS)).
Proof. exact (sym2fx_motion). Qed.
Print Assumptions C83_sym2fx.

(** With a number of states: unless they are called q_i, the function does not depend on the states. *)
Theorem C83_sym2fx_number_refuted :
  forall dyn_order sym_order, iterates dyn_order sym_order -> forall RHS n U F, RHS <> [] -> standard_controls U -> (forall a, In a (symbols_in RHS) -> ~ In (called a) (numbered "q" n)) ->
  Sym2Fx dyn_order sym_order RHS (Q_int n) U = Ok F ->
  forall x x' u p, length x = n -> length x' = n -> F [A1 x; A1 u; A1 p] = F [A1 x'; A1 u; A1 p].
Proof. exact (sym2fx_int). Qed.
Print Assumptions C83_sym2fx_number_refuted.

Example C83_pendulum :
  exists F, RHS2numpy dyns plain pend_rhs (Q_list (coords 0 ["theta"%string])) (U_int 1) "x" = Ok F /\
  forall a v u g, F [A1 [a; v]; A1 [u]; A1 [g]] = Ok (A1 [v; u + -1 * (g * a)]).
Proof. exact (pend_numpy). Qed.

Example C83_sym2fx_list :
  exists F, Sym2Fx dyns plain sym_x (Q_list (coords 0 ["x_0"%string])) U_none = Ok F /\ forall x, F [A1 [x]; A1 []; A1 []] = Ok (A1 [x]).
Proof. exact (sym2fx_list). Qed.

Example C83_sym2fx_number :
  exists F, Sym2Fx dyns plain sym_x (Q_int 1) U_none = Ok F /\ forall x p, F [A1 [x]; A1 []; A1 [p]] = Ok (A1 [p]).
Proof. exact (sym2fx_number). Qed.

(** ** C84: lists and casadi arrays *)

(** unpack gives back the numbers of a list, *)
Theorem C84_roundtrip :
  forall l, concat (cas_unpack (fst (list2casadi l)) (snd (list2casadi l))) = l.
Proof. exact (list_roundtrip). Qed.
Print Assumptions C84_roundtrip.

(** those of a row, *)
Theorem C84_row :
  forall l, length l <> 1%nat -> cas_unpack (length l) [l] = map (fun x => [x]) l.
Proof. exact (unpack_row). Qed.
Print Assumptions C84_row.

(** and the columns of an array of samples of more than one number; *)
Theorem C84_samples :
  forall N c m, shaped N c m -> c <> 1%nat -> length (cas_unpack c m) = c /\
  forall j, (j < c)%nat -> nth j (cas_unpack c m) [] = map (fun i => mget m i j) (seq 0 N).
Proof. exact (unpack_samples). Qed.
Print Assumptions C84_samples.

(** but samples of one number are taken for one sample of many numbers. *)
Theorem C84_single_refuted :
  forall l : vec, length (cas_unpack 1 (map (fun x => [x]) l)) = length l.
Proof. exact (unpack_single). Qed.
Print Assumptions C84_single_refuted.

Example C84_example :
  cas_unpack 2 [[1; 2]; [3; 4]; [5; 6]] = [[1; 3; 5]; [2; 4; 6]] /\ cas_unpack 1 [[1]; [3]; [5]] = [[1]; [3]; [5]] /\ list2casadi [1; 3] = (1%nat, [[1]; [3]]).
Proof. exact (ex_unpack). Qed.

(** ** C85: the double pendulum *)

(** With ten parameters: the trajectories of doub_pend_F are those of the Euler-Lagrange equations of two hanging masses. *)
Theorem C85_motion :
  forall m_0 m_1 l_0 l_1 g, 0 < m_0 -> 0 < m_1 -> l_0 <> 0 -> l_1 <> 0 ->
  forall q_0 q_1 v_0 v_1 a_0 a_1 u_0 u_1 r0 r1 r2 r3 r4,
  (forall t, derivable_pt_lim q_0 t (v_0 t) /\ derivable_pt_lim q_1 t (v_1 t) /\ derivable_pt_lim v_0 t (a_0 t) /\ derivable_pt_lim v_1 t (a_1 t)) ->
  ((forall t, doub_pend_F [q_0 t; q_1 t; v_0 t; v_1 t] [u_0 t; u_1 t] [r0; r1; r2; r3; r4; m_1; l_1; l_0; m_0; g] = Ok [v_0 t; v_1 t; a_0 t; a_1 t]) <->
   euler_lagrange2 (pend_L m_0 m_1 l_0 l_1 g) q_0 q_1 v_0 v_1 u_0 u_1).
Proof. exact (pend_motion). Qed.
Print Assumptions C85_motion.

(** The velocities in the energy are those of the masses. *)
Theorem C85_energy :
  forall l_0 l_1 q_0 q_1 t v_0 v_1, derivable_pt_lim q_0 t v_0 -> derivable_pt_lim q_1 t v_1 ->
  is_velocity (fun s => pend_x0 l_0 (q_0 s)) t (l_0 * cos (q_0 t) * v_0) /\
  is_velocity (fun s => pend_y0 l_0 (q_0 s)) t (l_0 * sin (q_0 t) * v_0) /\
  is_velocity (fun s => pend_x1 l_0 l_1 (q_0 s) (q_1 s)) t (l_0 * cos (q_0 t) * v_0 + l_1 * cos (q_1 t) * v_1) /\
  is_velocity (fun s => pend_y1 l_0 l_1 (q_0 s) (q_1 s)) t (l_0 * sin (q_0 t) * v_0 + l_1 * sin (q_1 t) * v_1).
Proof. exact (pend_velocities). Qed.
Print Assumptions C85_energy.

Theorem C85_sizes :
  forall x u ps y, doub_pend_F x u ps = Ok y -> length x = 4%nat /\ length u = 2%nat /\ length ps = 10%nat.
Proof. exact (pend_params). Qed.
Print Assumptions C85_sizes.

(** With its own default parameters it always fails. *)
Theorem C85_default_refuted :
  forall x u, exists e, doub_pend_F x u doub_pend_default = Err e.
Proof. exact (pend_default). Qed.
Print Assumptions C85_default_refuted.

Example C85_example :
  doub_pend_F [0; 0; 0; 0] [1; 0] [9; 9; 9; 9; 9; 1; 1; 1; 1; 10] = Ok [0; 0; 1; - 1].
Proof. exact (ex_pend). Qed.

Example C85_rest :
  euler_lagrange2 (pend_L 1 1 1 1 10) (fun _ => 0) (fun _ => 0) (fun _ => 0) (fun _ => 0) (fun _ => 0) (fun _ => 0).
Proof. exact (ex_pend_rest). Qed.

(** ** C86: problems made with the same object *)

(** After any number of problems with the same u_vars, a problem is set up as with a new object; *)
Theorem C86_same :
  forall dyn_order sym_order q d us u, (forall v, In v us -> v = u) ->
  fst (dynamic_setup dyn_order sym_order (snd (setups dyn_order sym_order (new q d) us)) u) = fresh_setup dyn_order sym_order q d u.
Proof. exact (same_controls). Qed.
Print Assumptions C86_same.

(** implicit dynamics after any problems; *)
Theorem C86_implicit :
  forall dyn_order sym_order q ix iq us u,
  fst (dynamic_setup dyn_order sym_order (snd (setups dyn_order sym_order (new q (Lm_implicit ix iq)) us)) u) = fresh_setup dyn_order sym_order q (Lm_implicit ix iq) u.
Proof. exact (implicit_any). Qed.
Print Assumptions C86_implicit.

(** and also after any that could not be set up. *)
Theorem C86_failed :
  forall dyn_order sym_order q d us u, (forall w, In w us -> exists e, fresh_setup dyn_order sym_order q d w = Err e) ->
  fst (dynamic_setup dyn_order sym_order (snd (setups dyn_order sym_order (new q d) us)) u) = fresh_setup dyn_order sym_order q d u.
Proof. exact (no_success). Qed.
Print Assumptions C86_failed.

(** The first problem that is set up decides the functions and numbers of all later ones, *)
Theorem C86_first :
  forall dyn_order sym_order q d us v vs s u, (forall w, In w us -> exists e, fresh_setup dyn_order sym_order q d w = Err e) -> fresh_setup dyn_order sym_order q d v = Ok s ->
  fst (dynamic_setup dyn_order sym_order (snd (setups dyn_order sym_order (new q d) (us ++ v :: vs))) u) = Ok s.
Proof. exact (first_success). Qed.
Print Assumptions C86_first.

(** so the u_vars of a second problem are not used. *)
Theorem C86_controls_refuted :
  exists q RHS u u' s s', u' = U_list [Static "F"] /\
  fresh_setup dyns plain q (Lm_explicit RHS) u' = Ok s' /\ su_n_u s' = 1%nat /\ su_params_sym s' = ["r"%string] /\
  fst (dynamic_setup dyns plain (snd (setups dyns plain (new q (Lm_explicit RHS)) [u])) u') = Ok s /\ su_n_u s = 0%nat /\ su_params_sym s = ["F"; "r"]%string.
Proof. exact (other_controls). Qed.
Print Assumptions C86_controls_refuted.
