(** Properties C37 and C44: order of the calls and origin of the dynamics.
    Only statements.  [ps] gives the problems, all made from one dynamics
    object; a history is any list of calls on them, each possibly stopped half
    way by another error.  The vocabulary is in LifeSpec and FuncDynSpec. *)
From Coq Require Import String.
From Verif Require Import Prelude DispatchModel LifeModel LifeProofs LifeSpec LifeMoreProofs FuncDynModel FuncDynSpec FuncDynProofs LifeExamples.
Open Scope list_scope.

(** ** C37  Order of the calls *)

(** After the two set-ups no call fails for the order of the calls, whatever happened before. *)
Theorem C37_usable :
  forall ps i h d o ms, op_dyn (ps i) <> None ->
  Forall (fun m => really_offered (op_sch (ps i)) m = true) ms ->
  snd (run ps (fst (run ps new_world h)) (calls_on i (M_dynamic_setup d :: M_opti_setup o :: ms))) =
  map (fun _ => Done) (M_dynamic_setup d :: M_opti_setup o :: ms).
Proof. exact (usable). Qed.
Print Assumptions C37_usable.

(** The problem then holds what a new problem holds after the same calls. *)
Theorem C37_history_independent :
  forall ps i h d o ms, op_dyn (ps i) <> None ->
  Forall (fun m => really_offered (op_sch (ps i)) m = true) ms -> cost_before_solve false ms = true ->
  let w := fst (run ps new_world h) in
  let seq := calls_on i (M_dynamic_setup d :: M_opti_setup o :: ms) in
  (forall a v, (a <> A_cost \/ existsb sets_cost ms = true) ->
     w_attrs (fst (run ps (with_new_problem w i) seq)) i a = Some v ->
     w_attrs (fst (run ps w seq)) i a = Some v) /\
  w_lm (fst (run ps w seq)) = w_lm (fst (run ps (with_new_problem w i) seq)).
Proof. exact (history_independent). Qed.
Print Assumptions C37_history_independent.

(** The other cost methods raise AttributeError: C37_cost_refuted. *)
Theorem C37_without_opti_setup_partial :
  forall ps i h m, without is_opti_setup i h -> needs_opti_setup (op_sch (ps i)) m = true ->
  snd (run_call ps (fst (run ps new_world h)) (Build_call i m None)) = Raised RuntimeError.
Proof. exact (no_opti_setup). Qed.
Print Assumptions C37_without_opti_setup_partial.

(** All but single-segment pseudospectral problems. *)
Theorem C37_without_dynamic_setup_partial :
  forall ps i h o, without is_dynamic_setup i h -> op_sch (ps i) <> Pseudospectral ->
  snd (run_call ps (fst (run ps new_world h)) (Build_call i (M_opti_setup o) None)) = Raised RuntimeError.
Proof. exact (no_dynamic_setup). Qed.
Print Assumptions C37_without_dynamic_setup_partial.

Theorem C37_rejected_setup_changes_nothing :
  forall ps i h o, without is_dynamic_setup i h -> op_sch (ps i) <> Equispaced ->
  let w := fst (run ps new_world h) in
  let w' := fst (run_call ps w (Build_call i (M_opti_setup o) None)) in
  (forall j a, w_attrs w' j a = w_attrs w j a) /\ (forall a, w_lm w' a = w_lm w a).
Proof. exact (rejected_changes_nothing). Qed.
Print Assumptions C37_rejected_setup_changes_nothing.

(** Calls on other problems do not touch a problem. *)
Theorem C37_other_problems :
  forall ps h w i a, Forall (fun c => c_problem c <> i) h ->
  w_attrs (fst (run ps w h)) i a = w_attrs w i a.
Proof. exact (other_problems). Qed.
Print Assumptions C37_other_problems.

Theorem C37_pseudospectral_refuted :
  forall ps i h o, without is_dynamic_setup i h -> op_sch (ps i) = Pseudospectral ->
  snd (run_call ps (fst (run ps new_world h)) (Build_call i (M_opti_setup o) None)) = Raised AttributeError.
Proof. exact (no_dynamic_setup_ps). Qed.
Print Assumptions C37_pseudospectral_refuted.

Theorem C37_cost_refuted :
  forall ps i h m, without is_opti_setup i h -> sets_cost m = true -> offered (op_sch (ps i)) m = true ->
  needs_opti_setup (op_sch (ps i)) m = false ->
  snd (run_call ps (fst (run ps new_world h)) (Build_call i m None)) = Raised AttributeError.
Proof. exact (cost_without_setup). Qed.
Print Assumptions C37_cost_refuted.

(** The rejected set-up of an equispaced problem leaves half of its attributes, so a later apply_scheme does not see that opti_setup is missing. *)
Theorem C37_equispaced_refuted :
  forall ps i o d, op_sch (ps i) = Equispaced -> op_dyn (ps i) <> None ->
  snd (run ps new_world (calls_on i [M_opti_setup o; M_dynamic_setup d; M_apply_scheme])) =
  [Raised RuntimeError; Done; Raised AttributeError].
Proof. exact (equispaced_half_setup). Qed.
Print Assumptions C37_equispaced_refuted.

(** The trapz_cost of a multi-segment problem never works. *)
Theorem C37_multi_trapz_refuted :
  forall ps i h n, op_sch (ps i) = multi_pseudospectral ->
  snd (run_call ps (fst (run ps new_world h)) (Build_call i (M_trapz_cost n) None)) = Raised AttributeError.
Proof. exact (multi_trapz). Qed.
Print Assumptions C37_multi_trapz_refuted.

Theorem C37_no_dynamics_refuted :
  forall ps i h d, op_dyn (ps i) = None ->
  snd (run_call ps (fst (run ps new_world h)) (Build_call i (M_dynamic_setup d) None)) = Raised AttributeError.
Proof. exact (no_dynamics_class). Qed.
Print Assumptions C37_no_dynamics_refuted.

(** The cost of an earlier set-up survives the next set-up: a solve without a new cost goes through and reports the old one. *)
Theorem C37_stale_cost_refuted :
  forall ps i d o d' o', op_dyn (ps i) <> None ->
  let w := fst (run ps new_world (calls_on i [M_dynamic_setup d; M_opti_setup o; M_u_sq_cost; M_dynamic_setup d'; M_opti_setup o'])) in
  w_attrs (with_new_problem w i) i A_cost = Some PyNone /\
  (exists reads, w_attrs w i A_cost = Some (Computed M_u_sq_cost A_cost reads)) /\
  snd (run_call ps w (Build_call i M_simple_solve None)) = Done.
Proof. exact (stale_cost). Qed.
Print Assumptions C37_stale_cost_refuted.

Example C37_hypotheses :
  exists ps h, op_dyn (ps 0%nat) <> None /\ op_sch (ps 0%nat) = multi_pseudospectral /\ without is_opti_setup 0 h /\
  without is_dynamic_setup 0 h /\ (2 <= length h)%nat.
Proof. exact (ex_history). Qed.

Example C37_order_hypotheses :
  exists ps ms, op_dyn (ps 0%nat) <> None /\ Forall (fun m => really_offered (op_sch (ps 0%nat)) m = true) ms /\
  cost_before_solve false ms = true /\ existsb sets_cost ms = true /\ existsb solves ms = true.
Proof. exact (ex_order). Qed.

(** ** C44  Origin of the dynamics *)

(** Dynamics given as a function: own arguments, whatever happened before. *)
Theorem C44_function :
  forall ps i h d, op_dyn (ps i) = Some Function_Dynamics ->
  let w := fst (run ps new_world (h ++ calls_on i [M_dynamic_setup d])) in
  w_attrs w i A_dyn_f_restr = Some (Computed (M_dynamic_setup d) A_dyn_f_restr [Given A_LM; Given A_params]) /\
  w_attrs w i A_dyn_g_restr = Some (Computed (M_dynamic_setup d) A_dyn_g_restr [Given A_LM; Given A_params]).
Proof. exact (function_always). Qed.
Print Assumptions C44_function.

(** Dynamics from a Lagrangian object: only if no dynamic_setup was made with it before. *)
Theorem C44_symbolic_partial :
  forall ps i h d, symbolic (op_dyn (ps i)) ->
  Forall (fun c => is_dynamic_setup (c_method c) = false \/ op_dyn (ps (c_problem c)) = Some Function_Dynamics) h ->
  let w := fst (run ps new_world (h ++ calls_on i [M_dynamic_setup d])) in
  (exists r, w_attrs w i A_dyn_f_restr = Some (LM_computed (M_dynamic_setup d) L_dynam_f_x r)) /\
  (exists r, w_attrs w i A_dyn_g_restr = Some (LM_computed (M_dynamic_setup d) L_dynam_g_q r)).
Proof. exact (symbolic_first). Qed.
Print Assumptions C44_symbolic_partial.

(** Otherwise the dynamics are those of the earlier call: the arguments d2 are ignored. *)
Theorem C44_symbolic_refuted :
  forall ps i j h1 h2 d1 d2, symbolic (op_dyn (ps i)) -> symbolic (op_dyn (ps j)) ->
  let w1 := fst (run ps new_world (h1 ++ calls_on j [M_dynamic_setup d1])) in
  let w2 := fst (run ps w1 (h2 ++ calls_on i [M_dynamic_setup d2])) in
  w_attrs w2 i A_dyn_f_restr = w_attrs w1 j A_dyn_f_restr /\
  w_attrs w2 i A_dyn_g_restr = w_attrs w1 j A_dyn_g_restr.
Proof. exact (symbolic_stale). Qed.
Print Assumptions C44_symbolic_refuted.

(** Kind f_x: the residuals vanish exactly on the solutions of q^(M) = g(q, ..., q^(M-1), u, p). *)
Theorem C44_kind_f_x :
  forall n_q M g, (0 < n_q)%nat -> (0 < M)%nat -> (forall qs u p, blocks n_q M qs -> length (g qs u p) = n_q) ->
  forall LM, is_f_x n_q M g LM ->
  exists d, function_dynamic_setup LM "f_x" n_q 0 M = Ok d /\
    (forall qs xd u lam p, blocks n_q M qs -> length xd = (M * n_q)%nat ->
       (holds (fd_f_restr d (concat qs) xd u lam p) <-> xd = concat (tl qs) ++ g qs u p)) /\
    (forall qs a u lam p, blocks n_q M qs -> length a = n_q ->
       (holds (fd_g_restr d (qs ++ [a]) u lam p) <-> a = g qs u p)).
Proof. exact (f_x_ok). Qed.
Print Assumptions C44_kind_f_x.

(** Kind g_q: the residuals vanish exactly on the solutions of q^(M) = g(q, ..., q^(M-1), u, p). Only for order 2, or order 3 with one coordinate. *)
Theorem C44_kind_g_q_partial :
  forall n_q M g, (0 < n_q)%nat -> (0 < M)%nat -> (forall qs u p, blocks n_q M qs -> length (g qs u p) = n_q) ->
  forall LM, (M * n_q / 2 = n_q)%nat -> is_g_q n_q M g LM ->
  exists d, function_dynamic_setup LM "g_q" n_q 0 M = Ok d /\
    (forall qs xd u lam p, blocks n_q M qs -> length xd = (M * n_q)%nat ->
       (holds (fd_f_restr d (concat qs) xd u lam p) <-> xd = concat (tl qs) ++ g qs u p)) /\
    (forall qs a u lam p, blocks n_q M qs -> length a = n_q ->
       (holds (fd_g_restr d (qs ++ [a]) u lam p) <-> a = g qs u p)).
Proof. exact (g_q_ok). Qed.
Print Assumptions C44_kind_g_q_partial.

(** Kind f_x_impl: the residuals vanish exactly on the solutions of q^(M) = g(q, ..., q^(M-1), u, p). *)
Theorem C44_kind_f_x_impl :
  forall n_q M g, (0 < n_q)%nat -> (0 < M)%nat -> (forall qs u p, blocks n_q M qs -> length (g qs u p) = n_q) ->
  forall LM, is_f_x_impl n_q M g LM ->
  exists d, function_dynamic_setup LM "f_x_impl" n_q 0 M = Ok d /\
    (forall qs xd u lam p, blocks n_q M qs -> length xd = (M * n_q)%nat ->
       (holds (fd_f_restr d (concat qs) xd u lam p) <-> xd = concat (tl qs) ++ g qs u p)) /\
    (forall qs a u lam p, blocks n_q M qs -> length a = n_q ->
       (holds (fd_g_restr d (qs ++ [a]) u lam p) <-> a = g qs u p)).
Proof. exact (fun n M g a b _ => f_x_impl_ok n M g a b). Qed.
Print Assumptions C44_kind_f_x_impl.

(** Kind g_q_impl: the residuals vanish exactly on the solutions of q^(M) = g(q, ..., q^(M-1), u, p). *)
Theorem C44_kind_g_q_impl :
  forall n_q M g, (0 < n_q)%nat -> (0 < M)%nat -> (forall qs u p, blocks n_q M qs -> length (g qs u p) = n_q) ->
  forall LM, is_g_q_impl n_q M g LM ->
  exists d, function_dynamic_setup LM "g_q_impl" n_q 0 M = Ok d /\
    (forall qs xd u lam p, blocks n_q M qs -> length xd = (M * n_q)%nat ->
       (holds (fd_f_restr d (concat qs) xd u lam p) <-> xd = concat (tl qs) ++ g qs u p)) /\
    (forall qs a u lam p, blocks n_q M qs -> length a = n_q ->
       (holds (fd_g_restr d (qs ++ [a]) u lam p) <-> a = g qs u p)).
Proof. exact (fun n M g a b _ => g_q_impl_ok n M g a b). Qed.
Print Assumptions C44_kind_g_q_impl.

(** Kind g_q with any other order: the sizes do not match. *)
Theorem C44_kind_g_q_refuted :
  forall n_q M LM, (0 < n_q)%nat -> (0 < M)%nat -> (M * n_q / 2 <> n_q)%nat -> (M * n_q <> 1)%nat ->
  (forall args, length (LM args) = n_q) ->
  exists d, function_dynamic_setup LM "g_q" n_q 0 M = Ok d /\
  forall qs xd u lam p, blocks n_q M qs -> length xd = (M * n_q)%nat -> fd_f_restr d (concat qs) xd u lam p = Err RuntimeError.
Proof. exact (g_q_refuted). Qed.
Print Assumptions C44_kind_g_q_refuted.

(** A function is accepted without multipliers and with one of the four kinds; otherwise NotImplementedError. *)
Theorem C44_kinds_accepted :
  forall LM kind n_q n_lambdas order,
  ((exists d, function_dynamic_setup LM kind n_q n_lambdas order = Ok d) <->
   n_lambdas = 0%nat /\ In kind ["f_x"%string; "g_q"%string; "f_x_impl"%string; "g_q_impl"%string]) /\
  (forall e, function_dynamic_setup LM kind n_q n_lambdas order = Err e -> e = NotImplementedError).
Proof. exact (fun LM k n l o => conj (kinds_accepted LM k n l o) (kinds_refused LM k n l o)). Qed.
Print Assumptions C44_kinds_accepted.

Example C44_kind_hypotheses :
  exists g F G FI GI, (forall qs u p, blocks 2 2 qs -> length (g qs u p) = 2%nat) /\
  is_f_x 2 2 g F /\ is_g_q 2 2 g G /\ is_f_x_impl 2 2 g FI /\ is_g_q_impl 2 2 g GI /\
  g [[1;2];[3;4]]%R [5]%R [] <> g [[1;2];[3;4]]%R [6]%R [].
Proof. exact (ex_kinds). Qed.

Example C44_g_q_refuted_hypotheses :
  (3 * 2 / 2 <> 2 /\ 3 * 2 <> 1)%nat.
Proof. exact (conj (fun H : (3 = 2)%nat => Nat.neq_succ_diag_l 2 H) (fun H : (6 = 1)%nat => Nat.neq_succ_0 4 (eq_add_S _ _ H))). Qed.
