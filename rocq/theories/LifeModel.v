(** Model of the order in which the methods of a problem object of
    chords/opti.py read and write attributes, for any number of problems that
    share one dynamics object.

    A method is the list of its accesses to attributes of self and of self.LM,
    in program order.  An access can fail (the attribute is not there); which
    exception the caller sees depends on the [try] around it.  What is computed
    between the accesses is not modelled: the value written to an attribute is
    a term that records the call, the attribute and every value read so far in
    the call, so equal terms are equal values whatever the code in between
    computes from them.  Everything else that can make a call fail (bad
    arguments, a solver failure, an interrupt) is a call that stops after any
    number of accesses. *)
From Verif Require Import Prelude DispatchModel.
Open Scope list_scope.

(** Attributes of a problem object; [A_LM_...] are attributes of the dynamics
    object, shared by the problems that use it. *)
Inductive attr :=
| A_LM | A_params | A_scheme | A_scheme_mode | A_t_start | A_t_end | A_verbose | A_silent | A_cost
| A_n_q | A_n_u | A_n_lambdas | A_order | A_dyn_f_restr | A_dyn_g_restr | A_params_sym
| A_n_coll | A_coll_index | A_opti | A_n_nodes | A_n_arr | A_D_mat | A_q_and_ders_opti
| A_q_and_ders_node_opti | A_q_and_ders_names | A_opti_arrs | A_opti_points | A_precission | A_N
| A_n_segments | A_point_structure | A_n_coll_total | A_t_knots_ext | A_h_arr | A_opti_lists
| A_sol | A_results.
(** [L_rhs]: the equations, an attribute rhs, or implicit_dynamics_x and _q. *)
Inductive lm_attr := L_q | L_rhs | L_dynam_f_x | L_dynam_g_q | L_arguments.
Scheme Equality for attr.
Scheme Equality for lm_attr.

(** The public methods, with an identifier for the arguments given. *)
Inductive method :=
| M_dynamic_setup (args : nat) | M_opti_setup (args : nat) | M_apply_scheme
| M_u_sq_cost | M_quad_cost (args : nat) | M_trapz_cost (args : nat) | M_sq_cost (args : nat)
| M_initial_guess (args : nat) | M_simple_solve | M_chrono_solve (solve_repetitions : nat).

Inductive val :=
| Given (a : attr)                  (* given to the constructor *)
| LM_given (a : lm_attr)            (* there before any problem was made *)
| PyNone
| Computed (m : method) (a : attr) (reads : list val)
| LM_computed (m : method) (a : lm_attr) (reads : list val).

(** Accesses.  [Get a e]: read self.a, the caller gets [e] if it is not there.
    [LGet a]: read self.LM.a.  [Put a]: self.a = (something computed).
    [LPut a]: self.LM.a = (something computed).  [Copy l a]: self.a is the same
    object as self.LM.l.  [SkipIf ls n]: if self.LM has all of [ls], read them
    and skip the next [n] accesses.  [Fail e]: raise. *)
Inductive access :=
| Get (a : attr) (e : exn) | LGet (a : lm_attr) | Put (a : attr) | LPut (a : lm_attr)
| Copy (l : lm_attr) (a : attr) | SkipIf (ls : list lm_attr) (n : nat) | Fail (e : exn).

(** Reading outside and inside the try blocks; [Upd]: change the object in
    self.a (for example self.opti.subject_to, or an entry of a dictionary). *)
Definition rd (a : attr) : access := Get a AttributeError.
Definition rd_try (a : attr) : access := Get a RuntimeError.
Definition Upd (a : attr) : list access := [rd a; Put a].

(** ** The methods *)
(** opti.py:3549-3591, 3595-3656, 3660-3792 [dynamic_setup]; without a dynamics
    class there is no such method. *)
Definition dynamic_setup_code (c : option dyn_class) : list access :=
  match c with
  | Some Explicit_Dynamics =>
      [rd A_LM; LGet L_q; Put A_n_q; SkipIf [L_dynam_f_x; L_dynam_g_q; L_arguments] 6;
       rd A_verbose; rd A_silent; LGet L_rhs; LPut L_dynam_f_x; LPut L_dynam_g_q; LPut L_arguments;
       LGet L_arguments; Put A_params_sym; Copy L_dynam_f_x A_dyn_f_restr; Copy L_dynam_g_q A_dyn_g_restr;
       Put A_n_u; Put A_n_lambdas; Put A_order]
  | Some Implicit_Dynamics =>
      [rd A_LM; LGet L_q; Put A_n_q; rd A_silent; SkipIf [L_dynam_f_x; L_dynam_g_q; L_arguments] 5;
       rd A_verbose; LGet L_rhs; LPut L_dynam_f_x; LPut L_dynam_g_q; LPut L_arguments;
       LGet L_arguments; Put A_params_sym; Copy L_dynam_f_x A_dyn_f_restr; Copy L_dynam_g_q A_dyn_g_restr;
       Put A_n_u; Put A_n_lambdas; Put A_order]
  | Some Function_Dynamics =>
      [rd A_params; rd A_LM; Put A_params_sym; Put A_dyn_f_restr; Put A_dyn_g_restr;
       Put A_n_u; Put A_n_lambdas; Put A_n_q; Put A_order]
  | None => [Fail AttributeError]
  end.

(** opti.py:638-806 (Pseudospectral; order is read before the try), 1186-1290
    (bottom-up), 1536-1642 (top-down), 1861-1978 (equispaced; N and opti are
    written before the try), 2350-2621 (several segments).  The variables of
    the opti object are made after it is stored: [Upd A_opti]. *)
Definition opti_setup_code (c : sch_class) : list access :=
  match c with
  | Pseudospectral =>
      [rd A_scheme; rd A_t_start; rd A_t_end; rd A_order; Put A_n_coll; Put A_coll_index;
       rd_try A_order; rd_try A_n_q; rd_try A_n_u; rd A_verbose; Put A_opti; Put A_n_nodes; Put A_n_arr;
       Put A_D_mat] ++ Upd A_opti ++
      [Put A_q_and_ders_opti; Put A_q_and_ders_node_opti; Put A_q_and_ders_names; rd A_n_lambdas] ++
      Upd A_opti ++ [Put A_opti_arrs; Put A_opti_points] ++
      Upd A_opti_points ++ Upd A_opti_arrs
  | BU_Pseudospectral =>
      [rd_try A_order; rd_try A_n_q; rd_try A_n_u; rd A_scheme; rd A_t_start; rd A_t_end; Put A_n_coll;
       Put A_precission; Put A_coll_index; rd A_verbose; Put A_opti; Put A_n_arr] ++ Upd A_opti ++
      [Put A_q_and_ders_names; rd A_n_lambdas] ++ Upd A_opti ++ [Put A_opti_arrs; Put A_opti_points] ++
      Upd A_opti_points ++ Upd A_opti_arrs
  | TD_Pseudospectral =>
      [rd_try A_order; rd_try A_n_q; rd_try A_n_u; rd A_scheme; rd A_t_start; rd A_t_end; Put A_n_coll;
       Put A_precission; Put A_coll_index; rd A_verbose; Put A_opti; Put A_n_arr] ++ Upd A_opti ++
      [Put A_q_and_ders_names; rd A_n_lambdas] ++ Upd A_opti ++ [Put A_opti_arrs; Put A_opti_points] ++
      Upd A_opti_points ++ Upd A_opti_arrs
  | Equispaced =>
      [Put A_N; rd A_scheme; rd A_t_start; rd A_t_end; rd A_verbose; Put A_opti; rd_try A_order;
       rd_try A_n_q; rd_try A_n_u] ++ Upd A_opti ++
      [Put A_q_and_ders_names; rd A_n_lambdas] ++ Upd A_opti ++ [Put A_opti_arrs; Put A_opti_points] ++
      Upd A_opti_arrs ++ Upd A_opti_points ++ Upd A_opti ++ Upd A_opti_arrs
  | multi_pseudospectral =>
      [rd_try A_n_q; rd_try A_n_u; rd A_scheme; rd A_t_start; rd A_t_end; rd A_order; Put A_n_segments;
       Put A_point_structure; rd A_n_segments; Put A_n_arr; Put A_n_coll_total; Put A_precission;
       rd A_verbose; Put A_opti] ++ Upd A_opti ++ [Put A_t_knots_ext; Put A_h_arr; rd A_n_lambdas] ++
      Upd A_opti ++ [Put A_opti_arrs; Put A_opti_lists; Put A_opti_points; Put A_q_and_ders_names] ++
      Upd A_opti_arrs ++ Upd A_opti_points ++ Upd A_opti_lists ++ [rd A_scheme_mode] ++ Upd A_opti ++
      Upd A_opti_lists
  end.

(** opti.py:945-1042, 1409-1497, 1761-1833, 2120-2283, 2771-3082 [apply_scheme] *)
Definition apply_scheme_code (c : sch_class) : list access :=
  match c with
  | Pseudospectral =>
      [rd A_scheme; rd_try A_n_coll; rd A_dyn_f_restr; rd A_opti_arrs; rd A_params; rd A_q_and_ders_opti;
       rd A_q_and_ders_node_opti; rd A_D_mat; rd A_t_start; rd A_t_end; rd A_n_nodes; rd A_order] ++ Upd A_opti
  | BU_Pseudospectral =>
      [rd A_scheme; rd_try A_n_arr; rd_try A_n_coll; rd A_order; rd A_t_end; rd A_t_start; rd A_dyn_f_restr;
       rd A_opti_arrs; rd A_params; rd A_coll_index; rd A_opti_points; rd A_precission] ++ Upd A_opti
  | TD_Pseudospectral =>
      [rd A_scheme; rd_try A_n_arr; rd_try A_n_coll; rd A_order; rd A_t_end; rd A_t_start; rd A_dyn_f_restr;
       rd A_opti_arrs; rd A_params; rd A_coll_index; rd A_opti_points; rd A_precission] ++ Upd A_opti
  | Equispaced =>
      [rd A_scheme; rd_try A_N; rd A_q_and_ders_names; rd A_t_end; rd A_t_start; rd A_dyn_f_restr;
       rd A_opti_arrs; rd A_params; rd A_order; rd A_n_q] ++ Upd A_opti
  | multi_pseudospectral =>
      [rd A_scheme; rd A_scheme_mode; rd_try A_q_and_ders_names; rd_try A_opti_points; rd_try A_opti_arrs;
       rd_try A_opti_lists; rd_try A_order; rd_try A_params; rd_try A_n_segments; rd_try A_n_q;
       rd_try A_n_coll_total; rd_try A_point_structure; rd_try A_opti; rd_try A_dyn_f_restr; rd_try A_h_arr;
       rd A_precission] ++ Upd A_opti
  end.

(** [quad_cost]: opti.py:840-880, 1325-1365, 1677-1717, 1980-2020, 2663-2727 *)
Definition quad_cost_code (c : sch_class) : list access :=
  match c with
  | Pseudospectral | BU_Pseudospectral | TD_Pseudospectral =>
      [rd A_t_end; rd A_t_start; rd A_n_coll; rd A_n_arr; rd A_scheme; rd A_order; Put A_cost] ++ Upd A_opti
  | Equispaced => [rd A_t_end; rd A_t_start; rd A_N; Put A_cost] ++ Upd A_opti
  | multi_pseudospectral =>
      [rd A_n_coll_total; rd A_n_arr; rd A_h_arr; rd A_n_segments; rd A_scheme; rd A_point_structure;
       Put A_cost] ++ Upd A_opti
  end.
(** [trapz_cost]: opti.py:903-943, 1367-1407, 1719-1759, 2729-2769; equispaced
    problems have none.  The one of several segments reads n_coll, which
    their opti_setup does not write. *)
Definition trapz_cost_code (c : sch_class) : list access :=
  match c with
  | Pseudospectral | BU_Pseudospectral | TD_Pseudospectral | multi_pseudospectral =>
      [rd A_t_end; rd A_t_start; rd A_n_arr; rd A_n_coll; rd A_scheme; rd A_order; Put A_cost] ++ Upd A_opti
  | Equispaced => [Fail AttributeError]
  end.
(** [sq_cost]: opti.py:2022-2053, equispaced only *)
Definition sq_cost_code (c : sch_class) : list access :=
  match c with
  | Equispaced => [rd A_t_end; rd A_t_start; rd A_N; Put A_cost] ++ Upd A_opti
  | _ => [Fail AttributeError]
  end.
(** [u_sq_cost]: opti.py:882-901 (calls quad_cost), 1292-1323, 1644-1675,
    2055-2118, 2623-2661 *)
Definition u_sq_cost_code (c : sch_class) : list access :=
  match c with
  | Pseudospectral => rd A_opti_arrs :: quad_cost_code Pseudospectral
  | BU_Pseudospectral | TD_Pseudospectral =>
      [rd_try A_opti_arrs; rd A_t_end; rd A_t_start; rd A_scheme; rd A_n_coll; Put A_cost] ++ Upd A_opti
  | Equispaced =>
      [rd_try A_opti_arrs; rd A_t_end; rd A_t_start; rd A_scheme] ++ Upd A_opti ++ [rd A_N; Put A_cost] ++ Upd A_opti
  | multi_pseudospectral =>
      [rd_try A_opti_lists; rd A_h_arr; rd A_n_segments; rd A_scheme; rd A_point_structure; Put A_cost] ++ Upd A_opti
  end.

(** [initial_guess]: opti.py:461-474, 3796-4048 *)
Definition initial_guess_code (c : sch_class) (i : ini_class) : list access :=
  let n_points := match c with Equispaced => A_N | _ => A_n_arr end in
  let start := [rd_try A_opti_arrs; rd_try A_order] in
  match i with
  | Zero_init => start ++ Upd A_opti ++ [rd A_scheme_mode] ++ Upd A_opti
  | Lin_init => start ++ [rd A_scheme_mode; rd n_points; rd A_t_end; rd A_t_start; rd A_opti_arrs] ++
                Upd A_opti ++ [rd A_order; rd A_scheme] ++ Upd A_opti
  | Waypoints_init => start ++ [rd A_opti_arrs; rd A_scheme_mode; rd n_points; rd A_t_start; rd A_t_end;
                                rd A_order] ++ Upd A_opti ++ [rd A_scheme] ++ Upd A_opti
  | Custom_init => start ++ [rd A_opti_arrs] ++ Upd A_opti ++ [rd A_scheme_mode; rd A_scheme; rd A_t_start;
                              rd A_t_end] ++ Upd A_opti
  end.

(** opti.py:476-518 [_save_results] *)
Definition save_results_code (c : sch_class) : list access :=
  [Put A_results; rd A_scheme_mode; rd A_n_q; rd A_n_u; rd A_order; rd A_params] ++
  match c with
  | Equispaced => [rd A_N]
  | multi_pseudospectral =>
      [rd A_h_arr; rd A_point_structure; rd A_n_segments; rd A_n_coll_total; rd A_opti_lists; rd A_sol]
  | _ => [rd A_n_coll]
  end ++ [rd A_scheme; rd A_opti_arrs; rd A_sol] ++ Upd A_results.
(** opti.py:520-554 [simple_solve], 556-600 [chrono_solve]: with 0 repetitions
    opti is not read and the mean time divides by 0. *)
Definition solve_code (c : sch_class) : list access :=
  [rd_try A_opti; Put A_sol; rd A_cost; rd A_opti] ++ save_results_code c.
Definition chrono_solve_code (c : sch_class) (solve_repetitions : nat) : list access :=
  match solve_repetitions with
  | O => [Fail ZeroDivisionError]
  | _ => solve_code c
  end.

Definition code (p : opti_problem) (m : method) : list access :=
  match m with
  | M_dynamic_setup _ => dynamic_setup_code (op_dyn p)
  | M_opti_setup _ => opti_setup_code (op_sch p)
  | M_apply_scheme => apply_scheme_code (op_sch p)
  | M_u_sq_cost => u_sq_cost_code (op_sch p)
  | M_quad_cost _ => quad_cost_code (op_sch p)
  | M_trapz_cost _ => trapz_cost_code (op_sch p)
  | M_sq_cost _ => sq_cost_code (op_sch p)
  | M_initial_guess _ => initial_guess_code (op_sch p) (op_ini p)
  | M_simple_solve => solve_code (op_sch p)
  | M_chrono_solve n => chrono_solve_code (op_sch p) n
  end.

(** ** Running *)
Definition attrs : Type := attr -> option val.
Definition lm_attrs : Type := lm_attr -> option val.
Definition set_attr (o : attrs) (a : attr) (v : val) : attrs := fun b => if attr_beq a b then Some v else o b.
Definition set_lm (o : lm_attrs) (a : lm_attr) (v : val) : lm_attrs :=
  fun b => if lm_attr_beq a b then Some v else o b.
Fixpoint get_all (l : lm_attrs) (ls : list lm_attr) : option (list val) :=
  match ls with
  | [] => Some []
  | a :: r => match l a, get_all l r with Some v, Some vs => Some (v :: vs) | _, _ => None end
  end.

(** How a call ends: normally, with an exception from one of its accesses, or
    stopped by something else. *)
Inductive outcome := Done | Raised (e : exn) | Stopped.

(** [stop]: number of steps after which the call stops, if it does. *)
Fixpoint exec (m : method) (cs : list access) (stop : option nat) (skip : nat) (reads : list val)
  (o : attrs) (l : lm_attrs) : attrs * lm_attrs * outcome :=
  match cs with
  | [] => (o, l, Done)
  | c :: r =>
    match skip with
    | S k => exec m r stop k reads o l
    | O =>
      match stop with
      | Some O => (o, l, Stopped)
      | _ =>
        let stop := option_map pred stop in
        match c with
        | Get a e => match o a with
                     | Some v => exec m r stop 0 (v :: reads) o l
                     | None => (o, l, Raised e)
                     end
        | LGet a => match l a with
                    | Some v => exec m r stop 0 (v :: reads) o l
                    | None => (o, l, Raised AttributeError)
                    end
        | Put a => exec m r stop 0 reads (set_attr o a (Computed m a reads)) l
        | LPut a => exec m r stop 0 reads o (set_lm l a (LM_computed m a reads))
        | Copy la a => match l la with
                       | Some v => exec m r stop 0 (v :: reads) (set_attr o a v) l
                       | None => (o, l, Raised AttributeError)
                       end
        | SkipIf ls n => match get_all l ls with
                         | Some vs => exec m r stop n (vs ++ reads) o l
                         | None => exec m r stop 0 reads o l
                         end
        | Fail e => (o, l, Raised e)
        end
      end
    end
  end.

(** A new object: opti.py:446-459 and 4216 (problem.cost = None). *)
Definition new_attrs : attrs := fun a =>
  match a with
  | A_LM | A_params | A_scheme | A_scheme_mode | A_t_start | A_t_end | A_verbose | A_silent => Some (Given a)
  | A_cost => Some PyNone
  | _ => None
  end.
Definition new_lm : lm_attrs := fun a =>
  match a with L_q | L_rhs => Some (LM_given a) | _ => None end.

(** Several problems (numbered) and their common dynamics object. *)
Record world := { w_attrs : nat -> attrs; w_lm : lm_attrs }.
Definition new_world : world := {| w_attrs := fun _ => new_attrs; w_lm := new_lm |}.
Definition set_problem (w : world) (i : nat) (o : attrs) (l : lm_attrs) : world :=
  {| w_attrs := fun j => if Nat.eqb i j then o else w_attrs w j; w_lm := l |}.

(** A call of method [m] of problem [i]. *)
Record call := { c_problem : nat; c_method : method; c_stop : option nat }.
Definition run_call (ps : nat -> opti_problem) (w : world) (c : call) : world * outcome :=
  let i := c_problem c in
  let '(o, l, out) := exec (c_method c) (code (ps i) (c_method c)) (c_stop c) 0 [] (w_attrs w i) (w_lm w) in
  (set_problem w i o l, out).
Fixpoint run (ps : nat -> opti_problem) (w : world) (h : list call) : world * list outcome :=
  match h with
  | [] => (w, [])
  | c :: r => let '(w1, out) := run_call ps w c in
              let '(w2, outs) := run ps w1 r in (w2, out :: outs)
  end.
