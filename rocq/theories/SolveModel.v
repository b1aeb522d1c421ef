(** Model of simple_solve, chrono_solve and _save_results of chords/opti.py:
    which solution is kept, how the time is measured and what is written in
    the dictionary of results. *)
From Coq Require Import String Ascii ZArith Reals List.
From Verif Require Import Prelude PwInterpModel DispatchModel.
Import ListNotations.
Open Scope string_scope.
Open Scope list_scope.
Open Scope R_scope.

Section Solve.
(** Expressions of casadi, values, solutions and states of the opti object. *)
Variables E V Sol St : Type.
(** opti.solve() in a state: the state afterwards, the seconds it takes, and
    the solution or the error; sol.value(expression); opti.stats() and its
    entry "iter_count". *)
Variable opti_solve : St -> St * R * Res Sol.
Variable sol_value : Sol -> E -> Res V.
Variable opti_stats : St -> V.
Variable iter_count : V -> Res V.

(** Values of python in the dictionary of results. *)
Inductive entry :=
| E_none | E_num (x : R) | E_nat (n : nat) | E_str (s : string) | E_val (v : V) | E_list (l : list V)
| E_vec (v : vec) | E_nats (l : list nat).

(** Dictionaries of python: d[k] and d[k] = v. *)
Definition dict := list (string * entry).
Fixpoint dget (k : string) (d : dict) : option entry :=
  match d with
  | [] => None
  | (k', v) :: d' => if String.eqb k k' then Some v else dget k d'
  end.
Fixpoint dput (k : string) (v : entry) (d : dict) : dict :=
  match d with
  | [] => [(k, v)]
  | (k', v') :: d' => if String.eqb k k' then (k, v) :: d' else (k', v') :: dput k v d'
  end.

(** What opti_setup leaves in the object.  The attributes of opti_setup are
    there together or not at all: set-ups that stop half way are in
    LifeModel.v. *)
Inductive mesh :=
| Steps (N : nat)
| Points (n_coll : nat)
| Segments (h_arr : vec) (point_structure : list nat) (n_segments n_coll_total : nat)
    (opti_lists : list (string * list E)).
Record set_up := {
  su_opti : St; su_n_q : nat; su_n_u : nat; su_order : nat; su_mesh : mesh;
  su_arrs : list (string * E) }.
(** The attributes of a problem that solving reads or writes, and the clock
    that time() reads. *)
Record solve_problem := {
  sp_mode : string; sp_scheme : string; sp_params : V; sp_set_up : option set_up; sp_cost : option E;
  sp_sol : option Sol; sp_results : option dict; sp_clock : R }.

Definition with_opti (st : St) (su : set_up) : set_up :=
  {| su_opti := st; su_n_q := su_n_q su; su_n_u := su_n_u su; su_order := su_order su; su_mesh := su_mesh su;
     su_arrs := su_arrs su |}.
Definition after_solver (su : set_up) (clock : R) (p : solve_problem) : solve_problem :=
  {| sp_mode := sp_mode p; sp_scheme := sp_scheme p; sp_params := sp_params p; sp_set_up := Some su;
     sp_cost := sp_cost p; sp_sol := sp_sol p; sp_results := sp_results p; sp_clock := clock |}.
Definition with_sol (sol : Sol) (p : solve_problem) : solve_problem :=
  {| sp_mode := sp_mode p; sp_scheme := sp_scheme p; sp_params := sp_params p; sp_set_up := sp_set_up p;
     sp_cost := sp_cost p; sp_sol := Some sol; sp_results := sp_results p; sp_clock := sp_clock p |}.
Definition with_results (r : dict) (p : solve_problem) : solve_problem :=
  {| sp_mode := sp_mode p; sp_scheme := sp_scheme p; sp_params := sp_params p; sp_set_up := sp_set_up p;
     sp_cost := sp_cost p; sp_sol := sp_sol p; sp_results := Some r; sp_clock := sp_clock p |}.

(** self.N, self.n_coll and the attributes of several segments. *)
Definition attr_N (m : mesh) : Res nat := match m with Steps N => Ok N | _ => Err AttributeError end.
Definition attr_n_coll (m : mesh) : Res nat := match m with Points n => Ok n | _ => Err AttributeError end.

(** opti.py:476-518 [_save_results]: the assignments to self.results[key], in
    their order. *)
Definition save_writes (p : solve_problem) (su : set_up) (sol : Sol) : list (string * Res entry) :=
  [("scheme_mode", Ok (E_str (sp_mode p))); ("n_q", Ok (E_nat (su_n_q su))); ("n_u", Ok (E_nat (su_n_u su)));
   ("solve_order", Ok (E_nat (su_order su))); ("params", Ok (E_val (sp_params p)))] ++
  (if String.eqb (sp_mode p) "equispaced" then
     [("N", do n <- attr_N (su_mesh su); Ok (E_nat n)); ("scheme", Ok (E_str (sp_scheme p)))]
   else
     (if existsb (String.eqb (sp_mode p)) ["bottom-up pseudospectral"; "top-down pseudospectral"; "pseudospectral"] then
        [("n_coll", do n <- attr_n_coll (su_mesh su); Ok (E_nat n))]
      else if String.eqb (head3 (sp_mode p)) "ph " then
        match su_mesh su with
        | Segments h_arr point_structure n_segments n_coll_total lists =>
            [("h_arr", Ok (E_vec h_arr)); ("point_structure", Ok (E_nats point_structure));
             ("n_segments", Ok (E_nat n_segments)); ("n_coll_total", Ok (E_nat n_coll_total))] ++
            map (fun kl => (String.append (fst kl) "_list",
                            do l <- mapm (sol_value sol) (snd kl); Ok (E_list l))) lists
        | _ => [("h_arr", Err AttributeError)]
        end
      else []) ++
     [("scheme", Ok (E_str (if String.eqb (sp_mode p) "bottom-up pseudospectral" then String.append "BU_" (sp_scheme p)
                            else if String.eqb (sp_mode p) "top-down pseudospectral" then String.append "TD_" (sp_scheme p)
                            else sp_scheme p)))]) ++
  map (fun ka => (fst ka, do v <- sol_value sol (snd ka); Ok (E_val v))) (su_arrs su).
(** The assignments up to the first one that raises. *)
Fixpoint run_writes (ws : list (string * Res entry)) (d : dict) : dict * Res unit :=
  match ws with
  | [] => (d, Ok tt)
  | (k, Ok v) :: ws' => run_writes ws' (dput k v d)
  | (_, Err e) :: _ => (d, Err e)
  end.

(** opti.py:541-554 and 587-600: what follows the calls of opti.solve(). *)
Definition finish (su : set_up) (cpudt : entry) (sol : Sol) (p : solve_problem) : solve_problem * Res unit :=
  let p := with_sol sol p in
  match (match sp_cost p with
         | None => Ok E_none
         | Some c => do v <- sol_value sol c; Ok (E_val v)
         end) with
  | Err e => (p, Err e)
  | Ok cost_out =>
      match iter_count (opti_stats (su_opti su)) with
      | Err e => (p, Err e)
      | Ok it =>
          let results := [("cpudt", cpudt); ("iter_count", E_val it); ("cost", cost_out);
                          ("opti_stats", E_val (opti_stats (su_opti su)))] in
          let '(results, r) := run_writes (save_writes p su sol) results in
          (with_results results p, r)
      end
  end.

(** except AttributeError: raise RuntimeError *)
Definition not_set_up {A : Type} (r : Res A) : Res A :=
  match r with Err AttributeError => Err RuntimeError | _ => r end.

(** opti.py:520-554 [simple_solve] *)
Definition simple_solve (p : solve_problem) : solve_problem * Res unit :=
  match sp_set_up p with
  | None => (p, Err RuntimeError)
  | Some su =>
      let '(st, seconds, r) := opti_solve (su_opti su) in
      let su := with_opti st su in
      let p := after_solver su (sp_clock p + seconds) p in
      match not_set_up r with
      | Err e => (p, Err e)
      | Ok sol => finish su E_none sol p
      end
  end.

(** for ii in range(n): sol = self.opti.solve() *)
Fixpoint solve_times (n : nat) (st : St) (clock : R) (sol : option Sol) : St * R * Res (option Sol) :=
  match n with
  | O => (st, clock, Ok sol)
  | S k =>
      let '(st, seconds, r) := opti_solve st in
      match r with
      | Ok sol => solve_times k st (clock + seconds) (Some sol)
      | Err e => (st, clock + seconds, Err e)
      end
  end.

(** opti.py:556-600 [chrono_solve]; without the argument, that has no default
    value, it is a TypeError.  The clock runs only while the solver does. *)
Definition chrono_solve (solve_repetitions : option Z) (p : solve_problem) : solve_problem * Res unit :=
  match solve_repetitions with
  | None => (p, Err TypeError)
  | Some k =>
      let cput0 := sp_clock p in
      let '(p, r) :=
        match Z.to_nat k, sp_set_up p with
        | O, _ => (p, Ok None)
        | S _, None => (p, Err RuntimeError)
        | n, Some su =>
            let '(st, clock, r) := solve_times n (su_opti su) cput0 None in
            (after_solver (with_opti st su) clock p, not_set_up r)
        end in
      match r with
      | Err e => (p, Err e)
      | Ok sol =>
          let cput1 := sp_clock p in
          if Z.eqb k 0 then (p, Err ZeroDivisionError)
          else
            let cpudt := E_num ((cput1 - cput0) / IZR k) in
            match sol, sp_set_up p with
            | Some sol, Some su => finish su cpudt sol p
            | _, _ => (p, Err UnboundLocalError)
            end
      end
  end.

(** Any number of calls, with the errors caught by the caller. *)
Inductive solve_call := C_simple | C_chrono (solve_repetitions : option Z).
Definition call_solve (p : solve_problem) (c : solve_call) : solve_problem * Res unit :=
  match c with C_simple => simple_solve p | C_chrono k => chrono_solve k p end.
Fixpoint call_all (p : solve_problem) (cs : list solve_call) : solve_problem * list (Res unit) :=
  match cs with
  | [] => (p, [])
  | c :: cs' => let '(p, r) := call_solve p c in let '(p, rs) := call_all p cs' in (p, r :: rs)
  end.
End Solve.

(** Keys of opti_arrs.  [ders suffix]: those of q and its derivatives. *)
Definition ders (order : nat) (suffixes : list string) : list string :=
  flat_map (fun n => map (String.append n) suffixes) (get_q_and_ders_names order).
(** opti.py:738-792 (pseudospectral), 1246-1288 (bottom-up), 1597-1640
    (top-down), 1907-1978 (equispaced; "hs" in scheme is, for the names that are
    accepted, to begin with hs), 2478-2552 (several segments). *)
Definition arr_keys (c : sch_class) (scheme : string) (order : nat) : list string :=
  match c with
  | Pseudospectral =>
      ["x"; "x_node"; "x_like_u"; "x_d"; "x_d_node"; "x_d_like_u"; "u"; "t"; "t_node"; "t_col"; "tau"; "tau_node";
       "tau_col"; "lam"; "u_like_x"] ++ ders order [""; "_node"; "_like_u"]
  | BU_Pseudospectral =>
      ["x"; "x_like_u"; "x_d"; "x_d_like_u"; "u"; "t"; "t_col"; "tau"; "tau_col"; "lam"; "u_like_x"] ++
      ders order [""; "_like_u"]
  | TD_Pseudospectral =>
      ["x"; "x_like_u"; "x_d"; "x_d_like_u"; "u"; "t"; "t_col"; "tau"; "tau_col"; "lam"; "q_constr"; "u_like_x"] ++
      ders order [""; "_like_u"]
  | Equispaced =>
      ["x"; "x_d"; "x_like_u"; "x_d_like_u"; "u"; "u_like_x"; "t"; "t_col"; "lam"] ++ ders order [""; "_like_u"] ++
      (if String.eqb (String.substring 0 2 scheme) "hs" then
         ["x_c"; "x_d_c"; "u_c"; "t_c"; "lam_c"] ++ ders order ["_c"] ++
         (if String.eqb scheme "hsj_parab_mod" then ["u_j"] else [])
       else [])
  | multi_pseudospectral =>
      ["x"; "x_like_u"; "x_d"; "x_d_like_u"; "u"; "u_like_x"; "t"; "t_col"; "tau_col"; "t_knot"; "t_knot_ext"; "lam"] ++
      ders order [""; "_like_u"]
  end.
(** opti.py:2493-2523, 2554-2600, 2603-2621: keys of opti_lists. *)
Definition list_keys (mode : string) (order : nat) : list string :=
  ["x_col"; "x_knot"; "x_knot_ext"; "x_d_col"; "x_d_knot"; "x_d_knot_ext"; "u_col"; "u_knot"; "u_knot_ext"; "t_col";
   "tau_col"; "t_col_since_knot"] ++ ders order ["_col"; "_knot"; "_knot_ext"] ++
  (if String.eqb mode "ph top-down pseudospectral" then ["q_constr"; "t_constr"] else []).
