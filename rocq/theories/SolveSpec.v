(** Specification for solving: what it is to solve several times in a row,
    and what a dictionary of results must say about a solution. *)
From Coq Require Import String ZArith Reals List.
From Verif Require Import Prelude DispatchModel SolveModel.
Import ListNotations.
Open Scope string_scope.
Open Scope list_scope.
Open Scope R_scope.

Section SolveSpec.
Context {E V Sol St : Type}.
Variable opti_solve : St -> St * R * Res Sol.
Variable sol_value : Sol -> E -> Res V.
Variable opti_stats : St -> V.
Variable iter_count : V -> Res V.

(** [solved n st st' total sol]: n >= 1 calls of the solver from st all have a
    solution, take [total] seconds together, leave st' and the last one is
    [sol]. *)
Inductive solved : nat -> St -> St -> R -> Sol -> Prop :=
| solved_one : forall st st' d sol, opti_solve st = (st', d, Ok sol) -> solved 1 st st' d sol
| solved_more : forall n st st1 st2 d1 d2 sol1 sol2,
    opti_solve st = (st1, d1, Ok sol1) -> solved n st1 st2 d2 sol2 -> solved (S n) st st2 (d1 + d2) sol2.
(** [fails n st e]: one of the first n calls from st is the first to fail,
    with e. *)
Inductive fails : nat -> St -> exn -> Prop :=
| fails_now : forall n st st' d e, opti_solve st = (st', d, Err e) -> fails (S n) st e
| fails_later : forall n st st' d sol e, opti_solve st = (st', d, Ok sol) -> fails n st' e -> fails (S n) st e.

(** The names of the entries that do not come from the arrays. *)
Definition info_names : list string :=
  ["cpudt"; "iter_count"; "cost"; "opti_stats"; "scheme_mode"; "n_q"; "n_u"; "solve_order"; "params"; "N"; "scheme";
   "n_coll"; "h_arr"; "point_structure"; "n_segments"; "n_coll_total"].
(** The lists of a problem with several segments. *)
Definition lists_of (su : set_up E St) : list (string * list E) :=
  match su_mesh _ _ su with Segments _ _ _ _ _ l => l | _ => [] end.
(** No two entries have the same name. *)
Definition well_named (su : set_up E St) : Prop :=
  NoDup (info_names ++ map (fun kl => String.append (fst kl) "_list") (lists_of su) ++ map fst (su_arrs _ _ su)).
(** The mode of the problem and what was set up are of the same class. *)
Definition matches (mode : string) (su : set_up E St) : Prop :=
  match su_mesh _ _ su with
  | Steps _ _ => mode = "equispaced"
  | Points _ _ => In mode ["pseudospectral"; "bottom-up pseudospectral"; "top-down pseudospectral"]
  | Segments _ _ _ _ _ _ => exists m, mode = String.append "ph " m
  end.

(** What is asked for has a value in a solution. *)
Definition has_values (p : solve_problem E V Sol St) (su : set_up E St) (sol : Sol) : Prop :=
  (forall k a, In (k, a) (su_arrs _ _ su) -> exists v, sol_value sol a = Ok v) /\
  (forall k l a, In (k, l) (lists_of su) -> In a l -> exists v, sol_value sol a = Ok v) /\
  (forall c, sp_cost _ _ _ _ p = Some c -> exists v, sol_value sol c = Ok v).

(** [reports p su st seconds sol r]: the dictionary r says what solution sol
    of problem p, obtained by the solver that is now in state st, is. *)
Record reports (p : solve_problem E V Sol St) (su : set_up E St) (st : St) (seconds : entry V) (sol : Sol)
  (r : dict V) : Prop := {
  rp_arrays : forall k a, In (k, a) (su_arrs _ _ su) ->
    exists v, sol_value sol a = Ok v /\ dget _ k r = Some (E_val _ v);
  rp_lists : forall k l, In (k, l) (lists_of su) ->
    exists vs, Forall2 (fun a v => sol_value sol a = Ok v) l vs /\
               dget _ (String.append k "_list") r = Some (E_list _ vs);
  rp_cost : match sp_cost _ _ _ _ p with
            | None => dget _ "cost" r = Some (E_none _)
            | Some c => exists v, sol_value sol c = Ok v /\ dget _ "cost" r = Some (E_val _ v)
            end;
  rp_seconds : dget _ "cpudt" r = Some seconds;
  rp_stats : dget _ "opti_stats" r = Some (E_val _ (opti_stats st));
  rp_iterations : exists n, iter_count (opti_stats st) = Ok n /\ dget _ "iter_count" r = Some (E_val _ n);
  rp_n_q : dget _ "n_q" r = Some (E_nat _ (su_n_q _ _ su));
  rp_n_u : dget _ "n_u" r = Some (E_nat _ (su_n_u _ _ su));
  rp_order : dget _ "solve_order" r = Some (E_nat _ (su_order _ _ su));
  rp_params : dget _ "params" r = Some (E_val _ (sp_params _ _ _ _ p));
  rp_mode : dget _ "scheme_mode" r = Some (E_str _ (sp_mode _ _ _ _ p));
  rp_mesh : match su_mesh _ _ su with
            | Steps _ N => dget _ "N" r = Some (E_nat _ N)
            | Points _ n => dget _ "n_coll" r = Some (E_nat _ n)
            | Segments _ h ps n m _ =>
                dget _ "h_arr" r = Some (E_vec _ h) /\ dget _ "point_structure" r = Some (E_nats _ ps) /\
                dget _ "n_segments" r = Some (E_nat _ n) /\ dget _ "n_coll_total" r = Some (E_nat _ m)
            end;
  rp_only : forall k v, dget _ k r = Some v ->
    In k info_names \/ In k (map fst (su_arrs _ _ su)) \/
    exists k' l, In (k', l) (lists_of su) /\ k = String.append k' "_list" }.

(** The statistics of the solver have a number of iterations. *)
Definition counts : Prop := forall st, exists n, iter_count (opti_stats st) = Ok n.
(** The problem was set up properly, if at all, and everything the solver
    finds can be evaluated. *)
Definition sound (p : solve_problem E V Sol St) : Prop :=
  counts /\
  forall su, sp_set_up _ _ _ _ p = Some su ->
    matches (sp_mode _ _ _ _ p) su /\ well_named su /\
    forall st st' d sol, opti_solve st = (st', d, Ok sol) -> has_values p su sol.
End SolveSpec.
(** The calls that did not raise. *)
Definition is_ok (o : Res unit) : bool := match o with Ok _ => true | Err _ => false end.
