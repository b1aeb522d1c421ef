(** C96: what solving leaves in a problem. *)
From Coq Require Import String ZArith Reals List.
From Verif Require Import Prelude DispatchModel DispatchSpec SolveModel SolveSpec SolveProofs SolveNames SolveExamples.
Import ListNotations.
Open Scope string_scope.
Open Scope list_scope.
Open Scope R_scope.

Section C96.
Context {E V Sol St : Type}.
Variable opti_solve : St -> St * R * Res Sol.
Variable sol_value : Sol -> E -> Res V.
Variable opti_stats : St -> V.
Variable iter_count : V -> Res V.
Notation problem := (solve_problem E V Sol St).
Notation setup := (set_up E St).
Notation simple_solve := (simple_solve E V Sol St opti_solve sol_value opti_stats iter_count).
Notation chrono_solve := (chrono_solve E V Sol St opti_solve sol_value opti_stats iter_count).
Notation call_all := (call_all E V Sol St opti_solve sol_value opti_stats iter_count).
Notation solved := (solved opti_solve).
Notation fails := (fails opti_solve).
Notation has_values := (has_values sol_value).
Notation reports := (reports sol_value opti_stats iter_count).
Notation counts := (counts opti_stats iter_count).
Notation sound := (sound opti_solve sol_value opti_stats iter_count).
Notation sp_results := (sp_results E V Sol St).
Notation sp_sol := (sp_sol E V Sol St).
Notation sp_set_up := (sp_set_up E V Sol St).
Notation sp_mode := (sp_mode E V Sol St).
Notation sp_scheme := (sp_scheme E V Sol St).

(** simple_solve: the results say what the solution is, and no time. *)
Theorem C96_simple : forall (p : problem) (su : setup) st' d sol,
  sp_set_up p = Some su -> opti_solve (su_opti _ _ su) = (st', d, Ok sol) ->
  matches (sp_mode p) su -> well_named su -> has_values p su sol -> counts ->
  exists r, let '(p', o) := simple_solve p in
    o = Ok tt /\ sp_results p' = Some r /\ sp_sol p' = Some sol /\ reports p su st' (E_none V) sol r.
Proof. exact (simple_stores opti_solve sol_value opti_stats iter_count). Qed.

(** chrono_solve(n): the results say what the last of n solutions is, and the
    mean time. *)
Theorem C96_chrono : forall n (p : problem) (su : setup) st' total sol,
  sp_set_up p = Some su -> solved n (su_opti _ _ su) st' total sol ->
  matches (sp_mode p) su -> well_named su -> has_values p su sol -> counts ->
  exists r, let '(p', o) := chrono_solve (Some (Z.of_nat n)) p in
    o = Ok tt /\ sp_results p' = Some r /\ sp_sol p' = Some sol /\
    reports p su st' (E_num V (total / INR n)) sol r.
Proof. exact (chrono_stores opti_solve sol_value opti_stats iter_count). Qed.

(** With a solver that always finds the same, the two give the same results,
    but for the time. *)
Theorem C96_same : forall n (p : problem) (su : setup) sol stats, (0 < n)%nat -> sp_set_up p = Some su ->
  (forall st, exists st' d, opti_solve st = (st', d, Ok sol) /\ opti_stats st' = stats) ->
  matches (sp_mode p) su -> well_named su -> has_values p su sol -> counts ->
  exists r r', sp_results (fst (simple_solve p)) = Some r /\
    sp_results (fst (chrono_solve (Some (Z.of_nat n)) p)) = Some r' /\
    forall k, k <> "cpudt" -> dget V k r' = dget V k r.
Proof. exact (same_results opti_solve sol_value opti_stats iter_count). Qed.

(** If one of the solves fails its error is raised, and results and solution
    are still the old ones, even if earlier repetitions had a solution. *)
Theorem C96_failed : forall n (p : problem) (su : setup) e, sp_set_up p = Some su -> fails n (su_opti _ _ su) e ->
  let '(p', o) := chrono_solve (Some (Z.of_nat n)) p in
  o = Err (match e with AttributeError => RuntimeError | _ => e end) /\
  sp_results p' = sp_results p /\ sp_sol p' = sp_sol p.
Proof. exact (chrono_fails opti_solve sol_value opti_stats iter_count). Qed.
Theorem C96_failed_simple : forall (p : problem) (su : setup) e, sp_set_up p = Some su -> fails 1 (su_opti _ _ su) e ->
  let '(p', o) := simple_solve p in
  o = Err (match e with AttributeError => RuntimeError | _ => e end) /\
  sp_results p' = sp_results p /\ sp_sol p' = sp_sol p.
Proof. exact (simple_fails opti_solve sol_value opti_stats iter_count). Qed.

(** Calls that are refused change nothing: without set-up, and with numbers of
    repetitions that are not positive. *)
Theorem C96_refused : forall (p : problem),
  (sp_set_up p = None -> simple_solve p = (p, Err RuntimeError) /\
     forall k, (0 < k)%Z -> chrono_solve (Some k) p = (p, Err RuntimeError)) /\
  chrono_solve (Some 0%Z) p = (p, Err ZeroDivisionError) /\
  (forall k, (k < 0)%Z -> chrono_solve (Some k) p = (p, Err UnboundLocalError)).
Proof. exact (refused_calls opti_solve sol_value opti_stats iter_count). Qed.

(** After any calls, with their errors caught, results and solution belong
    together: both are those of one successful solve, or both are the old
    ones if no call succeeded. *)
Theorem C96_history : forall cs (p : problem), sound p ->
  let '(p', os) := call_all p cs in
  if existsb is_ok os
  then exists r sol su st seconds, sp_set_up p = Some su /\ sp_results p' = Some r /\ sp_sol p' = Some sol /\
         reports p su st seconds sol r /\ exists st0 d, opti_solve st0 = (st, d, Ok sol)
  else sp_results p' = sp_results p /\ sp_sol p' = sp_sol p.
Proof. exact (history_results opti_solve sol_value opti_stats iter_count). Qed.

(** The documentation says that solve_repetitions is optional, with default
    value 1: it is not. *)
Theorem C96_default_refuted : forall (p : problem), chrono_solve None p = (p, Err TypeError).
Proof. exact (no_default opti_solve sol_value opti_stats iter_count). Qed.

(** The scheme of the results is the name that was given to the factory. *)
Theorem C96_scheme : forall LM s g op (p : problem) c p', Opti_Problem LM s g = Ok op ->
  sp_mode p = op_scheme_mode op -> sp_scheme p = op_scheme op -> sound p -> head3 s <> "ph_" ->
  call_solve E V Sol St opti_solve sol_value opti_stats iter_count p c = (p', Ok tt) ->
  exists r, sp_results p' = Some r /\ dget V "scheme" r = Some (E_str V s).
Proof. exact (scheme_stored opti_solve sol_value opti_stats iter_count). Qed.
(** With several segments it is the name without its prefixes. *)
Theorem C96_scheme_segments : forall LM f base s g op (p : problem) c p', names true f base s ->
  Opti_Problem LM s g = Ok op -> sp_mode p = op_scheme_mode op -> sp_scheme p = op_scheme op -> sound p ->
  call_solve E V Sol St opti_solve sol_value opti_stats iter_count p c = (p', Ok tt) ->
  exists r, sp_results p' = Some r /\ dget V "scheme" r = Some (E_str V base).
Proof. exact (scheme_stored_ph opti_solve sol_value opti_stats iter_count). Qed.
End C96.

(** No two of the entries that the set-ups of the code make have the same
    name, for any order. *)
Theorem C96_names : forall {E St} (su : set_up E St) c scheme mode,
  map fst (su_arrs _ _ su) = arr_keys c scheme (su_order _ _ su) ->
  map fst (lists_of su) = (match c with multi_pseudospectral => list_keys mode (su_order _ _ su) | _ => [] end) ->
  well_named su.
Proof. exact @names_apart. Qed.

(** A problem that meets the hypotheses of each. *)
Example C96_hypotheses :
  (forall n, (0 < n)%nat -> solved ex_solve n 0%nat n (2 * INR n) n) /\
  fails ex_flaky 5 0%nat ValueError /\
  sound ex_solve ex_value ex_stats ex_iter ex_problem /\
  (exists op, Opti_Problem LM_callable "trapz" "zero" = Ok op /\ sp_mode _ _ _ _ ex_problem = op_scheme_mode op /\
     sp_scheme _ _ _ _ ex_problem = op_scheme op) /\
  (exists p', call_solve _ _ _ _ ex_solve ex_value ex_stats ex_iter ex_problem C_simple = (p', Ok tt)).
Proof. exact hypotheses_met. Qed.

(** In two problems with several segments the scheme of the results is the
    same, and the name given is not. *)
Theorem C96_scheme_refuted : exists s s' op op', s <> s' /\
  Opti_Problem LM_callable s "zero" = Ok op /\ Opti_Problem LM_callable s' "zero" = Ok op' /\
  op_scheme op = op_scheme op' /\ names true FBottomUp "LG" s /\ names true FTopDown "LG" s'.
Proof. exact ph_same_scheme. Qed.

Print Assumptions C96_simple.
Print Assumptions C96_chrono.
Print Assumptions C96_same.
Print Assumptions C96_failed.
Print Assumptions C96_failed_simple.
Print Assumptions C96_refused.
Print Assumptions C96_history.
Print Assumptions C96_default_refuted.
Print Assumptions C96_scheme.
Print Assumptions C96_scheme_segments.
Print Assumptions C96_names.
Print Assumptions C96_hypotheses.
Print Assumptions C96_scheme_refuted.
