(** Properties C47 to C49: stored results.  Only statements.  V are Python
    values; dumps and loads are pickle, py_eq is [==], hashable says which values
    have a hash.  [call_func f a] is the function itself called with a. *)
From Coq Require Import String List.
From Verif Require Import Prelude StoreModel StoreSpec StoreBindProofs StoreProofs StoreHistProofs StoreExamples.
Import ListNotations.
Open Scope nat_scope.
Open Scope list_scope.

(** ** C47: transparency *)

(** Any sequence of whole calls, in any style, of any of the functions, starting from files left by completed calls: each call ends as the function itself would.  Only the files pass from one call to the next, so each may be in a process of its own. *)
Theorem C47_transparent :
  forall V (none : V) py_eq hashable dumps loads (K : func V -> Prop) (l : list (func V * args V)),
  pickle_ok V dumps loads -> different_names V K ->
  (forall f, K f -> proper V f /\ respects_eq V py_eq f /\ picklable V dumps f) ->
  Forall (fun p => K (fst p) /\ proper_args V (snd p) /\ hashable_args V hashable (fst p) (snd p)) l ->
  forall s, (forall f, K f -> complete_file V dumps s f) ->
  exists N s', forall fuel, N <= fuel ->
    calls_alone V none py_eq hashable dumps loads fuel s l =
      (s', map (fun p => Some (match call_func V (fst p) (snd p) with
                               | Ok v => Returned V v
                               | Err e => Raised V (Python e)
                               end)) l).
Proof. exact (calls_alone_right). Qed.
Print Assumptions C47_transparent.

(** The key of a call are the values of its parameters, however they were given. *)
Theorem C47_key :
  forall V (none : V) f a vs, proper V f -> proper_args V a -> bind V f a = Ok vs -> given_tup V none f a = vs.
Proof. exact (given_tup_bind). Qed.
Print Assumptions C47_key.

(** These are the values Python gives them: by position, by keyword, by default; ... *)
Theorem C47_binding :
  forall V (f : func V) (a : args V) vs, proper V f -> proper_args V a -> (bind V f a = Ok vs <-> gives V f a vs).
Proof. exact (bind_gives). Qed.
Print Assumptions C47_binding.

(** ... a call that Python refuses (arguments missing, left over, repeated or unknown) raises TypeError as without storing, and changes no file. *)
Theorem C47_wrong_call :
  forall V (none : V) py_eq hashable dumps loads fuel s (f : func V) (a : args V), proper V f -> proper_args V a -> (forall vs, ~ gives V f a vs) ->
  call_alone V none py_eq hashable dumps loads fuel s f a = (s, Some (Raised V (Python TypeError))) /\ call_func V f a = Err TypeError.
Proof. exact (wrong_call). Qed.
Print Assumptions C47_wrong_call.

Example C47_binding_example :
  gives val fun_g {| a_pos := [(2, false)]; a_kw := [("y"%string, (5, false))] |} [(2, false); (5, false)] /\
  forall vs, ~ gives val fun_g {| a_pos := [(2, false)]; a_kw := [("z"%string, (5, false))] |} vs.
Proof.
  split.
  - apply bind_gives; [repeat constructor; cbn; intuition discriminate|repeat constructor; cbn; tauto|reflexivity].
  - intros vs H. apply bind_gives in H; [discriminate H|repeat constructor; cbn; intuition discriminate|repeat constructor; cbn; tauto].
Qed.

(** A whole call is a history of one process, as in C48. *)
Theorem C47_call_is_history :
  forall V (none : V) py_eq hashable dumps loads fuel s f a s' o,
  call_alone V none py_eq hashable dumps loads fuel s f a = (s', Some o) ->
  y_fs V (history V none py_eq hashable dumps loads (empty_sys V s) (E_call V 0 f a :: repeat (E_step V 0 0) fuel)) = s' /\
  y_log V (history V none py_eq hashable dumps loads (empty_sys V s) (E_call V 0 f a :: repeat (E_step V 0 0) fuel)) = [(f, a, o)].
Proof. exact (call_alone_history). Qed.
Print Assumptions C47_call_is_history.

(** With an argument that has no hash (a list, an array) the stored function raises although the function itself returns. *)
Theorem C47_unhashable_refuted :
  forall V (none : V) py_eq hashable dumps loads s f a vs, pickle_ok V dumps loads -> proper V f -> proper_args V a ->
  complete_file V dumps s f -> bind V f a = Ok vs -> forallb hashable vs = false -> (exists r, f_body V f vs = Ok r) ->
  forall fuel, 4 <= fuel -> exists s', call_alone V none py_eq hashable dumps loads fuel s f a = (s', Some (Raised V (Python TypeError))).
Proof. exact (unhashable_refused). Qed.
Print Assumptions C47_unhashable_refuted.

Example C47_example :
  snd (calls_alone val vnone veq vhash tdumps tloads 50 no_files
         [(fun_g, pos [(2, false)]); (fun_g, {| a_pos := []; a_kw := [("y"%string, (1, false)); ("x"%string, (2, false))] |});
          (fun_f, pos [(2, false)]); (fun_g, pos [(2, false); (5, false)]); (fun_g, pos []); (fun_g, {| a_pos := [(2, false)]; a_kw := [("y"%string, (5, false))] |})])
  = [Some (Returned val (3, false)); Some (Returned val (3, false)); Some (Returned val (12, false));
     Some (Returned val (7, false)); Some (Raised val (Python TypeError)); Some (Returned val (7, false))].
Proof. exact (calls_example). Qed.

Example C47_pickle_example :
  pickle_ok val tdumps tloads.
Proof. exact (toy_pickle). Qed.

(** ** C48: crashes and concurrency *)

(** Any number of processes, each step of each one (opening, each piece written) and crashes at any point, as long as no two processes are in calls of the same function: every value returned is that of the function. *)
Theorem C48_crashes :
  forall V (none : V) py_eq hashable dumps loads (K : func V -> Prop), pickle_ok V dumps loads -> different_names V K ->
  (forall f, K f -> proper V f /\ respects_eq V py_eq f) ->
  forall es s, calls_in V K es -> (forall f, K f -> complete_file V dumps s f) ->
  throughout V none py_eq hashable dumps loads (alone V) (empty_sys V s) es ->
  forall f a v, In (f, a, Returned V v) (y_log V (history V none py_eq hashable dumps loads (empty_sys V s) es)) -> call_func V f a = Ok v.
Proof. exact (exclusive_right). Qed.
Print Assumptions C48_crashes.

(** Any interleaving and crashes, if the system writes each file in one go.  Missing: files written in several pieces, where it is false (next). *)
Theorem C48_one_go_partial :
  forall V (none : V) py_eq hashable dumps loads (K : func V -> Prop), pickle_ok V dumps loads -> different_names V K ->
  (forall f, K f -> proper V f /\ respects_eq V py_eq f) -> (forall f, K f -> picklable V dumps f) ->
  forall es s, calls_in V K es -> (forall f, K f -> complete_file V dumps s f) ->
  throughout V none py_eq hashable dumps loads (in_one_go V) (empty_sys V s) es ->
  forall f a v, In (f, a, Returned V v) (y_log V (history V none py_eq hashable dumps loads (empty_sys V s) es)) -> call_func V f a = Ok v.
Proof. exact (one_go_right). Qed.
Print Assumptions C48_one_go_partial.

(** Two processes that write the file of a function in pieces at the same time can leave an entry of one with the value of the other; the next call returns it. *)
Theorem C48_mixing_refuted :
  pickle_ok val tdumps tloads /\
  In (fun_f, pos [(2, false)], Returned val (11, false)) (y_log val (history val vnone veq vhash tdumps tloads (empty_sys val no_files) mixing)) /\
  call_func val fun_f (pos [(2, false)]) = Ok (12, false).
Proof. exact (conj toy_pickle mixing_refutes). Qed.
Print Assumptions C48_mixing_refuted.

(** A crash never gives a wrong value, but the file it leaves makes every later call fail: nothing repairs or removes it. *)
Theorem C48_stuck_refuted :
  forall V (none : V) py_eq hashable dumps loads s f c, fs_dir s = true -> fs_file s (f_name V f) = Some c -> loads c = None ->
  forall fuel a vs, 3 <= fuel -> bind V f a = Ok vs ->
  call_alone V none py_eq hashable dumps loads fuel s f a = (s, Some (Raised V UnpicklingError)).
Proof. exact (unreadable_stays). Qed.
Print Assumptions C48_stuck_refuted.

(** Two processes that find no directory: the second to make it raises. *)
Theorem C48_makedirs_refuted :
  y_log val (history val vnone veq vhash tdumps tloads (empty_sys val no_files)
    [E_call val 0 fun_f (pos [(1, false)]); E_call val 1 fun_g (pos [(1, false)]); E_step val 0 0; E_step val 1 0; E_step val 0 0; E_step val 1 0])
  = [(fun_g, pos [(1, false)], Raised val FileExistsError)].
Proof. exact (mkdir_race). Qed.
Print Assumptions C48_makedirs_refuted.

(** A crash just after the file is opened. *)
Example C48_crash_example :
  forall fuel v, 3 <= fuel -> let s := y_fs val (history val vnone veq vhash tdumps tloads (empty_sys val no_files) crash_open) in
  call_alone val vnone veq vhash tdumps tloads fuel s fun_f (pos [v]) = (s, Some (Raised val UnpicklingError)).
Proof. exact (crash_stuck). Qed.

Example C48_unpicklable_example :
  snd (calls_alone val vnone veq vhash tdumps tloads 50 no_files [(fun_f, pos [(1, false)]); (fun_f, pos [(89, false)]); (fun_f, pos [(1, false)])])
  = [Some (Returned val (11, false)); Some (Raised val PicklingError); Some (Raised val UnpicklingError)].
Proof. exact (unpicklable_example). Qed.

Example C48_history_example :
  let es := [E_call val 0 fun_g (pos [(1, false)]); E_step val 0 0; E_step val 0 0; E_step val 0 0; E_step val 0 0; E_step val 0 0; E_crash val 0;
             E_call val 1 fun_g (pos [(1, false)]); E_step val 1 0; E_step val 1 0; E_step val 1 0] in
  calls_in val (fun f => f = fun_g) es /\ throughout val vnone veq vhash tdumps tloads (alone val) (empty_sys val no_files) es /\
  y_log val (history val vnone veq vhash tdumps tloads (empty_sys val no_files) es) = [(fun_g, pos [(1, false)], Raised val UnpicklingError)].
Proof. exact (crash_history_fine). Qed.

Example C48_function_example :
  proper val fun_g /\ respects_eq val veq fun_g.
Proof. exact (g_fine). Qed.

(** ** C49: isolation *)

(** A call, finished or not, changes nothing stored for a function of another name. *)
Theorem C49_other_functions :
  forall V (none : V) py_eq hashable dumps loads s f a g k fuel, f_name V g <> f_name V f ->
  stored V py_eq loads (fst (call_alone V none py_eq hashable dumps loads fuel s f a)) g k = stored V py_eq loads s g k.
Proof. exact (other_functions). Qed.
Print Assumptions C49_other_functions.

(** Nor anything stored for arguments that are not [==]. *)
Theorem C49_other_arguments :
  forall V (none : V) py_eq hashable dumps loads s f a vs k, pickle_ok V dumps loads -> eq_on_keys V py_eq -> proper V f -> proper_args V a ->
  respects_eq V py_eq f -> picklable V dumps f -> hashable_args V hashable f a -> complete_file V dumps s f ->
  bind V f a = Ok vs -> tup_eq V py_eq vs k = false ->
  exists N, forall fuel, N <= fuel ->
    stored V py_eq loads (fst (call_alone V none py_eq hashable dumps loads fuel s f a)) f k = stored V py_eq loads s f k.
Proof. exact (other_arguments). Qed.
Print Assumptions C49_other_arguments.

(** Two functions of the same name (in different modules) share their results. *)
Theorem C49_same_name_refuted :
  snd (calls_alone val vnone veq vhash tdumps tloads 50 no_files [(fun_f, pos [(1, false)]); (fun_f', pos [(1, false)])])
  = [Some (Returned val (11, false)); Some (Returned val (11, false))] /\
  call_func val fun_f' (pos [(1, false)]) = Ok (21, false).
Proof. exact (same_name_shared). Qed.
Print Assumptions C49_same_name_refuted.

(** So do arguments that are [==] but different (1, 1.0 and True). *)
Theorem C49_equal_arguments_refuted :
  snd (calls_alone val vnone veq vhash tdumps tloads 50 no_files [(fun_f, pos [(1, false)]); (fun_f, pos [(1, true)])])
  = [Some (Returned val (11, false)); Some (Returned val (11, false))] /\
  call_func val fun_f (pos [(1, true)]) = Ok (11, true).
Proof. exact (equal_args_shared). Qed.
Print Assumptions C49_equal_arguments_refuted.


(** A function that meets the hypotheses of these theorems. *)
Example C47_function_example :
  proper val fun_h /\ respects_eq val veq fun_h /\ picklable val tdumps fun_h /\ eq_on_keys val veq.
Proof. exact (h_fine). Qed.
