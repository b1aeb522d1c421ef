(** Properties C89 and C90: the texts of python functions.  Only statements. *)
From Coq Require Import Reals List String.
From Verif Require Import Prelude SymModel SymSpec FuncDynModel CasModel CasSpec NumSymModel NumpyModel PrintModel PrintSpec PrintProofs PrintThmProofs CasNameProofs CasExamples.
Import ListNotations.
Open Scope R_scope.
Open Scope list_scope.

(** ** C89: print_funcs_RHS *)

(** The string is the text of a python function F(x, u, params) that, called with the coordinates and velocities, the controls and the parameters, returns the velocities and the values of the expressions. *)
Theorem C89_value :
  forall dyn_order sym_order, iterates dyn_order sym_order -> forall doprint str RHS Q U flavour s, print_funcs_RHS dyn_order sym_order doprint str RHS Q U flavour = Ok s ->
  exists r p, CasModel.arguments_of dyn_order sym_order (make_list RHS) Q U false false = Ok r /\ s = text (printer_function doprint str flavour) p /\ p_args p = ["x"; "u"; "params"]%string /\
  (good_names r flavour -> r_q r <> [] -> (2 <= length (r_u r))%nat -> r_params r <> [] ->
   forall val, call p [numbers (map val (r_q r ++ r_v r)); numbers (map val (r_u r)); alone (map (fun s => val (Static s)) (r_params r))]
   = Ok (numbers (map val (r_v r) ++ map (value val) (make_list RHS)))).
Proof. exact (rhs_function_ok). Qed.
Print Assumptions C89_value.

(** Which function it is, and when there is one. *)
Theorem C89_text :
  forall dyn_order sym_order, iterates dyn_order sym_order -> forall doprint str RHS Q U flavour, print_funcs_RHS dyn_order sym_order doprint str RHS Q U flavour =
  match CasModel.arguments_of dyn_order sym_order (make_list RHS) Q U false false with
  | Ok r => Ok (text (printer_function doprint str flavour) (rhs_program r (map (rename called) (make_list RHS)) flavour))
  | Err e => Err e
  end.
Proof. exact (rhs_text_ok). Qed.
Print Assumptions C89_text.

(** It is the function that RHS2numpy makes. *)
Theorem C89_numpy :
  forall dyn_order sym_order, iterates dyn_order sym_order -> forall doprint str l Q U r flavour F s x u p, arguments_of dyn_order sym_order l Q U false false = Ok r -> good_names r flavour ->
  r_q r <> [] -> (2 <= length (r_u r))%nat -> r_params r <> [] -> length l = length (r_q r) ->
  RHS2numpy dyn_order sym_order l Q U "x" = Ok F -> print_funcs_RHS dyn_order sym_order doprint str (Several l) Q U flavour = Ok s ->
  length x = (2 * length (r_q r))%nat -> length u = length (r_u r) -> length p = length (r_params r) ->
  exists prog y, s = text (printer_function doprint str flavour) prog /\ F [A1 x; A1 u; A1 p] = Ok (A1 y) /\ call prog [numbers x; numbers u; alone p] = Ok (numbers y).
Proof. exact (rhs_text_numpy). Qed.
Print Assumptions C89_numpy.

(** A number of coordinates and of controls: all names are good if those of the parameters are. *)
Theorem C89_names :
  forall dyn_order sym_order l n U r flavour, standard_controls U -> arguments_of dyn_order sym_order l (Q_int n) U false false = Ok r ->
  (forall s, In s (r_params r) -> identifier s = true /\ ~ In s ["u"; "params"; "unpack"; "result"; module_of flavour]%string) -> good_names r flavour.
Proof. exact (numbered_good). Qed.
Print Assumptions C89_names.

(** The flavour changes only the module of the functions; *)
Theorem C89_flavours :
  forall doprint str flavour x,
  (flavour = "numpy"%string -> printer_function doprint str flavour x = doprint x) /\
  (flavour = "np"%string -> replaced "numpy" "np" (doprint x) (printer_function doprint str flavour x)) /\
  (flavour = "casadi"%string -> replaced "numpy" "cas" (doprint x) (printer_function doprint str flavour x)) /\
  (~ In flavour ["numpy"; "np"; "casadi"]%string -> printer_function doprint str flavour x = str x).
Proof. exact (flavours_ok). Qed.
Print Assumptions C89_flavours.

(** there is only one such text. *)
Theorem C89_replaced_unique :
  forall old new s t t', old <> ""%string -> replaced old new s t -> replaced old new s t' -> t = t'.
Proof. exact (replaced_unique). Qed.
Print Assumptions C89_replaced_unique.

Example C89_flavours_example :
  replaced "numpy" "cas" "m*numpy.sin(q_0) + numpynumpy" "m*cas.sin(q_0) + cascas".
Proof. exact (flavour_example). Qed.

(** A system of two coordinates and two controls, *)
Example C89_example :
  forall r, arguments_of dyns plain two_rhs (Q_int 2) U_none false false = Ok r ->
  good_names r "np" /\ r_q r <> [] /\ (2 <= length (r_u r))%nat /\ r_params r <> [] /\ length two_rhs = length (r_q r).
Proof. exact (two_hypotheses). Qed.

(** and its text. *)
Example C89_example_text :
  forall doprint str, print_funcs_RHS dyns plain doprint str (Several two_rhs) (Q_int 2) U_none "numpy" =
  Ok ("def F(x, u, params):" ++ nl ++ "    q_0, q_1, v_0, v_1 = unpack(x)" ++ nl ++ "    u_0, u_1 = unpack(u)" ++ nl ++ "    k, m = params" ++ nl ++
      "    result = [v_0, v_1,]" ++ nl ++
      "    result.append(" ++ doprint (Plus (V "u_0") (Times (V "k") (V "q_1"))) ++ ")" ++ nl ++
      "    result.append(" ++ doprint (Plus (V "u_1") (V "m")) ++ ")" ++ nl ++ nl ++ "    return result" ++ nl)%string.
Proof. exact (two_text). Qed.

(** Without controls, parameters or coordinates the text is not python: *)
Theorem C89_missing_refuted :
  forall dyn_order sym_order, iterates dyn_order sym_order -> forall doprint str RHS Q U flavour r s, print_funcs_RHS dyn_order sym_order doprint str RHS Q U flavour = Ok s -> CasModel.arguments_of dyn_order sym_order (make_list RHS) Q U false false = Ok r ->
  r_v r = [] \/ r_u r = [] \/ r_params r = [] ->
  exists p, s = text (printer_function doprint str flavour) p /\ forall vals, call p vals = Err SyntaxError.
Proof. exact (rhs_text_syntax). Qed.
Print Assumptions C89_missing_refuted.

(** a pendulum without control. *)
Example C89_missing_example :
  exists r s, print_funcs_RHS dyns plain (fun _ => "e"%string) (fun _ => "e"%string) (Several [Times (V "g") (V "q_0")]) (Q_int 1) U_none "np" = Ok s /\
  arguments_of dyns plain [Times (V "g") (V "q_0")] (Q_int 1) U_none false false = Ok r /\ r_u r = [] /\
  s = ("def F(x, u, params):" ++ nl ++ "    q_0, v_0 = unpack(x)" ++ nl ++ "     = unpack(u)" ++ nl ++ "    g = params" ++ nl ++ "    result = [v_0,]" ++ nl ++
       "    result.append(e)" ++ nl ++ nl ++ "    return result" ++ nl)%string.
Proof. exact (no_control). Qed.

(** With one control, its name stands for the list that unpack returns, and so does the entry of the result: q_0'' = u_0, q_1'' = m q_0. *)
Theorem C89_one_control_refuted :
  forall doprint str, exists p, print_funcs_RHS dyns plain doprint str (Several one_rhs) (Q_int 2) U_none "np" = Ok (text (printer_function doprint str "np") p) /\
  forall q0 q1 v0 v1 u0 m, call p [numbers [q0; q1; v0; v1]; numbers [u0]; V_num m] = Ok (V_list [V_num v0; V_num v1; V_list [V_num u0]; V_num (m * q0)]) /\
  call p [numbers [q0; q1; v0; v1]; V_num u0; V_num m] = Ok (V_list [V_num v0; V_num v1; V_list [V_num u0]; V_num (m * q0)]).
Proof. exact (one_control_text). Qed.
Print Assumptions C89_one_control_refuted.

(** With expressions of the whole x', that RHS2numpy also takes, the velocities are there twice. *)
Theorem C89_state_refuted :
  forall doprint str, exists p, print_funcs_RHS dyns plain doprint str (Several state_rhs) (Q_int 1) U_none "np" = Ok (text (printer_function doprint str "np") p) /\
  forall q0 v0 u0 u1 k, call p [numbers [q0; v0]; numbers [u0; u1]; V_num k] = Ok (numbers [v0; v0; u0 + k * u1]).
Proof. exact (state_text). Qed.
Print Assumptions C89_state_refuted.

(** A parameter called result is lost. *)
Theorem C89_result_refuted :
  forall doprint str, exists p, print_funcs_RHS dyns plain doprint str (Several result_rhs) (Q_int 1) U_none "np" = Ok (text (printer_function doprint str "np") p) /\
  forall q0 v0 u0 u1 k, call p [numbers [q0; v0]; numbers [u0; u1]; V_num k] = Err TypeError.
Proof. exact (result_text). Qed.
Print Assumptions C89_result_refuted.

(** ** C90: print_funcs *)

(** The string is the text of a python function that takes the groups of symbols that there are and returns the value of the expression, or the list of the values. *)
Theorem C90_value :
  forall dyn_order sym_order, iterates dyn_order sym_order -> forall doprint str l Q flavour s, print_funcs dyn_order sym_order doprint str l Q flavour = Ok s ->
  exists r p, CasModel.arguments_of dyn_order sym_order (make_list l) Q U_none false false = Ok r /\ s = text (printer_function doprint str flavour) p /\
  (good_names r flavour -> length (r_u r) <> 1%nat -> forall val,
   let x := map val (r_q r ++ r_v r) in let u := map val (r_u r) in let params := map (fun s => val (Static s)) (r_params r) in
   call p ((match x with [] => [] | _ => [numbers x] end) ++ (match u with [] => [] | _ => [numbers u] end) ++ (match params with [] => [] | _ => [alone params] end))
   = Ok (match make_list l with [e] => V_num (value val e) | _ => numbers (map (value val) (make_list l)) end)).
Proof. exact (exprs_function_ok). Qed.
Print Assumptions C90_value.

Theorem C90_text :
  forall dyn_order sym_order, iterates dyn_order sym_order -> forall doprint str l Q flavour, print_funcs dyn_order sym_order doprint str l Q flavour =
  match CasModel.arguments_of dyn_order sym_order (make_list l) Q U_none false false with
  | Ok r => Ok (text (printer_function doprint str flavour) (exprs_program r (map (rename called) (make_list l)) flavour))
  | Err e => Err e
  end.
Proof. exact (exprs_text_ok). Qed.
Print Assumptions C90_text.

(** The sum of two parameters, *)
Example C90_example :
  exists r, arguments_of dyns plain [Plus (V "k") (V "m")] (Q_int 0) U_none false false = Ok r /\ good_names r "np" /\ length (r_u r) <> 1%nat /\
  r_params r = ["k"; "m"]%string.
Proof. exact (param_hypotheses). Qed.

(** and its text. *)
Example C90_example_text :
  forall doprint str, print_funcs dyns plain doprint str (Single (Plus (V "k") (V "m"))) (Q_int 0) "numpy" =
  Ok ("def F(params, ):" ++ nl ++ "    k, m = params" ++ nl ++ "    result = " ++ doprint (Plus (V "k") (V "m")) ++ nl ++ nl ++ "    return result" ++ nl)%string.
Proof. exact (param_text). Qed.

(** With one control the value is again the list. *)
Theorem C90_one_control_refuted :
  forall doprint str, exists p, print_funcs dyns plain doprint str (Single (V "u_0")) (Q_int 0) "np" = Ok (text (printer_function doprint str "np") p) /\
  p_args p = ["u"%string] /\ forall u0, call p [numbers [u0]] = Ok (V_list [V_num u0]).
Proof. exact (one_control_exprs_text). Qed.
Print Assumptions C90_one_control_refuted.
