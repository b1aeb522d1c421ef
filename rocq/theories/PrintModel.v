(** Model of chords/symbolic.py, part 3: the texts of python functions.

    Printing on the screen is left out. *)
From Coq Require Import String Ascii.
From Verif Require Import Prelude PwInterpModel SymModel CasModel.
Open Scope list_scope.
Open Scope string_scope.

(** What is given: a list or Matrix of expressions, or one expression. *)
Inductive exprs := Several (l : list expr) | Single (e : expr).
(** symbolic.py:45-66 [is_iterable], [make_list]: expressions of sympy are not
    iterable. *)
Definition make_list (x : exprs) : list expr := match x with Several l => l | Single e => [e] end.

(** str of a symbol, of a dynamic symbol and of its derivatives *)
Definition atom_str (a : atom) : string :=
  match a with
  | Static n => n
  | Dyn n 0 => n ++ "(t)"
  | Dyn n 1 => "Derivative(" ++ n ++ "(t), t)"
  | Dyn n k => "Derivative(" ++ n ++ "(t), (t, " ++ str_nat k ++ "))"
  end.
(** l.__str__()[1:-1] of a list of symbols *)
Definition names_str (l : list atom) : string := String.concat ", " (map atom_str l).

(** re.sub("numpy", by, s); [k] characters are skipped first. *)
Fixpoint sub_numpy (by_ : string) (k : nat) (s : string) : string :=
  match s with
  | EmptyString => ""
  | String c s' =>
      match k with
      | S k' => sub_numpy by_ k' s'
      | O => if prefix "numpy" s then by_ ++ sub_numpy by_ 4 s' else String c (sub_numpy by_ 0 s')
      end
  end.

Definition nl : string := String "010"%char "".

Section Print.
(** How the sets of dynamic symbols and of symbols of an expression are
    iterated. *)
Variable dyn_order : expr -> list atom.
Variable sym_order : expr -> list string.
(** sympy: NumPyPrinter().doprint and str *)
Variables doprint str : expr -> string.

(** symbolic.py:551-581 [printer_function] *)
Definition printer_function (flavour : string) (x : expr) : string :=
  if flavour =? "numpy" then doprint x
  else if flavour =? "np" then sub_numpy "np" 0 (doprint x)
  else if flavour =? "casadi" then sub_numpy "cas" 0 (doprint x)
  else str x.

(** symbolic.py:630-631, 695-696: one line for each expression. *)
Definition appends (printer : expr -> string) (l : list expr) : string :=
  String.concat "" (map (fun e => "    result.append(" ++ printer e ++ ")" ++ nl) l).

(** symbolic.py:584-634 [print_funcs_RHS] *)
Definition print_funcs_RHS (RHS : exprs) (q_vars : qvars) (u_vars : uvars) (flavour : string) : Res string :=
  do RHS <- mapm (normal dyn_order sym_order) (make_list RHS);
  do r <- arguments_of dyn_order sym_order RHS q_vars u_vars false false;
  let x_args := (r_q r ++ r_v r)%list in
  let printer := printer_function flavour in
  Ok ("def F(x, u, params):" ++ nl ++
      "    " ++ names_str x_args ++ " = unpack(x)" ++ nl ++
      "    " ++ names_str (r_u r) ++ " = unpack(u)" ++ nl ++
      "    " ++ names_str (map Static (r_params r)) ++ " = params" ++ nl ++
      "    result = [" ++ names_str (r_v r) ++ ",]" ++ nl ++
      appends printer RHS ++
      nl ++ "    return result" ++ nl).

(** symbolic.py:637-700 [print_funcs] *)
Definition print_funcs (expr_list : exprs) (q_vars : qvars) (flavour : string) : Res string :=
  do expr_list <- mapm (normal dyn_order sym_order) (make_list expr_list);
  do r <- arguments_of dyn_order sym_order expr_list q_vars U_none false false;
  let x_args := (r_q r ++ r_v r)%list in
  let lambda_args := map Static (r_lambdas r) in
  let params := map Static (r_params r) in
  let printer := printer_function flavour in
  let some (l : list atom) (s : string) := if (0 <? length l)%nat then s else "" in
  Ok ("def F(" ++ some x_args "x, " ++ some (r_u r) "u, " ++ some params "params, " ++ "):" ++ nl ++
      some x_args ("    " ++ names_str x_args ++ " = unpack(x)" ++ nl) ++
      some (r_u r) ("    " ++ names_str (r_u r) ++ " = unpack(u)" ++ nl) ++
      some lambda_args ("    " ++ names_str lambda_args ++ " = unpack(lambda)" ++ nl) ++
      some params ("    " ++ names_str params ++ " = params" ++ nl) ++
      (match expr_list with
       | [e] => "    result = " ++ printer e ++ nl
       | _ => "    result = []" ++ nl ++ appends printer expr_list
       end) ++
      nl ++ "    return result" ++ nl).
End Print.
