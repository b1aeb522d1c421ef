(** Model of chords/symbolic.py, part 1: symbols, their renaming and their
    classification.

    A sympy expression is a tree over real numbers; what sympy does to keep
    expressions in canonical form does not change their values and is left
    out.  A dynamic symbol n(t) and its derivatives are [Dyn n level]; names
    are strings of one-byte characters. *)
From Coq Require Import String Ascii DecimalString.
From Verif Require Import Prelude PwInterpModel.
Open Scope R_scope.
Open Scope list_scope.

Inductive atom := Static (name : string) | Dyn (name : string) (level : nat).
Definition atom_eq_dec (a b : atom) : {a = b} + {a <> b}.
Proof. decide equality; (apply string_dec || apply Nat.eq_dec). Defined.

(** [Func f k e]: the k-th derivative of the function f 0, at e. *)
Inductive expr :=
| Num (r : R)
| Var (a : atom)
| Plus (e1 e2 : expr)
| Times (e1 e2 : expr)
| Func (f : nat -> R -> R) (k : nat) (e : expr).

Fixpoint eval (rho : atom -> R) (e : expr) : R :=
  match e with
  | Num r => r
  | Var a => rho a
  | Plus e1 e2 => eval rho e1 + eval rho e2
  | Times e1 e2 => eval rho e1 * eval rho e2
  | Func f k e => f k (eval rho e)
  end.
Fixpoint atoms (e : expr) : list atom :=
  match e with
  | Num _ => []
  | Var a => [a]
  | Plus e1 e2 | Times e1 e2 => atoms e1 ++ atoms e2
  | Func _ _ e => atoms e
  end.

(** sympy's subs: one replacement, old by new, in an atom.  In a derivative of
    old, the derivative of new appears: 0 for a plain symbol. *)
Definition subs_atom (old new a : atom) : expr :=
  if atom_eq_dec a old then Var new
  else
    match old, a with
    | Dyn n k, Dyn m j =>
        if ((n =? m)%string && (k <? j)%nat)%bool
        then match new with Static _ => Num 0 | Dyn n' k' => Var (Dyn n' (k' + (j - k))) end
        else Var a
    | _, _ => Var a
    end.
Fixpoint subs1 (old new : atom) (e : expr) : expr :=
  match e with
  | Num r => Num r
  | Var a => subs_atom old new a
  | Plus e1 e2 => Plus (subs1 old new e1) (subs1 old new e2)
  | Times e1 e2 => Times (subs1 old new e1) (subs1 old new e2)
  | Func f k e => Func f k (subs1 old new e)
  end.
(** subs with a list: one after the other. *)
Definition subs (l : list (atom * atom)) (e : expr) : expr :=
  fold_left (fun e p => subs1 (fst p) (snd p) e) l e.

(** str(n) *)
Definition str_nat (n : nat) : string := NilZero.string_of_uint (Nat.to_uint n).
(** dynamicsymbols("x_" + str(n)) *)
Definition x_name (n : nat) : string := "x_" ++ str_nat n.

(** symbolic.py:69-84 [q_2_x] *)
Definition q_2_x (e : expr) (qs qdots : list atom) : Res expr :=
  if negb (length qs =? length qdots)%nat then Err AssertionError
  else
    let n := length qs in
    Ok (subs (map (fun i => (nth i qdots (Static ""), Dyn (x_name (n + i)) 0)) (seq 0 n) ++
              map (fun i => (nth i qs (Static ""), Dyn (x_name i) 0)) (seq 0 n)) e).

(** symbolic.py:87-92 [derivative_level] *)
Definition derivative_level (a : atom) : nat := match a with Static _ => 0%nat | Dyn _ k => k end.
Definition is_dyn (a : atom) : bool := match a with Static _ => false | Dyn _ _ => true end.

(** symbolic.py:109-130 [sorted_dynamic_symbols]; [l] is the set that
    find_dynamicsymbols returns, in the order in which it is iterated.  Stable
    sort, higher levels first. *)
Fixpoint insert_level (a : atom) (l : list atom) : list atom :=
  match l with
  | [] => [a]
  | b :: l' => if (derivative_level b <=? derivative_level a)%nat then a :: l else b :: insert_level a l'
  end.
Definition sort_levels (l : list atom) : list atom := fold_right insert_level [] l.

(** str.isdigit of one character *)
Definition digit (c : ascii) : bool := let n := nat_of_ascii c in ((48 <=? n) && (n <=? 57))%nat.
Fixpoint all_digits (s : string) : bool :=
  match s with EmptyString => true | String c s' => (digit c && all_digits s')%bool end.
(** str.isdigit, str.isnumeric: false for the empty string *)
Definition isdigit (s : string) : bool := match s with EmptyString => false | _ => all_digits s end.
Fixpoint dots (k : nat) : string := match k with O => "" | S k' => "_dot" ++ dots k' end.

(** symbolic.py:217-264 [diff_to_symb]: the name of the symbol. *)
Definition q_named (name : string) : Res bool :=
  match name with
  | EmptyString => Err IndexError
  | String c rest =>
      if negb (c =? "q")%char then Ok false
      else match rest with
           | EmptyString => Err IndexError
           | String d _ => Ok ((d =? "_")%char || digit d)%bool
           end
  end.
Definition tail1 (name : string) : string := match name with EmptyString => "" | String _ s => s end.
Definition diff_to_symb (a : atom) : Res string :=
  match a with
  | Static n => Ok n
  | Dyn n O => Ok n
  | Dyn n (S k) =>
      do q <- q_named n;
      Ok (if q : bool then
            match k with
            | O => "v" ++ tail1 n
            | S O => "a" ++ tail1 n
            | S k' => "a" ++ dots k' ++ tail1 n
            end
          else n ++ dots (S k))%string
  end.

(** symbolic.py:267-272 [diff_to_symb_expr]; [order] is the set of dynamic
    symbols in the order in which it is iterated. *)
Definition diff_to_symb_expr (order : list atom) (e : expr) : Res expr :=
  do subs_list <- mapm (fun a => do s <- diff_to_symb a; Ok (a, Static s)) (sort_levels order);
  Ok (subs subs_list e).

(** symbolic.py:275-306 [standard_notation]: the new name of a symbol, if it
    has one. *)
Definition std_name (name : string) : option string :=
  match name with
  | EmptyString => None
  | String c tail =>
      if isdigit tail then
        if (c =? "q")%char then Some ("q_" ++ tail)%string
        else if (c =? "v")%char then Some ("v_" ++ tail)%string
        else if (c =? "a")%char then Some ("a_" ++ tail)%string
        else if (c =? "u")%char then Some ("u_" ++ tail)%string
        else if (c =? "x")%char then Some ("x_" ++ tail)%string
        else None
      else None
  end.
(** [order]: the names in expr.atoms(Symbol), as iterated. *)
Definition standard_notation (order : list string) (e : expr) : expr :=
  subs (flat_map (fun n => match std_name n with Some n' => [(Static n, Static n')] | None => [] end) order) e.

(** ** Classification *)
(** symbolic.py:381-388 [is_lambda] of the name of a symbol (that does not end
    in "(t)") *)
Definition is_lambda (name : string) : bool :=
  match name with
  | String "l" (String "a" (String "m" s)) => isdigit s
  | _ => false
  end.
(** symbolic.py:376-378 [add_if_not_there] *)
Definition mem_s (x : string) (l : list string) : bool := existsb (String.eqb x) l.
Definition add_if_not_there (x : string) (l : list string) : list string := if mem_s x l then l else l ++ [x].
(** sorted(l, key=get_str), of symbols given by their names *)
Fixpoint insert_s (x : string) (l : list string) : list string :=
  match l with
  | [] => [x]
  | y :: l' => if (x <=? y)%string then x :: l else y :: insert_s x l'
  end.
Definition sorted (l : list string) : list string := fold_right insert_s [] l.
Definition mem_a (x : string) (l : list atom) : bool := if in_dec atom_eq_dec (Static x) l then true else false.

Inductive qvars := Q_int (n : nat) | Q_list (l : list atom) | Q_other.
Inductive uvars := U_none | U_int (n : nat) | U_list (l : list atom) | U_other.
(** symbols("q_0:n") *)
Definition numbered (c : string) (n : nat) : list atom := map (fun i => Static (c ++ "_" ++ str_nat i)%string) (seq 0 n).
(** diff_to_symb(var), of var.diff() and of var.diff().diff(); the derivative of
    a plain symbol is 1, whose "name" is empty: symbols("") is an error. *)
Definition symb_d (k : nat) (a : atom) : Res atom :=
  match a with
  | Static n => if (k =? 0)%nat then Ok (Static n) else Err ValueError
  | Dyn n j => do s <- diff_to_symb (Dyn n (j + k)); Ok (Static s)
  end.

Record found := { f_params : list string; f_lambdas : list string; f_u : list string; f_x : list string; f_a : list string }.
(** symbolic.py:490-505: the body of the loops. *)
Definition classify (x_args u_args a_args : list atom) (f : found) (s : string) : found :=
  if negb (mem_a s (x_args ++ u_args ++ a_args)) then
    if is_lambda s then {| f_params := f_params f; f_lambdas := add_if_not_there s (f_lambdas f); f_u := f_u f; f_x := f_x f; f_a := f_a f |}
    else {| f_params := add_if_not_there s (f_params f); f_lambdas := f_lambdas f; f_u := f_u f; f_x := f_x f; f_a := f_a f |}
  else if mem_a s u_args then {| f_params := f_params f; f_lambdas := f_lambdas f; f_u := add_if_not_there s (f_u f); f_x := f_x f; f_a := f_a f |}
  else if mem_a s x_args then {| f_params := f_params f; f_lambdas := f_lambdas f; f_u := f_u f; f_x := add_if_not_there s (f_x f); f_a := f_a f |}
  else if mem_a s a_args then {| f_params := f_params f; f_lambdas := f_lambdas f; f_u := f_u f; f_x := f_x f; f_a := add_if_not_there s (f_a f) |}
  else f.

Record arguments := { r_q : list atom; r_v : list atom; r_a : list atom; r_u : list atom; r_params : list string; r_lambdas : list string }.
(** symbolic.py:391-548 [find_arguments].  [var_sets] are the names of the
    symbols of each expression, once diff_to_symb_expr and standard_notation
    are applied, in the order in which the sets are iterated. *)
Definition find_arguments (var_sets : list (list string)) (q_vars : qvars) (u_vars : uvars)
  (separate_lambdas separate_as : bool) : Res arguments :=
  let max_n_var := fold_right (fun l n => (length l + n)%nat) 0%nat var_sets in
  do (q_args, v_args, a_args) <-
    match q_vars with
    | Q_int n => Ok (numbered "q" n, numbered "v" n, numbered "a" n)
    | Q_list l => do q <- mapm (symb_d 0) l; do v <- mapm (symb_d 1) l; do a <- mapm (symb_d 2) l; Ok (q, v, a)
    | Q_other => Err TypeError
    end;
  do u_args <-
    match u_vars with
    | U_none => Ok (numbered "u" max_n_var)
    | U_list l => Ok l
    | U_int n => Ok (numbered "u" n)
    | U_other => Err TypeError
    end;
  let x_args := q_args ++ v_args in
  let f := fold_left (fun f l => fold_left (classify x_args u_args a_args) l f) var_sets
             {| f_params := []; f_lambdas := []; f_u := []; f_x := []; f_a := [] |} in
  let lambda_args_found := sorted (f_lambdas f) in
  let u_args_found := sorted (f_u f) in
  let a_args_found := sorted (f_a f) in
  let u_args := match u_vars with U_none => map Static (sorted u_args_found) | _ => u_args end in
  let '(params, lambda_args_found) :=
    if separate_lambdas then (f_params f, lambda_args_found) else (f_params f ++ lambda_args_found, []) in
  let '(params, a_args) := if separate_as then (params, a_args) else (params ++ a_args_found, []) in
  Ok {| r_q := q_args; r_v := v_args; r_a := a_args; r_u := u_args; r_params := sorted params; r_lambdas := lambda_args_found |}.
