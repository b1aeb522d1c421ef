(** Python functions of the kind that print_funcs writes: their text and what
    they compute.

    The text of an expression is that of the printer; it is trusted that python
    reads it as the expression.  Numbers and lists are the only values;
    arithmetic with lists, that numpy allows in part, is a TypeError here. *)
From Coq Require Import String Ascii.
From Verif Require Import Prelude PwInterpModel SymModel SymSpec PrintModel.
Open Scope list_scope.
Open Scope string_scope.

Inductive pyval := V_num (r : R) | V_list (l : list pyval).
Definition numbers (v : vec) : pyval := V_list (map V_num v).

(** The lines of a function body. *)
Inductive source := Unpack (arg : string) | Name (arg : string).
Inductive line :=
| L_assign (targets : list atom) (s : source)      (* a, b = unpack(x) *)
| L_list (names : list atom)                       (* result = [a, b,] *)
| L_empty                                          (* result = [] *)
| L_one (e : expr)                                 (* result = e *)
| L_append (e : expr).                             (* result.append(e) *)
(** def F(args): lines, return result.  [p_module] is the module of functions
    such as sin. *)
Record program := { p_args : list string; p_trailing : string; p_lines : list line; p_module : string }.

(** ** Text *)
Definition source_text (s : source) : string := match s with Unpack a => "unpack(" ++ a ++ ")" | Name a => a end.
Definition line_text (printer : expr -> string) (l : line) : string :=
  "    " ++
  match l with
  | L_assign targets s => names_str targets ++ " = " ++ source_text s
  | L_list names => "result = [" ++ names_str names ++ ",]"
  | L_empty => "result = []"
  | L_one e => "result = " ++ printer e
  | L_append e => "result.append(" ++ printer e ++ ")"
  end ++ nl.
(** [p_trailing] is a comma and a space that may follow the arguments. *)
Definition text (printer : expr -> string) (p : program) : string :=
  "def F(" ++ String.concat ", " (p_args p) ++ p_trailing p ++ "):" ++ nl ++
  String.concat "" (map (line_text printer) (p_lines p)) ++
  nl ++ "    return result" ++ nl.

(** ** Syntax *)
Definition letter (c : ascii) : bool :=
  let n := nat_of_ascii c in (((65 <=? n) && (n <=? 90)) || ((97 <=? n) && (n <=? 122)) || (n =? 95))%nat%bool.
Fixpoint letters_or_digits (s : string) : bool :=
  match s with EmptyString => true | String c s' => ((letter c || digit c) && letters_or_digits s')%bool end.
Definition keywords : list string :=
  ["False"; "None"; "True"; "and"; "as"; "assert"; "async"; "await"; "break"; "class"; "continue"; "def"; "del"; "elif"; "else"; "except";
   "finally"; "for"; "from"; "global"; "if"; "import"; "in"; "is"; "lambda"; "nonlocal"; "not"; "or"; "pass"; "raise"; "return"; "try";
   "while"; "with"; "yield"].
Definition identifier (s : string) : bool :=
  match s with
  | EmptyString => false
  | String c s' => (letter c && letters_or_digits s' && negb (mem_s s keywords))%bool
  end.
Definition target_ok (a : atom) : bool := match a with Static n => identifier n | Dyn _ _ => false end.
Definition source_ok (s : source) : bool := match s with Unpack a | Name a => identifier a end.
Definition line_ok (l : line) : bool :=
  match l with
  | L_assign targets s => (negb (length targets =? 0)%nat && forallb target_ok targets && source_ok s)%bool
  | L_list names => (negb (length names =? 0)%nat && forallb target_ok names)%bool
  | _ => true
  end.

(** ** Meaning *)
Definition env : Type := list (string * pyval).
Fixpoint get (n : string) (e : env) : Res pyval :=
  match e with
  | [] => Err NameError
  | (m, v) :: e' => if n =? m then Ok v else get n e'
  end.
Definition bound (n : string) (e : env) : bool := match get n e with Ok _ => true | Err _ => false end.
Definition is_num (v : pyval) : Res R := match v with V_num r => Ok r | V_list _ => Err TypeError end.
(** unpack of chords/numpy.py and chords/casadi.py: a list of the numbers of a
    vector.  The arrays of two dimensions are not considered. *)
Definition unpack_val (v : pyval) : Res pyval :=
  match v with V_num r => Ok (V_list [V_num r]) | V_list l => do _ <- mapm is_num l; Ok (V_list l) end.
Definition target_name (a : atom) : string := match a with Static n => n | Dyn n _ => n end.
Fixpoint assign_all (targets : list atom) (l : list pyval) (e : env) : Res env :=
  match targets, l with
  | [], [] => Ok e
  | a :: targets', v :: l' => assign_all targets' l' ((target_name a, v) :: e)
  | _, _ => Err ValueError
  end.
(** One target takes the value; several share a list. *)
Definition assign (targets : list atom) (v : pyval) (e : env) : Res env :=
  match targets with
  | [a] => Ok ((target_name a, v) :: e)
  | _ => match v with V_list l => assign_all targets l e | V_num _ => Err TypeError end
  end.
Definition source_val (s : source) (e : env) : Res pyval :=
  match s with
  | Name a => get a e
  | Unpack a => if bound "unpack" e then Err TypeError else do v <- get a e; unpack_val v
  end.
Fixpoint expr_val (module_ : string) (e : env) (x : expr) : Res pyval :=
  match x with
  | Num r => Ok (V_num r)
  | Var (Static n) => get n e
  | Var (Dyn _ _) => Err NameError
  | Plus a b => do v <- expr_val module_ e a; do w <- expr_val module_ e b; do r <- is_num v; do s <- is_num w; Ok (V_num (r + s)%R)
  | Times a b => do v <- expr_val module_ e a; do w <- expr_val module_ e b; do r <- is_num v; do s <- is_num w; Ok (V_num (r * s)%R)
  | Func f k a => if bound module_ e then Err AttributeError else do v <- expr_val module_ e a; do r <- is_num v; Ok (V_num (f k r))
  end.
Definition step (module_ : string) (l : line) (e : env) : Res env :=
  match l with
  | L_assign targets s => do v <- source_val s e; assign targets v e
  | L_list names => do vs <- mapm (fun a => get (target_name a) e) names; Ok (("result", V_list vs) :: e)
  | L_empty => Ok (("result", V_list []) :: e)
  | L_one x => do v <- expr_val module_ e x; Ok (("result", v) :: e)
  | L_append x => do v <- expr_val module_ e x; do res <- get "result" e;
      match res with V_list vs => Ok (("result", V_list (vs ++ [v])%list) :: e) | V_num _ => Err AttributeError end
  end.
Fixpoint run (module_ : string) (ls : list line) (e : env) : Res env :=
  match ls with [] => Ok e | l :: ls' => do e' <- step module_ l e; run module_ ls' e' end.
(** F(vals) *)
Definition call (p : program) (vals : list pyval) : Res pyval :=
  if negb (forallb line_ok (p_lines p)) then Err SyntaxError
  else if negb (length vals =? length (p_args p))%nat then Err TypeError
  else do e <- run (p_module p) (p_lines p) (combine (p_args p) vals); get "result" e.

(** ** The functions asked for *)
Definition module_of (flavour : string) : string :=
  if flavour =? "numpy" then "numpy" else if flavour =? "np" then "np" else if flavour =? "casadi" then "cas" else "".
(** x' = F(x, u, params), for n expressions [RHS] of q'' *)
Definition rhs_program (r : arguments) (RHS : list expr) (flavour : string) : program :=
  {| p_args := ["x"; "u"; "params"]; p_trailing := "";
     p_lines := ([L_assign (r_q r ++ r_v r)%list (Unpack "x"); L_assign (r_u r) (Unpack "u"); L_assign (map Static (r_params r)) (Name "params");
                 L_list (r_v r)] ++ map L_append RHS)%list;
     p_module := module_of flavour |}.
(** Only the groups that are not empty. *)
Definition group (l : list atom) (arg : string) (s : source) : list (string * line) :=
  match l with [] => [] | _ => [(arg, L_assign l s)] end.
Definition exprs_program (r : arguments) (l : list expr) (flavour : string) : program :=
  let groups := (group (r_q r ++ r_v r) "x" (Unpack "x") ++ group (r_u r) "u" (Unpack "u") ++ group (map Static (r_params r)) "params" (Name "params"))%list in
  {| p_args := map fst groups; p_trailing := match groups with [] => "" | _ => ", " end;
     p_lines := (map snd groups ++ match l with [e] => [L_one e] | _ => L_empty :: map L_append l end)%list;
     p_module := module_of flavour |}.

(** Symbols that python takes as variables of their own: different, with names
    that are identifiers, and not those of the function itself. *)
Definition good_names (r : arguments) (flavour : string) : Prop :=
  let names := (r_q r ++ r_v r ++ r_u r ++ map Static (r_params r))%list in
  NoDup names /\ forall a, In a names -> exists n, a = Static n /\ identifier n = true /\ ~ In n ["u"; "params"; "unpack"; "result"; module_of flavour].
(** The value given for parameters or controls: a list, or the number if there
    is only one. *)
Definition alone (v : vec) : pyval := match v with [r] => V_num r | _ => numbers v end.

(** The text with every appearance of [old], from left to right, replaced. *)
Inductive replaced (old new : string) : string -> string -> Prop :=
| Rep_end : replaced old new "" ""
| Rep_here s t : replaced old new s t -> replaced old new (old ++ s) (new ++ t)
| Rep_skip c s t : prefix old (String c s) = false -> replaced old new s t -> replaced old new (String c s) (String c t).
