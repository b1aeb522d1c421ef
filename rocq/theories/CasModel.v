(** Model of chords/casadi.py and of the dynamics that opti.py makes with it:
    casadi functions from sympy expressions.

    A casadi expression is a tree whose leaves are components of casadi
    symbols; a casadi function has a list of input symbols and is evaluated at
    one vector for each.  casadi checks the sizes of the vectors: other sizes
    are a RuntimeError here (casadi also accepts some of them, such as a number
    for a vector or several columns, which is not modelled).  What is printed
    is left out. *)
From Coq Require Import String.
From Verif Require Import Prelude PwInterpModel SymModel LagrModel FuncDynModel.
Open Scope R_scope.
Open Scope list_scope.

(** The casadi symbols, as objects: two of them are called "x" in
    implicit_dynamic_x_to_casadi_function and yet are different. *)
Inductive sym := S_x | S_xdot | S_q | S_v | S_a | S_u | S_lam | S_p.
Definition sym_eq_dec (a b : sym) : {a = b} + {a <> b}.
Proof. decide equality. Defined.
Inductive cexpr :=
| C_num (r : R)
| C_sym (s : sym) (i : nat)
| C_plus (e1 e2 : cexpr)
| C_times (e1 e2 : cexpr)
| C_func (f : nat -> R -> R) (k : nat) (e : cexpr).

(** Values of a casadi expression, for values of the symbols; a symbol without
    value is a RuntimeError of casadi (free variables). *)
Fixpoint lookup (s : sym) (vals : list (sym * vec)) : Res vec :=
  match vals with
  | [] => Err RuntimeError
  | (s', v) :: l => if sym_eq_dec s s' then Ok v else lookup s l
  end.
Fixpoint ceval (vals : list (sym * vec)) (e : cexpr) : Res R :=
  match e with
  | C_num r => Ok r
  | C_sym s i => do v <- lookup s vals; match nth_error v i with Some x => Ok x | None => Err IndexError end
  | C_plus e1 e2 => do a <- ceval vals e1; do b <- ceval vals e2; Ok (a + b)
  | C_times e1 e2 => do a <- ceval vals e1; do b <- ceval vals e2; Ok (a * b)
  | C_func f k e => do a <- ceval vals e; Ok (f k a)
  end.
(** casadi's Function: names, symbols and sizes of the inputs; one row of
    expressions. *)
Record cas_function := { cf_in : list (string * sym * nat); cf_out : list cexpr }.
Definition cf_sizes (f : cas_function) : list nat := map snd (cf_in f).
Definition cas_call (f : cas_function) (args : list vec) : Res vec :=
  if list_eq_dec Nat.eq_dec (map (@length R) args) (cf_sizes f)
  then mapm (ceval (combine (map (fun i => snd (fst i)) (cf_in f)) args)) (cf_out f)
  else Err RuntimeError.

(** casadi.py:28-58 [sympy2casadi]: lambdify makes a python function of the
    symbols (a repeated argument is a SyntaxError), called with the casadi
    symbols; a symbol that is not an argument is a NameError. *)
Fixpoint nodup_b (l : list atom) : bool :=
  match l with [] => true | a :: l' => negb (if in_dec atom_eq_dec a l' then true else false) && nodup_b l' end%bool.
Fixpoint arg_of (a : atom) (vars : list atom) (cas_vars : list (sym * nat)) : Res cexpr :=
  match vars, cas_vars with
  | b :: vars', (s, i) :: cas_vars' => if atom_eq_dec a b then Ok (C_sym s i) else arg_of a vars' cas_vars'
  | _, _ => Err NameError
  end.
Fixpoint translate (vars : list atom) (cas_vars : list (sym * nat)) (e : expr) : Res cexpr :=
  match e with
  | Num r => Ok (C_num r)
  | Var a => arg_of a vars cas_vars
  | Plus e1 e2 => do a <- translate vars cas_vars e1; do b <- translate vars cas_vars e2; Ok (C_plus a b)
  | Times e1 e2 => do a <- translate vars cas_vars e1; do b <- translate vars cas_vars e2; Ok (C_times a b)
  | Func f k e => do a <- translate vars cas_vars e; Ok (C_func f k a)
  end.
Definition sympy2casadi (e : expr) (vars : list atom) (cas_vars : list (sym * nat)) : Res cexpr :=
  if negb (nodup_b vars) then Err SyntaxError
  else if negb (length vars =? length cas_vars)%nat then Err TypeError
  else translate vars cas_vars e.
(** [s[ii] for ii in range(n)] *)
Definition comps (s : sym) (n : nat) : list (sym * nat) := map (fun ii => (s, ii)) (seq 0 n).

Section Orders.
(** How the sets of dynamic symbols and of symbols of an expression are
    iterated. *)
Variable dyn_order : expr -> list atom.
Variable sym_order : expr -> list string.

(** standard_notation(diff_to_symb_expr(expr)) *)
Definition normal (e : expr) : Res expr :=
  do e' <- diff_to_symb_expr (dyn_order e) e; Ok (standard_notation (sym_order e') e').
(** find_arguments, symbolic.py:391-548, of a list of expressions *)
Definition arguments_of (l : list expr) (q_vars : qvars) (u_vars : uvars) (separate_lambdas separate_as : bool) : Res arguments :=
  do l' <- mapm normal l;
  find_arguments (map sym_order l') q_vars u_vars separate_lambdas separate_as.

(** casadi.py:77-186 [rhs_to_casadi_function] *)
Definition rhs_to_casadi_function (RHS : list expr) (q_vars : qvars) (u_vars : uvars) (mode : string) : Res cas_function :=
  do RHS <- mapm normal RHS;
  do r <- arguments_of RHS q_vars u_vars false false;
  let q_args := r_q r in let v_args := r_v r in let u_args := r_u r in let params := map Static (r_params r) in
  let x_args := q_args ++ v_args in
  do funcs <-
    (if (mode =? "x")%string then
       if (length q_args =? length RHS)%nat then Ok (map Var v_args ++ RHS)
       else if (length RHS =? length x_args)%nat then Ok RHS
       else Err ValueError
     else if (mode =? "q")%string then
       if (length q_args =? length RHS)%nat then Ok RHS
       else if (length RHS =? length x_args)%nat then Ok (skipn (length RHS / 2) RHS)
       else Err ValueError
     else Err ValueError);
  let all_vars := x_args ++ u_args ++ params in
  let '(cas_vars, ins) :=
    (if (mode =? "x")%string
     then (comps S_x (length x_args), [("x"%string, S_x, length x_args)])
     else (comps S_q (length q_args) ++ comps S_v (length v_args), [("q"%string, S_q, length q_args); ("v"%string, S_v, length v_args)])) in
  let cas_all_vars := cas_vars ++ comps S_u (length u_args) ++ comps S_p (length params) in
  do cas_funcs <- mapm (fun f => sympy2casadi f all_vars cas_all_vars) funcs;
  Ok {| cf_in := ins ++ [("u"%string, S_u, length u_args); ("params"%string, S_p, length params)]; cf_out := cas_funcs |}.

(** casadi.py:189-268 [implicit_dynamic_x_to_casadi_function]; the symbols of an
    int are dynamicsymbols("x_0:n"). *)
Definition dynamicsymbols (c : string) (n : nat) : list atom := map (fun i => Dyn (c ++ "_" ++ str_nat i)%string 0) (seq 0 n).
Definition implicit_vars (c : string) (v : qvars) : Res (list atom) :=
  match v with Q_int n => Ok (dynamicsymbols c n) | Q_list l => Ok l | Q_other => Err TypeError end.
Definition implicit_dynamic_x_to_casadi_function (D : list expr) (x_vars : qvars) (u_vars : uvars) : Res cas_function :=
  do D <- mapm normal D;
  do x_vars <- implicit_vars "x" x_vars;
  do r <- arguments_of D (Q_list x_vars) u_vars true false;
  let x_args := r_q r in let x_dot_args := r_v r in let u_args := r_u r in
  let lambda_args := map Static (r_lambdas r) in let params := map Static (r_params r) in
  let all_vars := x_args ++ x_dot_args ++ u_args ++ lambda_args ++ params in
  let cas_all_vars := comps S_x (length x_args) ++ comps S_xdot (length x_dot_args) ++ comps S_u (length u_args)
                      ++ comps S_lam (length lambda_args) ++ comps S_p (length params) in
  do cas_funcs <- mapm (fun f => sympy2casadi f all_vars cas_all_vars) D;
  Ok {| cf_in := [("x"%string, S_x, length x_args); ("x_dot"%string, S_xdot, length x_dot_args); ("u"%string, S_u, length u_args);
                  ("lambdas"%string, S_lam, length lambda_args); ("params"%string, S_p, length params)];
        cf_out := cas_funcs |}.
(** casadi.py:271-353 [implicit_dynamic_q_to_casadi_function] *)
Definition implicit_dynamic_q_to_casadi_function (D : list expr) (q_vars : qvars) (u_vars : uvars) : Res cas_function :=
  do D <- mapm normal D;
  do q_vars <- implicit_vars "q" q_vars;
  do r <- arguments_of D (Q_list q_vars) u_vars true true;
  let q_args := r_q r in let v_args := r_v r in let a_args := r_a r in let u_args := r_u r in
  let lambda_args := map Static (r_lambdas r) in let params := map Static (r_params r) in
  let all_vars := q_args ++ v_args ++ a_args ++ u_args ++ lambda_args ++ params in
  let cas_all_vars := comps S_q (length q_args) ++ comps S_v (length v_args) ++ comps S_a (length a_args)
                      ++ comps S_u (length u_args) ++ comps S_lam (length lambda_args) ++ comps S_p (length params) in
  do cas_funcs <- mapm (fun f => sympy2casadi f all_vars cas_all_vars) D;
  Ok {| cf_in := [("q"%string, S_q, length q_args); ("v"%string, S_v, length v_args); ("a"%string, S_a, length a_args); ("u"%string, S_u, length u_args);
                  ("lambda"%string, S_lam, length lambda_args); ("params"%string, S_p, length params)];
        cf_out := cas_funcs |}.

(** ** Dynamics in opti.py *)
(** Type of q_vars: a tuple is also accepted by _get_f_g_funcs. *)
Inductive any_vars := V_int (n : nat) | V_list (l : list atom) | V_tuple (l : list atom) | V_other.
Definition as_qvars (v : any_vars) : qvars :=
  match v with V_int n => Q_int n | V_list l => Q_list l | V_tuple _ => Q_other | V_other => Q_other end.
Record residuals := {
  dynam_f_x : vec -> vec -> vec -> vec -> vec -> Res vec;         (* x, x_dot, u, lam, params *)
  dynam_g_x : vec -> vec -> vec -> vec -> vec -> Res vec;
  dynam_g_q : vec -> vec -> vec -> vec -> vec -> vec -> Res vec;  (* q, q_dot, q_dot_dot, u, lam, params *)
  res_n_u : nat;
  res_n_lambdas : nat }.
(** A casadi function of inputs with these sizes. *)
Definition sized (sizes : list nat) (args : list vec) (r : Res vec) : Res vec :=
  if list_eq_dec Nat.eq_dec (map (@length R) args) sizes then r else Err RuntimeError.
(** opti.py:133-237 [_get_f_g_funcs] *)
Definition get_f_g_funcs (RHS : list expr) (q_vars : any_vars) (u_vars : uvars) : Res residuals :=
  do n_q <- match q_vars with V_int n => Ok n | V_list l | V_tuple l => Ok (length l) | V_other => Err ValueError end;
  do F_cas_x <- rhs_to_casadi_function RHS (as_qvars q_vars) u_vars "x";
  do G_cas_q <- rhs_to_casadi_function RHS (as_qvars q_vars) u_vars "q";
  let n_u := nth 1 (cf_sizes F_cas_x) 0%nat in
  let n_p := nth 2 (cf_sizes F_cas_x) 0%nat in
  Ok {| dynam_f_x := fun x x_dot u lam p =>
          sized [(n_q * 2)%nat; (n_q * 2)%nat; n_u; 0%nat; n_p] [x; x_dot; u; lam; p]
            (do F <- cas_call F_cas_x [x; u; p]; cas_sub x_dot F);
        dynam_g_x := fun x x_dot u lam p =>
          sized [(n_q * 2)%nat; (n_q * 2)%nat; n_u; 0%nat; n_p] [x; x_dot; u; lam; p]
            (do F <- cas_call F_cas_x [x; u; p]; cas_sub (skipn n_q x_dot) (skipn n_q F));
        dynam_g_q := fun q q_dot q_dot_dot u lam p =>
          sized [n_q; n_q; n_q; n_u; 0%nat; n_p] [q; q_dot; q_dot_dot; u; lam; p]
            (do G <- cas_call G_cas_q [q; q_dot; u; p]; cas_sub q_dot_dot G);
        res_n_u := n_u; res_n_lambdas := 0 |}.

(** What dynamic_setup leaves in a problem. *)
Record setup := { su_n_q : nat; su_n_u : nat; su_n_lambdas : nat; su_params_sym : list string;
                  su_f : vec -> vec -> vec -> vec -> vec -> Res vec; su_g : vec -> vec -> vec -> vec -> vec -> vec -> Res vec }.
(** opti.py:3549-3591: _Explicit_Dynamics.dynamic_setup, for an object LM with
    coordinates [q_vars] and rhs [RHS] that has not been set up before. *)
Definition explicit_setup (q_vars : list atom) (RHS : list expr) (u_vars : uvars) : Res setup :=
  do r <- arguments_of RHS (Q_list q_vars) u_vars false false;
  do d <- get_f_g_funcs RHS (V_list q_vars) u_vars;
  Ok {| su_n_q := length q_vars; su_n_u := res_n_u d; su_n_lambdas := 0; su_params_sym := r_params r;
        su_f := dynam_f_x d; su_g := dynam_g_q d |}.
(** opti.py:3595-3656: _Implicit_Dynamics.dynamic_setup.  [x_vars]: q_2_x of the
    coordinates and of their derivatives; [u_vars] is not used. *)
Definition states_of (q_vars : list atom) : Res (list atom) :=
  let q_dots := map (fun a => match a with Dyn n k => Dyn n (S k) | a => a end) q_vars in
  mapm (fun a => do e <- q_2_x (Var a) q_vars q_dots; match e with Var b => Ok b | _ => Err TypeError end) (q_vars ++ q_dots).
Definition implicit_setup (q_vars : list atom) (impl_x impl_q : list expr) (u_vars : uvars) : Res setup :=
  do x_vars <- states_of q_vars;
  do r <- arguments_of impl_q (Q_list q_vars) U_none true false;
  do f <- implicit_dynamic_x_to_casadi_function impl_x (Q_list x_vars) U_none;
  do g <- implicit_dynamic_q_to_casadi_function impl_q (Q_list q_vars) U_none;
  Ok {| su_n_q := length q_vars; su_n_u := nth 2 (cf_sizes f) 0%nat; su_n_lambdas := nth 3 (cf_sizes f) 0%nat;
        su_params_sym := r_params r;
        su_f := fun x x_dot u lam p => cas_call f [x; x_dot; u; lam; p];
        su_g := fun q q_dot q_dot_dot u lam p => cas_call g [q; q_dot; q_dot_dot; u; lam; p] |}.
End Orders.

(** ** Restrictions *)
(** A function of a scheme, with seven or eight arguments. *)
Definition dynamics : Type := vec -> vec -> vec -> vec.
Inductive py_scheme :=
| Sch7 (f : dynamics -> vec -> vec -> vec -> vec -> R -> vec -> vec)
| Sch8 (f : dynamics -> vec -> vec -> vec -> vec -> R -> vec -> vec -> vec).
(** casadi functions of vectors, one of them a number *)
Definition restriction : Type := list vec -> Res vec.
(** casadi.py:356-419 [restriction2casadi] *)
Definition restriction2casadi (F_scheme : py_scheme) (F : dynamics) (n_vars n_u n_params n_scheme_params : nat) : Res restriction :=
  match F_scheme with
  | Sch7 f =>
      if negb (n_scheme_params =? 0)%nat then Err ValueError
      else Ok (fun args => sized [2 * n_vars; 2 * n_vars; n_u; n_u; 1; n_params]%nat args
                 match args with [x; x_n; u; u_n; [dt]; p] => Ok (f F x x_n u u_n dt p) | _ => Err RuntimeError end)
  | Sch8 f =>
      if (n_scheme_params =? 0)%nat then Err TypeError
      else Ok (fun args => sized [2 * n_vars; 2 * n_vars; n_u; n_u; 1; n_params; n_scheme_params]%nat args
                 match args with [x; x_n; u; u_n; [dt]; p; sch_p] => Ok (f F x x_n u u_n dt p sch_p) | _ => Err RuntimeError end)
  end.
(** casadi.py:422-460 [accelrestriction2casadi] *)
Definition accelrestriction2casadi (F_scheme : vec -> vec -> vec -> vec -> R -> vec -> vec) (n_vars n_scheme_params order : nat) : restriction :=
  fun args => sized [order * n_vars; order * n_vars; n_vars; n_vars; 1; n_scheme_params]%nat args
    match args with [x; x_n; a; a_n; [dt]; sch_p] => Ok (F_scheme x x_n a a_n dt sch_p) | _ => Err RuntimeError end.

(** ** Lists and matrices *)
(** casadi matrices: rows of entries, and the number of columns. *)
Definition transpose {A} (c : nat) (d : A) (m : list (list A)) : list (list A) := map (fun j => map (fun r => nth j r d) m) (seq 0 c).
(** casadi.py:23-25 [list2casadi], of numbers *)
Definition list2casadi (l : vec) : nat * mat := (1%nat, transpose (length l) 0 [l]).
(** casadi.py:61-65 [symlist2cas]: the names of the casadi symbols *)
Definition symlist2cas (l : list string) : list string := l.
(** casadi.py:68-74 [unpack]: the columns *)
Definition cas_unpack (c : nat) (m : mat) : list vec :=
  let '(c, m) := if (c =? 1)%nat then (length m, transpose c 0 m) else (c, m) in
  map (fun ii => map (fun r => nth ii r 0) m) (seq 0 c).
