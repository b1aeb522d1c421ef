(** Model of the functions of chords/numpy.py that make numpy functions from
    sympy expressions.  What is printed, warnings and docstrings are left out. *)
From Coq Require Import String.
From Verif Require Import Prelude PwInterpModel SymModel CasModel.
From Verif Require NumpyModel.
Open Scope R_scope.
Open Scope list_scope.
Notation arr := NumpyModel.arr.

(** sympy's lambdify(vars, e): the expression as a function of the arguments in
    order; a repeated argument is a SyntaxError.  A symbol that is not an
    argument is a NameError, here already when the function is made and not
    when it is called. *)
Fixpoint position (a : atom) (vars : list atom) : Res nat :=
  match vars with
  | [] => Err NameError
  | b :: vars' => if atom_eq_dec a b then Ok 0%nat else do i <- position a vars'; Ok (S i)
  end.
Fixpoint np_expr (vars : list atom) (e : expr) : Res NumpyModel.expr :=
  match e with
  | Num r => Ok (NumpyModel.X_const r)
  | Var a => do i <- position a vars; Ok (NumpyModel.X_var i)
  | Plus e1 e2 => do a <- np_expr vars e1; do b <- np_expr vars e2; Ok (NumpyModel.X_op2 Rplus a b)
  | Times e1 e2 => do a <- np_expr vars e1; do b <- np_expr vars e2; Ok (NumpyModel.X_op2 Rmult a b)
  | Func f k e => do a <- np_expr vars e; Ok (NumpyModel.X_op1 (f k) a)
  end.
Definition lambdify (vars : list atom) (e : expr) : Res NumpyModel.expr :=
  if negb (nodup_b vars) then Err SyntaxError else np_expr vars e.

(** A python function of [k] arrays. *)
Definition np_function : Type := list arr -> Res arr.
Definition with_args (k : nat) (f : np_function) : np_function := fun inputs => if (length inputs =? k)%nat then f inputs else Err TypeError.

Section Orders.
Variable dyn_order : expr -> list atom.
Variable sym_order : expr -> list string.

(** numpy.py:78-170 [RHS2numpy] *)
Definition RHS2numpy (RHS : list expr) (q_vars : qvars) (u_vars : uvars) (mode : string) : Res np_function :=
  do RHS <- mapm (normal dyn_order sym_order) RHS;
  do r <- arguments_of dyn_order sym_order RHS q_vars u_vars false false;
  let q_args := r_q r in let v_args := r_v r in let u_args := r_u r in let params := map Static (r_params r) in
  let x_args := q_args ++ v_args in
  do funcs <-
    (if (mode =? "x")%string then
       if (length q_args =? length RHS)%nat then Ok (map Var v_args ++ RHS)
       else if (length RHS =? length x_args)%nat then Ok RHS
       else Err ValueError
     else if (mode =? "q")%string then
       if (length q_args =? length RHS)%nat then Ok RHS
       else if (length RHS =? length x_args)%nat then Ok (skipn (length RHS / 2) RHS)
       else Err ValueError
     else Err ValueError);
  let all_vars := x_args ++ u_args ++ params in
  do np_funcs <- mapm (lambdify all_vars) funcs;
  Ok (with_args (if (mode =? "x")%string then 3 else 4) (NumpyModel.new_F (length all_vars) np_funcs)).

(** numpy.py:173-232 [Sym2Fx] *)
Definition Sym2Fx (RHS : list expr) (x_vars : qvars) (u_vars : uvars) : Res np_function :=
  do RHS <- mapm (normal dyn_order sym_order) RHS;
  do r <- arguments_of dyn_order sym_order RHS x_vars u_vars false false;
  let all_vars := r_q r ++ r_u r ++ map Static (r_params r) in
  do np_funcs <- mapm (lambdify all_vars) RHS;
  Ok (with_args 3 (NumpyModel.new_F (length all_vars) np_funcs)).
End Orders.
