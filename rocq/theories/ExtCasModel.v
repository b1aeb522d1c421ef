(** Model of the casadi functions that give the value and the slope of a
    polynomial at the ends: chords/pseudospectral.py:1062-1082 and 1127-1202.
    They go through sympy: a function of numbers is called with symbols, and
    sympy2casadi (CasModel) translates the expression that it returns.
    lru_cache and store_results are left out, and so is the rounding of
    float64. *)
From Coq Require Import String.
From Verif Require Import Prelude Poly PwInterpModel SymModel LagrModel DispatchModel PsModel CasModel.
Open Scope list_scope.
Open Scope R_scope.

(** sympy: symbols(f"{pre}0:{N}") *)
Definition numbered (pre : string) (N : nat) : list atom := map (fun i => Static (pre ++ py_str i)) (seq 0 N).

(** The functions that get_bary_extreme_f returns (pseudospectral.py:1015-1059),
    called with symbols. *)
Definition run_extreme_sym (f : extreme_f) (coefs : list atom) : Res expr :=
  match f with
  | Coef_first => match coefs with [] => Err IndexError | c :: _ => Ok (Var c) end
  | Coef_last => match rev coefs with [] => Err IndexError | c :: _ => Ok (Var c) end
  | Coef_bary sup inf =>
      if (length coefs <? length sup)%nat then Err IndexError
      else
        let numsup := fold_left (fun s ii => Plus s (Times (Var (nth ii coefs (Static ""))) (Num (vnth sup ii)))) (seq 0 (length sup)) (Num 0) in
        Ok (Times numsup (Num (/ inf)))
  end.

(** casadi: Function(name, [x_cas], [expr]) where x_cas = SX.sym("x", N) *)
Definition fun_of_x (N : nat) (c : cexpr) : cas_function := {| cf_in := [("i0"%string, S_x, N)]; cf_out := [c] |}.
Definition casadi_of (e : expr) (vars : list atom) : Res cas_function :=
  do c <- sympy2casadi e vars (comps S_x (length vars)); Ok (fun_of_x (length vars) c).

(** [lag_pol] and [lagrangePolynomial] (pseudospectral.py:523-535 and 538-565)
    with numbers as abscissas and symbols as ordinates; what [expand] rewrites
    is left as it is. *)
Definition x_sym : atom := Static "x".
Definition lag_pol_sym (labels : vec) (j : nat) : expr :=
  let current := vnth labels j in
  fold_left (fun acc m => if Req_EM_T m current then acc else Times acc (Times (Plus (Var x_sym) (Num (- m))) (Num (/ (current - m))))) labels (Num 1).
Definition lagrangePolynomial_sym (xs : vec) (ys : list atom) : Res expr :=
  if (length xs <? length ys)%nat then Err IndexError
  else Ok (fold_left (fun total j => Plus total (Times (Var (nth j ys (Static ""))) (lag_pol_sym xs j))) (seq 0 (length ys)) (Num 0)).
(** sympy: expr.subs(x, r) *)
Fixpoint put_number (s : atom) (r : R) (e : expr) : expr :=
  match e with
  | Num n => Num n
  | Var a => if atom_eq_dec a s then Num r else Var a
  | Plus e1 e2 => Plus (put_number s r e1) (put_number s r e2)
  | Times e1 e2 => Times (put_number s r e1) (put_number s r e2)
  | Func f k e => Func f k (put_number s r e)
  end.

Section Roots.
  Variable rr : list R -> list R.

  (** pseudospectral.py:1062-1082 *)
  Definition get_bary_extreme_f_cas (scheme : string) (N : nat) (mode point : string) (order : nat) : Res cas_function :=
    let x_sympy := numbered "c" N in
    do fun_ <- get_bary_extreme_f rr scheme N mode point order;
    do sympy_expr <- run_extreme_sym fun_ x_sympy;
    casadi_of sympy_expr x_sympy.
  (** pseudospectral.py:1127-1147 and 1166-1186 *)
  Definition end_p_fun_cas (N : nat) (scheme : string) : Res cas_function :=
    let x_sympy := numbered "c" N in
    do fun_ <- get_bary_extreme_f rr scheme N "x" "end" 2;
    do sympy_expr <- run_extreme_sym fun_ x_sympy;
    casadi_of sympy_expr x_sympy.
  Definition start_p_fun_cas (N : nat) (scheme : string) : Res cas_function :=
    let x_sympy := numbered "c" N in
    do fun_ <- get_bary_extreme_f rr scheme N "x" "start" 2;
    do sympy_expr <- run_extreme_sym fun_ x_sympy;
    casadi_of sympy_expr x_sympy.
  (** pseudospectral.py:1150-1163 *)
  Definition diff_end_p_fun_cas (N : nat) (scheme : string) : Res cas_function :=
    let coefs := numbered "c_" N in
    do taus <- node_points rr N scheme;
    do pol_lag <- lagrangePolynomial_sym taus coefs;
    casadi_of (put_number x_sym 1 (diff x_sym pol_lag)) coefs.
  (** pseudospectral.py:1189-1202: at x = 0 *)
  Definition diff_start_p_fun_cas (N : nat) (scheme : string) : Res cas_function :=
    let coefs := numbered "c_" N in
    do taus <- node_points rr N scheme;
    do pol_lag <- lagrangePolynomial_sym taus coefs;
    casadi_of (put_number x_sym 0 (diff x_sym pol_lag)) coefs.
End Roots.
