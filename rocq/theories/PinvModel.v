(** Model of the inverse dynamics of chords/symbolic.py as it is called: the
    errors of sym_pinv_dyn, and num_pinv_dyn.  [formed]: the equations of motion
    have been formed. *)
From Coq Require Import String.
From Verif Require Import Prelude PwInterpModel SymModel LagrModel.
Open Scope R_scope.
Open Scope list_scope.

(** symbolic.py:95-98 [deriv_base]; integrate lowers the order by one *)
Fixpoint base_of (name : string) (k : nat) : atom :=
  match k with O => Dyn name 0 | S k' => base_of name k' end.
Definition deriv_base (a : atom) : atom := match a with Static n => Static n | Dyn n k => base_of n k end.
(** symbolic.py:101-108 [find_dyn_dependencies]; [sym_list] is the set that
    find_dynamicsymbols returns, in the order in which it is iterated *)
Definition find_dyn_dependencies (sym_list : list atom) : list atom :=
  fold_left (fun l sym => let base := deriv_base sym in if in_dec atom_eq_dec base l then l else l ++ [base]) sym_list [].

(** A function of q, q', q'' and the parameters. *)
Definition pinv_function : Type := vec -> vec -> vec -> vec -> Res vec.
(** lambdify([q, q', q'', params], exprs): each argument is unpacked
    (ValueError if it has another length); a symbol that is not an argument is a
    NameError when the function is called. *)
Definition lookup (args : list (atom * R)) (a : atom) : option R :=
  match List.find (fun c => if atom_eq_dec (fst c) a then true else false) args with Some c => Some (snd c) | None => None end.
Fixpoint eval_args (args : list (atom * R)) (e : expr) : Res R :=
  match e with
  | Num r => Ok r
  | Var a => match lookup args a with Some x => Ok x | None => Err NameError end
  | Plus e1 e2 => do x <- eval_args args e1; do y <- eval_args args e2; Ok (x + y)
  | Times e1 e2 => do x <- eval_args args e1; do y <- eval_args args e2; Ok (x * y)
  | Func f k e => do x <- eval_args args e; Ok (f k x)
  end.
Definition lambdify4 (qs vs as_ ps : list atom) (exprs : list expr) : pinv_function := fun q v a p =>
  if negb ((length q =? length qs) && (length v =? length vs) && (length a =? length as_) && (length p =? length ps))%nat
  then Err ValueError
  else mapm (eval_args (combine (qs ++ vs ++ as_ ++ ps) (q ++ v ++ a ++ p))) exprs.

Section Pinv.
Variable pinv : nat -> nat -> emat -> emat.
(** What sympy makes of an expression when it is built: sums and products
    evaluated, zero terms dropped *)
Variable tidy : expr -> expr.

(** symbolic.py:1064-1083 [SimpLagrangesMethod.sym_pinv_dyn]; jacobian refuses an
    empty list *)
Definition simp_sym_pinv_dyn (formed : bool) (s : lagrange) (us : list atom) : Res (list expr) :=
  if negb formed then Err ValueError
  else match us with
       | [] => Err TypeError
       | _ => Ok (map (fun k => tidy (sym_pinv_dyn_simp pinv s us k)) (seq 0 (length us)))
       end.
(** symbolic.py:1257-1275 [ImplicitLagrangesMethod.sym_pinv_dyn]; sympy's
    mass_matrix has a column more for each constraint, and the product with q''
    is then a ShapeError, a kind of ValueError *)
Definition implicit_sym_pinv_dyn (formed : bool) (s : lagrange) (us : list atom) : Res (list expr) :=
  if negb formed then Err ValueError
  else match us with
       | [] => Err TypeError
       | _ => match lg_coneqs s with
              | [] => Ok (map (fun k => tidy (sym_pinv_dyn_impl pinv s us k)) (seq 0 (length us)))
              | _ => Err ValueError
              end
       end.

(** symbolic.py:1101-1103: mass_matrix_full @ forcing_full.  With constraints
    sympy's mass_matrix_full joins the n columns of the mass_matrix of this class
    to rows of n + m: ShapeError. *)
Definition exhaustive_expr (s : lagrange) : Res (list expr) :=
  let n := lg_n s in
  match lg_coneqs s with
  | [] => Ok (map (fun i => Var (lg_q s 1 i)) (seq 0 n) ++ map (fun i => tidy (emulv n (m_d s) (f_d s) i)) (seq 0 n))
  | _ => Err ValueError
  end.
(** symbolic.py:1104-1120: the set of parameters, as a list without
    repetitions; new_expr.atoms(Symbol) of an expression *)
Definition static_names (e : expr) : list string :=
  flat_map (fun a => match a with Static x => [x] | Dyn _ _ => ["dummy"%string] end) (atoms e).
Definition union (l m : list string) : list string := fold_left (fun l x => add_if_not_there x l) m l.
Definition find_params (exprs : list expr) (ext_forces : list atom) : Res (list string) :=
  let param_list := fold_left (fun l e => union l (static_names e)) exprs [] in
  if negb (mem_s "dummy" param_list) then Err KeyError
  else let param_list := filter (fun x => negb (x =? "dummy")%string) param_list in
       Ok (fold_left (fun l act => match act with
                                   | Static a => if mem_s a l then filter (fun x => negb (x =? a)%string) l else l
                                   | Dyn _ _ => l
                                   end) ext_forces param_list).
Definition q_vec (s : lagrange) (k : nat) : list atom := map (lg_q s k) (seq 0 (lg_n s)).
(** symbolic.py:1085-1131 [SimpLagrangesMethod.num_pinv_dyn]; param_list.addn is
    an AttributeError *)
Definition simp_num_pinv_dyn (formed : bool) (s : lagrange) (ext_forces : list atom) : Res pinv_function :=
  do sym_pinv <- simp_sym_pinv_dyn formed s ext_forces;
  do exhaustive <- exhaustive_expr s;
  let _dy_sy := filter is_dyn (flat_map atoms exhaustive) in
  do param_list <- find_params exhaustive ext_forces;
  if existsb (fun ds => let base_sym := nth 0 (find_dyn_dependencies [ds]) ds in
                        negb (if in_dec atom_eq_dec base_sym (q_vec s 0) then true else false) &&
                        negb (if in_dec atom_eq_dec base_sym ext_forces then true else false)) _dy_sy
  then Err AttributeError
  else Ok (lambdify4 (q_vec s 0) (q_vec s 1) (q_vec s 2) (map Static (sorted param_list)) sym_pinv).
(** symbolic.py:1277-1299 [ImplicitLagrangesMethod.num_pinv_dyn]: it asks
    find_dynamicsymbols for the symbols of a python list, which has no atoms *)
Definition implicit_num_pinv_dyn (formed : bool) (s : lagrange) (ext_forces : list atom) : Res pinv_function :=
  do sym_pinv <- implicit_sym_pinv_dyn formed s ext_forces;
  Err AttributeError.
End Pinv.
