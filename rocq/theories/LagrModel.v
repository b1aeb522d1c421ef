(** Model of chords/symbolic.py, part 2: equations of motion.

    Expressions are those of SymModel.v.  A matrix is a function of two indices
    (from 0), its dimensions are given where they are needed; simplify does
    not change values and is left out.  The methods of sympy's LagrangesMethod
    that the classes of the repository use are modelled from its documentation:
    they are in the first section, marked "sympy". *)
From Coq Require Import String.
From Verif Require Import Prelude PwInterpModel SymModel.
Open Scope R_scope.
Open Scope list_scope.

Definition Neg (e : expr) : expr := Times (Num (-1)) e.
Definition Minus (e1 e2 : expr) : expr := Plus e1 (Neg e2).
(** f 0 + ... + f (n - 1) *)
Fixpoint esum (n : nat) (f : nat -> expr) : expr :=
  match n with O => Num 0 | S k => Plus (esum k f) (f k) end.
Definition evec : Type := nat -> expr.
Definition emat : Type := nat -> nat -> expr.
(** A @ B with k columns in A, A @ v, and the transpose *)
Definition emul (k : nat) (A B : emat) : emat := fun i j => esum k (fun l => Times (A i l) (B l j)).
Definition emulv (k : nat) (A : emat) (v : evec) : evec := fun i => esum k (fun l => Times (A i l) (v l)).
Definition etr (A : emat) : emat := fun i j => A j i.

(** sympy: derivative with respect to a symbol, a dynamic symbol or one of its
    derivatives; q(t) and its derivatives are independent of each other. *)
Fixpoint diff (s : atom) (e : expr) : expr :=
  match e with
  | Num _ => Num 0
  | Var a => if atom_eq_dec a s then Num 1 else Num 0
  | Plus e1 e2 => Plus (diff s e1) (diff s e2)
  | Times e1 e2 => Plus (Times (diff s e1) e2) (Times e1 (diff s e2))
  | Func f k e => Times (Func f (S k) e) (diff s e)
  end.
(** sympy: derivative with respect to time; time itself is not a symbol of the
    expressions. *)
Fixpoint ddt (e : expr) : expr :=
  match e with
  | Num _ => Num 0
  | Var (Static _) => Num 0
  | Var (Dyn n k) => Var (Dyn n (S k))
  | Plus e1 e2 => Plus (ddt e1) (ddt e2)
  | Times e1 e2 => Plus (Times (ddt e1) e2) (Times e1 (ddt e2))
  | Func f k e => Times (Func f (S k) e) (ddt e)
  end.

(** ** sympy's LagrangesMethod *)
(** The k-th derivative of coordinate i. *)
Definition qd (qs : list string) (k i : nat) : atom := Dyn (nth i qs ""%string) k.
Record lagrange := {
  lg_L : expr; lg_qs : list string;
  lg_forces : evec;              (* _term4: generalised forces *)
  lg_coneqs : list expr }.       (* velocity constraints *)
Definition lg_n (s : lagrange) : nat := length (lg_qs s).
Definition lg_q (s : lagrange) (k i : nat) : atom := qd (lg_qs s) k i.
(** sympy: form_lagranges_equations, term1 .. term4 without lambdas *)
Definition term1 (s : lagrange) : evec := fun i => ddt (diff (lg_q s 1 i) (lg_L s)).
Definition term2 (s : lagrange) : evec := fun i => diff (lg_q s 0 i) (lg_L s).
Definition without_lam (s : lagrange) : evec := fun i => Minus (Minus (term1 s i) (term2 s i)) (lg_forces s i).
(** sympy: _m_d *)
Definition m_d (s : lagrange) : emat := fun i j => diff (lg_q s 2 j) (without_lam s i).
(** sympy: subs of every second derivative of a coordinate by 0 (higher
    derivatives do not appear) *)
Fixpoint qdd_zero (qs : list string) (e : expr) : expr :=
  match e with
  | Num r => Num r
  | Var a => if in_dec atom_eq_dec a (map (fun n => Dyn n 2) qs) then Num 0 else Var a
  | Plus e1 e2 => Plus (qdd_zero qs e1) (qdd_zero qs e2)
  | Times e1 e2 => Times (qdd_zero qs e1) (qdd_zero qs e2)
  | Func f k e => Func f k (qdd_zero qs e)
  end.
(** sympy: forcing *)
Definition f_d (s : lagrange) : evec := fun i => Neg (qdd_zero (lg_qs s) (without_lam s i)).
(** sympy: lam_coeffs, _m_cd and _f_cd *)
Definition lam_coeffs (s : lagrange) : emat := fun k j => Neg (diff (lg_q s 1 j) (nth k (lg_coneqs s) (Num 0))).
Definition m_cd (s : lagrange) : emat := fun k j => diff (lg_q s 2 j) (ddt (nth k (lg_coneqs s) (Num 0))).
Definition f_cd (s : lagrange) : evec := fun k => Neg (qdd_zero (lg_qs s) (ddt (nth k (lg_coneqs s) (Num 0)))).

(** ** LagrangesMethod of the repository, symbolic.py:706-835 *)
(** symbolic.py:757-776 [_C_from_M] *)
Definition C_from_M (M : emat) (qs : list string) : emat := fun i j =>
  fold_left (fun c k =>
      Plus c (Times (Times (Var (qd qs 1 k))
                (Minus (Plus (diff (qd qs 0 k) (M i j)) (diff (qd qs 0 j) (M i k))) (diff (qd qs 0 i) (M k j))))
                (Num (/ 2))))
    (seq 0 (length qs)) (Times (M i j) (Num 0)).
(** symbolic.py:778-789 [form_lagranges_equations] and the matrices it stores:
    M, C and G. *)
Definition C_matrix (s : lagrange) : emat := C_from_M (m_d s) (lg_qs s).
Definition G_matrix (s : lagrange) : evec := fun i =>
  Minus (Minus (Minus (term1 s i) (term2 s i)) (emulv (lg_n s) (m_d s) (fun j => Var (lg_q s 2 j)) i))
        (emulv (lg_n s) (C_matrix s) (fun j => Var (lg_q s 1 j)) i).

(** ** lagr_to_RHS, symbolic.py:309-372 *)
(** sympy: expand, as a polynomial in one symbol, lower powers first; what is
    inside a function is not expanded. *)
Fixpoint padd (p q : list expr) : list expr :=
  match p, q with
  | [], _ => q
  | _, [] => p
  | x :: p', y :: q' => Plus x y :: padd p' q'
  end.
Fixpoint pmul (p q : list expr) : list expr :=
  match p with
  | [] => []
  | x :: p' => padd (map (Times x) q) (Num 0 :: pmul p' q)
  end.
Fixpoint poly_in (a : atom) (e : expr) : list expr :=
  match e with
  | Num r => [Num r]
  | Var b => if atom_eq_dec b a then [Num 0; Num 1] else [Var b]
  | Plus e1 e2 => padd (poly_in a e1) (poly_in a e2)
  | Times e1 e2 => pmul (poly_in a e1) (poly_in a e2)
  | Func f k e => [Func f k e]
  end.
(** expr.expand().collect(a).coeff(a) *)
Definition coeff (a : atom) (e : expr) : expr := nth 1 (poly_in a e) (Num 0).
Definition a_symb (j : nat) : atom := Static ("a_" ++ str_nat j)%string.
Definition u_symb (j : nat) : atom := Static ("u_" ++ str_nat j)%string.
Section Inverse.
(** sympy's inv of a square matrix of n rows; it fails if the matrix is
    singular. *)
Variable inv : nat -> emat -> Res emat.
(** The loop; [es] are the equations once diff_to_symb_expr is applied. *)
Definition coeff_mat (es : list expr) : emat := fun i j => coeff (a_symb j) (nth i es (Num 0)).
Definition c_mat (es : list expr) : evec := fun i =>
  fold_left (fun rest jj => Minus rest (Times (Var (a_symb jj)) (coeff_mat es i jj))) (seq 0 (length es)) (nth i es (Num 0)).
(** [orders]: for each equation, the order in which its symbols are iterated. *)
Definition lagr_to_RHS (orders : list (list atom)) (lagr_eqs : list expr) : Res (list expr) :=
  let n_var := length lagr_eqs in
  do es <- mapm (fun i => diff_to_symb_expr (nth i orders []) (nth i lagr_eqs (Num 0))) (seq 0 n_var);
  do coeff_mat_inv <- inv n_var (coeff_mat es);
  Ok (map (emulv n_var coeff_mat_inv (fun j => Minus (Var (u_symb j)) (c_mat es j))) (seq 0 n_var)).

(** ** SimpLagrangesMethod, symbolic.py:838-1045 *)
(** What [rhs] stores in the object when there are constraints
    (symbolic.py:922-963): for n coordinates and m constraints, m <= n. *)
Record reduction := {
  rd_phi_de_inv : emat; rd_R : emat; rd_R_dot : emat; rd_q_dot_de : evec;
  rd_H : emat; rd_K : emat; rd_Fa : evec; rd_q_dotdot_in : evec }.
Section Reduce.
Variables (n m : nat) (M phi_q : emat) (Q : evec) (q_dot : evec).
Definition n_ind : nat := (n - m)%nat.
Definition M_in : emat := M.
Definition M_de : emat := fun i j => M (n_ind + i)%nat (n_ind + j)%nat.
Definition M_con : emat := fun i j => M i (n_ind + j)%nat.
Definition phi_q_in : emat := phi_q.
Definition phi_q_de : emat := fun i j => phi_q i (n_ind + j)%nat.
Definition Q_in : evec := Q.
Definition Q_de : evec := fun i => Q (n_ind + i)%nat.
Definition q_dot_in : evec := q_dot.
Definition reduce : Res reduction :=
  do phi_de_inv <- inv m phi_q_de;
  let R : emat := emul m (fun i j => Neg (phi_de_inv i j)) phi_q_in in
  let R_dot : emat := fun i j => ddt (R i j) in
  let H_con := emul m M_con R in
  let H : emat := fun i j => Plus (Plus (Plus (M_in i j) (H_con i j)) (etr H_con i j)) (emul m (emul m (etr R) M_de) R i j) in
  let K : emat := fun i j => Plus (emul m (emul m (etr R) M_de) R_dot i j) (emul m M_con R_dot i j) in
  let Fa : evec := fun i => Plus (Q_in i) (emulv m (etr R) Q_de i) in
  do h_inv <- inv n_ind H;
  Ok {| rd_phi_de_inv := phi_de_inv; rd_R := R; rd_R_dot := R_dot; rd_q_dot_de := emulv n_ind R q_dot_in;
        rd_H := H; rd_K := K; rd_Fa := Fa;
        rd_q_dotdot_in := emulv n_ind h_inv (fun i => Minus (Fa i) (emulv n_ind K q_dot_in i)) |}.
(** symbolic.py:1003-1004: q_dotdot_de *)
Definition q_dotdot_de (r : reduction) : evec := fun i =>
  Plus (emulv n_ind (rd_R_dot r) q_dot_in i) (emulv n_ind (rd_R r) (rd_q_dotdot_in r) i).
(** The accelerations, independent ones first. *)
Definition q_dotdot (r : reduction) : evec := fun i =>
  if (i <? n_ind)%nat then rd_q_dotdot_in r i else q_dotdot_de r (i - n_ind)%nat.
(** symbolic.py:1043-1045 [lambda_vector] *)
Definition lambda_vector (r : reduction) : evec :=
  emulv m (rd_phi_de_inv r) (fun i => Minus (Q_de i) (emulv m M_de (q_dotdot_de r) i)).
(** symbolic.py:976, 1009-1011: the reduced and the complete right-hand sides *)
Definition rhs_reduced_list (r : reduction) : list expr := map q_dot_in (seq 0 n_ind) ++ map (rd_q_dotdot_in r) (seq 0 n_ind).
Definition rhs_complete_list (r : reduction) : list expr :=
  map q_dot (seq 0 n) ++ map (rd_q_dotdot_in r) (seq 0 n_ind) ++ map (q_dotdot_de r) (seq 0 m).
(** symbolic.py:987-992: without constraints *)
Definition rhs_unconstrained : Res (list expr) :=
  do M_inv <- inv n M;
  Ok (map q_dot (seq 0 n) ++ map (emulv n M_inv Q) (seq 0 n)).
End Reduce.
End Inverse.

(** *** Order of the calls, symbolic.py:904-1061 *)
(** Which right-hand side is stored in _rhs, and what the other attributes
    hold.  [reducible]: the test of symbolic.py:971 for this system;
    [constrained]: there are constraints. *)
Inductive form := Reduced | Complete | Unconstrained.
Record cache := {
  ca_rhs : option form; ca_reduced : bool; ca_full : option form; ca_R : bool; ca_qdd_de : bool; ca_lambda : bool }.
Definition new_cache : cache :=
  {| ca_rhs := None; ca_reduced := false; ca_full := None; ca_R := false; ca_qdd_de := false; ca_lambda := false |}.
Inductive ask := Ask_form_equations | Ask_rhs | Ask_complete | Ask_reduced | Ask_lambda | Ask_full.
(** What a call returns: a right-hand side, one followed by the multipliers, the
    multipliers, nothing. *)
Inductive answer := A_rhs (f : form) | A_full (f : form) | A_lambda | A_nothing.
Section Cache.
Variables constrained reducible : bool.
(** The object: whether the equations are formed, and the stored values. *)
Definition object : Type := bool * cache.
(** lines 1006-1013, once R is known *)
Definition complete (c : cache) : cache :=
  match ca_rhs c, constrained with
  | Some _, false => c
  | _, _ => {| ca_rhs := Some Complete; ca_reduced := ca_reduced c; ca_full := ca_full c; ca_R := ca_R c; ca_qdd_de := true; ca_lambda := ca_lambda c |}
  end.
Definition get_rhs (o : object) : object * Res form :=
  let (eom, c) := o in
  if negb eom then (o, Err ValueError)
  else match ca_rhs c with
       | Some f => (o, Ok f)
       | None =>
           if constrained then
             let c := {| ca_rhs := None; ca_reduced := ca_reduced c; ca_full := ca_full c; ca_R := true; ca_qdd_de := ca_qdd_de c; ca_lambda := ca_lambda c |} in
             if reducible then
               ((eom, {| ca_rhs := Some Reduced; ca_reduced := true; ca_full := ca_full c; ca_R := true; ca_qdd_de := ca_qdd_de c; ca_lambda := ca_lambda c |}), Ok Reduced)
             else ((eom, complete c), Ok Complete)
           else
             ((eom, {| ca_rhs := Some Unconstrained; ca_reduced := ca_reduced c; ca_full := ca_full c; ca_R := ca_R c; ca_qdd_de := ca_qdd_de c; ca_lambda := ca_lambda c |}), Ok Unconstrained)
       end.
Definition get_complete (o : object) : object * Res form :=
  let '(o, r) := if ca_R (snd o) then (o, Ok Complete) else get_rhs o in
  match r with
  | Err e => (o, Err e)
  | Ok _ => let c := complete (snd o) in
            ((fst o, c), match ca_rhs c with Some f => Ok f | None => Err ValueError end)
  end.
Definition get_reduced (o : object) : object * Res form :=
  if negb (fst o) then (o, Err ValueError)
  else let '(o, r) := match ca_rhs (snd o) with Some f => (o, Ok f) | None => get_rhs o end in
       match r with
       | Err e => (o, Err e)
       | Ok _ => (o, if ca_reduced (snd o) then Ok Reduced else Err ValueError)
       end.
Definition get_lambda (o : object) : object * Res unit :=
  let (eom, c) := o in
  if ca_lambda c then (o, Ok tt)
  else
    let done := (eom, {| ca_rhs := ca_rhs c; ca_reduced := ca_reduced c; ca_full := ca_full c; ca_R := ca_R c; ca_qdd_de := ca_qdd_de c; ca_lambda := true |}) in
    if negb constrained then (done, Ok tt)
    else if (ca_R c && ca_qdd_de c)%bool then (done, Ok tt)
    else (o, Err AttributeError).
Definition get_full (o : object) : object * Res form :=
  if negb (fst o) then (o, Err ValueError)
  else match ca_full (snd o) with
       | Some f => (o, Ok f)
       | None =>
           let '(o, _) := get_complete o in
           let '(o, r) := get_rhs o in
           match r with
           | Err e => (o, Err e)
           | Ok f =>
               let '(o, l) := get_lambda o in
               match l with
               | Err e => (o, Err e)
               | Ok _ => let c := snd o in
                         ((fst o, {| ca_rhs := ca_rhs c; ca_reduced := ca_reduced c; ca_full := Some f; ca_R := ca_R c; ca_qdd_de := ca_qdd_de c; ca_lambda := ca_lambda c |}), Ok f)
               end
           end
       end.
Definition asked (o : object) (a : ask) : object * Res answer :=
  match a with
  | Ask_form_equations => ((true, snd o), Ok A_nothing)
  | Ask_rhs => let '(o, r) := get_rhs o in (o, do f <- r; Ok (A_rhs f))
  | Ask_complete => let '(o, r) := get_complete o in (o, do f <- r; Ok (A_rhs f))
  | Ask_reduced => let '(o, r) := get_reduced o in (o, do f <- r; Ok (A_rhs f))
  | Ask_lambda => let '(o, r) := get_lambda o in (o, do _ <- r; Ok A_lambda)
  | Ask_full => let '(o, r) := get_full o in (o, do f <- r; Ok (A_full f))
  end.
Fixpoint asks (o : object) (l : list ask) : object * list (Res answer) :=
  match l with
  | [] => (o, [])
  | a :: l' => let '(o, r) := asked o a in let '(o, rs) := asks o l' in (o, r :: rs)
  end.
End Cache.

(** ** ImplicitLagrangesMethod, symbolic.py:1133-1255 *)
(** symbolic.py:1178-1206 [implicit_dynamics_q]; [lam] is lam_vec (sympy calls
    its entries lam1, lam2, ...).  The rows of mass_matrix_square. *)
Definition lam (k : nat) : atom := Dyn ("lam" ++ str_nat (k + 1))%string 0.
Definition implicit_dynamics_q (s : lagrange) : list expr :=
  let n := lg_n s in let m := length (lg_coneqs s) in
  let q'' := fun j => Var (lg_q s 2 j) in
  map (fun i => Minus (Plus (emulv n (m_d s) q'' i) (emulv m (etr (lam_coeffs s)) (fun k => Var (lam k)) i)) (f_d s i)) (seq 0 n) ++
  map (fun k => Minus (Plus (emulv n (m_cd s) q'' k) (esum m (fun l => Times (Num 0) (Var (lam l))))) (f_cd s k)) (seq 0 m).
(** symbolic.py:1208-1255 [implicit_dynamics_x]: the rows of M @ X_exp - F; q_2_x
    puts x for q and its first derivative. *)
Definition implicit_dynamics_x (s : lagrange) : Res (list expr) :=
  let n := lg_n s in let m := length (lg_coneqs s) in
  let qs := map (fun i => lg_q s 0 i) (seq 0 n) in
  let qdots := map (fun i => lg_q s 1 i) (seq 0 n) in
  let x := fun k i => Var (Dyn (x_name i) k) in
  let conv := fun e => q_2_x e qs qdots in
  do top <- Ok (map (fun i => Minus (x 1%nat i) (x 0%nat (n + i)%nat)) (seq 0 n));
  do mid <- mapm (fun i =>
      do row <- mapm (fun j => conv (m_d s i j)) (seq 0 n);
      do lrow <- mapm (fun k => conv (lam_coeffs s k i)) (seq 0 m);
      do f <- conv (f_d s i);
      Ok (Minus (Plus (esum n (fun j => Times (nth j row (Num 0)) (x 1%nat (n + j)%nat)))
                      (esum m (fun k => Times (nth k lrow (Num 0)) (Var (lam k))))) f)) (seq 0 n);
  do bot <- mapm (fun k =>
      do row <- mapm (fun j => conv (m_cd s k j)) (seq 0 n);
      do f <- conv (f_cd s k);
      Ok (Minus (esum n (fun j => Times (nth j row (Num 0)) (x 1%nat (n + j)%nat))) f)) (seq 0 m);
  Ok (top ++ mid ++ bot).

(** ** Inverse dynamics, symbolic.py:1064-1083, 1257-1275 [sym_pinv_dyn].  The
    implicit class is modelled without constraints: with them its mass_matrix
    has more columns and the product fails. *)
Section Pinv.
(** sympy's pinv of a matrix of n rows and k columns *)
Variable pinv : nat -> nat -> emat -> emat.
(** subs of the symbols us by 0 (SimpLagrangesMethod) *)
Fixpoint u_zero (us : list atom) (e : expr) : expr :=
  match e with
  | Num r => Num r
  | Var a => if in_dec atom_eq_dec a us then Num 0 else Var a
  | Plus e1 e2 => Plus (u_zero us e1) (u_zero us e2)
  | Times e1 e2 => Times (u_zero us e1) (u_zero us e2)
  | Func f k e => Func f k (u_zero us e)
  end.
Definition pinv_E (s : lagrange) (us : list atom) : emat := fun i k => diff (nth k us (Static "")) (f_d s i).
Definition sym_pinv_dyn_simp (s : lagrange) (us : list atom) : evec :=
  let n := lg_n s in
  let Z := fun i => Minus (emulv n (m_d s) (fun j => Var (lg_q s 2 j)) i) (u_zero us (f_d s i)) in
  emulv n (pinv n (length us) (pinv_E s us)) Z.
Definition sym_pinv_dyn_impl (s : lagrange) (us : list atom) : evec :=
  let n := lg_n s in
  let f := fun i => Minus (f_d s i) (emulv (length us) (pinv_E s us) (fun k => Var (nth k us (Static ""))) i) in
  let Z := fun i => Minus (emulv n (m_d s) (fun j => Var (lg_q s 2 j)) i) (f i) in
  emulv n (pinv n (length us) (pinv_E s us)) Z.
End Pinv.
