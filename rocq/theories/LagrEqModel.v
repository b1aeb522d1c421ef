(** Model of chords/symbolic.py, part 4: Lagrange's equations from the energies.

    The symbol t is time. *)
From Coq Require Import String.
From Verif Require Import Prelude PwInterpModel SymModel LagrModel.
Open Scope R_scope.
Open Scope list_scope.

Definition time : atom := Static "t".
(** sympy: derivative with respect to the symbol t, on which the dynamic symbols
    depend *)
Fixpoint ddt_t (e : expr) : expr :=
  match e with
  | Num _ => Num 0
  | Var (Static n) => if (n =? "t")%string then Num 1 else Num 0
  | Var (Dyn n k) => Var (Dyn n (S k))
  | Plus e1 e2 => Plus (ddt_t e1) (ddt_t e2)
  | Times e1 e2 => Plus (Times (ddt_t e1) e2) (Times e1 (ddt_t e2))
  | Func f k e => Times (Func f (S k) e) (ddt_t e)
  end.

Section Simplify.
(** sympy *)
Variables simplify expand : expr -> expr.

(** symbolic.py:159-179 [lagrange].  The derivative of a symbol by t is a number,
    and sympy does not differentiate with respect to a number. *)
Definition lagrange_eq (L_expr : expr) (var : atom) : Res expr :=
  match var with
  | Static _ => Err ValueError
  | Dyn n k =>
      let vardot := Dyn n (S k) in
      let lag1 := simplify (ddt_t (simplify (diff vardot L_expr))) in
      let lag2 := simplify (diff var L_expr) in
      let lag := Minus lag1 lag2 in
      Ok (expand (simplify lag))
  end.

(** qs: a number, or a list or tuple of symbols *)
Inductive coordinates := C_int (n : nat) | C_list (l : list atom).
Definition coordinate_list (qs : coordinates) : list atom :=
  match qs with C_int n => map (fun ii => Dyn ("q_" ++ str_nat ii)%string 0) (seq 0 n) | C_list l => l end.
(** symbolic.py:182-214 [get_lagr_eqs] *)
Definition get_lagr_eqs (T U : expr) (qs : coordinates) : Res (list expr) :=
  let L := Minus T U in
  mapm (fun q => do e <- lagrange_eq L q; Ok (simplify e)) (coordinate_list qs).
End Simplify.
