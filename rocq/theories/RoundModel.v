(** Model of symbolic.py:134-156: the numbers of an expression.

    Here floats and integers of sympy are different leaves, which they are not
    in SymModel.v.  Sums and products have two arguments.  Rationals are not
    modelled. *)
From Coq Require Import String.
From Verif Require Import Prelude.
Open Scope R_scope.
Open Scope list_scope.

Inductive op := OAdd | OMul | OPow.
Inductive tree :=
| Flt (r : R) | Itg (z : Z) | Sym (s : string)
| Op (o : op) (a b : tree) | Fun (f : string) (a : tree).
Definition op_eq_dec (o o' : op) : {o = o'} + {o <> o'}.
Proof. decide equality. Defined.
Definition tree_eq_dec (a b : tree) : {a = b} + {a <> b}.
Proof. decide equality; auto using Req_EM_T, Z.eq_dec, string_dec, op_eq_dec. Defined.

(** sympy: preorder_traversal *)
Fixpoint preorder (t : tree) : list tree :=
  t :: match t with
       | Op _ a b => preorder a ++ preorder b
       | Fun _ a => preorder a
       | _ => []
       end.

Section Functions.
(** sympy: what Add(a, b), Mul(a, b) and Pow(a, b) return. *)
Variable make : op -> tree -> tree -> tree.
(** sympy: subs of a number; what has not changed is not made again. *)
Fixpoint subs (t old new : tree) : tree :=
  if tree_eq_dec t old then new
  else match t with
       | Op o a b =>
           let a' := subs a old new in
           let b' := subs b old new in
           if tree_eq_dec a' a then if tree_eq_dec b' b then t else make o a' b' else make o a' b'
       | Fun f a => Fun f (subs a old new)
       | _ => t
       end.
(** round(a) and round(a, n) of a float: an integer and a float *)
Variable round0 : R -> Z.
Variable round : R -> nat -> R.
(** symbolic.py:134-139 *)
Definition integerize (expr : tree) : tree :=
  fold_left (fun expr2 a => match a with Flt r => subs expr2 a (Itg (round0 r)) | _ => expr2 end) (preorder expr) expr.
(** symbolic.py:142-147 *)
Definition roundize (expr : tree) (n : nat) : tree :=
  fold_left (fun expr2 a => match a with Flt r => subs expr2 a (Flt (round r n)) | _ => expr2 end) (preorder expr) expr.
(** symbolic.py:150-156 *)
Definition deletezeros (expr : tree) (tol : R) : tree :=
  fold_left (fun expr2 a =>
    match a with
    | Flt r => if Rlt_dec (Rabs r) tol then subs expr2 a (Itg 0) else expr2
    | _ => expr2
    end) (preorder expr) expr.
End Functions.

(** sympy: the simplifications it always does with zeros and ones, and with
    integers; the powers of integers with negative exponent are left *)
Definition make_int (o : op) (a b : tree) : tree :=
  match o, a, b with
  | OAdd, Itg x, Itg y => Itg (x + y)
  | OAdd, Itg 0, _ => b
  | OAdd, _, Itg 0 => a
  | OMul, Itg x, Itg y => Itg (x * y)
  | OMul, Itg 0, _ | OMul, _, Itg 0 => Itg 0
  | OMul, Itg 1, _ => b
  | OMul, _, Itg 1 => a
  | OPow, Itg x, Itg y => if (0 <=? y)%Z then Itg (x ^ y) else Op o a b
  | OPow, _, Itg 0 => Itg 1
  | OPow, _, Itg 1 => a
  | _, _, _ => Op o a b
  end.
(** Powers of real numbers: Rpower for positive numbers; others only with an
    integer exponent (complex results are not modelled). *)
Definition pow_R (x y : R) : R :=
  if Rlt_dec 0 x then Rpower x y
  else if Req_EM_T y (IZR (Int_part y)) then powerRZ x (Int_part y) else 0.
Definition value_op (o : op) (x y : R) : R :=
  match o with OAdd => x + y | OMul => x * y | OPow => pow_R x y end.
(** sympy: a float and a number give a float *)
Definition make_sympy (o : op) (a b : tree) : tree :=
  match a, b with
  | Flt x, Flt y => Flt (value_op o x y)
  | Flt x, Itg y => Flt (value_op o x (IZR y))
  | Itg x, Flt y => Flt (value_op o (IZR x) y)
  | _, _ => make_int o a b
  end.
