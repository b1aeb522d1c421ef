(** What the casadi functions made from sympy expressions should compute. *)
From Coq Require Import String Ascii.
From Verif Require Import Prelude SymModel SymSpec.
Open Scope list_scope.

(** The sets of dynamic symbols and of plain symbols of each expression, in any
    order. *)
Definition iterates (dyn_order : expr -> list atom) (sym_order : expr -> list string) : Prop :=
  forall e, (forall a, In a (dyn_order e) <-> In a (atoms e) /\ is_dyn a = true) /\
            (forall n, In n (sym_order e) <-> In (Static n) (atoms e)) /\
            NoDup (sym_order e).
(** The symbol that stands for a symbol, dynamic symbol or derivative: that of
    diff_to_symb, in standard notation. *)
Definition called (a : atom) : atom := std (symb_of a).
(** The value of an expression, for values of the symbols that stand for its
    symbols. *)
Definition value (val : atom -> R) (e : expr) : R := eval (fun a => val (called a)) e.
(** All the symbols of some expressions. *)
Definition symbols_in (l : list expr) : list atom := concat (map atoms l).
(** No derivative of a dynamic symbol with the name q or without name. *)
Definition can_be_called (l : list expr) : Prop :=
  forall n k, In (Dyn n (S k)) (symbols_in l) -> n <> ""%string /\ n <> "q"%string.
(** The k-th derivatives of the coordinates of these names. *)
Definition coords (k : nat) (names : list string) : list atom := map (fun n => Dyn n k) names.
(** A name that standard_notation leaves as it is. *)
Definition standard_name (n : string) : Prop := std_name n = None /\ n <> ""%string /\ n <> "q"%string.
(** q, then digits *)
Definition short_name (n : string) : Prop := exists d, isdigit d = true /\ n = String "q"%char d.

(** Equations D of the coordinates [names], written with the states x_0, ...,
    x_(2n-1): first x_i' - x_(n+i), then the equations with x_i for q_i and
    x_(n+i) for q_i'. *)
Definition state_form (names : list string) (D X : list expr) : Prop :=
  let n := length names in
  length X = (n + length D)%nat /\
  (forall rho i, (i < n)%nat -> eval rho (nth i X (Num 0)) = (rho (Dyn (x_name i) 1) - rho (Dyn (x_name (n + i)) 0))%R) /\
  (forall rho i, (i < length D)%nat -> eval rho (nth (n + i) X (Num 0)) = eval (fun a => rho (x_for names a)) (nth i D (Num 0))).
(** The names of the states. *)
Definition x_names (n : nat) : list string := map x_name (seq 0 n).

(** Controls that are not given as a list: u_0, ... *)
Definition standard_controls (U : uvars) : Prop := U = U_none \/ exists m, U = U_int m.
(** The values of n right-hand sides, or of 2 n of them in first-order form. *)
Definition first_order (n : nat) (v rhs : vec) : vec := if (n =? length rhs)%nat then v ++ rhs else rhs.
Definition second_half (n : nat) (rhs : vec) : vec := if (n =? length rhs)%nat then rhs else skipn n rhs.
(** The states of a motion: x_i is q_i, x_(n+i) is q_i'. *)
Definition follows (names : list string) (sigma rho : atom -> R) : Prop :=
  (forall i k, (i < length names)%nat -> rho (Dyn (x_name i) k) = sigma (Dyn (nth i names ""%string) k) /\
                                         rho (Dyn (x_name (length names + i)) k) = sigma (Dyn (nth i names ""%string) (S k))).
