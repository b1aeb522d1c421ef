(** What renaming and classifying symbols should do, without the sequence of
    substitutions. *)
From Coq Require Import String Ascii.
From Verif Require Import Prelude PwInterpModel SymModel.
Open Scope list_scope.

(** Another atom in the place of each atom, all at once. *)
Fixpoint rename (f : atom -> atom) (e : expr) : expr :=
  match e with
  | Num r => Num r
  | Var a => Var (f a)
  | Plus e1 e2 => Plus (rename f e1) (rename f e2)
  | Times e1 e2 => Times (rename f e1) (rename f e2)
  | Func g k e => Func g k (rename f e)
  end.
(** The symbol of an atom: the one diff_to_symb gives. *)
Definition symb_of (a : atom) : atom := match diff_to_symb a with Ok s => Static s | Err _ => a end.
(** The standard name of a symbol, if it has one. *)
Definition std (a : atom) : atom :=
  match a with Static n => match std_name n with Some n' => Static n' | None => Static n end | _ => a end.

(** "x_i for q_i, x_(n+i) for the first derivative of q_i and its derivatives
    for the higher ones", all at once.  [names] are the names of the
    coordinates. *)
Fixpoint x_for_from (i n : nat) (names : list string) (m : string) (level : nat) : atom :=
  match names with
  | [] => Dyn m level
  | q :: names' =>
      if string_dec m q
      then match level with O => Dyn (x_name i) 0 | S l => Dyn (x_name (n + i)) l end
      else x_for_from (S i) n names' m level
  end.
Definition x_for (names : list string) (a : atom) : atom :=
  match a with
  | Static s => Static s
  | Dyn m level => x_for_from 0 (length names) names m level
  end.

(** Names that the states x_0, ..., x_(2n-1) do not clash with: a coordinate
    may be called x_i when it is the one of number i or comes before it; none
    may be called x_n, ..., x_(2n-1). *)
Definition x_clear (names : list string) : Prop :=
  (forall i j, (i < j < length names)%nat -> nth j names ""%string <> x_name i) /\
  (forall i, (i < length names)%nat -> ~ In (x_name (length names + i)) names).

(** A name that cannot be confused with the names given to derivatives: not
    empty, not "q", not beginning with v or a, and without "_dot" inside. *)
Definition begins (c : ascii) (s : string) : Prop := exists r, s = String c r.
Definition contains (p s : string) : Prop := exists a b, s = (a ++ p ++ b)%string.
Definition clean_name (s : string) : Prop :=
  s <> ""%string /\ s <> "q"%string /\ ~ begins "v" s /\ ~ begins "a" s /\ ~ contains "_dot" s.
Definition clean (a : atom) : Prop := match a with Static s => clean_name s | Dyn s _ => clean_name s end.

(** Exactly one of the propositions holds. *)
Fixpoint exactly_one (l : list Prop) : Prop :=
  match l with
  | [] => False
  | P :: l' => (P /\ Forall (fun Q => ~ Q) l') \/ (~ P /\ exactly_one l')
  end.
(** No symbol in two groups. *)
Definition disjoint {A} (l m : list A) : Prop := forall x, In x l -> ~ In x m.
(** The symbols of the coordinates, velocities and accelerations the user
    asks for. *)
Definition q_groups (q_vars : qvars) : Res (list atom * list atom * list atom) :=
  match q_vars with
  | Q_int n => Ok (numbered "q" n, numbered "v" n, numbered "a" n)
  | Q_list l => do q <- mapm (symb_d 0) l; do v <- mapm (symb_d 1) l; do a <- mapm (symb_d 2) l; Ok (q, v, a)
  | Q_other => Err TypeError
  end.
(** The symbols of the controls the user asks for. *)
Definition n_symbols (sets : list (list string)) : nat := fold_right (fun l n => (length l + n)%nat) 0%nat sets.
Definition u_group (sets : list (list string)) (u_vars : uvars) : Res (list atom) :=
  match u_vars with
  | U_none => Ok (numbered "u" (n_symbols sets))
  | U_list l => Ok l
  | U_int n => Ok (numbered "u" n)
  | U_other => Err TypeError
  end.

(** The name of a Lagrange multiplier: lam and one or more decimal digits. *)
Definition decimal_digit (c : ascii) : Prop := (48 <= nat_of_ascii c <= 57)%nat.
Definition multiplier_name (s : string) : Prop :=
  exists c d, s = ("lam" ++ String c d)%string /\ Forall decimal_digit (list_ascii_of_string (String c d)).
