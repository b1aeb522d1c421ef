(** Neutral vocabulary shared by models and specifications: results with
    Python exceptions as values, finite sums, and elementwise operations on
    vectors (numpy 1-D arrays) and matrices (lists of rows).  Nothing here
    models a particular function of the repository. *)
From Coq Require Export List Arith ZArith Lia Reals Lra Bool.
Export ListNotations.
Open Scope R_scope.

(** ** Python exceptions as values *)
Inductive exn : Type :=
| ValueError | NameError | TypeError | KeyError | IndexError | AttributeError
| AssertionError | RuntimeError | NotImplementedError | ZeroDivisionError
| UnboundLocalError | EOFError | SyntaxError.

Inductive Res (A : Type) : Type :=
| Ok : A -> Res A
| Err : exn -> Res A.
Arguments Ok {A} _.
Arguments Err {A} _.

Definition rbind {A B} (r : Res A) (k : A -> Res B) : Res B :=
  match r with Ok a => k a | Err e => Err e end.
Notation "'do' x <- r ; k" := (rbind r (fun x => k))
  (at level 200, x pattern, r at level 100, k at level 200).

Definition is_ok {A} (r : Res A) : Prop := exists a, r = Ok a.

(** ** Finite sums: [rsum n f] is f 0 + ... + f (n-1). *)
Fixpoint rsum (n : nat) (f : nat -> R) : R :=
  match n with
  | O => 0
  | S n' => rsum n' f + f n'
  end.

(** Finite products: [rprod n f] is f 0 * ... * f (n-1). *)
Fixpoint rprod (n : nat) (f : nat -> R) : R :=
  match n with
  | O => 1
  | S n' => rprod n' f * f n'
  end.

(** ** Vectors *)
Notation vec := (list R).
Notation mat := (list (list R)).     (* list of rows *)

Fixpoint map2 {A B C} (f : A -> B -> C) (l : list A) (m : list B) : list C :=
  match l, m with
  | a :: l', b :: m' => f a b :: map2 f l' m'
  | _, _ => []
  end.

Definition vadd (a b : vec) : vec := map2 Rplus a b.
Definition vsub (a b : vec) : vec := map2 Rminus a b.
Definition vmul (a b : vec) : vec := map2 Rmult a b.
Definition vscale (k : R) (a : vec) : vec := map (fun x => k * x) a.
Definition vdivs (a : vec) (k : R) : vec := map (fun x => x / k) a.

Declare Scope vec_scope.
Delimit Scope vec_scope with vec.
Notation "a +v b" := (vadd a b) (at level 50, left associativity) : vec_scope.
Notation "a -v b" := (vsub a b) (at level 50, left associativity) : vec_scope.
Notation "k *v a" := (vscale k a) (at level 40, left associativity) : vec_scope.
Notation "a /v k" := (vdivs a k) (at level 40, left associativity) : vec_scope.
Open Scope vec_scope.

(** Component [i] of a vector.  The default 0 is never what a theorem is
    about: every theorem bounds its indices or its lengths. *)
Definition vnth (a : vec) (i : nat) : R := nth i a 0.

(** All components are zero: the meaning of "restriction == 0". *)
Definition vzero (a : vec) : Prop := Forall (fun r => r = 0) a.

Definition vsum (a : vec) : R := fold_right Rplus 0 a.
Definition vdot (a b : vec) : R := vsum (vmul a b).

(** ** Python slicing *)
Definition slice {A} (lo hi : nat) (l : list A) : list A :=   (* l[lo:hi], 0 <= lo <= hi *)
  firstn (hi - lo) (skipn lo l).
(** l[-n:] ; in Python l[-0:] is the whole list. *)
Definition lastn {A} (n : nat) (l : list A) : list A :=
  if Nat.eqb n 0 then l else skipn (length l - n) l.
(** l[:-n] ; in Python l[:-0] is empty. *)
Definition butlastn {A} (n : nat) (l : list A) : list A :=
  if Nat.eqb n 0 then [] else firstn (length l - n) l.
(** l[lo : lo+len(vals)] = vals *)
Definition set_slice {A} (lo : nat) (vals l : list A) : list A :=
  firstn lo l ++ vals ++ skipn (lo + length vals) l.

(** Python's [l.pop(i)] seen as a function of the list: [l] without its
    [i]-th item. *)
Definition pop_at {A} (i : nat) (l : list A) : list A := firstn i l ++ skipn (S i) l.
