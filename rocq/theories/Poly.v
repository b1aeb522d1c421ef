(** Real polynomials as coefficient lists, lowest degree first.  This is
    specification vocabulary: no function of the repository is modelled here.
    A polynomial "of degree < n" is a list of length at most n. *)
From Verif Require Import Prelude.
Open Scope R_scope.

Fixpoint peval (c : list R) (x : R) : R :=
  match c with
  | [] => 0
  | a :: c' => a + x * peval c' x
  end.

Fixpoint padd (c d : list R) : list R :=
  match c, d with
  | [], _ => d
  | _, [] => c
  | a :: c', b :: d' => (a + b) :: padd c' d'
  end.

Definition pscale (k : R) (c : list R) : list R := map (fun a => k * a) c.

Fixpoint pmul (c d : list R) : list R :=
  match c with
  | [] => []
  | a :: c' => padd (pscale a d) (0 :: pmul c' d)
  end.

(** Derivative: coefficient k is (k+1) c_(k+1). *)
Fixpoint pder_from (k : nat) (c : list R) : list R :=
  match c with
  | [] => []
  | a :: c' => INR k * a :: pder_from (S k) c'
  end.
Definition pderiv (c : list R) : list R := pder_from 1 (tl c).

Fixpoint pderiv_n (k : nat) (c : list R) : list R :=
  match k with
  | O => c
  | S k' => pderiv_n k' (pderiv c)
  end.

(** Antiderivative with value 0 at 0: coefficient k+1 is c_k/(k+1). *)
Fixpoint pint_from (k : nat) (c : list R) : list R :=
  match c with
  | [] => []
  | a :: c' => a / INR (S k) :: pint_from (S k) c'
  end.
Definition pint (c : list R) : list R := 0 :: pint_from 0 c.

(** Substitution of an affine function: c(a + b X). *)
Fixpoint pcomp_affine (c : list R) (a b : R) : list R :=
  match c with
  | [] => []
  | [k] => [k]
  | k :: c' => padd [k] (pmul [a; b] (pcomp_affine c' a b))
  end.

(** Product of (X - r) for r in a list. *)
Fixpoint pfromroots (rs : list R) : list R :=
  match rs with
  | [] => [1]
  | r :: rs' => pmul [- r; 1] (pfromroots rs')
  end.
