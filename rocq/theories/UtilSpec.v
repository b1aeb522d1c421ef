(** Specification vocabulary for the quadrature functions of chords/util.py
    and for the bottom-up and top-down schemes.  Nothing here mentions a
    function of the model. *)
From Coq Require Import String.
From Coquelicot Require Import Coquelicot.
From Verif Require Import Prelude Poly PolyInterp Mat PsSpec.
Open Scope R_scope.
Open Scope list_scope.

(** [pts], [ws] integrate every polynomial with at most [d] coefficients
    exactly over [-1, 1]. *)
Definition quad_exact (d : nat) (pts ws : list R) : Prop :=
  length ws = length pts /\
  forall c, (length c <= d)%nat ->
    vdot ws (map (peval c) pts) = RInt (peval c) (-1) 1.

(** The Gauss rule with [N] points: what numpy documents for leggauss
    ("points and weights ... will correctly integrate polynomials of degree
    2*deg - 1 or less over the interval [-1, 1]"), in increasing order. *)
Definition gauss_rule (N : nat) (pts ws : list R) : Prop :=
  length pts = N /\ increasing pts /\ Forall (fun x => -1 < x < 1) pts /\
  quad_exact (2 * N) pts ws.
Definition leggauss_ok (leggauss : nat -> list R * list R) : Prop :=
  forall N, (1 <= N)%nat -> gauss_rule N (fst (leggauss N)) (snd (leggauss N)).

(** The integral repeated [n] times from [t0]. *)
Fixpoint rep_RInt (n : nat) (f : R -> R) (t0 : R) (t : R) : R :=
  match n with
  | O => f t
  | S k => RInt (rep_RInt k f t0) t0 t
  end.

(** Every component of a vector function is a polynomial with at most [n]
    coefficients. *)
Definition poly_fun (n : nat) (f : R -> list R) (cs : list (list R)) : Prop :=
  Forall (fun c => (length c <= n)%nat) cs /\ forall t, f t = state_at cs t.

(** The collocation sets of Gauss, Radau and Lobatto type, with the number of
    end points each contains. *)
Definition gauss_families : list (string * nat) :=
  [("LG", 0); ("LG_inv", 0); ("LG2", 0); ("JG", 0); ("JG_inv", 0); ("JG2", 0);
   ("LGR", 1); ("LGR_inv", 1); ("JGR", 1); ("JGR_inv", 1); ("LGL", 2); ("D2", 2); ("JGL", 2)]%string%nat.
