(** Matrices as lists of rows: the numpy/casadi operations the models use.
    Neutral vocabulary, no function of the repository is modelled here. *)
From Verif Require Import Prelude.
Open Scope R_scope.
Open Scope vec_scope.

(** Number of columns (shape[1]); column [j] (A[:, j]); entry [i, j]. *)
Definition mwidth (A : mat) : nat := length (hd [] A).
Definition mcol (j : nat) (A : mat) : vec := map (fun r => vnth r j) A.
Definition mrow (i : nat) (A : mat) : vec := nth i A [].
Definition mget (A : mat) (i j : nat) : R := vnth (mrow i A) j.

(** [n] rows of [m] entries. *)
Definition shaped (n m : nat) (A : mat) : Prop :=
  length A = n /\ Forall (fun r => length r = m) A.

(** A @ B and k * A. *)
Definition mmul (A B : mat) : mat :=
  map (fun r => map (fun j => vdot r (mcol j B)) (seq 0 (mwidth B))) A.
Definition mscale (k : R) (A : mat) : mat := map (vscale k) A.
(** A[:, lo:hi] and A[:, -n:] *)
Definition mcols (lo hi : nat) (A : mat) : mat := map (slice lo hi) A.
Definition mlastcols (n : nat) (A : mat) : mat := map (lastn n) A.
(** numpy.eye(n) *)
Definition eye (n : nat) : mat :=
  map (fun i => map (fun j => if (i =? j)%nat then 1 else 0) (seq 0 n)) (seq 0 n).
(** numpy.linalg.matrix_power(D, k) for a square matrix. *)
Fixpoint mpow (D : mat) (k : nat) : mat :=
  match k with
  | O => eye (length D)
  | S k' => mmul D (mpow D k')
  end.
