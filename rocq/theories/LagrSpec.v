(** The mechanics that the equations of motion should say, without sympy. *)
From Coq Require Import String.
From Coquelicot Require Import Coquelicot.
From Verif Require Import Prelude PwInterpModel SymModel LagrModel.
Open Scope R_scope.
Open Scope list_scope.

(** ** Values and derivatives *)
Definition env : Type := atom -> R.
Definition upd (rho : env) (a : atom) (x : R) : env := fun b => if atom_eq_dec b a then x else rho b.
(** Partial derivative of a function of the symbols. *)
Definition partial (F : env -> R) (a : atom) (rho : env) : R := Derive (fun x => F (upd rho a x)) (rho a).
(** A motion: each dynamic symbol is a function of time and its derivatives are
    its derivatives; other symbols are constant. *)
Definition motion (g : R -> env) : Prop :=
  (forall n k t, is_derive (fun s => g s (Dyn n k)) t (g t (Dyn n (S k)))) /\
  (forall n t t', g t (Static n) = g t' (Static n)).
(** d/dt (dL/dq_i') - dL/dq_i along a motion *)
Definition euler_lagrange (L : env -> R) (qs : list string) (i : nat) (g : R -> env) (t : R) : R :=
  Derive (fun s => partial L (qd qs 1 i) (g s)) t - partial L (qd qs 0 i) (g t).

(** ** Where expressions are smooth *)
(** Each [Func f k e] is near the value of e what it is called: f k is the k-th
    derivative of f 0. *)
Fixpoint smooth_at (rho : env) (e : expr) : Prop :=
  match e with
  | Num _ | Var _ => True
  | Plus e1 e2 | Times e1 e2 => smooth_at rho e1 /\ smooth_at rho e2
  | Func f _ e => smooth_at rho e /\ forall j, locally (eval rho e) (fun x => is_derive (f j) x (f (S j) x))
  end.
(** A set of values of the symbols, open along each straight line. *)
Definition line_open (D : env -> Prop) : Prop :=
  forall rho d, D rho -> locally 0 (fun x => D (fun a => rho a + x * d a)).
Definition smooth_on (D : env -> Prop) (e : expr) : Prop := forall rho, D rho -> smooth_at rho e.

(** ** Which symbols appear *)
(** At most k-th derivatives. *)
Definition up_to (k : nat) (e : expr) : Prop := forall n j, In (Dyn n j) (atoms e) -> (j <= k)%nat.
(** Only constants and the coordinates themselves. *)
Definition of_position (qs : list string) (e : expr) : Prop :=
  forall a, In a (atoms e) -> (exists n, a = Static n) \/ (exists n, In n qs /\ a = Dyn n 0).
(** Forces do not depend on accelerations of the coordinates. *)
Definition no_acc (qs : list string) (e : expr) : Prop := forall n j, In n qs -> (2 <= j)%nat -> ~ In (Dyn n j) (atoms e).

(** ** Natural systems *)
(** On D, L = 1/2 sum m_ij q_i' q_j' - V, with m symmetric, m and V functions of
    the position. *)
Record natural (D : env -> Prop) (s : lagrange) (m : emat) (V : expr) : Prop := {
  nat_open : line_open D;
  nat_names : NoDup (lg_qs s);
  nat_L : smooth_on D (lg_L s);
  nat_L_level : up_to 1 (lg_L s);
  nat_m : forall i j, (i < lg_n s)%nat -> (j < lg_n s)%nat -> smooth_on D (m i j) /\ of_position (lg_qs s) (m i j);
  nat_V : smooth_on D V /\ of_position (lg_qs s) V;
  nat_forces : forall i, (i < lg_n s)%nat -> no_acc (lg_qs s) (lg_forces s i);
  nat_forces_smooth : forall i, (i < lg_n s)%nat -> smooth_on D (lg_forces s i);
  nat_sym : forall rho i j, D rho -> (i < lg_n s)%nat -> (j < lg_n s)%nat -> eval rho (m i j) = eval rho (m j i);
  nat_value : forall rho, D rho ->
    eval rho (lg_L s) =
    / 2 * rsum (lg_n s) (fun i => rsum (lg_n s) (fun j => eval rho (m i j) * rho (lg_q s 1 i) * rho (lg_q s 1 j))) - eval rho V }.

(** ** Matrices of numbers *)
(** A * v, the identity *)
Definition mv (n : nat) (A : nat -> nat -> R) (v : nat -> R) (i : nat) : R := rsum n (fun j => A i j * v j).
Definition delta (i j : nat) : R := if (i =? j)%nat then 1 else 0.
(** N is a right inverse of A: A N = I, and a left inverse. *)
Definition inverse (n : nat) (A N : nat -> nat -> R) : Prop :=
  (forall i j, (i < n)%nat -> (j < n)%nat -> rsum n (fun l => A i l * N l j) = delta i j) /\
  (forall i j, (i < n)%nat -> (j < n)%nat -> rsum n (fun l => N i l * A l j) = delta i j).
Definition ev (rho : env) (A : emat) : nat -> nat -> R := fun i j => eval rho (A i j).
Definition evv (rho : env) (v : evec) : nat -> R := fun i => eval rho (v i).
(** What is asked of sympy's inverse: where the matrix of numbers has an inverse,
    that is the value of the result, as smooth as the entries. *)
Definition inverts (inv : nat -> emat -> Res emat) : Prop :=
  forall k A N, inv k A = Ok N -> forall rho, (exists B, inverse k (ev rho A) B) ->
    inverse k (ev rho A) (ev rho N) /\
    ((forall i j, (i < k)%nat -> (j < k)%nat -> smooth_at rho (A i j)) -> forall i j, (i < k)%nat -> (j < k)%nat -> smooth_at rho (N i j)).
(** Quadratic form positive except at 0. *)
Definition posdef (n : nat) (A : nat -> nat -> R) : Prop :=
  forall x, (exists i, (i < n)%nat /\ x i <> 0) -> 0 < rsum n (fun i => x i * mv n A x i).

(** ** Systems with constraints *)
(** On D the constraints are sum_j B_kj q_j' = 0, B a function of the position;
    the last of the coordinates, as many as constraints, are determined by the
    others; the mass matrix d2L/dq_i'dq_j' is positive definite. *)
Record mechanism (D : env -> Prop) (s : lagrange) (B : emat) : Prop := {
  me_open : line_open D;
  me_names : NoDup (lg_qs s);
  me_L : smooth_on D (lg_L s) /\ up_to 1 (lg_L s);
  me_forces : forall i, (i < lg_n s)%nat -> no_acc (lg_qs s) (lg_forces s i);
  me_count : (length (lg_coneqs s) <= lg_n s)%nat;
  me_con : forall k, (k < length (lg_coneqs s))%nat ->
    smooth_on D (nth k (lg_coneqs s) (Num 0)) /\ up_to 1 (nth k (lg_coneqs s) (Num 0)) /\
    (forall rho, D rho -> eval rho (nth k (lg_coneqs s) (Num 0)) = rsum (lg_n s) (fun j => eval rho (B k j) * rho (lg_q s 1 j)));
  me_B : forall k j, (k < length (lg_coneqs s))%nat -> (j < lg_n s)%nat -> smooth_on D (B k j) /\ of_position (lg_qs s) (B k j);
  me_dependent : forall rho, D rho -> exists N,
    inverse (length (lg_coneqs s)) (fun k j => eval rho (B k (lg_n s - length (lg_coneqs s) + j)%nat)) N;
  me_mass : forall rho, D rho -> posdef (lg_n s) (fun i j => partial (partial (fun r => eval r (lg_L s)) (lg_q s 1 i)) (lg_q s 1 j) rho) }.

(** ** Right-hand sides *)
(** The symbol a does not occur inside functions. *)
Fixpoint outside (a : atom) (e : expr) : Prop :=
  match e with
  | Num _ | Var _ => True
  | Plus e1 e2 | Times e1 e2 => outside a e1 /\ outside a e2
  | Func _ _ e => ~ In a (atoms e)
  end.
(** rho with y_0, ..., y_(n-1) for the symbols a_0, ..., a_(n-1). *)
Definition with_acc (n : nat) (rho : env) (y : nat -> R) : env := fun b =>
  match List.find (fun j => if atom_eq_dec (a_symb j) b then true else false) (seq 0 n) with
  | Some j => y j
  | None => rho b
  end.
(** On D, that does not depend on the a_j, n equations E_i = sum_j A_ij a_j + c_i,
    where A and c do not depend on the a_j. *)
Definition linear_in_acc (D : env -> Prop) (n : nat) (es : list expr) (A : env -> nat -> nat -> R) (c : env -> nat -> R) : Prop :=
  (forall rho y, D rho -> D (with_acc n rho y)) /\
  (forall rho i, D rho -> (i < n)%nat -> eval rho (nth i es (Num 0)) = rsum n (fun j => A rho i j * rho (a_symb j)) + c rho i) /\
  (forall rho y i, D rho -> (i < n)%nat -> c (with_acc n rho y) i = c rho i /\ forall j, (j < n)%nat -> A (with_acc n rho y) i j = A rho i j).

(** ** Equations of motion *)
(** Newton's equations with multipliers l: d/dt (dL/dq_i') - dL/dq_i is the force
    plus sum_k l_k dc_k/dq_i'. *)
Definition obeys (s : lagrange) (g : R -> env) (t : R) (l : nat -> R) : Prop :=
  forall i, (i < lg_n s)%nat ->
  euler_lagrange (fun rho => eval rho (lg_L s)) (lg_qs s) i g t =
  eval (g t) (lg_forces s i) +
  rsum (length (lg_coneqs s)) (fun k => l k * partial (fun rho => eval rho (nth k (lg_coneqs s) (Num 0))) (lg_q s 1 i) (g t)).
(** The constraints hold. *)
Definition constrained (s : lagrange) (rho : env) : Prop :=
  forall k, (k < length (lg_coneqs s))%nat -> eval rho (nth k (lg_coneqs s) (Num 0)) = 0.
(** Controls: symbols that are not in L, of which the forces are affine functions. *)
Definition affine_controls (s : lagrange) (us : list atom) (rho : env) (E : nat -> nat -> R) (h : nat -> R) : Prop :=
  NoDup us /\
  (forall u, In u us -> ~ In u (atoms (lg_L s)) /\ ((exists n, u = Static n) \/ (exists n, u = Dyn n 0 /\ ~ In n (lg_qs s)))) /\
  (forall v i, (i < lg_n s)%nat -> (forall a, ~ In a us -> v a = rho a) ->
     eval v (lg_forces s i) = rsum (length us) (fun k => E i k * v (nth k us (Static ""%string))) + h i).
