(** Specification vocabulary for interpolated trajectories (C10, C12, C13). *)
From Coquelicot Require Import Coquelicot.
From Coq Require Import String.
From Verif Require Import Prelude PwModel PwInterpModel PwSpec.
Open Scope R_scope.
Open Scope vec_scope.

(** A tape the loops understand: at least one row, no empty row, and not a
    single row of several controls. *)
Definition tape_wf (u : tape) : Prop :=
  tape_rows u <> [] /\
  (forall r, In r (tape_rows u) -> r <> []) /\
  (tape_2d u = true -> length (tape_rows u) = 1%nat -> length (hd [] (tape_rows u)) = 1%nat).

(** Step number i of an integrator that uses the controls at both ends of the
    step; there is no control after the last one, so the last step repeats
    it. *)
Definition tape_step (us : list vec) (step : vec -> vec -> vec -> vec) (i : nat) (x : vec) : vec :=
  if (S i <? length us)%nat then step x (nth i us []) (nth (S i) us [])
  else step x (last us []) (last us []).

(** The same when a control [uc i] inside step i is given too; the last step
    uses the other function. *)
Definition tape_step_c (us : list vec) (step : vec -> vec -> vec -> vec -> vec)
  (final : vec -> vec -> vec) (uc : nat -> vec) (i : nat) (x : vec) : vec :=
  if (S i <? length us)%nat then step x (nth i us []) (nth (S i) us []) (uc i)
  else final x (last us []).

(** Two tapes agree on their first k controls. *)
Definition agree (k : nat) (us us' : list vec) : Prop :=
  forall j, (j < k)%nat -> nth j us [] = nth j us' [].

(** Sample times are increasing. *)
Fixpoint increasing_from (t0 : R) (ts : list R) : Prop :=
  match ts with [] => True | t1 :: ts' => t0 < t1 /\ increasing_from t1 ts' end.

(** Orders of derivation the interpolation offers: the "j" schemes only have
    the first two. *)
Definition dmax_of (scheme : string) : nat -> Prop :=
  if contains "j" scheme then fun d => (d <= 2)%nat else fun _ => True.

(** Y goes through the samples X, taken every h. *)
Definition on_samples (X : list vec) (h : R) (Y : R -> vec) : Prop :=
  forall i, (i < length X)%nat -> Y (INR i * h) = nth i X [].
(** y is the value of Y at t, or the sample when t is within the snap
    tolerance (1e-8 of a step) of a sample time. *)
Definition is_value_of (X : list vec) (h : R) (Y : R -> vec) (t : R) (y : vec) : Prop :=
  y = Y t \/ exists i, (i < length X)%nat /\ Rabs (t - INR i * h) < h * snap /\ y = nth i X [].

(** The controls, one per sample: the given ones, or with the last repeated. *)
Definition full_controls (X U : list vec) : list vec :=
  if (length X =? length U + 1)%nat then U ++ [last U []] else U.

(** The interior control of step i. *)
Definition interior_u (scheme : string) (sp : sparams) (U : list vec) (i : nat) : vec :=
  match sp_u_c sp with
  | Some c => nth i c []
  | None => default_u_c scheme (nth i U []) (nth (i + 1) U [])
  end.

Section Pieces.
  Context {P : Type}.
  Variable F : vec -> vec -> P -> vec.
  Variable p : P.

  (** The scheme's restriction holds on every step of the samples. *)
  Definition steps_hold (scheme : string) (M n : nat) (h : R) (X U : list vec) (sp : sparams) : Prop :=
    forall i, (i + 1 < length X)%nat -> exists r,
      scheme_restr scheme M n F (nth i X []) (nth (i + 1) X []) (nth i U []) (nth (i + 1) U []) h p
        (interior_u scheme sp U i) = Some r /\ vzero r.

  (** The pieces of the interpolated trajectory Y: on step i it is the motion
      Z i, which obeys the dynamics at the collocation points of the step. *)
  Definition pieces (scheme : string) (M n : nat) (h : R) (X U : list vec) (sp : sparams)
    (Y : R -> vec) (Z : nat -> R -> vec) : Prop :=
    forall i, (i + 1 < length X)%nat ->
      (forall t, INR i * h <= t <= (INR i + 1) * h -> Y t = Z i (t - INR i * h)) /\
      obeys_at (M * n) F p (Z i) 0 (nth i U []) /\
      obeys_at (M * n) F p (Z i) h (nth (i + 1) U []) /\
      consistent_blocks M n (Z i) /\
      (forall r, scheme_interior scheme = Some r ->
         obeys_at (M * n) F p (Z i) (r * h) (interior_u scheme sp U i)) /\
      (forall s, length (Z i s) = (M * n)%nat).

  (** [y] is the derivative of order d of the trajectory at time t (the last
      instant is recognised up to the snap tolerance). *)
  Definition is_derivative_of (N : nat) (X : list vec) (h : R) (Z : nat -> R -> vec) (d : nat) (t : R) (y : vec) : Prop :=
    exists i t', (i + 1 < length X)%nat /\
      (t' = t \/ (Rabs (t - (INR (length X) - 1) * h) < h * snap /\ t' = (INR (length X) - 1) * h)) /\
      INR i * h <= t' <= (INR i + 1) * h /\ length y = N /\
      forall k, (k < N)%nat -> vnth y k = Derive_n (fun s => vnth (Z i s) k) d (t' - INR i * h).

End Pieces.

(** The control at the end of step i: the next one, or the last one again when
    there is none. *)
Definition next_u (us : list vec) (i : nat) : vec :=
  if (S i <? length us)%nat then nth (S i) us [] else last us [].

(** The root finder finds a zero of N numbers of every function that has one. *)
Definition solves (N : nat) (root : (vec -> vec) -> vec -> vec) : Prop :=
  forall r g, (exists y, length y = N /\ vzero (r y)) ->
    length (root r g) = N /\ vzero (r (root r g)).

(** Every step from a state of N numbers can be completed: some next state of
    N numbers meets the restriction. *)
Definition solvable (N : nat) (restr : vec -> vec -> vec -> vec -> vec) : Prop :=
  forall x a b, length x = N -> exists y, length y = N /\ vzero (restr x y a b).
