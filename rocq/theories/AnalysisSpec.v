(** Specification vocabulary for the interpolation of results and the dynamic
    errors.  The dictionary type of AnalysisModel is used; no computation of
    the model is. *)
From Coq Require Import String.
From Coquelicot Require Import Coquelicot.
From Verif Require Import Prelude Poly PolyInterp Mat PsSpec BuTdSpec PhSpec AnalysisModel.
Open Scope R_scope.
Open Scope vec_scope.
Open Scope list_scope.

(** A sample at time [t] of a problem of order [M]: the control is [u] and
    [B j i] is the derivative number i of the block number j of the state
    (q, v, a ...).  The keys are "q", "v", ... with "_d" for each derivative;
    the last name ("a" if M = 2) is the derivative of the last block. *)
Definition shows (M : nat) (B : nat -> nat -> vec) (u : vec) (t : R) (d : row) : Prop :=
  get KT d = Ok [t] /\ get KU d = Ok u /\
  (forall i j, (j < M)%nat -> (j + i <= M)%nat -> get (KQ j i) d = Ok (B j i)) /\
  get (KQ M 0) d = Ok (B (M - 1)%nat 1%nat).

(** [n] samples of the segments with ends [K]: sample number m is at time
    [T m], and is one of a segment that contains that time. *)
Definition sampled (K : list R) (n : nat) (good : nat -> R -> row -> Prop) (T : nat -> R) (rows : list row) : Prop :=
  length rows = n /\
  (forall m, (m + 1 < n)%nat -> T m < T (m + 1)%nat) /\
  forall m, (m < n)%nat -> exists s, (s + 1 < length K)%nat /\
    vnth K s <= T m <= vnth K (s + 1) /\ (T m = vnth K (s + 1) -> (s + 2 = length K)%nat) /\
    good s (T m) (nth m rows []).

(** The schemes whose segments are extended to their two ends, or have
    collocation points there. *)
Definition half_open : list string := ["LG2"; "JG2"; "CG2"; "LGLm"]%string.

(** Sample of a segment with motions [Ps] and controls [Us]. *)
Definition motion_sample (M : nat) (Ps Us : list (list (list R))) (s : nat) (t : R) (d : row) : Prop :=
  shows M (fun j i => rate_n_at (j + i) (nth s Ps []) t) (state_at (nth s Us []) t) t d /\
  get (KX 0) d = Ok (full_state M (nth s Ps []) t).
(** The same for polynomials of the whole state (order 2). *)
Definition state_sample (nq : nat) (Ps Us : list (list (list R))) (s : nat) (t : R) (d : row) : Prop :=
  shows 2 (fun j i => slice (nq * j) (nq * (j + 1)) (rate_n_at i (nth s Ps []) t)) (state_at (nth s Us []) t) t d /\
  get (KX 0) d = Ok (state_at (nth s Ps []) t).

(** [Us] are the polynomials through the controls of each segment. *)
Definition segment_controls (t : list R) (ns : list nat) (u : mat) (nu : nat) (Us : list (list (list R))) : Prop :=
  forall s, (s < length ns)%nat -> length (nth s Us []) = nu /\ traj_through (seg_times t ns s) (seg_part u ns s) (nth s Us []).

(** Each segment contains, before its end, one of [n] equally spaced times. *)
Definition all_reached (K : list R) (n : nat) : Prop :=
  let a := vnth K 0 in let b := vnth K (length K - 1) in
  forall s, (s + 1 < length K)%nat -> exists m, (m < n)%nat /\
    vnth K s <= a + INR m * ((b - a) / INR (n - 1)) < vnth K (s + 1).

(** What [interp], called with a number of samples or with lists of times,
    returns for the segments with ends [K]: the samples and those of each
    segment.  A number of samples that leaves a segment with one is refused. *)
Definition covers (K : list R) (interp : nat -> option (list vec) -> Res (list row * list (list row)))
  (good : nat -> R -> row -> Prop) : Prop :=
  let L := (length K - 1)%nat in let a := vnth K 0 in let b := vnth K L in
  (forall n, (2 <= n)%nat -> all_reached K n -> exists rows segs Tm,
    interp n None = Ok (rows, segs) /\ length segs = L /\ sampled K n good Tm rows /\
    Tm 0%nat = a /\ Tm (n - 1)%nat = b) /\
  (forall n, (2 <= n)%nat -> ~ all_reached K n -> exists e, interp n None = Err e) /\
  (forall n g, length g = L -> Forall (fun ts => (2 <= length ts)%nat) g -> exists segs,
    interp n (Some g) = Ok (concat segs, segs) /\ length segs = L /\
    forall s, (s < L)%nat -> length (nth s segs []) = length (nth s g []) /\
      forall i, (i < length (nth s g []))%nat -> good s (vnth (nth s g []) i) (nth i (nth s segs []) [])).

(** The error at a sample: [x] is the state, [ys] its derivatives of orders 1,
    2, ..., [f] the last [dim] entries of F; entry jj, ii is the derivative
    number jj + 1 of block ii, less block ii + jj + 1, or less f if there is
    no such block. *)
Definition blk (dim b : nat) (v : vec) : vec := slice (dim * b) (dim * (b + 1)) v.
Definition errors_are (dim order : nat) (x : vec) (ys : list vec) (f : vec) (errs : list (list vec)) : Prop :=
  length errs = order /\
  forall jj, (jj < order)%nat -> length (nth jj errs []) = (order - jj)%nat /\
    forall ii, (ii < order - jj)%nat -> nth ii (nth jj errs []) [] =
      blk dim ii (nth jj ys []) -v (if (ii + jj + 1 <? order)%nat then blk dim (ii + jj + 1) x else f).
