(** Model of piecewise.py:120-238 [expand_F] in numpy mode, with the arrays that
    the function can return: for one state (1-D x) and for an array of states
    (2-D x).  Arrays of more dimensions are not modelled. *)
From Verif Require Import Prelude Mat PwModel.
Open Scope R_scope.
Open Scope list_scope.

(** What the function returns: a number (or an array of no dimensions), a 1-D
    array, a 2-D array. *)
Inductive out := A0 (r : R) | A1 (v : vec) | A2 (m : mat).

Section Expand.
Context {P : Type}.
(** piecewise.py:181-188: numbers are put in an array *)
Definition iterable (a : out) : out := match a with A0 r => A1 [r] | _ => a end.

(** piecewise.py:161-197, len(x.shape) = 1: an array with another number of
    dimensions gets one more, or stays, and is not of the shape of v. *)
Definition expand_F_1d (F : vec -> vec -> P -> out) (order : nat) (x u : vec) (p : P) : Res vec :=
  let a := F x u p in
  let dim := (length x / order)%nat in
  let v := skipn dim x in
  match iterable a with
  | A1 new_a => if (length new_a =? length v)%nat then Ok (v ++ new_a) else Err AssertionError
  | _ => Err AssertionError
  end.

(** piecewise.py:189-193: a 1-D array is made a column if it has as many entries
    as v has rows, else a row if it has as many as v has columns *)
Definition fit (a : out) (rows cols : nat) : out :=
  match a with
  | A1 l => if (length l =? rows)%nat then A2 (map (fun r => [r]) l)
            else if (length l =? cols)%nat then A2 [l] else A1 l
  | _ => a
  end.
(** piecewise.py:161-197, len(x.shape) = 2 *)
Definition expand_F_2d (F : mat -> mat -> P -> out) (order : nat) (x u : mat) (p : P) : Res mat :=
  let a := F x u p in
  let dim := (mwidth x / order)%nat in
  let v := map (skipn dim) x in
  match fit (iterable a) (length v) (mwidth x - dim) with
  | A2 new_a =>
      if ((length new_a =? length v)%nat && forallb (fun r => (length r =? mwidth x - dim)%nat) new_a)%bool
      then Ok (map2 (fun r s => r ++ s) v new_a) else Err AssertionError
  | _ => Err AssertionError
  end.
End Expand.
