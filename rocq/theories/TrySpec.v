(** Specification vocabulary for C99: samples and functions of one sample. *)
From Verif Require Import Prelude TryModel.
Open Scope R_scope.
Open Scope list_scope.

(** The 1-D array of a vector and the 2-D array of samples, one per row. *)
Definition row (v : vec) : arr := Ar (map Sc v).
Definition samples (m : mat) : arr := Ar (map row m).
(** What a function can return for one sample: the accelerations as a 1-D
    array, as a matrix of one row or as a column. *)
Definition layouts (a : vec) : list arr := [row a; Ar [row a]; Ar (map (fun x => Ar [Sc x]) a)].
(** [f] computes the n accelerations [g] of one sample. *)
Definition one_sample {P} (f : arr -> arr -> arr -> P -> Res arr) (params : P) (g : vec -> vec -> vec -> vec) (n : nat)
  (q v u : mat) : Prop :=
  forall i, (i < length q)%nat ->
  length (g (nth i q []) (nth i v []) (nth i u [])) = n /\
  exists o, f (row (nth i q [])) (row (nth i v [])) (row (nth i u [])) params = Ok o /\
            In o (layouts (g (nth i q []) (nth i v []) (nth i u []))).
(** One acceleration per sample. *)
Definition accelerations (g : vec -> vec -> vec -> vec) (q v u : mat) : mat :=
  map (fun i => g (nth i q []) (nth i v []) (nth i u [])) (seq 0 (length q)).
(** Row by row difference. *)
Definition rows_minus (a b : mat) : mat := map2 vsub a b.
(** N rows of n numbers. *)
Definition wide (n N : nat) (m : mat) : Prop := length m = N /\ Forall (fun r => length r = n) m.
