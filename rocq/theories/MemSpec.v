(** Specification of what a call does to the memory of its caller. *)
From Verif Require Import Prelude NumpyModel MemModel.
Open Scope list_scope.
Open Scope R_scope.

(** [v] is an array of the memory [m]. *)
Definition in_memory (m : memory) (v : arr) : Prop :=
  (a_buf v < length m)%nat /\ (a_off v + a_len v <= length (c_val (cell_of m v)))%nat.
Definition floats (m : memory) (v : arr) : Prop := c_type (cell_of m v) = D_float.

(** Everything that was in the memory [m] is in [m'], with the same values. *)
Definition intact (m m' : memory) : Prop := exists l, m' = m ++ l.

(** The call returns an array with these values, in memory that the caller
    did not have, and changes nothing of what the caller had. *)
Definition returns_new (m : memory) (c : com arr) (value : vec) : Prop :=
  exists r m', c m = Ok (r, m') /\ rd m' r = value /\ in_memory m' r /\ (length m <= a_buf r)%nat /\ intact m m'.

(** The arguments of a restriction of order M for n coordinates: states of
    M n numbers and accelerations of n.  They may be views of each other's
    memory.  The states x are floating point numbers. *)
Definition states_and_accels (m : memory) (M n : nat) (x x_n a a_n : arr) : Prop :=
  (0 < M)%nat /\ (0 < n)%nat /\ in_memory m x /\ in_memory m x_n /\ in_memory m a /\ in_memory m a_n /\
  a_len x = (M * n)%nat /\ a_len x_n = (M * n)%nat /\ a_len a = n /\ a_len a_n = n /\ floats m x.
Definition middle_accel (m : memory) (n : nat) (a_c : arr) : Prop := in_memory m a_c /\ a_len a_c = n.
