(** Properties C45, C46 and C69: array helpers and numerical functions.  Only
    statements. *)
From Coq Require Import Reals List String.
From Verif Require Import Prelude Mat NumpyModel NumpySpec NumpyProofs.
Import ListNotations.
Open Scope list_scope.
Open Scope R_scope.

(** ** C45: unpack and congruent_concatenate *)

Theorem C45_vector :
  forall v, v <> [] -> (do l <- unpack (A1 v); congruent_concatenate l) = Ok (A1 v).
Proof. exact (round1). Qed.
Print Assumptions C45_vector.

(** Missing: arrays of one row, where it is false (below). *)
Theorem C45_matrix_partial :
  forall n c m, shaped n c m -> (1 <= c)%nat -> n <> 1%nat ->
  (do l <- unpack (A2 c m); congruent_concatenate l) = Ok (A2 c m).
Proof. exact (round2). Qed.
Print Assumptions C45_matrix_partial.

(** One entry for each component of the state. *)
Theorem C45_entries :
  forall a l, unpack a = Ok l -> length l = match a with A0 _ => 1%nat | A1 v => length v | A2 c _ => c | AN _ => 0%nat end.
Proof. exact (unpack_count). Qed.
Print Assumptions C45_entries.

Theorem C45_dimensions :
  forall s, unpack (AN s) = Err ValueError.
Proof. exact (fun s => eq_refl). Qed.
Print Assumptions C45_dimensions.

(** The other way round. *)
Theorem C45_back_numbers :
  forall l, l <> [] -> (do a <- congruent_concatenate (map E0 l); unpack a) = Ok (map E0 l).
Proof. exact (back_numbers). Qed.
Print Assumptions C45_back_numbers.

Theorem C45_back_columns :
  forall n l, Forall (fun v => length v = n) l -> (1 <= length l)%nat -> n <> 1%nat ->
  (do a <- congruent_concatenate (map E1 l); unpack a) = Ok (map E1 l).
Proof. exact (back_columns). Qed.
Print Assumptions C45_back_columns.

(** A 2-D array of one sample is an AssertionError. *)
Theorem C45_one_row_refuted :
  forall c m, shaped 1 c m -> (1 <= c)%nat -> (do l <- unpack (A2 c m); congruent_concatenate l) = Err AssertionError.
Proof. exact (round_one_row). Qed.
Print Assumptions C45_one_row_refuted.

(** So are, with another error, arrays without components. *)
Theorem C45_empty_refuted :
  (do l <- unpack (A1 []); congruent_concatenate l) = Err IndexError /\ (forall m, (do l <- unpack (A2 0 m); congruent_concatenate l) = Err IndexError).
Proof. exact (conj round_empty round_no_columns). Qed.
Print Assumptions C45_empty_refuted.

(** A number comes back as an array of one element. *)
Theorem C45_number_refuted :
  forall r, (do l <- unpack (A0 r); congruent_concatenate l) = Ok (A1 [r]).
Proof. exact (round_number). Qed.
Print Assumptions C45_number_refuted.

Example C45_example :
  (do l <- unpack (A2 2 [[1; 2]; [3; 4]; [5; 6]]); congruent_concatenate l) = Ok (A2 2 [[1; 2]; [3; 4]; [5; 6]]).
Proof. exact (eq_refl). Qed.

(** ** C46: numerical integral and derivative *)

(** It starts at 0 and each step adds the area of its trapezium. *)
Theorem C46_integral :
  forall X t, length X = length t -> exists Y, trapz_integrate1 D_float X t = Ok Y /\ length Y = length X /\
  ((1 <= length X)%nat -> vnth Y 0 = 0) /\
  (forall i, (S i < length X)%nat -> vnth Y (S i) - vnth Y i = (vnth t (S i) - vnth t i) * (vnth X (S i) + vnth X i) / 2).
Proof. exact (trapz_steps). Qed.
Print Assumptions C46_integral.

(** Exact for affine data, on any times. *)
Theorem C46_integral_affine :
  forall a b (t : vec), exists Y, trapz_integrate1 D_float (map (fun s => a + b * s) t) t = Ok Y /\
  forall i, (i < length t)%nat -> vnth Y i = a * (vnth t i - vnth t 0) + b * (vnth t i ^ 2 - vnth t 0 ^ 2) / 2.
Proof. exact (trapz_affine). Qed.
Print Assumptions C46_integral_affine.

(** What it computes.  Missing: the last value has the wrong sign. *)
Theorem C46_derivative_partial :
  forall dt X h, (2 <= length X)%nat -> exists Y, num_derivative1 dt X h = Ok Y /\ length Y = length X /\
  vnth Y 0 = store dt ((vnth X 1 - vnth X 0) / h) /\
  (forall i, (1 <= i)%nat -> (i + 1 < length X)%nat -> vnth Y i = store dt ((vnth X (i + 1) - vnth X (i - 1)) / (2 * h))) /\
  vnth Y (length X - 1) = store dt ((vnth X (length X - 2) - vnth X (length X - 1)) / h).
Proof. exact (num_derivative1_ok). Qed.
Print Assumptions C46_derivative_partial.

(** On affine data it is exact at every sample but the last, where it is the opposite of the slope. *)
Theorem C46_derivative_affine_refuted :
  forall a b t0 h n, (2 <= n)%nat -> h <> 0 -> exists Y, num_derivative1 D_float (affine a b t0 h n) h = Ok Y /\
  length Y = n /\ (forall i, (i + 1 < n)%nat -> vnth Y i = b) /\ vnth Y (n - 1) = - b.
Proof. exact (derivative_affine). Qed.
Print Assumptions C46_derivative_affine_refuted.

(** On the times t0 + i h.  For affine data the mean of three samples is the middle one. *)
Theorem C46_derivative_of_integral :
  forall X t0 h, h <> 0 -> (2 <= length X)%nat ->
  exists Y Z, trapz_integrate1 D_float X (affine 0 1 t0 h (length X)) = Ok Y /\ num_derivative1 D_float Y h = Ok Z /\
    length Z = length X /\ vnth Z 0 = (vnth X 0 + vnth X 1) / 2 /\
    (forall i, (1 <= i)%nat -> (i + 1 < length X)%nat -> vnth Z i = (vnth X (i - 1) + 2 * vnth X i + vnth X (i + 1)) / 4) /\
    vnth Z (length X - 1) = - ((vnth X (length X - 2) + vnth X (length X - 1)) / 2).
Proof. exact (derivative_of_integral). Qed.
Print Assumptions C46_derivative_of_integral.

(** Two dimensions: column by column. *)
Theorem C46_derivative_2d :
  forall X h n c, shaped n c X -> (2 <= n)%nat -> exists Y, num_derivative2 D_float X h = Ok Y /\ length Y = n /\
  forall j, (j < c)%nat -> num_derivative1 D_float (mcol j X) h = Ok (mcol j Y).
Proof. exact (derivative_rows). Qed.
Print Assumptions C46_derivative_2d.

Theorem C46_derivative_short_refuted :
  forall dt X h, (length X < 2)%nat -> num_derivative1 dt X h = Err IndexError.
Proof. exact (derivative_short). Qed.
Print Assumptions C46_derivative_short_refuted.

(** The integral of a 2-D array is along its rows, not along the time: a ValueError ... *)
Theorem C46_integral_2d_refuted :
  forall dt c X t n, shaped n c X -> length t = n -> (2 <= n)%nat -> n <> 2%nat \/ c <> 2%nat ->
  trapz_integrate2 dt c X t = Err ValueError.
Proof. exact (trapz_2d_fails). Qed.
Print Assumptions C46_integral_2d_refuted.

(** ... except for two samples of two components, where it is wrong. *)
Theorem C46_integral_2x2_refuted :
  trapz_integrate2 D_float 2 [[1; 2]; [3; 4]] [0; 1] = Ok [[0; 0]; [3 / 2; 7 / 2]] /\
  trapz_integrate1 D_float [1; 3] [0; 1] = Ok [0; 2] /\ trapz_integrate1 D_float [2; 4] [0; 1] = Ok [0; 3].
Proof. exact (trapz_2d_wrong). Qed.
Print Assumptions C46_integral_2x2_refuted.

(** Results for arrays of integers lose their decimals. *)
Theorem C46_integers_refuted :
  num_derivative1 D_int [0; 1; 2] 2 = Ok [0; 0; 0].
Proof. exact (integers_truncated). Qed.
Print Assumptions C46_integers_refuted.

(** ** C69: numerical functions on arrays of samples *)

(** Row i of the result is the function of row i of the states and of the controls, if every component has a state or a control in it.  Missing: one sample, and constant components (below). *)
Theorem C69_rows_partial :
  forall X U p n nx nu, shaped n nx X -> shaped n nu U -> forall funcs, funcs <> [] -> n <> 1%nat -> Forall (fun e => uses_first (nx + nu) e = true) funcs ->
  exists Y, new_F (nx + nu + length p) funcs [A2 nx X; A2 nu U; A1 p] = Ok (A2 (length funcs) Y) /\
    length Y = n /\ forall i, (i < n)%nat -> mrow i Y = map (scalar_value (mrow i X ++ mrow i U ++ p)) funcs.
Proof. exact (new_F_rows). Qed.
Print Assumptions C69_rows_partial.

(** For one state in 1-D arrays. *)
Theorem C69_vector :
  forall funcs l, funcs <> [] -> new_F (length (concat l)) funcs (map A1 l) = Ok (A1 (map (scalar_value (concat l)) funcs)).
Proof. exact (new_F_vector). Qed.
Print Assumptions C69_vector.

(** A component without states or controls (a constant acceleration) makes it fail on arrays of samples ... *)
Theorem C69_constant_refuted :
  forall X U p n nx nu, shaped n nx X -> shaped n nu U -> forall funcs, n <> 1%nat -> (exists e, In e funcs /\ uses_first (nx + nu) e = false) ->
  (exists e, In e funcs /\ uses_first (nx + nu) e = true) ->
  new_F (nx + nu + length p) funcs [A2 nx X; A2 nu U; A1 p] = Err AssertionError.
Proof. exact (new_F_constant). Qed.
Print Assumptions C69_constant_refuted.

(** ... and if there are no others the result has one row instead of n. *)
Theorem C69_all_constant_refuted :
  forall X U p n nx nu, shaped n nx X -> shaped n nu U -> forall funcs, funcs <> [] -> Forall (fun e => uses_first (nx + nu) e = false) funcs ->
  new_F (nx + nu + length p) funcs [A2 nx X; A2 nu U; A1 p] = Ok (A1 (map (scalar_value (repeat 0 (nx + nu) ++ p)) funcs)).
Proof. exact (new_F_all_constant). Qed.
Print Assumptions C69_all_constant_refuted.

Theorem C69_one_sample_refuted :
  forall X U p n nx nu, shaped n nx X -> shaped n nu U -> forall funcs, n = 1%nat -> (exists e, In e funcs /\ uses_first (nx + nu) e = true) ->
  new_F (nx + nu + length p) funcs [A2 nx X; A2 nu U; A1 p] = Err AssertionError.
Proof. exact (new_F_one_sample). Qed.
Print Assumptions C69_one_sample_refuted.

(** Mode x with the accelerations: the derivative of (q, v) is (v, a). *)
Theorem C69_mode_x :
  forall n_q (RHS : list expr) (q v rest : vec), length RHS = n_q -> length q = n_q -> length v = n_q ->
  exists funcs, rhs_funcs n_q RHS "x" = Ok funcs /\
    map (scalar_value (q ++ v ++ rest)) funcs = v ++ map (scalar_value (q ++ v ++ rest)) RHS.
Proof. exact (rhs_x_first_order). Qed.
Print Assumptions C69_mode_x.

Theorem C69_modes :
  forall n_q RHS, (1 <= n_q)%nat -> length RHS = (2 * n_q)%nat ->
  rhs_funcs n_q RHS "x" = Ok RHS /\ rhs_funcs n_q RHS "q" = Ok (skipn n_q RHS).
Proof. exact (rhs_full). Qed.
Print Assumptions C69_modes.

Theorem C69_mode_q :
  forall n_q RHS, length RHS = n_q -> rhs_funcs n_q RHS "q" = Ok RHS.
Proof. exact (rhs_q_short). Qed.
Print Assumptions C69_mode_q.

Theorem C69_rejected :
  forall n_q RHS mode, (length RHS <> n_q /\ length RHS <> 2 * n_q)%nat \/ (mode <> "x" /\ mode <> "q")%string ->
  rhs_funcs n_q RHS mode = Err ValueError.
Proof. exact (rhs_bad). Qed.
Print Assumptions C69_rejected.

Example C69_example :
  exists Y, new_F 3 [X_op2 Rplus (X_var 0) (X_var 2); X_op2 Rmult (X_var 1) (X_var 0)] [A2 1 [[1]; [2]]; A2 1 [[3]; [4]]; A1 [5]] = Ok (A2 2 Y) /\ length Y = 2%nat.
Proof. exact (match new_F_rows [[1]; [2]] [[3]; [4]] [5] 2 1 1 ltac:(repeat constructor) ltac:(repeat constructor) [X_op2 Rplus (X_var 0) (X_var 2); X_op2 Rmult (X_var 1) (X_var 0)] ltac:(discriminate) ltac:(discriminate) ltac:(repeat constructor) with @ex_intro _ _ Y (conj a (conj b _)) => ex_intro _ Y (conj a b) end). Qed.
