(** C97: restrictions leave the arrays they are given as they were. *)
From Verif Require Import Prelude NumpyModel PwModel MemModel MemSpec MemThmProofs MemIntProofs.
Open Scope list_scope.
Open Scope R_scope.

Theorem C97_euler : forall m M n x x_n a a_n dt, states_and_accels m M n x x_n a a_n ->
  returns_new m (euler_accel_restr x x_n a dt) (PwModel.euler_accel_restr (rd m x) (rd m x_n) (rd m a) (rd m a_n) dt).
Proof. exact call_euler. Qed.
Theorem C97_trapz : forall m M n x x_n a a_n dt, states_and_accels m M n x x_n a a_n ->
  returns_new m (trapz_accel_restr x x_n a a_n dt) (PwModel.trapz_accel_restr (rd m x) (rd m x_n) (rd m a) (rd m a_n) dt).
Proof. exact call_trapz. Qed.
Theorem C97_hs : forall m M n x x_n a a_n dt, states_and_accels m M n x x_n a a_n ->
  returns_new m (hs_half_x x x_n a a_n dt) (PwModel.hs_half_x (rd m x) (rd m x_n) (rd m a) (rd m a_n) dt) /\
  forall a_c, middle_accel m n a_c ->
  returns_new m (hs_accel_restr x x_n a a_n dt a_c) (PwModel.hs_accel_restr (rd m x) (rd m x_n) (rd m a) (rd m a_n) dt (rd m a_c)).
Proof. exact call_hs. Qed.
Theorem C97_trapz_mod : forall m n x x_n a a_n dt, states_and_accels m 2 n x x_n a a_n ->
  returns_new m (trapz_mod_accel_restr x x_n a a_n dt) (PwModel.trapz_mod_accel_restr (rd m x) (rd m x_n) (rd m a) (rd m a_n) dt).
Proof. exact call_trapz_mod. Qed.
Theorem C97_hs_mod : forall share m n x x_n a a_n dt, states_and_accels m 2 n x x_n a a_n ->
  returns_new m (hs_mod_half_x share x x_n a a_n dt) (PwModel.hs_mod_half_x (rd m x) (rd m x_n) (rd m a) (rd m a_n) dt) /\
  forall a_c, middle_accel m n a_c ->
  returns_new m (hs_mod_accel_restr share x x_n a a_n dt a_c) (PwModel.hs_mod_accel_restr (rd m x) (rd m x_n) (rd m a) (rd m a_n) dt (rd m a_c)).
Proof. exact call_hs_mod. Qed.
Theorem C97_hsj : forall share m n x x_n a a_n dt, states_and_accels m 2 n x x_n a a_n ->
  returns_new m (hsj_half_x share x x_n a a_n dt) (PwModel.hsj_half_x (rd m x) (rd m x_n) (rd m a) (rd m a_n) dt) /\
  forall a_c, middle_accel m n a_c ->
  returns_new m (hsj_accel_restr share x x_n a a_n dt a_c) (PwModel.hsj_accel_restr (rd m x) (rd m x_n) (rd m a) (rd m a_n) dt (rd m a_c)).
Proof. exact call_hsj. Qed.
Theorem C97_trapz_m : forall share m M n x x_n a a_n dt, states_and_accels m M n x x_n a a_n ->
  returns_new m (trapz_m_accel_restr share x x_n a a_n dt M) (PwModel.trapz_m_accel_restr M (rd m x) (rd m x_n) (rd m a) (rd m a_n) dt).
Proof. exact call_trapz_m. Qed.
Theorem C97_hs_m : forall share m M n x x_n a a_n dt, states_and_accels m M n x x_n a a_n ->
  returns_new m (hs_m_half_x share x x_n a a_n dt M) (PwModel.hs_m_half_x M (rd m x) (rd m x_n) (rd m a) (rd m a_n) dt) /\
  forall a_c, middle_accel m n a_c ->
  returns_new m (hs_m_accel_restr share x x_n a a_n dt M a_c) (PwModel.hs_m_accel_restr M (rd m x) (rd m x_n) (rd m a) (rd m a_n) dt (rd m a_c)).
Proof. exact call_hs_m. Qed.

(** With states of integers the accelerations are cut to integers. *)
Theorem C97_integers : forall m x x_n a dt M n, (0 < M)%nat -> (0 < n)%nat -> in_memory m x -> in_memory m x_n -> in_memory m a ->
  a_len x = (M * n)%nat -> a_len x_n = (M * n)%nat -> a_len a = n ->
  c_type (cell_of m x) = D_int -> (forall r, In r (rd m x) -> truncate r = r) ->
  returns_new m (euler_accel_restr x x_n a dt) (PwModel.euler_accel_restr (rd m x) (rd m x_n) (map truncate (rd m a)) (rd m a) dt).
Proof. exact euler_int_ok. Qed.
Theorem C97_integers_refuted : exists m x x_n a, in_memory m x /\ in_memory m x_n /\ in_memory m a /\
  a_len x = 2%nat /\ a_len x_n = 2%nat /\ a_len a = 1%nat /\ rd m x = [0; 0] /\ rd m x_n = [0; 0] /\ rd m a = [1 / 2] /\
  returns_new m (euler_accel_restr x x_n a 1) [0; 0] /\ ~ returns_new m (euler_accel_restr x x_n a 1) [0; - (1 / 2)].
Proof. exact integers_refuted. Qed.

(** Three points of a trajectory in one block: x and x_n overlap, and so do
    x_n and the accelerations. *)
Example C97_hypotheses :
  let m := [{| c_type := D_float; c_val := [1; 2; 3; 4; 5; 6; 7; 8] |}] in
  let v o l := {| a_buf := 0%nat; a_off := o; a_len := l |} in
  states_and_accels m 2 2 (v 0 4)%nat (v 2 4)%nat (v 4 2)%nat (v 6 2)%nat /\ middle_accel m 2 (v 5 2)%nat /\
  states_and_accels m 3 2 (v 0 6)%nat (v 2 6)%nat (v 4 2)%nat (v 6 2)%nat.
Proof. cbn zeta. unfold states_and_accels, middle_accel, in_memory, floats. cbn. repeat split; lia. Qed.

Print Assumptions C97_euler.
Print Assumptions C97_trapz.
Print Assumptions C97_hs.
Print Assumptions C97_trapz_mod.
Print Assumptions C97_hs_mod.
Print Assumptions C97_hsj.
Print Assumptions C97_trapz_m.
Print Assumptions C97_hs_m.
Print Assumptions C97_integers.
Print Assumptions C97_integers_refuted.
