(** Proofs of the statements of C97. *)
From Verif Require Import Prelude NumpyModel PwModel MemModel MemSpec MemProofs MemOrderProofs.
Open Scope list_scope.
Open Scope R_scope.
Section Calls.
  Variables (share : bool) (m : memory) (M n : nat) (x x_n a a_n : arr) (dt : R).
  Notation V := (rd m).
  Lemma call_euler : states_and_accels m M n x x_n a a_n ->
    returns_new m (euler_accel_restr x x_n a dt) (PwModel.euler_accel_restr (V x) (V x_n) (V a) (V a_n) dt).
  Proof. intros (? & ? & ? & ? & ? & ? & ? & ? & ? & ? & ?). now apply (euler_ok m x x_n a a_n dt M n). Qed.
  Lemma call_trapz : states_and_accels m M n x x_n a a_n ->
    returns_new m (trapz_accel_restr x x_n a a_n dt) (PwModel.trapz_accel_restr (V x) (V x_n) (V a) (V a_n) dt).
  Proof. intros (? & ? & ? & ? & ? & ? & ? & ? & ? & ? & ?). now apply (trapz_ok m x x_n a a_n dt M n). Qed.
  Lemma call_hs : states_and_accels m M n x x_n a a_n ->
    returns_new m (hs_half_x x x_n a a_n dt) (PwModel.hs_half_x (V x) (V x_n) (V a) (V a_n) dt) /\
    forall a_c, middle_accel m n a_c -> returns_new m (hs_accel_restr x x_n a a_n dt a_c) (PwModel.hs_accel_restr (V x) (V x_n) (V a) (V a_n) dt (V a_c)).
  Proof.
    intros (? & ? & ? & ? & ? & ? & ? & ? & ? & ? & ?). split; [now apply (hs_half_ok m x x_n a a_n dt M n)|].
    intros a_c [? ?]. now apply (hs_ok m x x_n a a_n a_c dt M n).
  Qed.
  Lemma call_trapz_mod : states_and_accels m 2 n x x_n a a_n ->
    returns_new m (trapz_mod_accel_restr x x_n a a_n dt) (PwModel.trapz_mod_accel_restr (V x) (V x_n) (V a) (V a_n) dt).
  Proof. intros (? & ? & ? & ? & ? & ? & ? & ? & ? & ? & ?). now apply (trapz_mod_ok m x x_n a a_n a dt n). Qed.
  Lemma call_hs_mod : states_and_accels m 2 n x x_n a a_n ->
    returns_new m (hs_mod_half_x share x x_n a a_n dt) (PwModel.hs_mod_half_x (V x) (V x_n) (V a) (V a_n) dt) /\
    forall a_c, middle_accel m n a_c ->
    returns_new m (hs_mod_accel_restr share x x_n a a_n dt a_c) (PwModel.hs_mod_accel_restr (V x) (V x_n) (V a) (V a_n) dt (V a_c)).
  Proof.
    intros (? & ? & ? & ? & ? & ? & ? & ? & ? & ? & ?). split; [now apply (hs_mod_half_ok share m x x_n a a_n a dt n)|].
    intros a_c [? ?]. now apply (hs_mod_ok share m x x_n a a_n a_c dt n).
  Qed.
  Lemma call_hsj : states_and_accels m 2 n x x_n a a_n ->
    returns_new m (hsj_half_x share x x_n a a_n dt) (PwModel.hsj_half_x (V x) (V x_n) (V a) (V a_n) dt) /\
    forall a_c, middle_accel m n a_c ->
    returns_new m (hsj_accel_restr share x x_n a a_n dt a_c) (PwModel.hsj_accel_restr (V x) (V x_n) (V a) (V a_n) dt (V a_c)).
  Proof.
    intros (? & ? & ? & ? & ? & ? & ? & ? & ? & ? & ?). split; [now apply (hsj_half_ok share m x x_n a a_n a dt n)|].
    intros a_c [? ?]. now apply (hsj_ok share m x x_n a a_n a_c dt n).
  Qed.
  Lemma call_trapz_m : states_and_accels m M n x x_n a a_n ->
    returns_new m (trapz_m_accel_restr share x x_n a a_n dt M) (PwModel.trapz_m_accel_restr M (V x) (V x_n) (V a) (V a_n) dt).
  Proof. intros (? & ? & ? & ? & ? & ? & ? & ? & ? & ? & ?). now apply (trapz_m_ok share m x x_n a a_n a dt M n). Qed.
  Lemma call_hs_m : states_and_accels m M n x x_n a a_n ->
    returns_new m (hs_m_half_x share x x_n a a_n dt M) (PwModel.hs_m_half_x M (V x) (V x_n) (V a) (V a_n) dt) /\
    forall a_c, middle_accel m n a_c ->
    returns_new m (hs_m_accel_restr share x x_n a a_n dt M a_c) (PwModel.hs_m_accel_restr M (V x) (V x_n) (V a) (V a_n) dt (V a_c)).
  Proof.
    intros (? & ? & ? & ? & ? & ? & ? & ? & ? & ? & ?). split; [now apply (hs_m_half_ok share m x x_n a a_n a dt M n)|].
    intros a_c [? ?]. now apply (hs_m_ok share m x x_n a a_n a_c dt M n).
  Qed.
End Calls.
