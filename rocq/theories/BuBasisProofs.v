(** The basis polynomials of the bottom-up schemes (part of C22). *)
From Coq Require Import String.
From Verif Require Import Prelude PreludeFacts Poly PolyFacts PolyInterp Mat PwInterpModel PsModel PsSpec PsFinalProofs UtilModel BuTdModel BuTdSpec BuTdProofs.
Open Scope R_scope.
Open Scope list_scope.

Theorem bu_basis rr s N n M t0 tf : real_roots_ok rr -> In s bt_schemes -> enough_points s N -> t0 <> tf ->
  exists tc, BU_coll_points rr N s M = Ok tc /\ length tc = N /\ NoDup tc /\
    ((n < N)%nat -> exists c f g, (length c <= N)%nat /\
       (forall j, (j < N)%nat -> peval c (vnth tc j) = if (j =? n)%nat then 1 else 0) /\
       BU_unit_Lag_pol rr N s n M = Ok f /\ (forall tau, f tau = peval c tau) /\
       BU_unit_Lag_pol_t rr N s n t0 tf M = Ok g /\ forall tau, g (t0 + (tf - t0) * (tau + 1) / 2) = peval c tau) /\
    ((N <= n)%nat -> BU_unit_Lag_pol rr N s n M = Err IndexError /\ BU_unit_Lag_pol_t rr N s n t0 tf M = Err IndexError).
Proof.
  intros OK Hs He Ht. destruct (BU_unit_ok rr OK s N n M Hs He) as (tc & E & L & ND & H1 & H2).
  exists tc. split; [exact E|]. split; [exact L|]. split; [exact ND|]. split.
  - intros Hn. destruct (H1 Hn) as (f & Ef & Hf). exists (lagr tc n), f, (tau_to_t_function f t0 tf).
    split; [rewrite lagr_length by lia; lia|]. split.
    { intros j Hj. rewrite lagr_at by (auto; lia). now rewrite Nat.eqb_sym. }
    split; [exact Ef|]. split; [exact Hf|]. split; [unfold BU_unit_Lag_pol_t; now rewrite Ef|].
    intros tau. rewrite <- Hf. unfold tau_to_t_function. f_equal. field. lra.
  - intros Hn. specialize (H2 Hn). split; [exact H2|]. unfold BU_unit_Lag_pol_t. now rewrite H2.
Qed.
