(** Property C22 for the basis polynomials of the bottom-up schemes.  Only
    statements. *)
From Coq Require Import String.
From Verif Require Import Prelude Poly PwInterpModel PsModel PsSpec UtilModel BuTdModel BuTdSpec BuBasisProofs.
Open Scope R_scope.
Open Scope list_scope.

(** BU_unit_Lag_pol and BU_unit_Lag_pol_t are, at every time, the polynomial of degree less than N that is one at its own collocation point and zero at the others. *)
Theorem C22_bottom_up :
  forall rr s N n M t0 tf, real_roots_ok rr -> In s bt_schemes -> enough_points s N -> t0 <> tf ->
  exists tc, BU_coll_points rr N s M = Ok tc /\ length tc = N /\ NoDup tc /\
    ((n < N)%nat -> exists c f g, (length c <= N)%nat /\
       (forall j, (j < N)%nat -> peval c (vnth tc j) = if (j =? n)%nat then 1 else 0) /\
       BU_unit_Lag_pol rr N s n M = Ok f /\ (forall tau, f tau = peval c tau) /\
       BU_unit_Lag_pol_t rr N s n t0 tf M = Ok g /\ forall tau, g (t0 + (tf - t0) * (tau + 1) / 2) = peval c tau) /\
    ((N <= n)%nat -> BU_unit_Lag_pol rr N s n M = Err IndexError /\ BU_unit_Lag_pol_t rr N s n t0 tf M = Err IndexError).
Proof. exact (bu_basis). Qed.
Print Assumptions C22_bottom_up.

Example C22_bottom_up_example : In "LGR"%string bt_schemes /\ enough_points "LGR" 3 /\ 0 <> 2.
Proof. split; [|split; [|lra]]; cbv; try lia; tauto. Qed.
