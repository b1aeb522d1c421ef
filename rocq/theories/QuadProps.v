(** Property C68: accuracy of the collocation points.  Only statements.  [rr]
    and [lg] are sympy's real_roots and numpy's leggauss; [gauss_families] and
    [rep_RInt] are in UtilSpec. *)
From Coquelicot Require Import Coquelicot.
From Coq Require Import String.
From Verif Require Import Prelude Poly PolyInterp Mat PwInterpModel PsModel PsSpec PsNodesProofs UtilModel UtilSpec PsQuadProofs UtilMoreProofs.
Open Scope R_scope.
Open Scope list_scope.

(** ** C68  Gauss, Radau and Lobatto accuracy *)

(** d interpolates c at the collocation points; e counts the end points in the set. *)
Theorem C68_collocation_points :
  forall rr, real_roots_ok rr -> forall s e N order k, In (s, e) gauss_families -> enough_points s N ->
  (if mem s jacobi_schemes then k = order /\ (1 <= order)%nat else k = 1%nat) ->
  exists tc, coll_points rr N s order = Ok tc /\
    forall c d, (length c <= 2 * N - e)%nat -> (length d <= N)%nat ->
      (forall i, (i < N)%nat -> peval d (vnth tc i) = peval c (vnth tc i)) ->
      rep_RInt k (peval c) (-1) 1 = rep_RInt k (peval d) (-1) 1.
Proof. exact (collocation_accuracy). Qed.
Print Assumptions C68_collocation_points.

Theorem C31_C68_weights :
  forall rr, real_roots_ok rr -> forall lg s e N order, leggauss_ok lg -> In (s, e) gauss_families ->
  mem s jacobi_schemes = false -> enough_points s N ->
  exists tc w, coll_points rr N s order = Ok tc /\ get_weights rr lg N s order "u" = Ok w /\ quad_exact (2 * N - e) tc w.
Proof. exact (weights_accuracy). Qed.
Print Assumptions C31_C68_weights.

Example C68_hypotheses :
  exists rr, real_roots_ok rr /\ In ("JGL"%string, 2%nat) gauss_families /\ enough_points "JGL" 3 /\
  (if mem "JGL" jacobi_schemes then (3 = 3 /\ 1 <= 3)%nat else 3%nat = 1%nat).
Proof. exact (quad_example). Qed.
