(** C98: the casadi functions of the ends of a polynomial. Specifications:
    PsSpec.v (schemes, points) and PolyInterp.v (interpolates). *)
From Coq Require Import String.
From Coquelicot Require Import Coquelicot.
From Verif Require Import Prelude Poly PolyInterp PwInterpModel SymModel LagrModel PsModel PsSpec CasModel ExtCasModel ExtCasProofs.
Open Scope list_scope.
Open Scope R_scope.

(** ** C98  casadi and numpy agree at the ends *)

(** With as many coefficients as points, whatever the arguments: the same
    value, or the same exception. *)
Theorem C98_same :
  forall rr scheme N mode point order coefs, length coefs = N ->
  (do f <- get_bary_extreme_f_cas rr scheme N mode point order; cas_call f [coefs]) =
  (do f <- get_bary_extreme_f rr scheme N mode point order; do r <- run_extreme f coefs; Ok [r]).
Proof. exact extreme_cas_eq. Qed.
Print Assumptions C98_same.

(** The value is that of the polynomial through the coefficients. *)
Theorem C98_controls :
  forall rr, real_roots_ok rr -> forall s N order point p, In s all_schemes -> enough_points s N ->
  In (point, p) [("start"%string, -1); ("end"%string, 1)] ->
  exists ts f, coll_points rr N s order = Ok ts /\ get_bary_extreme_f_cas rr s N "u" point order = Ok f /\
    forall coefs c, length coefs = length ts -> interpolates ts coefs c -> cas_call f [coefs] = Ok [peval c p].
Proof. exact extreme_cas_u. Qed.
Print Assumptions C98_controls.

(** Orders up to 2, as in C25_states_partial. *)
Theorem C98_states_partial :
  forall rr, real_roots_ok rr -> forall s N n order point p, In s all_schemes -> enough_points s N -> n_col_to_n_nodes s N = Ok n ->
  In (point, p) [("start"%string, -1); ("end"%string, 1)] -> (order <= 2)%nat ->
  exists ts f, node_points rr n s = Ok ts /\ get_bary_extreme_f_cas rr s n "x" point order = Ok f /\
    forall coefs c, length coefs = length ts -> interpolates ts coefs c -> cas_call f [coefs] = Ok [peval c p].
Proof. exact extreme_cas_x. Qed.
Print Assumptions C98_states_partial.

Theorem C98_points :
  forall rr, real_roots_ok rr -> forall s N n, In s all_schemes -> enough_points s N -> n_col_to_n_nodes s N = Ok n ->
  exists ts f g, node_points rr n s = Ok ts /\ start_p_fun_cas rr n s = Ok f /\ end_p_fun_cas rr n s = Ok g /\
    forall coefs c, length coefs = length ts -> interpolates ts coefs c ->
    cas_call f [coefs] = Ok [peval c (-1)] /\ cas_call g [coefs] = Ok [peval c 1].
Proof. exact point_fun_cas. Qed.
Print Assumptions C98_points.

(** The slope at the end is that of the polynomial; the one of the start is
    taken in the middle, at 0. *)
Theorem C98_slopes_partial :
  forall rr, real_roots_ok rr -> forall s N n nd, In s all_schemes -> enough_points s N -> n_col_to_n_nodes s N = Ok n ->
  node_points rr n s = Ok nd ->
  exists f g, diff_end_p_fun_cas rr n s = Ok f /\ diff_start_p_fun_cas rr n s = Ok g /\
    forall coefs c, length coefs = n -> interpolates nd coefs c ->
    cas_call f [coefs] = Ok [Derive (peval c) 1] /\ cas_call g [coefs] = Ok [Derive (peval c) 0].
Proof. exact slope_fun_cas. Qed.
Print Assumptions C98_slopes_partial.

(** So the slope at the start is wrong: 0 in place of -2 for x^2. *)
Theorem C98_start_slope_refuted :
  forall rr, exists f, node_points rr 3 "CGL" = Ok [-1; 0; 1] /\ interpolates [-1; 0; 1] [1; 0; 1] [0; 0; 1] /\
  diff_start_p_fun_cas rr 3 "CGL" = Ok f /\ cas_call f [[1; 0; 1]] = Ok [0] /\ Derive (peval [0; 0; 1]) (-1) = -2.
Proof. exact slope_start_wrong. Qed.
Print Assumptions C98_start_slope_refuted.

(** Non-vacuity: Chebyshev-Gauss-Lobatto meets the hypotheses, and the casadi
    function of a Gauss scheme with two collocation points extrapolates. *)
Example C98_hypotheses : In "CGL"%string all_schemes /\ enough_points "CGL" 3 /\ n_col_to_n_nodes "CGL" 3 = Ok 3%nat.
Proof. split; [cbv; tauto|]. split; [split; [lia|intros _; lia]|reflexivity]. Qed.
Example C98_extrapolates :
  (do f <- casadi_of (Times (Plus (Plus (Num 0) (Times (Var (Static "c0")) (Num 2))) (Times (Var (Static "c1")) (Num 4))) (Num (/ 2))) (numbered "c" 2);
   cas_call f [[3; 5]]) = Ok [(0 + 3 * 2 + 5 * 4) * / 2].
Proof. reflexivity. Qed.
