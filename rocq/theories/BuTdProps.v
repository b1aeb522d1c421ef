(** Properties C27-C31 and part of C53: the quadratures of chords/util.py, the
    bottom-up and top-down schemes of chords/bu_pseudospectral.py and
    chords/td_pseudospectral.py, and their problem classes in chords/opti.py.
    Only statements: each theorem is an [exact] of a lemma proved elsewhere,
    followed by its assumptions and by an example that meets its hypotheses.
    [rr] is sympy's real_roots and [lg] numpy's leggauss; what is assumed of
    them is in PsSpec and UtilSpec, and is satisfied by some functions
    (C21_oracle_exists and C30_oracle_exists). *)
From Coquelicot Require Import Coquelicot.
From Coq Require Import String.
From Verif Require Import Prelude PreludeFacts Poly PolyFacts PolyInterp Mat MatFacts PwInterpModel PsModel PsSpec
  PsNodesProofs PsApplyProofs UtilModel UtilSpec GaussFacts UtilProofs BuTdModel BuTdSpec BuTdProofs BuTdApplyProofs BuTdInterpProofs BuTdMoreProofs BuTdFinalProofs UtilMoreProofs.
Open Scope R_scope.
Open Scope vec_scope.
Open Scope list_scope.

(** ** C30  Integrals *)

(** A Gauss rule exists for every number of points, so the hypothesis on leggauss is not empty. *)
Theorem C30_oracle_exists :
  exists lg, leggauss_ok lg.
Proof. exact (leggauss_exists). Qed.
Print Assumptions C30_oracle_exists.

(** The points of any such rule are the roots of the Legendre polynomial. *)
Theorem C30_oracle_unique :
  forall rr, real_roots_ok rr -> forall lg, leggauss_ok lg -> forall N, (1 <= N)%nat -> fst (lg N) = LG rr N.
Proof. exact (fun rr O lg L N => leggauss_LG rr lg N O L). Qed.
Print Assumptions C30_oracle_unique.

(** Exact for every polynomial of degree at most 2 N - 1, over any interval. *)
Theorem C30_gauss_integral :
  forall lg, leggauss_ok lg -> forall f c N t0 t1, (1 <= N)%nat -> (forall x, f x = peval c x) ->
  (length c <= 2 * N)%nat -> gauss_integral lg f N t0 t1 = RInt (peval c) t0 t1.
Proof. exact (gauss_integral_exact). Qed.
Print Assumptions C30_gauss_integral.

Theorem C30_gauss_integral_2d :
  forall lg, leggauss_ok lg -> forall f cs N t0 t1, (1 <= N)%nat -> poly_fun (2 * N) f cs ->
  gauss_integral_2d lg f N t0 t1 = map (fun c => RInt (peval c) t0 t1) cs.
Proof. exact (gauss_integral_2d_exact). Qed.
Print Assumptions C30_gauss_integral_2d.

(** The integral repeated n times of a polynomial of degree n_pol. *)
Theorem C30_gauss_rep_integral :
  forall lg, leggauss_ok lg -> forall f c t0 t1 n_pol n, (1 <= n)%nat -> (forall x, f x = peval c x) ->
  (length c <= n_pol + 1)%nat -> gauss_rep_integral lg f t0 t1 n_pol n = rep_RInt n (peval c) t0 t1.
Proof. exact (gauss_rep_integral_exact). Qed.
Print Assumptions C30_gauss_rep_integral.

(** At every time, inside the interval or not. *)
Theorem C30_poly_integral :
  forall lg, leggauss_ok lg -> forall f c n_pol t0 t1 y0 t, t0 <> t1 -> (forall x, f x = peval c x) ->
  (length c <= n_pol + 1)%nat -> poly_integral lg f n_pol t0 t1 y0 t = y0 + RInt (peval c) t0 t.
Proof. exact (poly_integral_exact). Qed.
Print Assumptions C30_poly_integral.

Theorem C30_poly_integral_2d :
  forall lg, leggauss_ok lg -> forall f cs n_pol t0 t1 y0 t, t0 <> t1 -> (1 <= length cs)%nat ->
  poly_fun (n_pol + 1) f cs -> length y0 = length cs ->
  exists F, poly_integral_2d lg f n_pol t0 t1 y0 = Ok F /\ F t = y0 +v map (fun c => RInt (peval c) t0 t) cs.
Proof. exact (poly_integral_2d_values). Qed.
Print Assumptions C30_poly_integral_2d.

Theorem C30_poly_integral_2d_default :
  forall lg, leggauss_ok lg -> forall f cs n_pol t0 t1 y t, t0 <> t1 -> (1 <= length cs)%nat ->
  poly_fun (n_pol + 1) f cs ->
  exists F, poly_integral_2d lg f n_pol t0 t1 [y] = Ok F /\ F t = map (fun c => y + RInt (peval c) t0 t) cs.
Proof. exact (poly_integral_2d_scalar). Qed.
Print Assumptions C30_poly_integral_2d_default.

(** Entry i is the integral repeated k times of the polynomial that is 1 at point i and 0 at the others. *)
Theorem C30_Lag_integ_2d :
  forall rr, real_roots_ok rr -> forall lg, leggauss_ok lg -> forall s N order k,
  In s all_schemes -> enough_points s N ->
  exists tc f, coll_points rr N s order = Ok tc /\ Lag_integ_2d rr lg N s k order = Ok f /\
    forall t, length (f t) = N /\
      forall i c, (i < N)%nat -> interpolates tc (map (fun j => if (j =? i)%nat then 1 else 0) (seq 0 N)) c ->
        vnth (f t) i = rep_RInt k (peval c) (-1) t.
Proof. exact (Lag_integ_2d_values). Qed.
Print Assumptions C30_Lag_integ_2d.

Example C30_hypotheses :
  forall lg, leggauss_ok lg -> (forall x, x * x * x = peval [0; 0; 0; 1] x) /\ gauss_integral lg (fun x => x * x * x) 2 1 3 = 20.
Proof. exact (gauss_example). Qed.

(** ** C31  Quadrature weights *)

Theorem C31_weights :
  forall rr, real_roots_ok rr -> forall lg, leggauss_ok lg -> forall N s order,
  In s all_schemes -> enough_points s N ->
  exists tc w, coll_points rr N s order = Ok tc /\ get_weights rr lg N s order "u" = Ok w /\
    length tc = N /\ quad_exact N tc w /\ vsum w = 2 /\ (s = "LG"%string -> quad_exact (2 * N) tc w).
Proof. exact (get_weights_u_full). Qed.
Print Assumptions C31_weights.

(** The same for the weights of the state points. *)
Theorem C31_weights_x :
  forall lg, leggauss_ok lg -> forall rr N s order tx, x_points rr N s = Ok tx -> length tx = N -> NoDup tx -> (1 <= N)%nat ->
  exists w, get_weights rr lg N s order "x" = Ok w /\ quad_exact N tx w /\ vsum w = 2.
Proof. exact (get_weights_x_full). Qed.
Print Assumptions C31_weights_x.

(** For every scheme these points exist, go from -1 to 1 and contain the collocation points. *)
Theorem C31_weights_x_points :
  forall rr, real_roots_ok rr -> forall lg, leggauss_ok lg -> forall n s order, In s all_schemes -> enough_points s n ->
  exists N tx w, x_points rr N s = Ok tx /\ length tx = N /\ increasing tx /\ vnth tx 0 = -1 /\ vnth tx (N - 1) = 1 /\
    (forall cl, coll_points rr n s 2 = Ok cl -> incl cl tx) /\
    get_weights rr lg N s order "x" = Ok w /\ quad_exact N tx w.
Proof. exact (x_weights_all). Qed.
Print Assumptions C31_weights_x_points.

Theorem C31_mode :
  forall rr lg N s order mode, mode <> "u"%string -> mode <> "x"%string ->
  get_weights rr lg N s order mode = Err ValueError.
Proof. exact (get_weights_mode). Qed.
Print Assumptions C31_mode.

Theorem C31_LG_positive :
  forall rr lg, leggauss_ok lg -> forall N w i, (1 <= N)%nat -> (i < N)%nat ->
  get_weights rr lg N "LG" 2 "u" = Ok w -> 0 < vnth w i.
Proof. exact (LG_weights_pos). Qed.
Print Assumptions C31_LG_positive.

Example C31_hypotheses :
  exists rr lg, real_roots_ok rr /\ leggauss_ok lg /\ In "LGL"%string all_schemes /\ enough_points "LGL" 3.
Proof. exact (util_oracles). Qed.

(** ** C27  Integration matrices *)

(** From the initial values and the M-th derivative at the collocation points, the P-th derivative at the construction points, for every polynomial of degree < N + M. *)
Theorem C27_integration :
  forall rr, real_roots_ok rr -> forall lg, leggauss_ok lg -> forall s N P M t0 tf, In s bt_schemes -> enough_points s N -> (In s gauss_schemes -> (2 <= N)%nat) -> (P < M)%nat ->
  exists tc tx A, BU_coll_points rr N s M = Ok tc /\ BU_construction_points rr N s M = Ok tx /\
    Integration_Matrix rr lg N s P (tf - t0) M = Ok A /\ shaped (length tx) (M + N) A /\
    forall c i, (length c <= N + M)%nat -> (i < length tx)%nat ->
      vdot (mrow i A) (map (fun k => Derive_n (peval c) k t0) (seq 0 M) ++ map (Derive_n (peval c) M) (tau_to_t_points tc t0 tf))
      = Derive_n (peval c) P (tau_to_t (vnth tx i) t0 tf).
Proof. exact (Integration_Matrix_exact). Qed.
Print Assumptions C27_integration.

(** Every choice of initial values and accelerations is that of such a polynomial. *)
Theorem C27_integration_data :
  forall rr, real_roots_ok rr -> forall lg, leggauss_ok lg -> forall s N P M t0 tf, In s bt_schemes -> enough_points s N -> (In s gauss_schemes -> (2 <= N)%nat) -> (P < M)%nat -> t0 <> tf ->
  exists tc tx A, BU_coll_points rr N s M = Ok tc /\ BU_construction_points rr N s M = Ok tx /\
    Integration_Matrix rr lg N s P (tf - t0) M = Ok A /\
    forall x0 acc, length x0 = M -> length acc = N ->
      exists c, (length c <= N + M)%nat /\ (forall k, (k < M)%nat -> Derive_n (peval c) k t0 = vnth x0 k) /\
        (forall j, (j < N)%nat -> Derive_n (peval c) M (tau_to_t (vnth tc j) t0 tf) = vnth acc j) /\
        forall i, (i < length tx)%nat -> vdot (mrow i A) (x0 ++ acc) = Derive_n (peval c) P (tau_to_t (vnth tx i) t0 tf).
Proof. exact (Integration_Matrix_data). Qed.
Print Assumptions C27_integration_data.

Theorem C27_extreme :
  forall rr, real_roots_ok rr -> forall s N point p M t0 tf, In s bt_schemes -> enough_points s N ->
  In (point, p) [("start"%string, -1); ("end"%string, 1)] ->
  exists tc A, BU_coll_points rr N s M = Ok tc /\ Extreme_Matrix rr N s point M = Ok A /\ shaped 1 N A /\
    forall c, (length c <= N)%nat -> vdot (mrow 0 A) (map (peval c) (tau_to_t_points tc t0 tf)) = peval c (tau_to_t p t0 tf).
Proof. exact (Extreme_Matrix_exact). Qed.
Print Assumptions C27_extreme.

Theorem C27_order_rejected :
  forall rr lg s N P h M, (M <= P)%nat -> Integration_Matrix rr lg N s P h M = Err AssertionError.
Proof. exact (Integration_Matrix_order). Qed.
Print Assumptions C27_order_rejected.

Theorem C27_point_rejected :
  forall rr, real_roots_ok rr -> forall s N point M, In s bt_schemes -> enough_points s N -> point <> "start"%string -> point <> "end"%string ->
  Extreme_Matrix rr N s point M = Err ValueError.
Proof. exact (Extreme_Matrix_point). Qed.
Print Assumptions C27_point_rejected.

(** With one collocation point the Gauss schemes have no integration matrix. *)
Theorem C27_single_point_refuted :
  forall rr, real_roots_ok rr -> forall lg, leggauss_ok lg -> forall s P h M, In s gauss_schemes -> (P < M)%nat ->
  Integration_Matrix rr lg 1 s P h M = Err ValueError.
Proof. exact (Integration_Matrix_single). Qed.
Print Assumptions C27_single_point_refuted.

Theorem C27_Lag_integ :
  forall rr, real_roots_ok rr -> forall lg, leggauss_ok lg -> forall s N n P i M, In s bt_schemes -> enough_points s N -> (n < N)%nat -> (P < M)%nat ->
  exists tc tx, BU_coll_points rr N s M = Ok tc /\ BU_construction_points rr N s M = Ok tx /\
    ((i < length tx)%nat -> Lag_integ rr lg N n s P i M = Ok (rep_RInt (M - P) (peval (lagr tc n)) (-1) (vnth tx i))).
Proof. exact (Lag_integ_ok). Qed.
Print Assumptions C27_Lag_integ.

Example C27_hypotheses :
  exists rr lg, real_roots_ok rr /\ leggauss_ok lg /\ In "LG"%string bt_schemes /\ enough_points "LG" 3 /\
  (In "LG"%string gauss_schemes -> (2 <= 3)%nat).
Proof. exact (butd_oracles). Qed.

(** ** C28  Bottom-up problems *)

(** The constraints hold exactly when some polynomial trajectory has the stored values and obeys the dynamics at the collocation points. *)
Theorem C28_constraints :
  forall rr, real_roots_ok rr -> forall lg, leggauss_ok lg -> forall dyn p w,
  In (ps_scheme p) bt_schemes /\ enough_points (ps_scheme p) (ps_n_coll p) /\
  (1 <= ps_order p)%nat /\ (1 <= ps_n_q p)%nat /\ ps_t_start p <> ps_t_end p ->
  (In (ps_scheme p) gauss_schemes -> (2 <= ps_n_coll p)%nat) -> residual_has_chain (ps_n_q p) (ps_order p) dyn ->
  exists st cs, bu_opti_setup rr p = Ok st /\ get_coll_indices (ps_scheme p) = Ok (bset_coll st) /\
    take (bset_coll st) (bset_tau st) = bset_tau_col st /\ length (bset_tau st) = bset_n_arr st /\
    length (bset_tau_col st) = ps_n_coll p /\ bu_apply_scheme rr lg dyn p w = Ok cs /\
    (shaped (bset_n_arr st) (ps_order p * ps_n_q p) (pv_x w) ->
     shaped (bset_n_arr st) (ps_order p * ps_n_q p) (pv_x_d w) ->
     satisfied cs <-> exists P, order_solution dyn (ps_n_coll p + ps_order p) (ps_n_q p) (ps_order p)
      (t_of p (bset_tau st)) (t_of p (bset_tau_col st)) (pv_x w) (pv_x_d w) (pv_u w) (pv_lam w) P).
Proof. exact (bu_apply). Qed.
Print Assumptions C28_constraints.

(** Satisfied constraints give a trajectory that the interpolation follows at every time, and the dynamic errors vanish exactly where it obeys the dynamics. *)
Theorem C28_C53_solution :
  forall rr, real_roots_ok rr -> forall lg, leggauss_ok lg -> forall dyn p w st cs nu name,
  In (ps_scheme p) bt_schemes /\ enough_points (ps_scheme p) (ps_n_coll p) /\
  (1 <= ps_order p)%nat /\ (1 <= ps_n_q p)%nat /\ ps_t_start p <> ps_t_end p ->
  (In (ps_scheme p) gauss_schemes -> (2 <= ps_n_coll p)%nat) -> residual_has_chain (ps_n_q p) (ps_order p) dyn ->
  (In (ps_scheme p) jacobi_schemes -> ps_order p = 2%nat) ->
  In name [ps_scheme p; ("BU_" ++ ps_scheme p)%string] ->
  bu_opti_setup rr p = Ok st -> bu_apply_scheme rr lg dyn p w = Ok cs ->
  shaped (bset_n_arr st) (ps_order p * ps_n_q p) (pv_x w) ->
  shaped (bset_n_arr st) (ps_order p * ps_n_q p) (pv_x_d w) ->
  shaped (ps_n_coll p) nu (pv_u w) -> satisfied cs ->
  exists P U, order_solution dyn (ps_n_coll p + ps_order p) (ps_n_q p) (ps_order p)
      (t_of p (bset_tau st)) (t_of p (bset_tau_col st)) (pv_x w) (pv_x_d w) (pv_u w) (pv_lam w) P /\
    traj_through (t_of p (bset_tau_col st)) (pv_u w) U /\ length U = nu /\
    forall t,
      interpolations_BU_pseudospectral rr lg (pv_x w) (pv_x_d w) (pv_u w) name (ps_order p)
        (ps_t_start p) (ps_t_end p) (ps_order p) "pol" "pol" t
      = Ok (full_state (ps_order p) P t, full_rate (ps_order p) P t, state_at U t) /\
      forall F, length (F (full_state (ps_order p) P t) (state_at U t)) = (ps_order p * ps_n_q p)%nat ->
        exists errs, dynamic_error_BU rr lg F (pv_x w) (pv_x_d w) (pv_u w) name (ps_t_start p) (ps_t_end p)
            (ps_order p) (ps_order p) "pol" "pol" t = Ok errs /\
          (Forall (Forall (fun e => e = repeat 0 (ps_n_q p))) errs <->
           rate_n_at (ps_order p) P t = lastn (ps_n_q p) (F (full_state (ps_order p) P t) (state_at U t))).
Proof. exact (bu_solution). Qed.
Print Assumptions C28_C53_solution.

(** Every derivative of the interpolated state. *)
Theorem C28_interpolation_derivatives :
  forall rr, real_roots_ok rr -> forall lg, leggauss_ok lg -> forall s name N M nq nu t0 tf xx xx_dot uu P U tc cn,
  In s bt_schemes -> In name [s; ("BU_" ++ s)%string] -> enough_points s N -> (1 <= M)%nat -> (1 <= nq)%nat -> t0 <> tf ->
  coll_points rr N s M = Ok tc -> coll_points rr N s 2 = Ok tc -> BU_construction_points rr N s M = Ok cn ->
  let ts := tau_to_t_points ([-1] ++ cn) t0 tf in
  shaped (length ts) (M * nq) xx_dot -> length P = nq -> Forall (fun c => (length c <= N + M)%nat) P ->
  (forall i, (i < length ts)%nat -> mrow i xx = full_state M P (vnth ts i)) ->
  (forall i, (i < length ts)%nat -> lastn nq (mrow i xx_dot) = rate_n_at M P (vnth ts i)) ->
  shaped N nu uu -> length U = nu -> traj_through (tau_to_t_points tc t0 tf) uu U -> forall k t,
  interpolations_deriv_BU_pseudospectral rr lg xx xx_dot name M k t0 tf M "pol" t
    = Ok (flat_map (fun i => rate_n_at (i + k) P t) (seq 0 M)).
Proof. exact (bu_interp_deriv). Qed.
Print Assumptions C28_interpolation_derivatives.

Theorem C53_bottom_up :
  forall rr, real_roots_ok rr -> forall lg, leggauss_ok lg -> forall s name N M nq nu t0 tf xx xx_dot uu P U tc cn,
  In s bt_schemes -> In name [s; ("BU_" ++ s)%string] -> enough_points s N -> (1 <= M)%nat -> (1 <= nq)%nat -> t0 <> tf ->
  coll_points rr N s M = Ok tc -> coll_points rr N s 2 = Ok tc -> BU_construction_points rr N s M = Ok cn ->
  let ts := tau_to_t_points ([-1] ++ cn) t0 tf in
  shaped (length ts) (M * nq) xx_dot -> length P = nq -> Forall (fun c => (length c <= N + M)%nat) P ->
  (forall i, (i < length ts)%nat -> mrow i xx = full_state M P (vnth ts i)) ->
  (forall i, (i < length ts)%nat -> lastn nq (mrow i xx_dot) = rate_n_at M P (vnth ts i)) ->
  shaped N nu uu -> length U = nu -> traj_through (tau_to_t_points tc t0 tf) uu U -> forall F t,
  length (F (full_state M P t) (state_at U t)) = (M * nq)%nat ->
  exists errs, dynamic_error_BU rr lg F xx xx_dot uu name t0 tf M M "pol" "pol" t = Ok errs /\
    defects M nq P (lastn nq (F (full_state M P t) (state_at U t))) t errs.
Proof. exact (bu_error). Qed.
Print Assumptions C53_bottom_up.

(** First and last control of both kinds of problem, and the controls at all the state times. *)
Theorem C25_C28_C29_controls :
  forall rr, real_roots_ok rr -> forall p cl u m U,
  In (ps_scheme p) bt_schemes /\ enough_points (ps_scheme p) (ps_n_coll p) /\
  (1 <= ps_order p)%nat /\ (1 <= ps_n_q p)%nat /\ ps_t_start p <> ps_t_end p ->
  coll_points rr (ps_n_coll p) (ps_scheme p) (ps_order p) = Ok cl -> shaped (ps_n_coll p) m u -> length U = m ->
  traj_through (t_of p cl) u U ->
  bt_u_s rr p u = Ok (state_at U (ps_t_start p)) /\ bt_u_e rr p u = Ok (state_at U (ps_t_end p)) /\
  exists tx ul, TD_construction_points rr (ps_n_coll p) (ps_scheme p) (ps_order p) = Ok tx /\
    bt_u_like_x rr p u = Ok ul /\ length ul = length tx /\
    forall i, (i < length tx)%nat -> mrow i ul = state_at U (vnth (t_of p tx) i).
Proof. exact (bt_u_ends). Qed.
Print Assumptions C25_C28_C29_controls.

Theorem C28_single_point_refuted :
  forall rr, real_roots_ok rr -> forall lg, leggauss_ok lg -> forall dyn p w, In (ps_scheme p) gauss_schemes -> ps_n_coll p = 1%nat -> (1 <= ps_order p)%nat ->
  bu_apply_scheme rr lg dyn p w = Err ValueError.
Proof. exact (bu_single_fails). Qed.
Print Assumptions C28_single_point_refuted.

(** A feasible point whose stored final rate is 1; the interpolation returns 5/3, because it assumes order 2 for the points. *)
Theorem C28_interpolation_jacobi_refuted :
  forall rr, real_roots_ok rr -> forall lg, leggauss_ok lg -> 
  let xx := [[1 / 2]; [1 / 18]; [1 / 2]] in let xd := [[-1]; [1 / 3]; [1]] in
  let w := Build_ps_values xx xd [[-1]; [1 / 3]] [[]; []] in
  exists cs x u, bu_apply_scheme rr lg (fun x x_d u _ => x_d -v u) ex_bu_jacobi w = Ok cs /\ satisfied cs /\
    interpolations_BU_pseudospectral rr lg xx xd (pv_u w) "JGR" 1 (-1) 1 1 "pol" "pol" 1 = Ok (x, [5 / 3], u).
Proof. exact (bu_jacobi_wrong). Qed.
Print Assumptions C28_interpolation_jacobi_refuted.

(** For every scheme, a body that accelerates from rest at 0 to 9 with speed 6. *)
Example C28_hypotheses :
  forall rr, real_roots_ok rr -> forall lg, leggauss_ok lg -> forall s n, In s bt_schemes -> enough_points s n -> (In s gauss_schemes -> (2 <= n)%nat) ->
  bt_valid (ex_acc s n) /\ residual_has_chain 1 2 ex_acc_dyn /\
  exists st w cs, bu_opti_setup rr (ex_acc s n) = Ok st /\ bu_apply_scheme rr lg ex_acc_dyn (ex_acc s n) w = Ok cs /\
    shaped (bset_n_arr st) 2 (pv_x w) /\ shaped (bset_n_arr st) 2 (pv_x_d w) /\ shaped n 1 (pv_u w) /\ satisfied cs /\
    mrow 0 (pv_x w) = [0; 0] /\ mrow (bset_n_arr st - 1) (pv_x w) = [9; 6].
Proof. exact (ex_bu_solved). Qed.

(** ** C29  Top-down problems *)

Theorem C29_constraints :
  forall rr, real_roots_ok rr -> forall dyn p w q_constr,
  In (ps_scheme p) bt_schemes /\ enough_points (ps_scheme p) (ps_n_coll p) /\
  (1 <= ps_order p)%nat /\ (1 <= ps_n_q p)%nat /\ ps_t_start p <> ps_t_end p ->
  residual_has_chain (ps_n_q p) (ps_order p) dyn ->
  exists st cs, td_opti_setup rr p = Ok st /\ get_coll_indices (ps_scheme p) = Ok (bset_coll st) /\
    take (bset_coll st) (bset_tau st) = bset_tau_col st /\ length (bset_tau st) = bset_n_arr st /\
    length (bset_tau_col st) = ps_n_coll p /\ td_apply_scheme rr dyn p w q_constr = Ok cs /\
    (shaped (bset_n_arr st) (ps_order p * ps_n_q p) (pv_x w) ->
     shaped (bset_n_arr st) (ps_order p * ps_n_q p) (pv_x_d w) ->
     shaped (ps_n_coll p + ps_order p) (ps_n_q p) q_constr ->
     satisfied cs <-> exists P, order_solution dyn (ps_n_coll p + ps_order p) (ps_n_q p) (ps_order p)
      (t_of p (bset_tau st)) (t_of p (bset_tau_col st)) (pv_x w) (pv_x_d w) (pv_u w) (pv_lam w) P /\
       forall i, (i < ps_n_coll p + ps_order p)%nat ->
         mrow i q_constr = state_at P (vnth (t_of p (LGL rr (ps_n_coll p + ps_order p))) i)).
Proof. exact (td_apply). Qed.
Print Assumptions C29_constraints.

Theorem C29_C53_solution :
  forall rr, real_roots_ok rr -> forall dyn p w q_constr st cs nu name,
  In (ps_scheme p) bt_schemes /\ enough_points (ps_scheme p) (ps_n_coll p) /\
  (1 <= ps_order p)%nat /\ (1 <= ps_n_q p)%nat /\ ps_t_start p <> ps_t_end p ->
  residual_has_chain (ps_n_q p) (ps_order p) dyn ->
  In name [ps_scheme p; ("TD_" ++ ps_scheme p)%string] ->
  td_opti_setup rr p = Ok st -> td_apply_scheme rr dyn p w q_constr = Ok cs ->
  shaped (bset_n_arr st) (ps_order p * ps_n_q p) (pv_x w) ->
  shaped (bset_n_arr st) (ps_order p * ps_n_q p) (pv_x_d w) ->
  shaped (ps_n_coll p + ps_order p) (ps_n_q p) q_constr ->
  shaped (ps_n_coll p) nu (pv_u w) -> satisfied cs ->
  exists P U, order_solution dyn (ps_n_coll p + ps_order p) (ps_n_q p) (ps_order p)
      (t_of p (bset_tau st)) (t_of p (bset_tau_col st)) (pv_x w) (pv_x_d w) (pv_u w) (pv_lam w) P /\
    traj_through (t_of p (bset_tau_col st)) (pv_u w) U /\ length U = nu /\
    forall t,
      interpolations_TD_pseudospectral rr q_constr (pv_x w) (pv_x_d w) (pv_u w) name
        (ps_t_start p) (ps_t_end p) (ps_order p) "pol" "pol" t
      = Ok (full_state (ps_order p) P t, full_rate (ps_order p) P t, state_at U t) /\
      forall F, length (F (full_state (ps_order p) P t) (state_at U t)) = (ps_order p * ps_n_q p)%nat ->
        exists errs, dynamic_error_TD rr F q_constr (pv_x w) (pv_x_d w) (pv_u w) name (ps_t_start p) (ps_t_end p)
            (ps_order p) (ps_order p) "pol" "pol" t = Ok errs /\
          (Forall (Forall (fun e => e = repeat 0 (ps_n_q p))) errs <->
           rate_n_at (ps_order p) P t = lastn (ps_n_q p) (F (full_state (ps_order p) P t) (state_at U t))).
Proof. exact (td_solution). Qed.
Print Assumptions C29_C53_solution.

Theorem C29_interpolation_derivatives :
  forall rr, real_roots_ok rr -> forall s name N M nq nu t0 tf q_constr uu P U tc,
  In s bt_schemes -> In name [s; ("TD_" ++ s)%string] -> enough_points s N -> (1 <= M)%nat -> (1 <= nq)%nat -> t0 <> tf ->
  coll_points rr N s M = Ok tc ->
  shaped (N + M) nq q_constr -> length P = nq -> Forall (fun c => (length c <= N + M)%nat) P ->
  (forall i, (i < N + M)%nat -> mrow i q_constr = state_at P (vnth (tau_to_t_points (LGL rr (N + M)) t0 tf) i)) ->
  shaped N nu uu -> length U = nu -> traj_through (tau_to_t_points tc t0 tf) uu U -> forall xx xx_dot k t,
  mwidth xx = (M * nq)%nat ->
  interpolations_deriv_TD_pseudospectral rr q_constr xx xx_dot name k t0 tf N M "pol" t
    = Ok (flat_map (fun i => rate_n_at (i + k) P t) (seq 0 M)).
Proof. exact (td_interp_deriv). Qed.
Print Assumptions C29_interpolation_derivatives.

Theorem C53_top_down :
  forall rr, real_roots_ok rr -> forall s name N M nq nu t0 tf q_constr uu P U tc,
  In s bt_schemes -> In name [s; ("TD_" ++ s)%string] -> enough_points s N -> (1 <= M)%nat -> (1 <= nq)%nat -> t0 <> tf ->
  coll_points rr N s M = Ok tc ->
  shaped (N + M) nq q_constr -> length P = nq -> Forall (fun c => (length c <= N + M)%nat) P ->
  (forall i, (i < N + M)%nat -> mrow i q_constr = state_at P (vnth (tau_to_t_points (LGL rr (N + M)) t0 tf) i)) ->
  shaped N nu uu -> length U = nu -> traj_through (tau_to_t_points tc t0 tf) uu U -> forall F xx xx_dot t,
  mwidth xx = (M * nq)%nat -> length (F (full_state M P t) (state_at U t)) = (M * nq)%nat ->
  exists errs, dynamic_error_TD rr F q_constr xx xx_dot uu name t0 tf M M "pol" "pol" t = Ok errs /\
    defects M nq P (lastn nq (F (full_state M P t) (state_at U t))) t errs.
Proof. exact (td_error). Qed.
Print Assumptions C53_top_down.

Example C29_hypotheses :
  forall rr, real_roots_ok rr -> forall s n, In s bt_schemes -> enough_points s n ->
  bt_valid (ex_acc s n) /\ residual_has_chain 1 2 ex_acc_dyn /\
  exists st w qc cs, td_opti_setup rr (ex_acc s n) = Ok st /\ td_apply_scheme rr ex_acc_dyn (ex_acc s n) w qc = Ok cs /\
    shaped (bset_n_arr st) 2 (pv_x w) /\ shaped (bset_n_arr st) 2 (pv_x_d w) /\ shaped (n + 2) 1 qc /\ shaped n 1 (pv_u w) /\
    satisfied cs /\ mrow 0 qc = [0] /\ mrow (n + 1) qc = [9].
Proof. exact (ex_td_solved). Qed.
