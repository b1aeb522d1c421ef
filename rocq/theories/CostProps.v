(** Properties C32-C35: the cost functions of chords/opti.py.  Only
    statements: each theorem is an [exact] of a lemma proved elsewhere.
    [stepwise_poly], [at_nodes], [at_steps] and [cols_through] are in CostSpec;
    [rr] and [lg] are sympy's real_roots and numpy's leggauss. *)
From Coquelicot Require Import Coquelicot.
From Coq Require Import String.
From Verif Require Import Prelude PreludeFacts Poly PolyFacts PolyInterp Mat MatFacts PwInterpModel PsModel PsSpec
  UtilModel UtilSpec BuTdModel BuTdSpec CostModel CostSpec CostFacts CostProofs CostEqProofs CostSqProofs CostPsProofs CostPhProofs CostTrapProofs.
Open Scope R_scope.
Open Scope vec_scope.
Open Scope list_scope.

(** ** C32  Equispaced problems *)

(** Schemes with linear controls: the integral of the polyline through the squares of the controls. *)
Theorem C32_u_sq_linear :
  forall t0 tf N m, t0 < tf -> (1 <= N)%nat -> forall s u u_c u_j W, In s linear_u_schemes -> shaped (S N) m u ->
  (forall j, (j < m)%nat -> stepwise_poly 2 t0 tf N (W j) /\ at_nodes (fun x => x ^ 2) t0 tf N u j (W j)) ->
  eq_u_sq_cost t0 tf N s u u_c u_j = (rsum m (fun j => RInt (W j) t0 tf), []).
Proof. exact (u_sq_linear). Qed.
Print Assumptions C32_u_sq_linear.

(** Schemes with parabolic controls: exact for a square that is a cubic on each step. *)
Theorem C32_u_sq_parab :
  forall t0 tf N m, t0 < tf -> (1 <= N)%nat -> forall s u u_c u_j W, In s simpson_u_schemes -> shaped (S N) m u -> shaped N m u_c ->
  (forall j, (j < m)%nat -> stepwise_poly 4 t0 tf N (W j) /\ at_nodes (fun x => x ^ 2) t0 tf N u j (W j) /\
     at_steps (fun x => x ^ 2) (1 / 2) t0 tf N u_c j (W j)) ->
  eq_u_sq_cost t0 tf N s u u_c u_j = (rsum m (fun j => RInt (W j) t0 tf), []).
Proof. exact (u_sq_simpson). Qed.
Print Assumptions C32_u_sq_parab.

Theorem C32_u_sq_hsj_parab :
  forall t0 tf N m, t0 < tf -> (1 <= N)%nat -> forall u u_c u_j W, shaped (S N) m u -> shaped N m u_c ->
  (forall j, (j < m)%nat -> stepwise_poly 3 t0 tf N (W j) /\ at_nodes (fun x => x ^ 2) t0 tf N u j (W j) /\
     at_steps (fun x => x ^ 2) (2 / 5) t0 tf N u_c j (W j)) ->
  eq_u_sq_cost t0 tf N "hsj_parab" u u_c u_j = (rsum m (fun j => RInt (W j) t0 tf), []).
Proof. exact (u_sq_two_fifths). Qed.
Print Assumptions C32_u_sq_hsj_parab.

(** This scheme integrates with the middle controls and adds the constraint that the controls at 2/5 of the step are on the same parabola. *)
Theorem C32_u_sq_hsj_parab_mod :
  forall t0 tf N m, t0 < tf -> (1 <= N)%nat -> forall u u_c u_j W, shaped (S N) m u -> shaped N m u_c -> shaped N m u_j ->
  (forall j, (j < m)%nat -> stepwise_poly 4 t0 tf N (W j) /\ at_nodes (fun x => x ^ 2) t0 tf N u j (W j) /\
     at_steps (fun x => x ^ 2) (1 / 2) t0 tf N u_j j (W j)) ->
  exists cs, eq_u_sq_cost t0 tf N "hsj_parab_mod" u u_c u_j = (rsum m (fun j => RInt (W j) t0 tf), cs) /\
    (satisfied cs <-> forall i j, (i < N)%nat -> (j < m)%nat -> forall c, (length c <= 3)%nat ->
       peval c 0 = mget u i j -> peval c (1 / 2) = mget u_j i j -> peval c 1 = mget u (S i) j ->
       mget u_c i j = peval c (2 / 5)).
Proof. exact (u_sq_parab_mod). Qed.
Print Assumptions C32_u_sq_hsj_parab_mod.

(** The Simpson rule. *)
Theorem C32_quad_cost_mid :
  forall t0 tf N m, t0 < tf -> (1 <= N)%nat -> forall arr arr_c (squared : bool) W, shaped (S N) m arr -> shaped N m arr_c ->
  (forall j, (j < m)%nat -> stepwise_poly 4 t0 tf N (W j) /\ at_nodes (fun x => x ^ (if squared then 2 else 1)) t0 tf N arr j (W j) /\
     at_steps (fun x => x ^ (if squared then 2 else 1)) (1 / 2) t0 tf N arr_c j (W j)) ->
  eq_quad_cost t0 tf N arr (Some arr_c) squared = rsum m (fun j => RInt (W j) t0 tf).
Proof. exact (quad_cost_simpson). Qed.
Print Assumptions C32_quad_cost_mid.

(** Without middle values quad_cost is twice the integral. *)
Theorem C32_quad_cost_refuted :
  forall t0 tf N m, t0 < tf -> (1 <= N)%nat -> forall arr (squared : bool) W, shaped (S N) m arr ->
  (forall j, (j < m)%nat -> stepwise_poly 2 t0 tf N (W j) /\ at_nodes (fun x => x ^ (if squared then 2 else 1)) t0 tf N arr j (W j)) ->
  eq_quad_cost t0 tf N arr None squared = 2 * rsum m (fun j => RInt (W j) t0 tf).
Proof. exact (quad_cost_trapz_twice). Qed.
Print Assumptions C32_quad_cost_refuted.

(** sq_cost is the exact integral of the square of the stepwise parabola. *)
Theorem C32_sq_cost :
  forall t0 tf N m arr arr_c W, t0 < tf -> (1 <= N)%nat -> shaped (S N) m arr -> shaped N m arr_c ->
  (forall j, (j < m)%nat -> stepwise_poly 3 t0 tf N (W j) /\ at_nodes (fun x => x) t0 tf N arr j (W j) /\
     at_steps (fun x => x) (1 / 2) t0 tf N arr_c j (W j)) ->
  eq_sq_cost t0 tf N arr (Some arr_c) = Ok (rsum m (fun j => RInt (fun t => W j t ^ 2) t0 tf)).
Proof. exact (sq_cost_exact). Qed.
Print Assumptions C32_sq_cost.

(** Without middle values it never works. *)
Theorem C32_sq_cost_default_refuted :
  forall t0 tf N m arr, shaped (S N) m arr -> eq_sq_cost t0 tf N arr None = Err RuntimeError.
Proof. exact (sq_cost_default). Qed.
Print Assumptions C32_sq_cost_default_refuted.

(** Constant controls, every equispaced scheme. *)
Theorem C32_constant :
  forall t0 tf N m s u u_c u_j k, t0 < tf -> (1 <= N)%nat -> In s equispaced_schemes ->
  shaped (S N) m u -> shaped N m u_c -> shaped N m u_j ->
  (forall i j, (i <= N)%nat -> (j < m)%nat -> mget u i j = k j) ->
  (forall i j, (i < N)%nat -> (j < m)%nat -> mget u_c i j = k j /\ mget u_j i j = k j) ->
  fst (eq_u_sq_cost t0 tf N s u u_c u_j) = (tf - t0) * rsum m (fun j => k j ^ 2) /\
  satisfied (snd (eq_u_sq_cost t0 tf N s u u_c u_j)).
Proof. exact (u_sq_constant). Qed.
Print Assumptions C32_constant.

(** The hypotheses on W are met by some functions whatever the arrays. *)
Example C32_interpolants :
  forall t0 tf N f g A B, t0 < tf -> (1 <= N)%nat -> 0 < f < 1 -> forall j,
  exists w, stepwise_poly 3 t0 tf N w /\ at_nodes g t0 tf N A j w /\ at_steps g f t0 tf N B j w.
Proof. exact (interpolants_exist). Qed.

Example C32_polylines :
  forall t0 tf N g A, t0 < tf -> (1 <= N)%nat -> forall j, exists w, stepwise_poly 2 t0 tf N w /\ at_nodes g t0 tf N A j w.
Proof. exact (polylines_exist). Qed.

(** ** C33  Exact integration of a squared parabola *)

Theorem C33_exact_integration :
  forall N m arr arr_c h t, shaped (S N) m arr -> shaped N m arr_c ->
  exists A, exact_cuadratic_squared_integration arr arr_c h = Ok A /\ shaped N m A /\
    forall i j p, (i < N)%nat -> (j < m)%nat -> (length p <= 3)%nat ->
      peval p t = mget arr i j -> peval p (t + h / 2) = mget arr_c i j -> peval p (t + h) = mget arr (S i) j ->
      mget A i j = RInt (fun x => peval p x ^ 2) t (t + h).
Proof. exact (exact_function). Qed.
Print Assumptions C33_exact_integration.

Example C33_parabola :
  forall h t a b c, h <> 0 -> exists p, (length p <= 3)%nat /\ peval p t = a /\ peval p (t + h / 2) = b /\ peval p (t + h) = c.
Proof. exact (parabola_through). Qed.

(** ** C34  One interval: pseudospectral, bottom-up and top-down *)

(** The cost of a constant is twice its integral. *)
Theorem C34_quad_cost_refuted :
  forall rr lg, real_roots_ok rr -> leggauss_ok lg -> forall p n_arr (exp : bool) k, In (ps_scheme p) all_schemes -> enough_points (ps_scheme p) (ps_n_coll p) ->
  quad_cost rr lg p n_arr (repeat [k] (ps_n_coll p)) exp
  = Ok (2 * ((if exp then k ^ 2 else k) * (ps_t_end p - ps_t_start p))).
Proof. exact (quad_cost_const). Qed.
Print Assumptions C34_quad_cost_refuted.

(** In general: twice the integral of the polynomial through the (squared) entries at the collocation times. *)
Theorem C34_quad_cost :
  forall rr lg, real_roots_ok rr -> leggauss_ok lg -> forall p n_arr arr exp m, In (ps_scheme p) all_schemes -> enough_points (ps_scheme p) (ps_n_coll p) ->
  shaped (ps_n_coll p) m arr ->
  exists tc, coll_points rr (ps_n_coll p) (ps_scheme p) (ps_order p) = Ok tc /\
    forall C, length C = m -> cols_through (ps_n_coll p) (t_of p tc) exp arr C ->
      quad_cost rr lg p n_arr arr exp = Ok (2 * rsum m (fun j => RInt (peval (nth j C [])) (ps_t_start p) (ps_t_end p))).
Proof. exact (quad_cost_u). Qed.
Print Assumptions C34_quad_cost.

(** u_sq_cost of a pseudospectral problem: twice the integral of the polynomial through the squares of the controls. *)
Theorem C34_u_sq_pseudospectral_refuted :
  forall rr lg, real_roots_ok rr -> leggauss_ok lg -> forall p n_arr u m, In (ps_scheme p) all_schemes -> enough_points (ps_scheme p) (ps_n_coll p) ->
  shaped (ps_n_coll p) m u ->
  exists tc, coll_points rr (ps_n_coll p) (ps_scheme p) (ps_order p) = Ok tc /\
    forall C, length C = m -> cols_through (ps_n_coll p) (t_of p tc) true u C ->
      ps_u_sq_cost rr lg p n_arr u = Ok (2 * rsum m (fun j => RInt (peval (nth j C [])) (ps_t_start p) (ps_t_end p))).
Proof. exact (fun rr lg Hr Hl p n_arr u m => quad_cost_u rr lg Hr Hl p n_arr u true m). Qed.
Print Assumptions C34_u_sq_pseudospectral_refuted.

(** The same for an array with one row per state time. *)
Theorem C34_quad_cost_state :
  forall rr lg, real_roots_ok rr -> leggauss_ok lg -> forall p st arr exp m, In (ps_scheme p) all_schemes -> enough_points (ps_scheme p) (ps_n_coll p) ->
  (In (ps_scheme p) second_order_schemes -> ps_order p = 2%nat) -> opti_setup rr p = Ok st ->
  pset_n_arr st <> ps_n_coll p -> shaped (pset_n_arr st) m arr ->
  forall C, length C = m -> cols_through (pset_n_arr st) (t_of p (pset_tau st)) exp arr C ->
    quad_cost rr lg p (pset_n_arr st) arr exp = Ok (2 * rsum m (fun j => RInt (peval (nth j C [])) (ps_t_start p) (ps_t_end p))).
Proof. exact (quad_cost_x). Qed.
Print Assumptions C34_quad_cost_state.

(** With LG points the squared cost is twice the integral of the square of the interpolated signal. *)
Theorem C34_quad_cost_LG :
  forall rr lg, real_roots_ok rr -> leggauss_ok lg -> forall p n_arr arr m, ps_scheme p = "LG"%string -> (1 <= ps_n_coll p)%nat ->
  shaped (ps_n_coll p) m arr ->
  exists tc, coll_points rr (ps_n_coll p) (ps_scheme p) (ps_order p) = Ok tc /\
    forall C, length C = m -> cols_through (ps_n_coll p) (t_of p tc) false arr C ->
      quad_cost rr lg p n_arr arr true
      = Ok (2 * rsum m (fun j => RInt (fun t => (peval (nth j C []) t) ^ 2) (ps_t_start p) (ps_t_end p))).
Proof. exact (quad_cost_LG). Qed.
Print Assumptions C34_quad_cost_LG.

(** u_sq_cost of the bottom-up and top-down classes (always with the points of order 2). *)
Theorem C34_u_sq_cost :
  forall rr lg, real_roots_ok rr -> leggauss_ok lg -> forall p u m, In (ps_scheme p) all_schemes -> enough_points (ps_scheme p) (ps_n_coll p) ->
  shaped (ps_n_coll p) m u ->
  exists tc, coll_points rr (ps_n_coll p) (ps_scheme p) 2 = Ok tc /\
    forall C, length C = m -> cols_through (ps_n_coll p) (t_of p tc) true u C ->
      bt_u_sq_cost rr lg p u = Ok (2 * rsum m (fun j => RInt (peval (nth j C [])) (ps_t_start p) (ps_t_end p))).
Proof. exact (bt_cost). Qed.
Print Assumptions C34_u_sq_cost.

Theorem C34_shape :
  forall rr lg p n_arr arr exp, length arr <> ps_n_coll p -> length arr <> n_arr ->
  quad_cost rr lg p n_arr arr exp = Err ValueError.
Proof. exact (quad_cost_shape). Qed.
Print Assumptions C34_shape.

(** trapz_cost of a constant: right only if the first construction point happens to be 0. *)
Theorem C34_trapz_cost :
  forall rr, real_roots_ok rr -> forall p n_arr (exp : bool) k, In (ps_scheme p) bt_schemes -> ~ In (ps_scheme p) ["CG"; "CGR"; "CGR_inv"; "CGL"]%string ->
  enough_points (ps_scheme p) (ps_n_coll p) ->
  exists pts, BU_construction_points rr (ps_n_coll p) (ps_scheme p) (ps_order p) = Ok pts /\
    trapz_cost rr p n_arr (repeat [k] (ps_n_coll p)) exp
    = Ok ((ps_t_end p - ps_t_start p) * (k ^ (if exp then 2 else 1) * (1 - vnth pts 0))).
Proof. exact (trapz_const). Qed.
Print Assumptions C34_trapz_cost.

(** For any array: a trapezoidal rule over the ends and the collocation points in which every interval has the length of the next one (and tau for time). *)
Theorem C34_trapz_value :
  forall rr, real_roots_ok rr -> forall p n_arr arr (exp : bool) m, In (ps_scheme p) bt_schemes -> ~ In (ps_scheme p) ["CG"; "CGR"; "CGR_inv"; "CGL"]%string ->
  enough_points (ps_scheme p) (ps_n_coll p) -> shaped (ps_n_coll p) m arr ->
  exists tc c, coll_points rr (ps_n_coll p) (ps_scheme p) (ps_order p) = Ok tc /\
    c = filter (fun x => if Rlt_dec (-1) x then if Rlt_dec x 1 then true else false else false) tc /\
    forall C, length C = m -> cols_through (ps_n_coll p) tc false arr C ->
    let e := vnth (-1 :: c ++ [1; 1]) in
    trapz_cost rr p n_arr arr exp = Ok ((ps_t_end p - ps_t_start p) * rsum m (fun j => rsum (length c + 1) (fun k =>
      (peval (nth j C []) (e k) ^ (if exp then 2 else 1) + peval (nth j C []) (e (S k)) ^ (if exp then 2 else 1)) / 2 * (e (S (S k)) - e (S k))))).
Proof. exact (trapz_value). Qed.
Print Assumptions C34_trapz_value.

(** With two LGL points the trapezoidal cost of every constant is 0. *)
Theorem C34_trapz_cost_refuted :
  forall rr, real_roots_ok rr -> forall p n_arr (exp : bool) k, ps_scheme p = "LGL"%string -> ps_n_coll p = 2%nat ->
  trapz_cost rr p n_arr (repeat [k] 2) exp = Ok 0.
Proof. exact (trapz_LGL2). Qed.
Print Assumptions C34_trapz_cost_refuted.

Theorem C34_trapz_chebyshev_refuted :
  forall rr, real_roots_ok rr -> forall p n_arr arr exp, In (ps_scheme p) ["CG"; "CGR"; "CGR_inv"; "CGL"]%string ->
  enough_points (ps_scheme p) (ps_n_coll p) -> length arr = ps_n_coll p -> (1 <= mwidth arr)%nat ->
  trapz_cost rr p n_arr arr exp = Err NotImplementedError.
Proof. exact (trapz_chebyshev). Qed.
Print Assumptions C34_trapz_chebyshev_refuted.

Example C34_interpolants :
  forall rr, real_roots_ok rr -> forall p arr exp m, In (ps_scheme p) all_schemes -> enough_points (ps_scheme p) (ps_n_coll p) ->
  ps_t_start p <> ps_t_end p ->
  exists tc C, coll_points rr (ps_n_coll p) (ps_scheme p) (ps_order p) = Ok tc /\ length C = m /\
    cols_through (ps_n_coll p) (t_of p tc) exp arr C.
Proof. exact (ps_costs_exist). Qed.

Example C34_hypotheses :
  In (ps_scheme ex_cost) all_schemes /\ enough_points (ps_scheme ex_cost) (ps_n_coll ex_cost) /\
  ps_t_start ex_cost <> ps_t_end ex_cost /\ shaped (ps_n_coll ex_cost) 2 [[1; 2]; [3; 4]; [5; 6]].
Proof. exact (ex_cost_ok). Qed.

(** ** C35  Several segments *)

(** The sum of the costs of the segments. *)
Theorem C35_u_sq_cost_sum :
  forall rr lg name h ps us,
  ph_u_sq_cost rr lg name h ps us
  = rbind (mapm (fun i => ph_u_sq_cost rr lg name [vnth h i] [nth i ps O] [nth i us []]) (seq 0 (length ps)))
          (fun l => Ok (vsum l)).
Proof. exact (ph_sum). Qed.
Print Assumptions C35_u_sq_cost_sum.

(** One segment costs the same as the one-interval problem. *)
Theorem C35_u_sq_cost_single :
  forall rr lg s name p u, In s all_schemes -> In name [s; ("BU_" ++ s)%string; ("TD_" ++ s)%string] -> ps_scheme p = s ->
  ph_u_sq_cost rr lg name [ps_t_end p - ps_t_start p] [ps_n_coll p] [u] = bt_u_sq_cost rr lg p u.
Proof. exact (ph_single). Qed.
Print Assumptions C35_u_sq_cost_single.

(** As integrals over the segments (twice). *)
Theorem C35_u_sq_cost :
  forall rr lg, real_roots_ok rr -> leggauss_ok lg -> forall s name knots ps us m C, In s all_schemes -> In name [s; ("BU_" ++ s)%string; ("TD_" ++ s)%string] ->
  (forall i, (i < length ps)%nat -> enough_points s (nth i ps O) /\ shaped (nth i ps O) m (nth i us []) /\
     length (nth i C []) = m /\ exists tc, coll_points rr (nth i ps O) s 2 = Ok tc /\
       cols_through (nth i ps O) (tau_to_t_points tc (vnth knots i) (vnth knots (S i))) true (nth i us []) (nth i C [])) ->
  ph_u_sq_cost rr lg name (map (fun i => vnth knots (S i) - vnth knots i) (seq 0 (length ps))) ps us
  = Ok (2 * rsum (length ps) (fun i => rsum m (fun j => RInt (peval (nth j (nth i C []) [])) (vnth knots i) (vnth knots (S i))))).
Proof. exact (ph_u_cost). Qed.
Print Assumptions C35_u_sq_cost.

(** quad_cost squares whether asked or not. *)
Theorem C35_always_squared_refuted :
  forall rr lg, real_roots_ok rr -> leggauss_ok lg -> forall s name n_arr knots ps k squared, In s all_schemes -> In name [s; ("BU_" ++ s)%string; ("TD_" ++ s)%string] ->
  (forall i, (i < length ps)%nat -> enough_points s (nth i ps O)) ->
  ph_quad_cost rr lg name n_arr (map (fun i => vnth knots (S i) - vnth knots i) (seq 0 (length ps))) ps
    (repeat [k] (list_sum ps)) squared
  = Ok (2 * (k ^ 2 * (vnth knots (length ps) - vnth knots 0))).
Proof. exact (ph_quad_const). Qed.
Print Assumptions C35_always_squared_refuted.

(** In general: twice the sum of the integrals of the squared signal of each segment, the rows taken in order. *)
Theorem C35_quad_cost :
  forall rr lg, real_roots_ok rr -> leggauss_ok lg -> forall s name n_arr knots ps arr (squared : bool) m C, In s all_schemes -> In name [s; ("BU_" ++ s)%string; ("TD_" ++ s)%string] ->
  shaped (list_sum ps) m arr ->
  (forall i, (i < length ps)%nat -> enough_points s (nth i ps O) /\ length (nth i C []) = m /\
     exists tc, coll_points rr (nth i ps O) s (if squared then 1 else 0)%nat = Ok tc /\
       cols_through (nth i ps O) (tau_to_t_points tc (vnth knots i) (vnth knots (S i))) true
         (slice (list_sum (firstn i ps)) (list_sum (firstn i ps) + nth i ps O) arr) (nth i C [])) ->
  ph_quad_cost rr lg name n_arr (map (fun i => vnth knots (S i) - vnth knots i) (seq 0 (length ps))) ps arr squared
  = Ok (2 * rsum (length ps) (fun i => rsum m (fun j => RInt (peval (nth j (nth i C []) [])) (vnth knots i) (vnth knots (S i))))).
Proof. exact (ph_quad_value). Qed.
Print Assumptions C35_quad_cost.

Theorem C35_squared_ignored_refuted :
  forall rr lg s name n_arr h ps arr, In s all_schemes -> ~ In s jacobi_schemes -> In name [s; ("BU_" ++ s)%string; ("TD_" ++ s)%string] ->
  ph_quad_cost rr lg name n_arr h ps arr false = ph_quad_cost rr lg name n_arr h ps arr true.
Proof. exact (ph_quad_order). Qed.
Print Assumptions C35_squared_ignored_refuted.

(** quad_cost on state arrays always fails. *)
Theorem C35_state_rows_refuted :
  forall rr lg, real_roots_ok rr -> leggauss_ok lg -> forall s name h n ps arr squared m, In s all_schemes -> In name [s; ("BU_" ++ s)%string; ("TD_" ++ s)%string] -> enough_points s n ->
  shaped (list_sum (n :: ps) + length (n :: ps) + 1) m arr ->
  ph_quad_cost rr lg name (list_sum (n :: ps) + length (n :: ps) + 1) h (n :: ps) arr squared = Err RuntimeError.
Proof. exact (ph_quad_state_rows). Qed.
Print Assumptions C35_state_rows_refuted.

Example C35_hypotheses :
  In "LGL"%string all_schemes /\ In "BU_LGL"%string (prefixed "LGL") /\
  (forall i, (i < length [2; 3]%nat)%nat -> enough_points "LGL" (nth i [2; 3]%nat O)) /\
  shaped (list_sum [2; 3]%nat + length [2; 3]%nat + 1) 1 (repeat [7] 8).
Proof. exact (ex_ph_ok). Qed.
