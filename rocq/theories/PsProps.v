(** Properties C19-C26, C66 and C67 of chords/pseudospectral.py and of the
    pseudospectral problem class of chords/opti.py.  Only statements: each
    theorem is an [exact] of a lemma proved elsewhere, followed by its
    assumptions and by an example that meets its hypotheses.
    [rr] is sympy's real_roots; [real_roots_ok rr] is its documented behaviour
    and is satisfied by some function (C21_oracle_exists). *)
From Coquelicot Require Import Coquelicot.
From Coq Require Import String.
From Verif Require Import Prelude PreludeFacts Poly PolyFacts PolyInterp Mat MatFacts PwInterpModel PsModel PsSpec
  PsPointsProofs PsBaryProofs PsNodesProofs PsProblemProofs PsApplyProofs PsInterpProofs PsMoreProofs PsFinalProofs.
Open Scope R_scope.
Open Scope vec_scope.
Open Scope list_scope.

(** ** C19  Time maps *)

Theorem C19_ends :
  forall t0 tf, tau_to_t_points [-1; 1] t0 tf = [t0; tf].
Proof. exact (maps_ends). Qed.
Print Assumptions C19_ends.

Theorem C19_affine :
  forall t0 tf a b k, tau_to_t ((1 - k) * a + k * b) t0 tf = (1 - k) * tau_to_t a t0 tf + k * tau_to_t b t0 tf.
Proof. exact (maps_affine). Qed.
Print Assumptions C19_affine.

Theorem C19_increasing :
  forall taus t0 tf, t0 < tf -> increasing taus -> increasing (tau_to_t_points taus t0 tf).
Proof. exact (times_incr). Qed.
Print Assumptions C19_increasing.

Theorem C19_inverse :
  forall t0 tf l, t0 <> tf ->
  t_to_tau_points (tau_to_t_points l t0 tf) t0 tf = l /\ tau_to_t_points (t_to_tau_points l t0 tf) t0 tf = l.
Proof. exact (maps_inverse). Qed.
Print Assumptions C19_inverse.

Theorem C19_function :
  forall A (f : R -> A) t0 tf tau, t0 <> tf -> tau_to_t_function f t0 tf (tau_to_t tau t0 tf) = f tau.
Proof. exact (@maps_function). Qed.
Print Assumptions C19_function.

Example C19_hypotheses : 1 < 3 /\ increasing [-1; 0; 1].
Proof. split; [lra|]. rewrite <- CGL_3. destruct real_roots_exist as [rr OK].
  destruct (coll_points_ok rr OK "CGL" 3 2 ltac:(cbv; tauto) ltac:(split; intros; lia)) as (c & E & _ & I & _).
  now injection E as <-. Qed.

(** ** C20  Nodes, collocation points and indices *)

Theorem C20_bookkeeping :
  forall rr, real_roots_ok rr -> forall s N, In s all_schemes -> enough_points s N ->
  exists n nd cl sl, n_col_to_n_nodes s N = Ok n /\ node_points rr n s = Ok nd /\ length nd = n /\ increasing nd /\
    coll_points rr N s 2 = Ok cl /\ length cl = N /\ get_coll_indices_from_nodes s = Ok sl /\ take sl nd = cl.
Proof. exact (bookkeeping). Qed.
Print Assumptions C20_bookkeeping.

(** The three arrays of points of a problem are consistent, and the first one covers the horizon from -1 to 1. *)
Theorem C20_setup :
  forall rr, real_roots_ok rr -> forall p, In (ps_scheme p) all_schemes -> enough_points (ps_scheme p) (ps_n_coll p) ->
  (In (ps_scheme p) second_order_schemes -> ps_order p = 2%nat) ->
  exists st sl, opti_setup rr p = Ok st /\
    n_col_to_n_nodes (ps_scheme p) (ps_n_coll p) = Ok (pset_n_nodes st) /\
    length (pset_tau st) = pset_n_arr st /\ length (pset_tau_node st) = pset_n_nodes st /\
    length (pset_tau_col st) = ps_n_coll p /\
    increasing (pset_tau st) /\ vnth (pset_tau st) 0 = -1 /\ vnth (pset_tau st) (pset_n_arr st - 1) = 1 /\
    take (pset_node st) (pset_tau st) = pset_tau_node st /\
    get_coll_indices (ps_scheme p) = Ok sl /\ take sl (pset_tau st) = pset_tau_col st.
Proof. exact (setup_bookkeeping). Qed.
Print Assumptions C20_setup.

Theorem C20_setup_order :
  forall rr p, In (ps_scheme p) second_order_schemes -> ps_order p <> 2%nat -> opti_setup rr p = Err AssertionError.
Proof. exact (setup_second_order). Qed.
Print Assumptions C20_setup_order.

Theorem C20_unknown_scheme :
  forall rr s N order, ~ In s all_schemes ->
  coll_points rr N s order = Err ValueError /\ node_points rr N s = Err ValueError /\
  n_col_to_n_nodes s N = Err NotImplementedError /\ get_coll_indices s = Err NotImplementedError /\
  get_coll_indices_from_nodes s = Err NotImplementedError.
Proof. exact (unknown_scheme). Qed.
Print Assumptions C20_unknown_scheme.

Example C20_hypotheses : In "CGR_inv"%string all_schemes /\ enough_points "CGR_inv" 5 /\ ~ In "XX"%string all_schemes.
Proof. split; [cbv; tauto|]. split; [split; intros; lia|].
  cbv. intuition discriminate. Qed.

(** ** C21  Point sets *)

(** For every scheme, not only the Chebyshev ones, and every order. *)
Theorem C21_collocation_points :
  forall rr, real_roots_ok rr -> forall s N order, In s all_schemes -> enough_points s N ->
  exists c, coll_points rr N s order = Ok c /\
    point_set (In s schemes_with_start) (In s schemes_with_end) N c.
Proof. exact (coll_points_ok). Qed.
Print Assumptions C21_collocation_points.

Theorem C21_node_points :
  forall rr, real_roots_ok rr -> forall s N n, In s all_schemes -> enough_points s N -> n_col_to_n_nodes s N = Ok n ->
  exists nd, node_points rr n s = Ok nd /\
    point_set (~ In s gauss_inv_schemes) (~ In s gauss_schemes) n nd.
Proof. exact (nodes_ok). Qed.
Print Assumptions C21_node_points.

Theorem C21_oracle_exists :
  exists rr, real_roots_ok rr.
Proof. exact (real_roots_exist). Qed.
Print Assumptions C21_oracle_exists.

(** ** C22  Lagrange basis *)

Theorem C22_basis :
  forall ts j i, NoDup ts -> (j < length ts)%nat -> (i < length ts)%nat ->
  (length (lag_pol ts j) <= length ts)%nat /\
  peval (lag_pol ts j) (vnth ts i) = if (i =? j)%nat then 1 else 0.
Proof. exact (lag_pol_kron). Qed.
Print Assumptions C22_basis.

Theorem C22_polynomial :
  forall ts ys, NoDup ts -> length ys = length ts -> interpolates ts ys (lagrangePolynomial ts ys).
Proof. exact (lagrangePolynomial_interp). Qed.
Print Assumptions C22_polynomial.

Theorem C22_unique :
  forall ts ys c d, NoDup ts -> interpolates ts ys c -> interpolates ts ys d -> forall x, peval c x = peval d x.
Proof. exact (interpolates_unique). Qed.
Print Assumptions C22_unique.

(** unit_Lag_pol is right away from the points; at the points it is not a number (next theorem). *)
Theorem C22_unit_off_points_partial :
  forall rr N s n kind x, In kind ["q"; "u"]%string ->
  (if (kind =? "q")%string then node_points rr N s else coll_points rr N s 2) = Ok x ->
  NoDup x -> length x = N -> (n < N)%nat ->
  exists c, (length c <= N)%nat /\
    (forall j, (j < N)%nat -> peval c (vnth x j) = if (j =? n)%nat then 1 else 0) /\
    forall t, ~ In t x -> unit_Lag_pol rr N s n kind t = Ok (Some (peval c t)).
Proof. exact (unit_basis). Qed.
Print Assumptions C22_unit_off_points_partial.

(** At every point of the set the result is a row of a matrix ([None] in the model), never 0 or 1. *)
Theorem C22_unit_at_points_refuted :
  forall rr N s n kind x t, In kind ["q"; "u"]%string ->
  (if (kind =? "q")%string then node_points rr N s else coll_points rr N s 2) = Ok x ->
  (n < N * N)%nat -> In t x -> unit_Lag_pol rr N s n kind t = Ok None.
Proof. exact (unit_at_point). Qed.
Print Assumptions C22_unit_at_points_refuted.

Example C22_hypotheses : NoDup [-1; 0; 1] /\ length [2; 0; 5] = length [-1; 0; 1] /\
  node_points (fun _ => []) 3 "CGL" = Ok [-1; 0; 1].
Proof. split; [|split; [reflexivity|]].
  - repeat constructor; simpl; intuition; lra.
  - cbv [node_points coll_points mem existsb String.eqb Ascii.eqb Bool.eqb orb gauss_like gauss_inv gauss_2 radau_like radau_inv lobato_like other_schemes map app String.append].
    now rewrite CGL_3. Qed.

(** ** C23  Barycentric interpolation *)

Theorem C23_value :
  forall ts ys c t, NoDup ts -> (0 < length ts)%nat -> length ys = length ts ->
  interpolates ts ys c -> bary_poly ts ys t = peval c t.
Proof. exact (bary_poly_correct). Qed.
Print Assumptions C23_value.

Theorem C23_sample :
  forall ts ys i, NoDup ts -> (i < length ts)%nat -> length ys = length ts ->
  bary_poly ts ys (vnth ts i) = vnth ys i.
Proof. exact (bary_poly_node). Qed.
Print Assumptions C23_sample.

Theorem C23_rows :
  forall ts Y m cs t, NoDup ts -> (0 < length ts)%nat -> shaped (length ts) m Y ->
  length cs = m -> traj_through ts Y cs -> bary_poly_2d ts Y t = state_at cs t.
Proof. exact (bary_poly_2d_correct). Qed.
Print Assumptions C23_rows.

(** The weights are the barycentric ones up to one common non-zero factor. *)
Theorem C23_weights :
  forall ts, NoDup ts -> (0 < length ts)%nat -> exists k, k <> 0 /\
  forall i, (i < length ts)%nat -> v_sum ts i * fold_right Rmult 1 (map (fun s => vnth ts i - s) (pop_at i ts)) = k.
Proof. exact (v_sum_common). Qed.
Print Assumptions C23_weights.

(** Row 0 of the result, when the target is not a source point; otherwise see the next theorem. *)
Theorem C23_vector_interpolator_partial :
  forall rr N1 N2 s1 s2 n kind x pts ys c, In kind ["q"; "u"]%string ->
  (N1 <> N2 \/ s1 <> s2) ->
  (if (kind =? "q")%string then node_points rr N1 s1 else coll_points rr N1 s1 2) = Ok x ->
  (if (kind =? "q")%string then node_points rr N2 s2 else coll_points rr N2 s2 2) = Ok pts ->
  NoDup x -> length x = N1 -> (n < length pts)%nat -> ~ In (vnth pts n) x -> interpolates x ys c -> length ys = N1 ->
  exists v, vector_interpolator rr N1 N2 s1 s2 n kind = Ok v /\ length v = N1 /\ vdot v ys = peval c (vnth pts n).
Proof. exact (vector_interpolator_ok). Qed.
Print Assumptions C23_vector_interpolator_partial.

(** A target point shared with the source set makes the call fail. *)
Theorem C23_vector_interpolator_refuted :
  forall rr N1 N2 s1 s2 n kind x pts, In kind ["q"; "u"]%string ->
  (N1 <> N2 \/ s1 <> s2) ->
  (if (kind =? "q")%string then node_points rr N1 s1 else coll_points rr N1 s1 2) = Ok x ->
  (if (kind =? "q")%string then node_points rr N2 s2 else coll_points rr N2 s2 2) = Ok pts ->
  (0 < N1)%nat -> (n < length pts)%nat -> In (vnth pts n) x ->
  vector_interpolator rr N1 N2 s1 s2 n kind = Err ValueError.
Proof. exact (vector_interpolator_common_point). Qed.
Print Assumptions C23_vector_interpolator_refuted.

Example C23_hypotheses : NoDup [-1; 0; 1] /\ interpolates [-1; 0; 1] [1; 0; 1] [0; 0; 1] /\
  traj_through [-1; 0; 1] [[1; 2]; [0; 2]; [1; 2]] [[0; 0; 1]; [2]].
Proof. split; [repeat constructor; simpl; intuition; lra|]. split.
  - split; [simpl; lia|]. intros [|[|[|i]]] Hi; unfold vnth; simpl; [lra|lra|lra|simpl in Hi; lia].
  - intros [|[|j]] Hj; [| |simpl in Hj; lia]; (split; [simpl; lia|]);
      intros [|[|[|i]]] Hi; unfold vnth; simpl; unfold vnth; simpl; try lra; simpl in Hi; lia. Qed.

(** ** C24  Differentiation matrix *)

(** Every power of the matrix, applied to the node values of any polynomial of degree < n. *)
Theorem C24_exact :
  forall rr, real_roots_ok rr -> forall s N n nd ys c k i, In s all_schemes -> enough_points s N -> n_col_to_n_nodes s N = Ok n ->
  node_points rr n s = Ok nd -> interpolates nd ys c -> length ys = n -> (i < n)%nat ->
  exists D, matrix_D_bary rr n s = Ok D /\ shaped n n D /\
    mget (mmul (mpow D k) (map (fun y => [y]) ys)) i 0 = Derive_n (peval c) k (vnth nd i) /\
    vsum (mrow i D) = 0.
Proof. exact (D_exact). Qed.
Print Assumptions C24_exact.

Example C24_hypotheses rr : node_points rr 3 "CGL" = Ok [-1; 0; 1] /\ n_col_to_n_nodes "CGL" 3 = Ok 3%nat /\
  interpolates [-1; 0; 1] [1; 0; 1] [0; 0; 1].
Proof. split; [|split; [reflexivity|]].
  - cbv [node_points coll_points mem existsb String.eqb Ascii.eqb Bool.eqb orb gauss_like gauss_inv gauss_2 radau_like radau_inv lobato_like other_schemes map app String.append].
    now rewrite CGL_3.
  - split; [simpl; lia|]. intros [|[|[|i]]] Hi; unfold vnth; simpl; [lra|lra|lra|simpl in Hi; lia]. Qed.

(** ** C25  Values at the ends *)

Theorem C25_controls :
  forall rr, real_roots_ok rr -> forall s N order point p, In s all_schemes -> enough_points s N ->
  In (point, p) [("start"%string, -1); ("end"%string, 1)] ->
  exists ts f, coll_points rr N s order = Ok ts /\ get_bary_extreme_f rr s N "u" point order = Ok f /\
    forall coefs c, length coefs = length ts -> interpolates ts coefs c -> run_extreme f coefs = Ok (peval c p).
Proof. exact (extreme_u). Qed.
Print Assumptions C25_controls.

(** Only for orders up to 2; above, the Gauss schemes fail (next theorem). *)
Theorem C25_states_partial :
  forall rr, real_roots_ok rr -> forall s N n order point p, In s all_schemes -> enough_points s N -> n_col_to_n_nodes s N = Ok n ->
  In (point, p) [("start"%string, -1); ("end"%string, 1)] -> (order <= 2)%nat ->
  exists ts f, node_points rr n s = Ok ts /\ get_bary_extreme_f rr s n "x" point order = Ok f /\
    forall coefs c, length coefs = length ts -> interpolates ts coefs c -> run_extreme f coefs = Ok (peval c p).
Proof. exact (extreme_x). Qed.
Print Assumptions C25_states_partial.

Theorem C25_states_refuted :
  forall rr s N order, (2 < order)%nat -> (0 < N)%nat ->
  (In s gauss_inv_schemes -> get_bary_extreme_f rr s N "x" "start" order = Err ValueError) /\
  (In s gauss_schemes -> get_bary_extreme_f rr s N "x" "end" order = Err ValueError).
Proof. exact (extreme_x_order3). Qed.
Print Assumptions C25_states_refuted.

Theorem C25_end_derivative :
  forall rr, real_roots_ok rr -> forall s N n coefs c nd, In s all_schemes -> enough_points s N -> n_col_to_n_nodes s N = Ok n ->
  node_points rr n s = Ok nd -> length coefs = n -> interpolates nd coefs c ->
  diff_end_p_fun rr n s coefs = Ok (Derive (peval c) 1).
Proof. exact (diff_end). Qed.
Print Assumptions C25_end_derivative.

(** The start derivative is taken in the middle of the interval. *)
Theorem C25_start_derivative_refuted :
  forall rr, real_roots_ok rr -> exists coefs c, node_points rr 3 "CGL" = Ok [-1; 0; 1] /\
  interpolates [-1; 0; 1] coefs c /\ diff_start_p_fun rr 3 "CGL" coefs = Ok 0 /\ Derive (peval c) (-1) = -2.
Proof. exact (fun rr _ => diff_start_wrong rr). Qed.
Print Assumptions C25_start_derivative_refuted.

(** The first and last control of a problem are those of the control polynomial. *)
Theorem C25_problem_controls :
  forall rr, real_roots_ok rr -> forall p cl u m U, In (ps_scheme p) all_schemes -> enough_points (ps_scheme p) (ps_n_coll p) ->
  ps_t_start p <> ps_t_end p ->
  (In (ps_scheme p) jacobi_schemes -> ps_order p = 2%nat) ->
  coll_points rr (ps_n_coll p) (ps_scheme p) 2 = Ok cl -> shaped (ps_n_coll p) m u -> length U = m ->
  traj_through (t_of p cl) u U ->
  u_s rr p u = Ok (state_at U (ps_t_start p)) /\ u_e rr p u = Ok (state_at U (ps_t_end p)).
Proof. exact (u_ends_ok). Qed.
Print Assumptions C25_problem_controls.

(** Not so for the Jacobi schemes when the order is not 2: two different sets of points are used. *)
Theorem C25_problem_controls_refuted :
  forall rr, real_roots_ok rr -> exists s, opti_setup rr ex_jacobi = Ok s /\
  u_e rr ex_jacobi [[0]; [1]] = Ok [3 / 2] /\
  forall U, interpolates (t_of ex_jacobi (pset_tau_col s)) [0; 1] U -> peval U 1 = 2.
Proof. exact (jacobi_end_control). Qed.
Print Assumptions C25_problem_controls_refuted.

(** ** C26  Meaning of the collocation constraints *)

Theorem C26_sound :
  forall rr, real_roots_ok rr -> forall dyn p w s cs,
  In (ps_scheme p) all_schemes /\ enough_points (ps_scheme p) (ps_n_coll p) /\
  (1 <= ps_order p)%nat /\ (1 <= ps_n_q p)%nat /\ ps_t_start p <> ps_t_end p /\
  (In (ps_scheme p) second_order_schemes -> ps_order p = 2%nat) /\
  (In (ps_scheme p) (gauss_schemes ++ gauss_inv_schemes) -> (ps_order p <= 2)%nat) ->
  opti_setup rr p = Ok s ->
  shaped (pset_n_arr s) (ps_order p * ps_n_q p) (pv_x w) ->
  shaped (pset_n_arr s) (ps_order p * ps_n_q p) (pv_x_d w) ->
  (In (ps_scheme p) second_order_schemes -> residual_has_velocity (ps_n_q p) dyn) ->
  apply_scheme rr dyn p w = Ok cs -> satisfied cs ->
  exists P, length P = (ps_order p * ps_n_q p)%nat /\
    collocation_solution dyn (pset_n_nodes s) (ps_n_q p) (t_of p (pset_tau s)) (t_of p (pset_tau_col s))
      (pv_x w) (mlastcols (ps_n_q p) (pv_x_d w)) (pv_u w) (pv_lam w) P.
Proof. exact (apply_sound). Qed.
Print Assumptions C26_sound.

(** Conversely, a polynomial solution satisfies the constraints: none of them is too strong. *)
Theorem C26_complete :
  forall rr, real_roots_ok rr -> forall dyn p w s P,
  In (ps_scheme p) all_schemes /\ enough_points (ps_scheme p) (ps_n_coll p) /\
  (1 <= ps_order p)%nat /\ (1 <= ps_n_q p)%nat /\ ps_t_start p <> ps_t_end p /\
  (In (ps_scheme p) second_order_schemes -> ps_order p = 2%nat) /\
  (In (ps_scheme p) (gauss_schemes ++ gauss_inv_schemes) -> (ps_order p <= 2)%nat) ->
  opti_setup rr p = Ok s ->
  shaped (pset_n_arr s) (ps_order p * ps_n_q p) (pv_x w) ->
  shaped (pset_n_arr s) (ps_order p * ps_n_q p) (pv_x_d w) ->
  length P = (ps_order p * ps_n_q p)%nat ->
  collocation_solution dyn (pset_n_nodes s) (ps_n_q p) (t_of p (pset_tau s)) (t_of p (pset_tau_col s))
      (pv_x w) (mlastcols (ps_n_q p) (pv_x_d w)) (pv_u w) (pv_lam w) P ->
  (forall i, (i < pset_n_arr s)%nat -> mrow i (pv_x_d w) = rate_at P (vnth (t_of p (pset_tau s)) i)) ->
  (In (ps_scheme p) second_order_schemes -> forall i, (i < pset_n_arr s)%nat ->
     slice (ps_n_q p) (2 * ps_n_q p) (mrow i (pv_x w)) = slice 0 (ps_n_q p) (mrow i (pv_x_d w))) ->
  exists cs, apply_scheme rr dyn p w = Ok cs /\ satisfied cs.
Proof. exact (apply_complete). Qed.
Print Assumptions C26_complete.

(** Problems of order 3 or more cannot be transcribed with the Gauss schemes. *)
Theorem C26_order3_refuted :
  forall rr, real_roots_ok rr -> forall dyn p w, In (ps_scheme p) (gauss_schemes ++ gauss_inv_schemes) ->
  enough_points (ps_scheme p) (ps_n_coll p) -> (2 < ps_order p)%nat ->
  apply_scheme rr dyn p w = Err ValueError.
Proof. exact (apply_order3_fails). Qed.
Print Assumptions C26_order3_refuted.

(** For every scheme that takes order 1 there are values that satisfy all the constraints of a moving system. *)
Example C26_hypotheses :
  forall rr s n, real_roots_ok rr -> In s all_schemes -> ~ In s second_order_schemes -> enough_points s n ->
  ps_valid (ex_line s n) /\
  exists st w cs, opti_setup rr (ex_line s n) = Ok st /\
    shaped (pset_n_arr st) 1 (pv_x w) /\ shaped (pset_n_arr st) 1 (pv_x_d w) /\
    apply_scheme rr ex_dyn (ex_line s n) w = Ok cs /\ satisfied cs /\ (n <= length cs)%nat /\
    mrow 0 (pv_x w) <> mrow (pset_n_arr st - 1) (pv_x w).
Proof. exact (ex_line_solved). Qed.

(** Second order dynamics written as x_d - [v; u]. *)
Example C26_hypotheses_second_order :
  residual_has_velocity 1 (fun x x_d u lam => x_d -v [vnth x 1; vnth u 0]).
Proof. exact (ex_velocity). Qed.

(** ** C66  Polynomial interpolation of a solution *)

Theorem C66_states_and_controls :
  forall rr, real_roots_ok rr -> forall s N n t0 t1 qq vv uu m1 m3 Q V U nd cl t,
  In s all_schemes -> enough_points s N -> n_col_to_n_nodes s N = Ok n -> t0 <> t1 ->
  shaped n m1 qq -> shaped n m1 vv -> shaped N m3 uu ->
  node_points rr n s = Ok nd -> coll_points rr N s 2 = Ok cl ->
  length Q = m1 -> length V = m1 -> length U = m3 ->
  traj_through (tau_to_t_points nd t0 t1) qq Q -> traj_through (tau_to_t_points nd t0 t1) vv V ->
  traj_through (tau_to_t_points cl t0 t1) uu U ->
  interpolations_pseudospectral rr qq vv uu s t0 t1 "pol" "pol" t =
    Ok (state_at Q t, rate_at Q t, state_at V t, rate_at V t, rate_n_at 2 Q t, state_at U t).
Proof. exact (interp_pol). Qed.
Print Assumptions C66_states_and_controls.

Theorem C66_derivatives :
  forall rr, real_roots_ok rr -> forall s N n t0 t1 xx m P nd k t,
  In s all_schemes -> enough_points s N -> n_col_to_n_nodes s N = Ok n -> t0 <> t1 -> shaped n m xx ->
  node_points rr n s = Ok nd -> length P = m -> traj_through (tau_to_t_points nd t0 t1) xx P ->
  interpolations_deriv_pseudospectral rr xx s k t0 t1 "pol" t = Ok (rate_n_at k P t).
Proof. exact (interp_deriv_pol). Qed.
Print Assumptions C66_derivatives.

(** ** C67  Linear interpolation of a solution *)

(** For the schemes whose arrays are not extended, the samples are reproduced. *)
Theorem C67_states_at_nodes_partial :
  forall rr, real_roots_ok rr -> forall s N n t0 t1 qq vv uu m1 m3 U nd cl i,
  In s not_extended -> enough_points s N -> n_col_to_n_nodes s N = Ok n -> t0 < t1 -> (2 <= n)%nat ->
  shaped n m1 qq -> shaped n m1 vv -> shaped N m3 uu ->
  node_points rr n s = Ok nd -> coll_points rr N s 2 = Ok cl ->
  length U = m3 -> traj_through (tau_to_t_points cl t0 t1) uu U -> (i < n)%nat ->
  exists qd vd z, interpolations_pseudospectral rr qq vv uu s t0 t1 "pol" "lin" (vnth (tau_to_t_points nd t0 t1) i)
    = Ok (mrow i qq, qd, mrow i vv, vd, z, state_at U (vnth (tau_to_t_points nd t0 t1) i)).
Proof. exact (interp_lin_nodes). Qed.
Print Assumptions C67_states_at_nodes_partial.

(** The last node is at the final time 1 with value 1, yet -1 is returned there. *)
Theorem C67_inverted_gauss_refuted :
  forall rr, real_roots_ok rr -> exists qd v vd z u,
  interpolations_pseudospectral rr [[0]; [1]] [[0]; [0]] [[0]] "CG_inv" 0 1 "pol" "lin" 1
    = Ok ([-1], qd, v, vd, z, u).
Proof. exact (lin_inv_wrong). Qed.
Print Assumptions C67_inverted_gauss_refuted.

(** Linear interpolation of the controls fails for every scheme with more nodes than collocation points. *)
Theorem C67_controls_refuted :
  forall rr, real_roots_ok rr -> forall s N n t0 t1 qq vv uu m1 m3 x_interp t,
  In s all_schemes -> enough_points s N -> n_col_to_n_nodes s N = Ok n -> n <> N ->
  shaped n m1 qq -> shaped N m3 uu ->
  interpolations_pseudospectral rr qq vv uu s t0 t1 "lin" x_interp t = Err ValueError.
Proof. exact (interp_lin_controls). Qed.
Print Assumptions C67_controls_refuted.

(** From 0 to 1 in unit time, and a slope of 1/2 reported. *)
Theorem C67_slope_refuted :
  forall rr,
  interpolations_deriv_pseudospectral rr [[0]; [1]] "CGL" 0 0 1 "lin" 0 = Ok [0] /\
  interpolations_deriv_pseudospectral rr [[0]; [1]] "CGL" 0 0 1 "lin" 1 = Ok [1] /\
  interpolations_deriv_pseudospectral rr [[0]; [1]] "CGL" 1 0 1 "lin" (1 / 2) = Ok [1 / 2].
Proof. exact (lin_slope_wrong). Qed.
Print Assumptions C67_slope_refuted.

(** ** C53  Dynamic error *)

(** A trajectory that obeys q'' = g(q) all over the horizon [0, 1] gets a non-zero error, because the error is computed at the single time t = n_interp. *)
Theorem C53_pseudospectral_refuted :
  forall rr, real_roots_ok rr -> 
  (forall t, 0 <= t <= 1 ->
     interpolations_pseudospectral rr [[0]; [1]] [[1]; [1]] [[0]; [0]] "CGL" 0 1 "pol" "pol" t
       = Ok ([t], [1], [1], [0], [0], [0]) /\ ex_g [t] [1] [0] = [0]) /\
  dynamic_error_pseudospectral rr [[0]; [1]] [[1]; [1]] [[0]; [0]] "CGL" 0 1 "pol" "pol" ex_g 2
    = Ok ([0], [-1], [-1]).
Proof. exact (dynamic_error_wrong). Qed.
Print Assumptions C53_pseudospectral_refuted.
