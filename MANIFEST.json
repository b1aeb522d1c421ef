{
 "claims": [
  {
   "property": "C01",
   "status": "partial",
   "theorems": [
    "C01_euler",
    "C01_rk4",
    "C01_trapz",
    "C01_trapz_mod",
    "C01_hs",
    "C01_hs_mod",
    "C01_hsj",
    "C01_hs_parab",
    "C01_hs_mod_parab",
    "C01_hsj_parab",
    "C01_single_row_refuted",
    "C01_single_row_others_refuted"
   ],
   "note": "The code violates the claim for a 2-D tape of one row with several controls (IndexError, *_refuted); it is proved for every other non-empty tape. Empty midpoint tapes raise."
  },
  {
   "property": "C02",
   "status": "proved",
   "theorems": [
    "C02_euler",
    "C02_rk4",
    "C02_rk4_given_mid",
    "C02_trapz",
    "C02_trapz_mod",
    "C02_hs",
    "C02_hs_mod",
    "C02_hsj",
    "C02_hs_parab",
    "C02_hs_mod_parab",
    "C02_hsj_parab"
   ],
   "note": "Later rows cannot change earlier states, for every scheme; the midpoint tape included."
  },
  {
   "property": "C03",
   "status": "partial",
   "theorems": [
    "C03_euler",
    "C03_rk4_constant_partial",
    "C03_rk4_refuted",
    "C03_trapz",
    "C03_hs",
    "C03_hs_parab",
    "C03_trapz_mod",
    "C03_hs_mod_parab",
    "C03_hsj_parab",
    "C03_hs_mod",
    "C03_hsj",
    "C03_simulated_trapz",
    "C03_simulated_hs",
    "C03_simulated_trapz_mod",
    "C03_simulated_hs_mod",
    "C03_simulated_hsj",
    "C03_simulated_hs_parab",
    "C03_simulated_hs_mod_parab",
    "C03_simulated_hsj_parab"
   ],
   "note": "Proved for every scheme except RK4, whose restriction ignores the next control: proved for constant control, refuted otherwise."
  },
  {
   "property": "C04",
   "status": "proved",
   "theorems": [
    "C04_euler",
    "C04_trapz",
    "C04_hs",
    "C04_trapz_mod",
    "C04_hs_mod",
    "C04_hsj"
   ],
   "note": "All six pairs."
  },
  {
   "property": "C05",
   "status": "proved",
   "theorems": [
    "C05_hs",
    "C05_hs_mod",
    "C05_hsj"
   ],
   "note": "hs, hs_mod, hsj."
  },
  {
   "property": "C06",
   "status": "proved",
   "theorems": [
    "C06_trapz_1",
    "C06_trapz_2",
    "C06_hs_half_1",
    "C06_hs_half_2",
    "C06_hs_1",
    "C06_hs_2"
   ],
   "note": "M=1 and M=2."
  },
  {
   "property": "C07",
   "status": "proved",
   "theorems": [
    "C07_trapz",
    "C07_trapz_zero",
    "C07_hs",
    "C07_hs_zero",
    "C07_hs_half",
    "C07_motions_exist"
   ],
   "note": "Every M and n."
  },
  {
   "property": "C08",
   "status": "proved",
   "theorems": [
    "C08_trapz",
    "C08_hs",
    "C08_hsj"
   ],
   "note": "Every derivative order for trapz/hs; orders 1 and 2 for hsj, the only ones the code offers."
  },
  {
   "property": "C09",
   "status": "proved",
   "theorems": [
    "C09_trapz",
    "C09_hs",
    "C09_hsj"
   ],
   "note": ""
  },
  {
   "property": "C10",
   "status": "partial",
   "theorems": [
    "C10_C13_interpolated_trajectory",
    "C10_trapz_m",
    "C10_hs_m",
    "C10_hsj",
    "C10_hsn_refuted"
   ],
   "note": "Proved through the API for every scheme but hsn, which is refuted."
  },
  {
   "property": "C11",
   "status": "proved",
   "theorems": [
    "C11_trapz",
    "C11_hs",
    "C11_hs_top"
   ],
   "note": ""
  },
  {
   "property": "C12",
   "status": "partial",
   "theorems": [
    "C12_hits_samples",
    "C12_rejects_later_times",
    "C12_segment",
    "C12_valid_times_answered",
    "C12_negative_times_refuted"
   ],
   "note": "Proved for times in [0, T]; negative times are answered with wrong samples (refuted)."
  },
  {
   "property": "C13",
   "status": "proved",
   "theorems": [
    "C10_C13_interpolated_trajectory"
   ],
   "note": "Part of the same theorem as C10."
  },
  {
   "property": "C14",
   "status": "proved",
   "theorems": [
    "C14_nodes",
    "C14_quadratic",
    "C14_linear_samples",
    "C14_linear_exact"
   ],
   "note": "lin, parab, parab_j; pseudospectral control schemes are covered by C23."
  },
  {
   "property": "C15",
   "status": "partial",
   "theorems": [
    "C15_kept_partial",
    "C15_refuted"
   ],
   "note": "Refuted by a two-call history; proved for schemes that do not fill missing arrays."
  },
  {
   "property": "C16",
   "status": "partial",
   "theorems": [
    "C16_G_numpy_partial",
    "C16_G_order_refuted",
    "C16_G_one_refuted",
    "C16_G_casadi_exactly_partial",
    "C16_layouts_partial",
    "C16_samples_partial",
    "C16_layouts_order_refuted",
    "C16_samples_order_refuted",
    "C16_expand_casadi",
    "C16_expand_numpy_partial",
    "C16_expand_numpy_refuted",
    "C16_reduce_expand",
    "C16_expand_reduce"
   ],
   "note": "casadi mode of expand_F for all orders; numpy mode only order 2, exactly for the layouts of one acceleration array per state, refuted for other orders. expand_G ignores the order: right only for order 2 (casadi: also one coordinate of order 3), refuted otherwise."
  },
  {
   "property": "C17",
   "status": "proved",
   "theorems": [
    "C17_blocks",
    "C17_concat",
    "C17_reunite"
   ],
   "note": ""
  },
  {
   "property": "C18",
   "status": "partial",
   "theorems": [
    "C18_state_mode_x",
    "C18_state_mode_q_refuted"
   ],
   "note": "state_mode x proved; state_mode q never returns (refuted)."
  },
  {
   "property": "C19",
   "status": "proved",
   "theorems": [
    "C19_ends",
    "C19_affine",
    "C19_increasing",
    "C19_inverse",
    "C19_function"
   ],
   "note": "Over exact reals."
  },
  {
   "property": "C20",
   "status": "proved",
   "theorems": [
    "C20_bookkeeping",
    "C20_setup",
    "C20_setup_order",
    "C20_unknown_scheme"
   ],
   "note": "For the 20 scheme names and every number of points >= 1 (>= 2 for Lobatto sets). sympy's real_roots is a parameter with its documented behaviour."
  },
  {
   "property": "C21",
   "status": "proved",
   "theorems": [
    "C21_collocation_points",
    "C21_node_points",
    "C21_oracle_exists"
   ],
   "note": "Proved for all the schemes, Legendre and Jacobi included (roots of Jacobi polynomials by Rodrigues' formula and Rolle), not only Chebyshev. The oracle hypothesis is shown satisfiable."
  },
  {
   "property": "C22",
   "status": "partial",
   "theorems": [
    "C22_bottom_up",
    "C22_basis",
    "C22_polynomial",
    "C22_unique",
    "C22_unit_off_points_partial",
    "C22_unit_at_points_refuted"
   ],
   "note": "lag_pol and lagrangePolynomial proved. unit_Lag_pol is right away from its points and returns a matrix row instead of a number at every one of them (refuted)."
  },
  {
   "property": "C23",
   "status": "partial",
   "theorems": [
    "C23_value",
    "C23_sample",
    "C23_rows",
    "C23_weights",
    "C23_vector_interpolator_partial",
    "C23_vector_interpolator_refuted"
   ],
   "note": "bary_poly and bary_poly_2d proved. vector_interpolator only off the source points; it fails on a shared point (refuted)."
  },
  {
   "property": "C24",
   "status": "proved",
   "theorems": [
    "C24_exact"
   ],
   "note": "Every power of the matrix on every polynomial of degree < n."
  },
  {
   "property": "C25",
   "status": "partial",
   "theorems": [
    "C25_C28_C29_controls",
    "C25_controls",
    "C25_states_partial",
    "C25_states_refuted",
    "C25_end_derivative",
    "C25_start_derivative_refuted",
    "C25_problem_controls",
    "C25_problem_controls_refuted"
   ],
   "note": "Controls and end derivative proved; states only up to order 2, above that Gauss schemes raise (refuted); the start derivative is taken at tau = 0 (refuted); problem controls with Jacobi sets and order other than 2 use two different point sets (refuted)."
  },
  {
   "property": "C26",
   "status": "proved",
   "theorems": [
    "C26_sound",
    "C26_complete",
    "C26_order3_refuted"
   ],
   "note": "Soundness and completeness of the constraints for orders the class accepts; Gauss schemes of order > 2 raise (C26_order3_refuted)."
  },
  {
   "property": "C27",
   "status": "partial",
   "theorems": [
    "C27_integration",
    "C27_integration_data",
    "C27_extreme",
    "C27_order_rejected",
    "C27_point_rejected",
    "C27_single_point_refuted",
    "C27_Lag_integ"
   ],
   "note": "Proved for every order, scheme, interval and polynomial data, except the Gauss schemes with a single collocation point, where the code raises ValueError (refuted)."
  },
  {
   "property": "C28",
   "status": "partial",
   "theorems": [
    "C28_constraints",
    "C28_C53_solution",
    "C28_interpolation_derivatives",
    "C25_C28_C29_controls",
    "C28_single_point_refuted",
    "C28_interpolation_jacobi_refuted"
   ],
   "note": "The constraints are equivalent to collocation for all schemes, orders and dynamics, except the Gauss schemes with one point, which raise. Interpolation proved for the Legendre and Chebyshev schemes and for order 2; for Jacobi schemes of another order it uses the wrong points (refuted)."
  },
  {
   "property": "C29",
   "status": "proved",
   "theorems": [
    "C25_C28_C29_controls",
    "C29_constraints",
    "C29_C53_solution",
    "C29_interpolation_derivatives"
   ],
   "note": "The constraints are equivalent to collocation for all schemes, orders and dynamics; the interpolation follows the same polynomial."
  },
  {
   "property": "C30",
   "status": "proved",
   "theorems": [
    "C30_oracle_exists",
    "C30_oracle_unique",
    "C30_gauss_integral",
    "C30_gauss_integral_2d",
    "C30_gauss_rep_integral",
    "C30_poly_integral",
    "C30_poly_integral_2d",
    "C30_poly_integral_2d_default",
    "C30_Lag_integ_2d"
   ],
   "note": "gauss_integral, gauss_integral_2d, gauss_rep_integral (f2d=False, the only form used), poly_integral, poly_integral_2d and Lag_integ_2d. numpy's leggauss is a parameter with its documented behaviour, shown satisfiable."
  },
  {
   "property": "C31",
   "status": "proved",
   "theorems": [
    "C31_weights",
    "C31_weights_x",
    "C31_weights_x_points",
    "C31_mode",
    "C31_LG_positive",
    "C31_C68_weights"
   ],
   "note": "Modes u and x, all schemes; unknown modes are rejected."
  },
  {
   "property": "C32",
   "status": "partial",
   "theorems": [
    "C32_u_sq_linear",
    "C32_u_sq_parab",
    "C32_u_sq_hsj_parab",
    "C32_u_sq_hsj_parab_mod",
    "C32_quad_cost_mid",
    "C32_quad_cost_refuted",
    "C32_sq_cost",
    "C32_sq_cost_default_refuted",
    "C32_constant"
   ],
   "note": "u_sq_cost of every equispaced scheme and quad_cost/sq_cost with middle values are the integrals. Refuted: quad_cost without middle values is twice the integral; sq_cost without them raises RuntimeError."
  },
  {
   "property": "C33",
   "status": "proved",
   "theorems": [
    "C33_exact_integration"
   ],
   "note": ""
  },
  {
   "property": "C34",
   "status": "partial",
   "theorems": [
    "C34_quad_cost_refuted",
    "C34_quad_cost",
    "C34_u_sq_pseudospectral_refuted",
    "C34_quad_cost_state",
    "C34_quad_cost_LG",
    "C34_u_sq_cost",
    "C34_shape",
    "C34_trapz_cost",
    "C34_trapz_value",
    "C34_trapz_cost_refuted",
    "C34_trapz_chebyshev_refuted"
   ],
   "note": "The English claim is false of the code: the costs are twice the integral and trapz_cost is a trapezoidal rule with shifted lengths, wrong even on constants. Proved: the exact value of quad_cost, u_sq_cost and trapz_cost for every scheme, size and array."
  },
  {
   "property": "C35",
   "status": "partial",
   "theorems": [
    "C35_u_sq_cost_sum",
    "C35_u_sq_cost_single",
    "C35_u_sq_cost",
    "C35_always_squared_refuted",
    "C35_quad_cost",
    "C35_squared_ignored_refuted",
    "C35_state_rows_refuted"
   ],
   "note": "u_sq_cost proved as the sum over segments. Refuted: quad_cost always squares and fails on state arrays; trapz_cost raises AttributeError."
  },
  {
   "property": "C36",
   "status": "partial",
   "theorems": [
    "C36_accepted",
    "C36_rejected",
    "C36_unambiguous",
    "C36_dynamics",
    "C36_documented_partial",
    "C36_documented_refuted",
    "C36_no_dynamics_refuted",
    "C36_C38_euler_refuted"
   ],
   "note": "For all strings: accepted exactly if it is one of the listed names, with the right class and mode; otherwise NotImplementedError. Refuted: the documented BU_LG_inv is rejected; unknown dynamics objects are accepted."
  },
  {
   "property": "C37",
   "status": "partial",
   "theorems": [
    "C37_usable",
    "C37_history_independent",
    "C37_without_opti_setup_partial",
    "C37_without_dynamic_setup_partial",
    "C37_rejected_setup_changes_nothing",
    "C37_other_problems",
    "C37_pseudospectral_refuted",
    "C37_cost_refuted",
    "C37_equispaced_refuted",
    "C37_multi_trapz_refuted",
    "C37_no_dynamics_refuted",
    "C37_stale_cost_refuted"
   ],
   "note": "For all histories of calls on any number of problems, with calls that stop half way: no order error after the two set-ups, and results as for a new problem. RuntimeError proved for the methods that check. Refuted: single-segment pseudospectral set-up and several cost methods raise AttributeError; a rejected equispaced set-up leaves half a set-up; multi-segment trapz_cost never works; an old cost survives a new set-up."
  },
  {
   "property": "C38",
   "status": "partial",
   "theorems": [
    "C38_trapz",
    "C38_trapz_n",
    "C38_trapz_mod_partial",
    "C38_hs",
    "C38_hsn",
    "C38_hs_mod_partial",
    "C38_hsj_partial",
    "C38_third_order",
    "C38_second_order_refuted",
    "C38_node_times",
    "C38_middle_times",
    "C36_C38_euler_refuted"
   ],
   "note": "Iff for every N, order, dimension and value: the constraints hold exactly if the dynamics hold at every node and interior point and in every interval the motion of the scheme joins the two ends (through the interior point). The schemes designed for second order (mod, hsj) are proved for order 2; with a system of third order they freeze the velocity (C38_third_order), so they refuse motions of the system (C38_second_order_refuted). Refuted for euler: accepted at construction, KeyError in apply_scheme."
  },
  {
   "property": "C39",
   "status": "partial",
   "theorems": [
    "C39_arrays",
    "C39_times",
    "C39_increasing_refuted"
   ],
   "note": "Proved in full except for strict increase: with a collocation point at an end of its segment (Radau, Lobatto, D2) the time of the knot is there twice, which C39_increasing_refuted shows for every such problem. The times are always non-decreasing and the rest of the property holds."
  },
  {
   "property": "C40",
   "status": "partial",
   "theorems": [
    "C40_td",
    "C40_bu",
    "C40_ps_sound_partial",
    "C40_ps_complete_partial",
    "C40_meet",
    "C40_meet_state",
    "C40_D2_refuted",
    "C40_jacobi_refuted"
   ],
   "note": "Exact characterisation of feasible points for top-down and bottom-up problems; soundness and completeness for pseudospectral ones. False for D2 (C40_D2_refuted: the state jumps) and for Jacobi schemes when the dynamics are not of order 2 (C40_jacobi_refuted)."
  },
  {
   "property": "C41",
   "status": "partial",
   "theorems": [
    "C41_accepted_partial",
    "C41_rejected_refuted",
    "C41_equal_knots_refuted",
    "C41_counts_refuted"
   ],
   "note": "The exact set of accepted structures is proved. The English property is false in three ways: the error is AssertionError, equal knots are accepted, and so are numbers of points that are not positive."
  },
  {
   "property": "C42",
   "status": "partial",
   "theorems": [
    "C42_linear",
    "C42_line_start",
    "C42_line_end",
    "C42_hsj_refuted",
    "C42_float_refuted",
    "C42_waypoints",
    "C42_waypoint_hit",
    "C42_polyline_unique",
    "C42_straight",
    "C42_zero_partial",
    "C42_zero_refuted",
    "C42_custom",
    "C42_custom_a_refuted",
    "C42_custom_td",
    "C42_custom_hs",
    "C42_custom_ph_partial",
    "C42_custom_ph_refuted",
    "C42_held_unique"
   ],
   "note": "Proved for problems of every class, at all the points. False at the interior points of the hsj schemes (C42_hsj_refuted), for numbers as positions (C42_float_refuted), and the zero guess fails in equispaced problems of order 1 (C42_zero_refuted). Custom guesses are proved for problems of one and of several segments; the accelerations given are dropped at the nodes of equispaced problems (C42_custom_a_refuted). With several segments the knots and ends get no initial controls and the positions of the constraints none (C42_custom_ph_partial, C42_custom_ph_refuted)."
  },
  {
   "property": "C43",
   "status": "proved",
   "theorems": [
    "C43_length",
    "C43_distinct",
    "C43_prefix",
    "C43_values"
   ],
   "note": ""
  },
  {
   "property": "C44",
   "status": "partial",
   "theorems": [
    "C44_function",
    "C44_symbolic_partial",
    "C44_symbolic_refuted",
    "C44_kind_f_x",
    "C44_kind_g_q_partial",
    "C44_kind_f_x_impl",
    "C44_kind_g_q_impl",
    "C44_kind_g_q_refuted",
    "C44_kinds_accepted"
   ],
   "note": "Function dynamics: own arguments for all histories, and the four kinds vanish exactly on the solutions (g_q only for order 2, refuted otherwise). Lagrangian dynamics: own arguments only for the first set-up of the object; refuted afterwards (the arguments of later calls are ignored)."
  },
  {
   "property": "C45",
   "status": "partial",
   "theorems": [
    "C45_vector",
    "C45_matrix_partial",
    "C45_entries",
    "C45_dimensions",
    "C45_back_numbers",
    "C45_back_columns",
    "C45_one_row_refuted",
    "C45_empty_refuted",
    "C45_number_refuted"
   ],
   "note": "Proved for 1-D arrays with a component and 2-D arrays with a column and a number of rows other than one; false for one row, no components, and numbers."
  },
  {
   "property": "C46",
   "status": "partial",
   "theorems": [
    "C46_integral",
    "C46_integral_affine",
    "C46_derivative_partial",
    "C46_derivative_affine_refuted",
    "C46_derivative_of_integral",
    "C46_derivative_2d",
    "C46_derivative_short_refuted",
    "C46_integral_2d_refuted",
    "C46_integral_2x2_refuted",
    "C46_integers_refuted"
   ],
   "note": "Integral of 1-D data proved, exact on affine data. The derivative has the wrong sign at the last sample (refuted), the integral of 2-D arrays uses the wrong axis (refuted), arrays of integers are truncated (refuted)."
  },
  {
   "property": "C47",
   "status": "proved",
   "theorems": [
    "C47_transparent",
    "C47_key",
    "C47_binding",
    "C47_wrong_call",
    "C47_call_is_history",
    "C47_unhashable_refuted"
   ],
   "note": "Model of store_results step by step (numpy.py:238-306), pickle abstract (a complete file gives the dictionary back, an incomplete one cannot be read). Proved for every sequence of whole calls by any argument style. The hypotheses needed and the finding: arguments without a hash are refused (C47_unhashable_refuted); results must be picklable and functions may not tell == arguments apart (see C49)."
  },
  {
   "property": "C48",
   "status": "partial",
   "theorems": [
    "C48_crashes",
    "C48_one_go_partial",
    "C48_mixing_refuted",
    "C48_stuck_refuted",
    "C48_makedirs_refuted"
   ],
   "note": "Proved for crashes anywhere when no two processes are in calls of the same function, and for any interleaving when each file is written in one go. False in general: C48_mixing_refuted shows interleaved partial writes that give a wrong value. Also proved: an interrupted write makes every later call raise for ever, and two first calls can collide in makedirs."
  },
  {
   "property": "C49",
   "status": "partial",
   "theorems": [
    "C49_other_functions",
    "C49_other_arguments",
    "C49_same_name_refuted",
    "C49_equal_arguments_refuted"
   ],
   "note": "Proved for functions of different names and arguments that are not ==; false for functions of the same name and for arguments that are == (1, 1.0, True)."
  },
  {
   "property": "C50",
   "status": "partial",
   "theorems": [
    "C50_structure",
    "C50_knots",
    "C50_max_partial",
    "C50_total",
    "C50_kept",
    "C50_increasing",
    "C50_shapes",
    "C50_bounds_refuted",
    "C50_min_refuted",
    "C50_negative_refuted",
    "C50_added",
    "C50_added_refuted"
   ],
   "note": "Proved for max_p >= 1 and consistent shapes: structure of every division, number of knots, total, old knots kept, increasing. The bound max_p needs min_p <= max_p. Refuted: segments that are not divided can have less than min_p points, even a negative number, which add_points asks for when the error is small."
  },
  {
   "property": "C51",
   "status": "partial",
   "theorems": [
    "C51_history_partial",
    "C51_returns",
    "C51_raises",
    "C51_not_silent_refuted",
    "C51_failed_refuted",
    "C51_limit_refuted"
   ],
   "note": "Proved for every behaviour of the solver: number of attempts, structure of each, when it stops, results returned, termination. Refuted: failed attempts are not in the log, the points added after failures ignore max_coll_points, and with the default silent=False the loop raises AttributeError."
  },
  {
   "property": "C52",
   "status": "partial",
   "theorems": [
    "C52_slices",
    "C52_motions_partial",
    "C52_states_partial"
   ],
   "note": "Proved for the results that C54 covers (top-down, bottom-up, pseudospectral extended to the ends): blocks, test points, errors and maxima. Missing: results outside C54."
  },
  {
   "property": "C53",
   "status": "partial",
   "theorems": [
    "C53_piecewise",
    "C53_piecewise_returns",
    "C53_zero",
    "C53_segments",
    "C53_state_segments",
    "C53_modes",
    "C53_norm",
    "C53_norm_zero",
    "C53_implicit",
    "C53_implicit_multipliers_refuted",
    "C53_bottom_up_times",
    "C53_top_down_times",
    "C53_top_down_lin_refuted",
    "C53_mode_x_refuted",
    "C53_top_down_mode_x_refuted",
    "C53_mode_rejected",
    "C53_top_down_mode_rejected",
    "C53_bottom_up_scheme_order_refuted",
    "C53_bottom_up_order_one_refuted",
    "C53_bottom_up_tanks_refuted",
    "C28_C53_solution",
    "C53_bottom_up",
    "C29_C53_solution",
    "C53_top_down",
    "C53_pseudospectral_refuted"
   ],
   "note": "The errors of piecewise solutions and of bottom-up, top-down and multi-segment solutions are the defect of the trajectory, and zero exactly when the equations hold; with arrays of times each row is the error at its time. Refuted parts: single-segment pseudospectral errors (C53_pseudospectral_refuted), generate_G with multipliers, dynamics_error_mode 'x' of the bottom-up and top-down families (the code indexes the name of the interpolation), bottom-up errors that depend on scheme_order or ask for a problem of order 1, and top-down errors with the interpolation 'lin' for problems of order 2 or more (C53_top_down_lin_refuted)."
  },
  {
   "property": "C54",
   "status": "partial",
   "theorems": [
    "C54_top_down_partial",
    "C54_bottom_up_partial",
    "C54_pseudospectral_partial",
    "C54_few_samples_refuted",
    "C54_not_extended_refuted",
    "C54_late_start_refuted",
    "C54_names"
   ],
   "note": "n samples, increasing, from the start to the end, each with the motion of its segment, whenever one of n equally spaced times falls in every segment before its end, and samples at two or more given times per segment. Refuted parts: numbers of samples that leave a segment with one sample are refused (arrays of one time come out with another shape and cannot be joined); schemes LG2, JG2, CG2, LGLm do not reach the ends; equispaced results that start after 0 cannot be interpolated."
  },
  {
   "property": "C55",
   "status": "partial",
   "theorems": [
    "C55_error_kept_partial",
    "C55_interpolations_refuted",
    "C55_row_partial",
    "C55_row_refuted",
    "C55_scheme_params_refuted"
   ],
   "note": "Only the error entry is kept: refuted for 'interpolations', for 'f' and for scheme_params."
  },
  {
   "property": "C56",
   "status": "partial",
   "theorems": [
    "C56_substitution",
    "C56_value",
    "C56_defined",
    "C56_distinct_partial",
    "C56_distinct_refuted",
    "C56_standard",
    "C56_standard_refuted"
   ],
   "note": "The substitutions are proved to be simultaneous for every expression and iteration order, and distinct symbols to get distinct names for all names without '_dot' that do not begin with v or a. Names that collide are shown in _refuted theorems."
  },
  {
   "property": "C57",
   "status": "partial",
   "theorems": [
    "C57_symbols",
    "C57_order",
    "C57_once_partial",
    "C57_once_numbered",
    "C57_params",
    "C57_multipliers",
    "C57_sorted",
    "C57_index_refuted",
    "C57_order_refuted",
    "C57_dynamic_refuted",
    "C57_overlap_refuted"
   ],
   "note": "Order independence is unconditional. Exactly-one-group needs the groups the user asks for not to overlap (always true for numbered ones); what goes wrong otherwise, and with control names, is in _refuted theorems."
  },
  {
   "property": "C58",
   "status": "partial",
   "theorems": [
    "C58_exactly",
    "C58_substitution_partial",
    "C58_value_partial",
    "C58_lengths",
    "C58_simultaneous_refuted"
   ],
   "note": "The substitution is simultaneous exactly when no coordinate is called x_i with i below its own number or x_n, ..., x_(2n-1) (C58_exactly, an equivalence); the sequential replacement is wrong otherwise (C58_simultaneous_refuted)."
  },
  {
   "property": "C59",
   "status": "partial",
   "theorems": [
    "C59_solves_partial",
    "C59_names_refuted"
   ],
   "note": "Proved for equations whose accelerations are called q_0''..q_(n-1)''; refuted for other numberings (zero column)."
  },
  {
   "property": "C60",
   "status": "proved",
   "theorems": [
    "C60_equation",
    "C60_mass",
    "C60_coriolis",
    "C60_gravity",
    "C60_skew",
    "C60_forcing"
   ],
   "note": ""
  },
  {
   "property": "C61",
   "status": "partial",
   "theorems": [
    "C61_complete_partial",
    "C61_keeps_partial",
    "C61_reduced",
    "C61_multipliers_unique",
    "C61_lambda_partial",
    "C61_lambda_refuted",
    "C61_offset_refuted",
    "C61_unconstrained"
   ],
   "note": "Accelerations right for constraints linear in the velocities; refuted with terms without velocities, and the multipliers are wrong when the mass matrix couples independent and dependent coordinates."
  },
  {
   "property": "C62",
   "status": "partial",
   "theorems": [
    "C62_recovered",
    "C62_accepted_partial",
    "C62_symbols_refuted"
   ],
   "note": "Matrices of numbers: recovered exactly when symmetric, and accepted exactly when the entries on and above the diagonal are numbers.  Matrices with symbols are refused with TypeError (C62_symbols_refuted)."
  },
  {
   "property": "C63",
   "status": "proved",
   "theorems": [
    "C63_total",
    "C63_forces",
    "C63_own"
   ],
   "note": ""
  },
  {
   "property": "C64",
   "status": "partial",
   "theorems": [
    "C64_labels_refuted",
    "C64_labels_distinct",
    "C64_long_labels_distinct",
    "C64_styles",
    "C64_styles_distinct",
    "C64_colours_refuted",
    "C64_segments",
    "C64_drawn",
    "C64_last_refuted",
    "C64_graph_last_refuted",
    "C64_legend",
    "C64_legend_refuted"
   ],
   "note": "The claim is false as stated: seven accepted schemes have no label (three of them documented), and the last sample of a curve is never drawn. Proved: exactly which accepted names have labels and colours, labels are injective over all strings, the pieces are exactly the samples of each part, each sample before the end once. graph_by_segments is modelled up to the pieces of one scheme."
  },
  {
   "property": "C65",
   "status": "proved",
   "theorems": [
    "C65_linear_dynamics",
    "C65_quadrature"
   ],
   "note": ""
  },
  {
   "property": "C66",
   "status": "proved",
   "theorems": [
    "C66_states_and_controls",
    "C66_derivatives"
   ],
   "note": "u_interp = x_interp = 'pol'."
  },
  {
   "property": "C67",
   "status": "partial",
   "theorems": [
    "C67_states_at_nodes_partial",
    "C67_inverted_gauss_refuted",
    "C67_controls_refuted",
    "C67_slope_refuted"
   ],
   "note": "State samples reproduced for 16 schemes; inverted Gauss schemes, control interpolation and the slopes are refuted."
  },
  {
   "property": "C68",
   "status": "proved",
   "theorems": [
    "C68_collocation_points",
    "C31_C68_weights"
   ],
   "note": ""
  },
  {
   "property": "C69",
   "status": "partial",
   "theorems": [
    "C69_rows_partial",
    "C69_vector",
    "C69_constant_refuted",
    "C69_all_constant_refuted",
    "C69_one_sample_refuted",
    "C69_mode_x",
    "C69_modes",
    "C69_mode_q",
    "C69_rejected"
   ],
   "note": "Expressions are trees of element-wise operations on numpy arrays. Proved when every component depends on a state or a control and there is not exactly one sample; false otherwise (refuted)."
  },
  {
   "property": "C70",
   "status": "partial",
   "theorems": [
    "C70_scaled_refuted"
   ],
   "note": "Refuted: the time is assumed to go from 0 to 2; for a horizon T the result is 2/T times the integral."
  },
  {
   "property": "C71",
   "status": "proved",
   "theorems": [
    "C71_power",
    "C71_conserved"
   ],
   "note": ""
  },
  {
   "property": "C72",
   "status": "partial",
   "theorems": [
    "C72_full",
    "C72_reduced",
    "C72_rhs_partial",
    "C72_rhs_refuted",
    "C72_lambda_partial",
    "C72_lambda_after",
    "C72_lambda_refuted",
    "C72_before"
   ],
   "note": "rhs and lambda_vector do depend on previous calls (refuted); the others do not."
  },
  {
   "property": "C73",
   "status": "partial",
   "theorems": [
    "C73_length",
    "C73_dynamics",
    "C73_constraints",
    "C73_states_partial",
    "C73_names_refuted"
   ],
   "note": "implicit_dynamics_q in full; implicit_dynamics_x for coordinates that do not clash with the states (x_clear) and are not called lam_k. With a clash it is wrong (C73_names_refuted)."
  },
  {
   "property": "C74",
   "status": "partial",
   "theorems": [
    "C74_matrix",
    "C74_recovers_partial",
    "C74_produces_partial",
    "C74_classes_agree",
    "C74_constraints",
    "C74_constraints_refuted",
    "C74_implicit_constraints_refuted"
   ],
   "note": "Without constraints right; with them the result is off by the pseudoinverse of the constraint forces (C74_constraints, and an example in C74_constraints_refuted), and ImplicitLagrangesMethod raises."
  },
  {
   "property": "C75",
   "status": "proved",
   "theorems": [
    "C75_poses",
    "C75_turning"
   ],
   "note": ""
  },
  {
   "property": "C76",
   "status": "proved",
   "theorems": [
    "C76_lagrangian",
    "C76_turning",
    "C76_natural",
    "C76_coordinates",
    "C76_power"
   ],
   "note": ""
  },
  {
   "property": "C77",
   "status": "proved",
   "theorems": [
    "C77_accepted",
    "C77_refused",
    "C77_end_effector"
   ],
   "note": ""
  },
  {
   "property": "C78",
   "status": "partial",
   "theorems": [
    "C78_order",
    "C78_distinct",
    "C78_add_refuted",
    "C78_dash_refuted",
    "C78_folder",
    "C78_folder_refuted"
   ],
   "note": "Proved for names without '-' (distinctness, no additional text) and without '/' (folder); refuted otherwise."
  },
  {
   "property": "C79",
   "status": "partial",
   "theorems": [
    "C79_value",
    "C79_any_x",
    "C79_any_q",
    "C79_every_argument",
    "C79_sizes",
    "C79_accepted",
    "C79_accepted_numbered",
    "C79_accepted_named",
    "C79_short_names_refuted",
    "C79_dynamic_controls_refuted"
   ],
   "note": "Proved for coordinates given by number or by a list of clean names. Refuted: coordinates called q1, q2, ... and controls given as dynamic symbols are taken for parameters, so the function does not depend on the arguments."
  },
  {
   "property": "C80",
   "status": "partial",
   "theorems": [
    "C80_motion",
    "C80_any",
    "C80_accepted",
    "C80_tuple_refuted",
    "C80_setup",
    "C80_setup_accepted"
   ],
   "note": "Proved for lists of coordinates and for a number of coordinates. Refuted: a tuple of coordinates is counted as one and refused."
  },
  {
   "property": "C81",
   "status": "partial",
   "theorems": [
    "C81_q",
    "C81_x",
    "C81_any_q",
    "C81_any_x",
    "C81_accepted_q",
    "C81_accepted_x",
    "C81_accepted_named",
    "C81_setup",
    "C81_setup_accepted",
    "C81_lagrange",
    "C81_params_refuted",
    "C81_controls_refuted",
    "C81_index_refuted"
   ],
   "note": "The functions are proved. Refuted: params_sym of an implicit problem includes accelerations that its functions do not take; u_vars are not used; f and g can disagree on the number of controls."
  },
  {
   "property": "C82",
   "status": "proved",
   "theorems": [
    "C82_accepted",
    "C82_errors",
    "C82_value",
    "C82_value_params",
    "C82_accel",
    "C82_trapezoidal"
   ],
   "note": ""
  },
  {
   "property": "C83",
   "status": "partial",
   "theorems": [
    "C83_accepted",
    "C83_vector_x",
    "C83_vector_q",
    "C83_samples",
    "C83_sizes_refuted",
    "C83_sym2fx",
    "C83_sym2fx_number_refuted"
   ],
   "note": "Values proved. Refuted: only the total number of entries is checked, and Sym2Fx with a number of states names them q_i, not x_i. Samples are proved where each right-hand side has a state or a control."
  },
  {
   "property": "C84",
   "status": "partial",
   "theorems": [
    "C84_roundtrip",
    "C84_row",
    "C84_samples",
    "C84_single_refuted"
   ],
   "note": "Refuted for samples of one number, taken for one sample."
  },
  {
   "property": "C85",
   "status": "partial",
   "theorems": [
    "C85_motion",
    "C85_energy",
    "C85_sizes",
    "C85_default_refuted"
   ],
   "note": "Motions proved with ten parameters. Refuted: the five default parameters always fail."
  },
  {
   "property": "C86",
   "status": "partial",
   "theorems": [
    "C86_same",
    "C86_implicit",
    "C86_failed",
    "C86_first",
    "C86_controls_refuted"
   ],
   "note": "Holds for implicit dynamics, and for explicit dynamics when all problems have the same u_vars or no earlier one could be set up. False otherwise: the object keeps the functions and numbers of the first problem that was set up, so the u_vars of later ones are ignored (C86_controls_refuted)."
  },
  {
   "property": "C87",
   "status": "partial",
   "theorems": [
    "C87_errors",
    "C87_same",
    "C87_returns",
    "C87_multipliers_refuted",
    "C87_order_refuted"
   ],
   "note": "Proved for systems of order 2 without multipliers. The code refuses systems with multipliers (C87_multipliers_refuted) and of other orders (C87_order_refuted). That it returns is proved for every piecewise scheme of order 1 or 2 except hs_scipy, with linear controls."
  },
  {
   "property": "C88",
   "status": "partial",
   "theorems": [
    "C88_point",
    "C88_double_integral",
    "C88_breaks",
    "C88_start_refuted",
    "C88_point_refuted",
    "C88_double_refuted",
    "C88_quad_refuted"
   ],
   "note": "Proved for the Hermite interpolation (hs_scipy), linear controls and times from 0, with an exact quadrature. With other schemes F_point and doub_quad_problem always raise, and quad_problem always (they call _newpoint_der with one argument too many); with times that do not start at 0 doub_quad_problem is wrong (C88_start_refuted)."
  },
  {
   "property": "C89",
   "status": "partial",
   "theorems": [
    "C89_value",
    "C89_text",
    "C89_numpy",
    "C89_names",
    "C89_flavours",
    "C89_replaced_unique",
    "C89_missing_refuted",
    "C89_one_control_refuted",
    "C89_state_refuted",
    "C89_result_refuted"
   ],
   "note": "Proved (text, value, agreement with RHS2numpy, flavours) for at least two controls, one parameter and one coordinate with names that python accepts; refuted for one control, for missing groups, for expressions of the whole x' and for a parameter called result. The printer of sympy is an oracle: python is trusted to read its text as the expression."
  },
  {
   "property": "C90",
   "status": "partial",
   "theorems": [
    "C90_value",
    "C90_text",
    "C90_one_control_refuted"
   ],
   "note": "Proved for any groups except one control, where it is refuted, and names that python accepts. The printer of sympy is an oracle: python is trusted to read its text as the expression."
  },
  {
   "property": "C91",
   "status": "proved",
   "theorems": [
    "C91_motion",
    "C91_accepted",
    "C91_method"
   ],
   "note": "simplify and expand of sympy are oracles that keep values where expressions are smooth."
  },
  {
   "property": "C92",
   "status": "partial",
   "theorems": [
    "C92_rhs_partial"
   ],
   "note": "Proved for coordinates q_0, ..., q_(n-1) and energies of coordinates, velocities, time and constants. Missing: other names, that lagr_to_RHS does not find (C59_names_refuted), and other dynamic symbols."
  },
  {
   "property": "C93",
   "status": "partial",
   "theorems": [
    "C93_function",
    "C93_controls_partial",
    "C93_made",
    "C93_lengths",
    "C93_constraints_refuted",
    "C93_implicit_refuted",
    "C93_moving_refuted",
    "C93_dependencies"
   ],
   "note": "Proved for SimpLagrangesMethod without constraints and with no dynamic symbols but coordinates and controls. Refuted: with constraints, with other dynamic symbols, and in ImplicitLagrangesMethod it always raises. Parameters that cancel in the product of mass matrix and forces are NameErrors at every call (C93_function)."
  },
  {
   "property": "C94",
   "status": "partial",
   "theorems": [
    "C94_spline",
    "C94_bottom_up",
    "C94_top_down",
    "C94_pseudospectral",
    "C94_derivatives_partial",
    "C94_derivatives_refuted",
    "C94_extended_refuted",
    "C94_extended_inv_refuted",
    "C94_smooth_refuted",
    "C94_smooth_bottom_up_refuted",
    "C94_smooth_top_down_refuted",
    "C94_piecewise",
    "C94_piecewise_third_refuted"
   ],
   "note": "Proved for bottom-up, top-down and the pseudospectral schemes whose arrays are not extended. Refuted: pseudospectral schemes LG, CG, LG_inv, CG_inv (C94_extended_refuted, C94_extended_inv_refuted), derivatives of order other than 1 asked for by themselves (C94_derivatives_refuted), and smooth controls, which never return. The piecewise scheme hs_scipy is proved for values and the first two derivatives; higher ones are zeros (C94_piecewise_third_refuted)."
  },
  {
   "property": "C95",
   "status": "partial",
   "theorems": [
    "C95_min_err",
    "C95_min_err_descends",
    "C95_pinv_dyn",
    "C95_samples",
    "C95_returns",
    "C95_samples_refuted",
    "C95_default_refuted"
   ],
   "note": "Proved between samples for every scheme but hs_scipy, with any minimiser and any inverse; it returns for all times in the horizon. Refuted: at the times of the samples the sample itself is returned (C95_samples_refuted), and with the default scheme hs_scipy there is no answer between samples (C95_default_refuted)."
  },
  {
   "property": "C96",
   "status": "partial",
   "theorems": [
    "C96_simple",
    "C96_chrono",
    "C96_same",
    "C96_failed",
    "C96_failed_simple",
    "C96_refused",
    "C96_history",
    "C96_default_refuted",
    "C96_scheme",
    "C96_scheme_segments",
    "C96_names",
    "C96_scheme_refuted"
   ],
   "note": "Proved for every solver. Refuted: with several segments the scheme of the results is the name without its prefixes (C96_scheme_refuted), so bottom-up and top-down ones differ only in scheme_mode; solve_repetitions has no default value (C96_default_refuted)."
  },
  {
   "property": "C97",
   "status": "proved",
   "theorems": [
    "C97_euler",
    "C97_trapz",
    "C97_hs",
    "C97_trapz_mod",
    "C97_hs_mod",
    "C97_hsj",
    "C97_trapz_m",
    "C97_hs_m",
    "C97_integers",
    "C97_integers_refuted"
   ],
   "note": "C97_integers_refuted shows the case of integer states; the formulas themselves are the subject of C31-C38."
  },
  {
   "property": "C98",
   "status": "partial",
   "theorems": [
    "C98_same",
    "C98_controls",
    "C98_states_partial",
    "C98_points",
    "C98_slopes_partial",
    "C98_start_slope_refuted"
   ],
   "note": "All of it except the slope at the start, which the code takes in the middle of the interval (C98_start_slope_refuted); values of states for orders up to 2, because above them the code raises (C25_states_refuted)."
  },
  {
   "property": "C99",
   "status": "partial",
   "theorems": [
    "C99_exactly_partial",
    "C99_errors_partial",
    "C99_one_coordinate_refuted",
    "C99_silent_refuted",
    "C99_ragged",
    "C99_raises"
   ],
   "note": "Proved for two or more coordinates, exactly when the function, if it accepts arrays, treats them sample by sample. Refuted for one coordinate and for functions that accept arrays otherwise."
  },
  {
   "property": "C100",
   "status": "partial",
   "theorems": [
    "C100_integerize_partial",
    "C100_integers_partial",
    "C100_roundize_partial",
    "C100_rounded_partial",
    "C100_deletezeros_partial",
    "C100_not_small_partial",
    "C100_one_float_partial",
    "C100_computed_refuted"
   ],
   "note": "Proved for every simplification that does not compute with floats, and with sympy's when all floats are equal. Refuted otherwise (C100_computed_refuted). Rationals and sums of more than two terms are not modelled apart."
  },
  {
   "property": "C101",
   "status": "proved",
   "theorems": [
    "C101_integral",
    "C101_columns",
    "C101_not_under",
    "C101_zero",
    "C101_bound",
    "C101_additive",
    "C101_sum",
    "C101_max",
    "C101_max_empty",
    "C101_order"
   ],
   "note": "Arrays with as many rows as times, in exact numbers; the times of the totals increase."
  }
 ]
}