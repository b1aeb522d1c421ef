# Formal model of AunSiro/optibot (`chords`) in Rocq/Coq

## 1. Approach

* Shallow Gallina model, function by function, in `rocq/theories/*Model.v`.
  Each definition cites the file and lines of `/repo` it models and says what it
  leaves out. Python exceptions are values (`Res A := Ok a | Err e`).
* Numbers: Python floats, casadi and sympy numbers are the real numbers `R` of
  the Coq standard library. Rounding, overflow and NaN are not modelled (an
  integer converted from inf or NaN is an unspecified number, `undef`).
* 1-D arrays are `list R`; 2-D arrays are lists of rows. Elementwise numpy
  operations are zips; shapes that numpy rejects or broadcasts are excluded by
  explicit length hypotheses, or modelled where the property is about them
  (NumpyModel).
* Interpolations and errors are modelled at one time and mapped over arrays of
  times. For polynomials this is what the code does with a number or with two
  times or more; arrays of one time or none come out with another shape or
  raise (`enough_times` in AnalysisModel).
* External code is a parameter (universally quantified), never an axiom:
  dynamics functions, scipy's `root`, numpy's `leggauss`, sympy's polynomial
  roots and matrix inverses, the NLP solver, the file system. What is assumed of
  a parameter is an explicit hypothesis of the theorem (`real_roots_ok`,
  `leggauss_ok`, `pickle_ok`, a left inverse, ...).
* casadi: an optimisation problem is the list of its constraints, a constraint
  is a pair of rows required to be equal, and theorems say for which values of
  the variables all of them hold. A casadi or sympy expression is identified
  with the function it denotes (sympy expressions that are renamed, sorted or
  differentiated are syntax trees, SymModel/LagrModel).
* State: problem objects, dictionaries that callers pass, the cached results on
  disk and the refinement loop are state machines; theorems are by induction
  over arbitrary histories, with calls that stop half way (LifeModel,
  StoreModel, AdaptModel).
* `*Spec.v`: specification vocabulary (derivatives, integrals, polynomials,
  plain list notions) without helpers of the model. `*Props.v`: only the
  statements, each closed by `exact` of a lemma and followed by
  `Print Assumptions`, with an `Example` showing that its hypotheses are met.
* Where the code violates a property the theorem is called `..._refuted` and
  gives a witness (often: for every input of a class); what does hold is proved
  beside it. A theorem that covers part of a property is called `..._partial`.

## 2. Wrong programs

`seeded/LOG.jsonl` has one line for each edit of a model definition that was
tried (realistic bugs) with the theorems that stopped proving and the ones that
were tightened afterwards.

## 3. Trusted base

* Coq 8.16.1 kernel and `coqchk`.
* Axioms, all of the standard library: `ClassicalDedekindReals.sig_not_dec`,
  `ClassicalDedekindReals.sig_forall_dec`,
  `FunctionalExtensionality.functional_extensionality_dep`,
  `Classical_Prop.classic` (from `Reals` and Coquelicot), and in two files
  `ClassicalEpsilon.constructive_indefinite_description`,
  `RelationalChoice.relational_choice`,
  `ClassicalUniqueChoice.dependent_unique_choice` (real-rootedness of the
  orthogonal polynomials and choice of the polynomials of a solution). `coqchk`
  also lists parameters of library modules (`Rdefinitions.RbaseSymbolsImpl`,
  `ssrunder.Under_rel`), which are not used as axioms here. No axiom is ours.
* The hand translation from Python; nothing was executed.
* What is taken from the documentation of libraries: numpy (`linspace`,
  `searchsorted`, `interp`, `trapz`, `concatenate`, broadcasting of one row),
  scipy's `root` (returns a root or fails), `numpy.polynomial.legendre.leggauss`
  (a rule of degree 2N-1), sympy (`real_roots` returns the real roots in
  increasing order, `subs`, `diff`, `inv`, `LagrangesMethod`,
  `sympy.physics.mechanics` frames, points, rigid bodies and force lists;
  `symbols`/`dynamicsymbols` of names without commas, colons or spaces;
  `lambdify` evaluates the tree element by element), casadi (calls on several
  columns, `set_initial`, errors on wrong shapes), pickle (reads back what was
  written completely; anything else raises EOFError or is a torn file), the
  standard library (`sort`, `inspect.signature`, `os.path.join`).

## 4. Print Assumptions

Every theorem of the `*Props.v` files is followed by `Print Assumptions`. Grouped by what it lists:

* no axioms (closed under the global context):
  * AdaptProps.v: C51_not_silent_refuted, C52_slices
  * AnalysisProps.v: C54_names, C53_implicit, C53_implicit_multipliers_refuted
  * AnalysisPtProps.v: C88_breaks
  * CasProps.v: C82_accepted, C82_errors, C82_value, C82_value_params, C82_accel
  * DispatchProps.v: C36_accepted, C36_rejected, C36_unambiguous, C36_dynamics, C36_documented_partial, C36_documented_refuted, C36_no_dynamics_refuted, C43_length, C43_distinct, C43_prefix, C43_values
  * InitProps.v: C42_float_refuted
  * LagrProps.v: C72_full, C72_reduced, C72_rhs_partial, C72_rhs_refuted, C72_lambda_partial, C72_lambda_after, C72_lambda_refuted, C72_before
  * LifeProps.v: C37_usable, C37_history_independent, C37_without_opti_setup_partial, C37_without_dynamic_setup_partial, C37_rejected_setup_changes_nothing, C37_other_problems, C37_pseudospectral_refuted, C37_cost_refuted, C37_equispaced_refuted, C37_multi_trapz_refuted, C37_no_dynamics_refuted, C37_stale_cost_refuted, C44_function, C44_symbolic_partial, C44_symbolic_refuted
  * NumpyProps.v: C45_number_refuted, C69_modes, C69_mode_q, C69_rejected
  * PhProps.v: C39_arrays
  * PinvProps.v: C93_dependencies
  * PlotProps.v: C64_labels_refuted, C64_labels_distinct, C64_long_labels_distinct, C64_styles, C64_styles_distinct, C64_colours_refuted, C78_order, C78_distinct, C78_add_refuted, C78_dash_refuted, C78_folder, C78_folder_refuted
  * PrintProps.v: C89_flavours, C89_replaced_unique
  * PwExpandProps.v: C16_G_numpy_partial, C16_G_order_refuted, C16_G_one_refuted, C16_G_casadi_exactly_partial, C16_layouts_partial, C16_samples_partial, C16_layouts_order_refuted, C16_samples_order_refuted
  * PwProps.v: C16_expand_casadi, C16_expand_numpy_partial, C16_expand_numpy_refuted, C17_blocks, C18_state_mode_q_refuted
  * SolveProps.v: C96_default_refuted, C96_names, C96_scheme_refuted
  * StoreProps.v: C47_transparent, C47_key, C47_binding, C47_wrong_call, C47_call_is_history, C47_unhashable_refuted, C48_crashes, C48_one_go_partial, C48_mixing_refuted, C48_stuck_refuted, C48_makedirs_refuted, C49_other_functions, C49_other_arguments, C49_same_name_refuted, C49_equal_arguments_refuted
  * SymProps.v: C56_distinct_partial, C56_distinct_refuted, C57_order, C57_once_partial, C57_once_numbered, C57_params, C57_multipliers, C57_sorted, C57_index_refuted, C57_order_refuted, C57_dynamic_refuted, C57_overlap_refuted
  * TryProps.v: C99_ragged, C99_raises
* `ClassicalDedekindReals.sig_forall_dec`:
  * AdaptProps.v: C50_negative_refuted
  * AnalysisProps.v: C53_modes, C55_error_kept_partial, C55_interpolations_refuted, C55_row_partial, C55_row_refuted
  * CasProps.v: C79_value, C79_any_x, C79_any_q, C79_every_argument, C79_sizes, C79_accepted, C79_accepted_numbered, C79_accepted_named, C79_short_names_refuted, C79_dynamic_controls_refuted, C80_accepted, C80_tuple_refuted, C80_setup_accepted, C81_q, C81_x, C81_any_q, C81_any_x, C81_accepted_q, C81_accepted_x, C81_accepted_named, C81_setup_accepted, C81_params_refuted, C83_accepted, C83_vector_x, C83_vector_q, C83_samples, C83_sizes_refuted, C83_sym2fx, C83_sym2fx_number_refuted, C84_roundtrip, C84_row, C84_samples, C84_single_refuted, C86_same, C86_implicit, C86_failed, C86_first, C86_controls_refuted
  * InitProps.v: C42_zero_partial, C42_zero_refuted, C42_custom_ph_partial, C42_custom_ph_refuted
  * LagrEqProps.v: C91_accepted
  * LagrProps.v: C73_length
  * LifeProps.v: C44_kind_f_x_impl, C44_kind_g_q_refuted, C44_kinds_accepted
  * NumpyProps.v: C45_vector, C45_matrix_partial, C45_entries, C45_dimensions, C45_back_numbers, C45_back_columns, C45_one_row_refuted, C45_empty_refuted, C69_rows_partial, C69_vector, C69_constant_refuted, C69_all_constant_refuted, C69_one_sample_refuted, C69_mode_x
  * PinvProps.v: C74_implicit_constraints_refuted, C93_function, C93_made, C93_lengths, C93_constraints_refuted, C93_implicit_refuted
  * PrintProps.v: C89_value, C89_text, C89_numpy, C89_names, C89_missing_refuted, C89_one_control_refuted, C89_state_refuted, C89_result_refuted, C90_value, C90_text, C90_one_control_refuted
  * PwProps.v: C01_euler, C01_single_row_refuted, C02_euler, C04_euler, C16_reduce_expand, C16_expand_reduce, C17_concat, C17_reunite
  * RobotProps.v: C62_recovered, C62_accepted_partial, C62_symbols_refuted
  * SolveProps.v: C96_simple, C96_failed_simple
  * SplineProps.v: C94_piecewise_hypotheses
  * SymProps.v: C56_substitution, C56_value, C56_defined, C56_standard, C56_standard_refuted, C57_symbols, C58_exactly, C58_substitution_partial, C58_value_partial, C58_lengths, C58_simultaneous_refuted
  * TryProps.v: C99_exactly_partial, C99_errors_partial, C99_one_coordinate_refuted, C99_silent_refuted
* `ClassicalDedekindReals.sig_forall_dec`, `FunctionalExtensionality.functional_extensionality_dep`:
  * AdaptProps.v: C50_structure, C50_knots, C50_max_partial, C50_total, C50_kept, C50_increasing, C50_shapes, C50_bounds_refuted, C50_min_refuted, C70_scaled_refuted
  * AnalysisProps.v: C53_piecewise_returns, C53_zero, C55_scheme_params_refuted
  * AnalysisPtProps.v: C87_same, C87_returns, C87_multipliers_refuted, C87_order_refuted, C88_point, C88_point_refuted, C88_double_refuted, C88_quad_refuted
  * AnalysisTotProps.v: C101_columns, C101_zero, C101_bound, C101_additive, C101_sum, C101_max, C101_max_empty
  * CasProps.v: C80_motion, C80_any, C80_setup, C81_setup, C81_controls_refuted, C81_index_refuted, C82_trapezoidal
  * CostProps.v: C32_sq_cost_default_refuted
  * EquiProps.v: C38_trapz, C38_trapz_n, C38_trapz_mod_partial, C38_hs, C38_hsn, C38_hs_mod_partial, C38_hsj_partial, C38_third_order, C38_second_order_refuted, C38_node_times, C38_middle_times, C36_C38_euler_refuted
  * InitProps.v: C42_line_start, C42_line_end, C42_waypoint_hit, C42_polyline_unique, C42_straight, C42_custom, C42_custom_a_refuted, C42_custom_hs, C42_held_unique
  * LagrProps.v: C59_names_refuted, C73_states_partial, C73_names_refuted
  * LifeProps.v: C44_kind_f_x, C44_kind_g_q_partial, C44_kind_g_q_impl
  * MemProps.v: C97_euler, C97_trapz, C97_hs, C97_trapz_mod, C97_hs_mod, C97_hsj, C97_trapz_m, C97_hs_m, C97_integers, C97_integers_refuted
  * NumpyProps.v: C46_integral, C46_integral_affine, C46_derivative_partial, C46_derivative_affine_refuted, C46_derivative_of_integral, C46_derivative_2d, C46_derivative_short_refuted, C46_integral_2d_refuted, C46_integral_2x2_refuted, C46_integers_refuted
  * PhProps.v: C41_accepted_partial, C41_rejected_refuted, C41_equal_knots_refuted, C41_counts_refuted
  * PlotProps.v: C64_segments, C64_drawn, C64_last_refuted, C64_graph_last_refuted, C64_legend, C64_legend_refuted
  * PsProps.v: C19_ends, C19_affine, C19_increasing, C19_inverse, C19_function, C22_basis, C22_polynomial, C22_unique, C23_value, C23_sample, C23_rows, C23_weights
  * PwProps.v: C01_rk4, C01_trapz, C01_trapz_mod, C01_hs, C01_hs_mod, C01_hsj, C01_hs_parab, C01_hs_mod_parab, C01_hsj_parab, C01_single_row_others_refuted, C02_rk4, C02_rk4_given_mid, C02_trapz, C02_trapz_mod, C02_hs, C02_hs_mod, C02_hsj, C02_hs_parab, C02_hs_mod_parab, C02_hsj_parab, C03_euler, C03_rk4_constant_partial, C03_rk4_refuted, C03_trapz, C03_hs, C03_hs_parab, C03_trapz_mod, C03_hs_mod_parab, C03_hsj_parab, C03_hs_mod, C03_hsj, C03_simulated_trapz, C03_simulated_hs, C03_simulated_trapz_mod, C03_simulated_hs_mod, C03_simulated_hsj, C03_simulated_hs_parab, C03_simulated_hs_mod_parab, C03_simulated_hsj_parab, C04_trapz, C04_hs, C04_trapz_mod, C04_hs_mod, C04_hsj, C06_trapz_1, C06_trapz_2, C06_hs_half_1, C06_hs_half_2, C06_hs_1, C06_hs_2, C07_trapz, C07_trapz_zero, C07_hs, C07_hs_zero, C07_hs_half, C07_motions_exist, C09_trapz, C09_hs, C09_hsj, C11_trapz, C11_hs, C11_hs_top, C12_hits_samples, C12_rejects_later_times, C12_segment, C12_valid_times_answered, C12_negative_times_refuted, C14_nodes, C14_quadratic, C14_linear_samples, C14_linear_exact, C15_kept_partial, C15_refuted, C18_state_mode_x, C65_linear_dynamics, C65_quadrature
  * RoundProps.v: C100_integers_partial, C100_rounded_partial, C100_not_small_partial
  * SolveProps.v: C96_chrono, C96_same, C96_failed, C96_refused, C96_history, C96_scheme, C96_scheme_segments, C96_hypotheses
  * UErrProps.v: C95_min_err, C95_min_err_descends, C95_pinv_dyn, C95_samples, C95_returns, C95_hypotheses, C95_samples_refuted, C95_default_refuted
* `ClassicalDedekindReals.sig_forall_dec`, `ClassicalDedekindReals.sig_not_dec`, `FunctionalExtensionality.functional_extensionality_dep`:
  * AnalysisProps.v: C54_late_start_refuted, C53_piecewise, C53_segments, C53_state_segments, C53_norm, C53_norm_zero
  * AnalysisPtProps.v: C87_errors, C88_double_integral
  * AnalysisTotProps.v: C101_order
  * BuTdModeProps.v: C53_bottom_up_times, C53_top_down_times, C53_top_down_lin_refuted, C53_mode_x_refuted, C53_top_down_mode_x_refuted, C53_mode_rejected, C53_top_down_mode_rejected, C53_bottom_up_scheme_order_refuted
  * BuTdProps.v: C30_oracle_unique, C31_mode, C31_LG_positive, C27_order_rejected
  * CasProps.v: C81_lagrange, C85_sizes, C85_default_refuted
  * CostProps.v: C32_u_sq_linear, C32_u_sq_parab, C32_u_sq_hsj_parab, C32_u_sq_hsj_parab_mod, C32_quad_cost_mid, C32_quad_cost_refuted, C32_sq_cost, C32_constant, C33_exact_integration, C34_shape, C35_u_sq_cost_sum, C35_u_sq_cost_single, C35_squared_ignored_refuted
  * ExtCasProps.v: C98_same, C98_start_slope_refuted
  * LagrProps.v: C60_equation, C60_forcing, C61_reduced, C61_unconstrained, C73_dynamics, C73_constraints, C74_recovers_partial, C74_produces_partial
  * PhProps.v: C40_meet, C40_meet_state
  * PinvProps.v: C74_constraints, C93_controls_partial
  * PsProps.v: C20_setup_order, C20_unknown_scheme, C22_unit_off_points_partial, C22_unit_at_points_refuted, C23_vector_interpolator_partial, C23_vector_interpolator_refuted, C25_states_refuted, C25_start_derivative_refuted, C67_slope_refuted
  * PwProps.v: C05_hs, C05_hs_mod, C05_hsj, C08_trapz, C08_hs, C08_hsj, C10_C13_interpolated_trajectory, C10_trapz_m, C10_hs_m, C10_hsj, C10_hsn_refuted
  * RobotProps.v: C63_total, C75_poses, C76_coordinates, C77_accepted, C77_refused, C77_end_effector
  * SplineProps.v: C94_smooth_refuted, C94_smooth_bottom_up_refuted, C94_smooth_top_down_refuted, C94_piecewise_third_refuted
* `ClassicalDedekindReals.sig_forall_dec`, `ClassicalDedekindReals.sig_not_dec`, `Classical_Prop.classic`, `FunctionalExtensionality.functional_extensionality_dep`:
  * AdaptProps.v: C50_added, C50_added_refuted, C51_history_partial, C51_returns, C51_raises, C51_failed_refuted, C51_limit_refuted, C52_motions_partial, C52_states_partial
  * AnalysisProps.v: C54_top_down_partial, C54_bottom_up_partial, C54_pseudospectral_partial, C54_few_samples_refuted, C54_not_extended_refuted
  * AnalysisTotProps.v: C101_integral, C101_not_under
  * BuBasisProps.v: C22_bottom_up
  * BuTdModeProps.v: C53_bottom_up_order_one_refuted, C53_bottom_up_tanks_refuted
  * BuTdProps.v: C30_gauss_integral, C30_gauss_integral_2d, C30_gauss_rep_integral, C30_poly_integral, C30_poly_integral_2d, C30_poly_integral_2d_default, C30_Lag_integ_2d, C31_weights, C31_weights_x, C31_weights_x_points, C27_integration, C27_integration_data, C27_extreme, C27_point_rejected, C27_single_point_refuted, C27_Lag_integ, C28_constraints, C28_C53_solution, C28_interpolation_derivatives, C53_bottom_up, C25_C28_C29_controls, C28_single_point_refuted, C28_interpolation_jacobi_refuted, C29_constraints, C29_C53_solution, C29_interpolation_derivatives, C53_top_down
  * CasProps.v: C85_motion, C85_energy
  * CostProps.v: C34_quad_cost_refuted, C34_quad_cost, C34_u_sq_pseudospectral_refuted, C34_quad_cost_state, C34_quad_cost_LG, C34_u_sq_cost, C34_trapz_cost, C34_trapz_value, C34_trapz_cost_refuted, C34_trapz_chebyshev_refuted, C35_u_sq_cost, C35_always_squared_refuted, C35_quad_cost, C35_state_rows_refuted
  * ExtCasProps.v: C98_controls, C98_states_partial, C98_points, C98_slopes_partial
  * InitProps.v: C42_linear, C42_hsj_refuted, C42_waypoints, C42_custom_td
  * LagrEqProps.v: C91_motion, C91_method, C92_rhs_partial
  * LagrProps.v: C59_solves_partial, C60_mass, C60_coriolis, C60_gravity, C60_skew, C71_power, C71_conserved, C61_complete_partial, C61_keeps_partial, C61_multipliers_unique, C61_lambda_partial, C61_lambda_refuted, C61_offset_refuted, C74_matrix, C74_classes_agree
  * PhProps.v: C39_times, C39_increasing_refuted, C40_td, C40_bu, C40_ps_sound_partial, C40_ps_complete_partial, C40_D2_refuted, C40_jacobi_refuted
  * PinvProps.v: C74_constraints_refuted
  * PsProps.v: C20_bookkeeping, C20_setup, C21_collocation_points, C21_node_points, C24_exact, C25_controls, C25_states_partial, C25_end_derivative, C25_problem_controls, C25_problem_controls_refuted, C26_sound, C26_complete, C26_order3_refuted, C66_states_and_controls, C66_derivatives, C67_states_at_nodes_partial, C67_inverted_gauss_refuted, C67_controls_refuted, C53_pseudospectral_refuted
  * QuadProps.v: C68_collocation_points, C31_C68_weights
  * RobotProps.v: C63_forces, C63_own, C75_turning, C76_lagrangian, C76_turning, C76_natural, C76_power
  * RoundProps.v: C100_integerize_partial, C100_roundize_partial, C100_deletezeros_partial, C100_one_float_partial, C100_computed_refuted
  * SplineProps.v: C94_spline, C94_bottom_up, C94_top_down, C94_hypotheses, C94_pseudospectral, C94_derivatives_partial, C94_pseudospectral_hypotheses, C94_derivatives_refuted, C94_extended_refuted, C94_extended_inv_refuted, C94_piecewise
* `ClassicalDedekindReals.sig_forall_dec`, `ClassicalEpsilon.constructive_indefinite_description`, `Classical_Prop.classic`, `FunctionalExtensionality.functional_extensionality_dep`:
  * PinvProps.v: C93_moving_refuted
* `ClassicalDedekindReals.sig_forall_dec`, `ClassicalDedekindReals.sig_not_dec`, `ClassicalEpsilon.constructive_indefinite_description`, `Classical_Prop.classic`, `FunctionalExtensionality.functional_extensionality_dep`:
  * AnalysisPtProps.v: C88_start_refuted
  * BuTdProps.v: C30_oracle_exists
* `ClassicalDedekindReals.sig_forall_dec`, `ClassicalUniqueChoice.dependent_unique_choice`, `Classical_Prop.classic`, `FunctionalExtensionality.functional_extensionality_dep`, `RelationalChoice.relational_choice`:
  * PsProps.v: C21_oracle_exists

## 5. What is modelled

Functions of /repo/chords with the Coq files whose definitions cite their lines (found by the line numbers in the comments). A function without a file is not modelled.

* `adaptive.py`
  * AdaptModel.v: calc_test_point_arr, analyze_res_err, max_err, add_points, calc_new_struct, adaptive_refinement_system, analyze_ph_run
* `analysis.py`
  * AnalysisModel.v: dynamic_error, generate_G, _generate_sub_problems, interpolation, dynamic_errors_from_interp, dynamic_errors, arr_mod, arr_sum, arr_max, arr_abs_integr_vert, total_state_error
  * AnalysisPtModel.v: dynamic_error_implicit, F_point, quad_problem, doub_quad_problem
* `bu_pseudospectral.py`
  * BuTdModel.v: BU_coll_points, BU_construction_points, BU_unit_Lag_pol, BU_unit_Lag_pol_t, _Lag_integ, Integration_Polynomial_Matrix, Integration_Matrix, Extreme_Matrix, Polynomial_interpolations_BU, interpolations_BU_pseudospectral, _v_sum, interpolations_deriv_BU_pseudospectral, dynamic_error_BU
  * not in the model: _matrix_D_bary
* `casadi.py`
  * CasModel.v: list2casadi, sympy2casadi, symlist2cas, unpack, rhs_to_casadi_function, implicit_dynamic_x_to_casadi_function, implicit_dynamic_q_to_casadi_function, restriction2casadi, accelrestriction2casadi
  * PendModel.v: doub_pend_F
  * not in the model (str of an object): get_str
* `numpy.py`
  * NumpyModel.v: unpack, congruent_concatenate, trapz_integrate, num_derivative
  * AnalysisModel.v: combinefunctions
  * NumSymModel.v: RHS2numpy, Sym2Fx
  * StoreModel.v: get_default_args, is_callable_with, store_results
  * PendModel.v: doub_pend_F
  * not in the model (str of an object): get_str
* `opti.py`
  * AnalysisModel.v: get_q_and_ders_names
  * CasModel.v: _get_f_g_funcs
  * CostModel.v: _get_cost_obj_trap_int, _get_cost_obj_trap_int_cas, _get_cost_obj_quad_int_cas, exact_cuadratic_squared_integration, _BU_Pseudospectral.u_sq_cost, _TD_Pseudospectral.u_sq_cost, _Equispaced.u_sq_cost, _multi_pseudospectral.u_sq_cost, _multi_pseudospectral.quad_cost, _multi_pseudospectral.trapz_cost
  * DispatchModel.v: _Opti_Problem.__init__, Opti_Problem
  * LifeModel.v: _Opti_Problem._ini_guess_start, _Opti_Problem._save_results, _Pseudospectral.quad_cost, _Pseudospectral.u_sq_cost, _BU_Pseudospectral.quad_cost, _TD_Pseudospectral.quad_cost, _Equispaced.quad_cost, _Equispaced.sq_cost
  * SolveModel.v: _Opti_Problem.simple_solve
  * PsModel.v: _Pseudospectral.opti_setup, _Pseudospectral.trapz_cost, _Pseudospectral.apply_scheme
  * BuTdModel.v: _BU_Pseudospectral.opti_setup, _BU_Pseudospectral.trapz_cost, _BU_Pseudospectral.apply_scheme, _TD_Pseudospectral.opti_setup, _TD_Pseudospectral.trapz_cost, _TD_Pseudospectral.apply_scheme
  * EquiModel.v: _Equispaced.opti_setup, _Equispaced.apply_scheme
  * PhModel.v: _multi_pseudospectral._check_structure_consistency, _multi_pseudospectral.opti_setup, _multi_pseudospectral.apply_scheme
  * CasCacheModel.v: _Explicit_Dynamics.dynamic_setup, _Implicit_Dynamics.dynamic_setup
  * FuncDynModel.v: _Function_Dynamics.dynamic_setup
  * InitModel.v: _Zero_init.initial_guess, _Lin_init.initial_guess, _Waypoints_init.initial_guess, _Custom_init.initial_guess
  * not in the model (wall-clock time of the solver): _Opti_Problem.chrono_solve
* `piecewise.py`
  * AnalysisModel.v: force2d
  * PwModel.v: vec_len, extend_array, expand_G, reduce_F, increase_order_implicit_func, euler_step, rk4_step, trapz_opti_step, trapz_step, trapz_mod_opti_step, trapz_mod_step, hs_opti_step, hs_step, hs_mod_opti_step, hs_mod_step, hs_parab_opti_step, hs_parab_step, hs_mod_parab_opti_step, hs_mod_parab_step, hsj_opti_step, hsj_step, hsj_parab_opti_step, hsj_parab_step, coherent_dimensions, integrate_euler, integrate_rk4, integrate_trapz, integrate_trapz_mod, integrate_hs, integrate_hs_mod, integrate_hs_parab, integrate_hs_mod_parab, integrate_hsj, integrate_hsj_parab, index_div, order_from_x_a, euler_restr, rk4_restr, trapz_restr, trapz_mod_restr, hs_restr, hs_mod_restr, hs_parab_restr, hs_mod_parab_restr, hsj_parab_restr, euler_accel_restr, trapz_accel_restr, trapz_mod_accel_restr, hs_half_x, hs_accel_restr, hs_mod_half_x, hs_mod_accel_restr, hsj_half_x, hsj_accel_restr, get_x_divisions, reunite_matrix, generate_hs_m_funcs, interp_parab, interp_parab_j, hs_midpoint, hs_mod_midpoint, hsj_midpoint, generate_tz_interp, generate_hs_interp, hsj_interp, hsj_dot_interp, hsj_dot_dot_interp
  * InitModel.v: interp_2d
  * PwExpandModel.v: expand_F
  * PwInterpModel.v: hsj_restr, _newpoint_u, _newpoint, _prepare_interp, interpolate_u, _calculate_missing_arrays, _newpoint_der, interpolated_array_derivative
  * MemModel.v: _itemequal, itemequal, generate_trapz_m_func
  * UErrModel.v: _u_min_err_opti_step, interpolated_array
  * not in the model: is_iterable, is2d, _gen_basic_values
* `pseudospectral.py`
  * PsModel.v: LG, LGR, LGL, LGLm, LG2, JG, JGR, JGR_inv, JGL, JG2, CG, CGL, CGR, coll_points, node_points, n_col_to_n_nodes, get_coll_indices_from_nodes, get_coll_indices, tau_to_t_points, t_to_tau_points, tau_to_t_function, _v_sum, v_coef, v_coef_coll, matrix_D_bary, bary_poly, bary_poly_2d, unit_Lag_pol, vector_interpolator, get_bary_extreme_f, diff_end_p_fun, diff_start_p_fun, find_der_polyline, get_pol_u, get_pol_x, extend_x_arrays, extend_u_array, interpolations_pseudospectral, interpolations_deriv_pseudospectral, dynamic_error_pseudospectral
  * ExtCasModel.v: lag_pol, lagrangePolynomial, get_bary_extreme_f_cas, end_p_fun_cas, diff_end_p_fun_cas, start_p_fun_cas, diff_start_p_fun_cas
  * TryModel.v: try_array_f
  * not in the model (scipy's Hermite splines): get_hermite_x
* `robots.py`
  * RobotModel.v: matrix_to_6_vect, arr_to_vect, make_search_func, dhlink_rot_mod_to_symbody, robot_to_sympy
  * not in the model (builds a robot with an external toolbox): Panda_Simp
* `symbolic.py`
  * PrintModel.v: is_iterable, make_list, printer_function, print_funcs_RHS, print_funcs
  * SymModel.v: q_2_x, derivative_level, sorted_dynamic_symbols, diff_to_symb, diff_to_symb_expr, standard_notation, add_if_not_there, is_lambda, find_arguments
  * PinvModel.v: deriv_base, find_dyn_dependencies, SimpLagrangesMethod.num_pinv_dyn, ImplicitLagrangesMethod.num_pinv_dyn
  * RoundModel.v: integerize, roundize, deletezeros
  * LagrEqModel.v: lagrange, get_lagr_eqs
  * LagrModel.v: lagr_to_RHS, LagrangesMethod.__init__, LagrangesMethod._C_from_M, LagrangesMethod.form_lagranges_equations, LagrangesMethod.C_matrix, LagrangesMethod.G_matrix, LagrangesMethod.ext_forces_matrix, SimpLagrangesMethod.__init__, SimpLagrangesMethod._simplyprint, SimpLagrangesMethod._invsimplyprint, SimpLagrangesMethod.mass_matrix, SimpLagrangesMethod.rhs, SimpLagrangesMethod.calculate_RHS_complete, SimpLagrangesMethod.rhs_reduced, SimpLagrangesMethod.lambda_vector, SimpLagrangesMethod.rhs_full, SimpLagrangesMethod.sym_pinv_dyn, ImplicitLagrangesMethod.mass_matrix_square, ImplicitLagrangesMethod.implicit_dynamics_q, ImplicitLagrangesMethod.implicit_dynamics_x, ImplicitLagrangesMethod.sym_pinv_dyn
  * not in the model (str of an object): get_str
* `td_pseudospectral.py`
  * BuTdModel.v: TD_construction_points, matrix_D_nu, matrix_L, Polynomial_interpolations_TD, interpolations_TD_pseudospectral, interpolations_deriv_TD_pseudospectral, dynamic_error_TD
* `util.py`
  * PlotModel.v: sch_to_lab, sch_to_long_label, sch_to_color, scheme_kwargs, set_fonts, plot_by_segments, graph_by_segments, gen_fig_filename, save_fig
  * UtilModel.v: leggauss, gauss_integral, gauss_integral_2d, gauss_rep_integral, poly_integral, poly_integral_2d, Lag_pol_2d, Lag_pol_2d_x, Lag_integ_2d, get_weights
  * PhModel.v: is_integer
  * AdaptModel.v: log_base

## 6. Table of properties

Status as in MANIFEST.json; `partial` is also used where the code violates part of the property, which is then shown by the `_refuted` theorems.

| id | title | how it is modelled and proved | status | theorems in |
|---|---|---|---|---|
| C01 | Integrators return the whole recurrence | integrate_* as list recursion over the tape, root finder as a parameter; induction on the tape | partial | PwProps.v |
| C02 | Integrators are causal | same model; induction on the common prefix | proved | PwProps.v |
| C03 | Simulation and transcription agree | residuals as vectors; componentwise field reasoning; RK4 restriction refuted for non-constant controls | partial | PwProps.v |
| C04 | State restrictions equal acceleration restrictions | accelerations as data; zero sets compared componentwise | proved | PwProps.v |
| C05 | Interior point formulas agree | algebra under the restriction hypotheses | proved | PwProps.v |
| C06 | Order-M schemes generalise the fixed ones | unfold the order-M generators at M=1,2 | proved | PwProps.v |
| C07 | Order-M restriction is the interpolant at the end of the step | sums over blocks, for every M; reindexing lemmas | proved | PwProps.v |
| C08 | Interpolated derivatives are derivatives | `is_derive` of each block, induction on the number of terms | proved | PwProps.v |
| C09 | The M-th derivative interpolates the accelerations | evaluate the top blocks; field | proved | PwProps.v |
| C10 | Interpolated trajectories satisfy the dynamics at collocation points | combine C05, C07-C09 with F | partial | PwProps.v |
| C11 | Exactness on polynomial motions | Taylor polynomials of the motion; uniqueness of interpolation data | proved | PwProps.v |
| C12 | Interpolation hits the samples and picks the right segment | floor-division model of t//h, t%h; negative time refuted | partial | PwProps.v |
| C13 | Interpolated trajectory is continuous | limits at the joints from C07 | proved | PwProps.v |
| C14 | Control interpolation formulas | field | proved | PwProps.v |
| C15 | Interpolation leaves its arguments unchanged | dictionary as state threaded through calls; refuted with a two-call history | partial | PwProps.v |
| C16 | expand_F and reduce_F are inverse | list slicing; numpy assertion for order>=3 refuted | partial | PwExpandProps.v, PwProps.v |
| C17 | State division and reunion are inverse | list slicing | proved | PwProps.v |
| C18 | Raising the order of implicit dynamics keeps the solutions | zero sets; "q" mode always fails (refuted) | partial | PwProps.v |
| C19 | Time maps between tau and t are inverse affine maps | affine maps | proved | PsProps.v |
| C20 | Node, collocation and index bookkeeping agree | scheme lists and list wrapping, root lists as parameters of the right length | proved | PsProps.v |
| C21 | Chebyshev point sets are valid | monotonicity of cos; list lemmas | proved | PsProps.v |
| C22 | Lagrange basis | products over lists | partial | BuBasisProps.v, PsProps.v |
| C23 | Barycentric interpolation equals Lagrange interpolation | own polynomial development: degree < N with N roots is zero | partial | PsProps.v |
| C24 | The differentiation matrix is exact | derivative of the Lagrange form | proved | PsProps.v |
| C25 | Extreme point functions evaluate the interpolating polynomial | as C23; start-point variants refuted | partial | BuTdProps.v, PsProps.v |
| C26 | Collocation constraints mean the polynomial obeys the dynamics | constraint generator + C23, C24 | proved | PsProps.v |
| C27 | Integration matrices integrate | repeated integrals of polynomials, RInt specification | partial | BuTdProps.v |
| C28 | Bottom-up constraints mean the polynomial obeys the dynamics | constraint generator + C27 | partial | BuTdProps.v |
| C29 | Top-down constraints mean the polynomial obeys the dynamics | constraint generator + C24 | proved | BuTdProps.v |
| C30 | Repeated and polynomial integrals are exact | Gauss rule exactness as hypothesis on the leggauss parameter; Cauchy formula | proved | BuTdProps.v |
| C31 | Quadrature weights integrate interpolants | linearity + C30 | proved | BuTdProps.v, QuadProps.v |
| C32 | Equispaced quadratic cost is the integral of the interpolated control | sums; factor-2 error of quad_cost refuted | partial | CostProps.v |
| C33 | Exact quadratic squared integration | RInt of a polynomial | proved | CostProps.v |
| C34 | Pseudospectral costs are integrals over time | time scaling: the cost is twice the integral (refuted), trapezoid grid refuted | partial | CostProps.v |
| C35 | Multi-segment costs add up segment integrals | segment sums; always-squared refuted | partial | CostProps.v |
| C36 | Scheme names are dispatched consistently | strings; classification functions | partial | DispatchProps.v, EquiProps.v |
| C37 | Methods called out of order raise RuntimeError | state machine over method calls | partial | LifeProps.v |
| C38 | Equispaced constraints are exactly the step restrictions | constraint list as a function of N | partial | EquiProps.v |
| C39 | ph arrays are a partition aligned with time | prefix sums | partial | PhProps.v |
| C40 | ph segments join continuously | constraint generator per segment | partial | PhProps.v |
| C41 | Structure validation | boolean check | partial | PhProps.v |
| C42 | Linear and waypoint initial guesses | affine functions, piecewise linear interpolation | partial | InitProps.v |
| C43 | Result names | strings | proved | DispatchProps.v |
| C44 | dynamic_setup reflects its own arguments | state machine with the cached attribute; refuted | partial | LifeProps.v |
| C45 | unpack and congruent_concatenate are inverse | array shapes as data type | partial | NumpyProps.v |
| C46 | Numerical integral and derivative | telescoping sums; wrong sign at the end refuted | partial | NumpyProps.v |
| C47 | store_results is transparent | file map state machine; induction over histories | proved | StoreProps.v |
| C48 | store_results survives crashes and concurrency | small-step model of the write; torn file | partial | StoreProps.v |
| C49 | Cached results are isolated by function | key collisions refuted | partial | StoreProps.v |
| C50 | New mesh structure respects its bounds | list folds; integer arithmetic | partial | AdaptProps.v |
| C51 | Adaptive refinement terminates within its limits | loop with oracle | partial | AdaptProps.v |
| C52 | Segment errors use that segment's samples | prefix sums | partial | AdaptProps.v |
| C53 | Dynamic error measures the defect | pointwise definition; is_derive | partial | AnalysisProps.v, BuTdModeProps.v, BuTdProps.v, PsProps.v |
| C54 | ph interpolation covers the horizon once | prefix sums | partial | AnalysisProps.v |
| C55 | Result-returning functions keep the caller's data | dictionaries as state; refuted | partial | AnalysisProps.v |
| C56 | Symbol renaming keeps distinct symbols distinct | strings; collisions refuted, injectivity on a stated domain | partial | SymProps.v |
| C57 | find_arguments classifies every symbol once and deterministically | permutation invariance of sort | partial | SymProps.v |
| C58 | q to x substitution | sequential substitution; clobbering refuted, correct when names are fresh | partial | SymProps.v |
| C59 | lagr_to_RHS solves the equations of motion | matrices as functions, left inverse as hypothesis | partial | LagrProps.v |
| C60 | Christoffel form of the Lagrange equations | Christoffel algebra with partial derivatives as data, then Coquelicot derivatives | proved | LagrProps.v |
| C61 | Constrained dynamics reduction | block matrices; multiplier formula refuted | partial | LagrProps.v |
| C62 | Inertia vector | 3x3 matrices | partial | RobotProps.v |
| C63 | Joint torques are internal | telescoping sum over links | proved | RobotProps.v |
| C64 | Scheme labels and plotting segments | finite maps; missing labels refuted; segments | partial | PlotProps.v |
| C65 | Explicit steps reproduce known flows | algebra of one Euler or RK4 step for polynomial and linear right-hand sides | proved | PwProps.v |
| C66 | Polynomial interpolation of a pseudospectral solution is the solution polynomial | uniqueness of the interpolating polynomial (PolyInterp) applied to the interpolation of a solved problem | proved | PsProps.v |
| C67 | Linear interpolation of a pseudospectral solution passes through the samples | numpy.interp as a function of the sample list; slopes refuted | partial | PsProps.v |
| C68 | Collocation points have Gauss, Radau and Lobatto accuracy | orthogonality of Legendre polynomials by integration by parts, quadrature of degree 2N-1, 2N-2, 2N-3 | proved | QuadProps.v |
| C69 | Numerical dynamics evaluate arrays of samples row by row | expressions as trees of element-wise array operations; broadcasting rules; constant components refuted | partial | NumpyProps.v |
| C70 | Accumulated errors of a refinement integrate over the horizon | trapezoid sums; the fixed horizon 2 refuted | partial | AdaptProps.v |
| C71 | Energy balance | derivative of the Lagrangian along a motion (Coquelicot), Christoffel form | proved | LagrProps.v |
| C72 | Results do not depend on what was asked before | object state threaded through any sequence of calls | partial | LagrProps.v |
| C73 | Implicit dynamics vanish exactly on motions | expressions evaluated along a motion; iff with the equations of motion | partial | LagrProps.v |
| C74 | Inverse dynamics | pseudo-inverse given by a hypothesis on the inverse; linear algebra of the equations | partial | LagrProps.v, PinvProps.v |
| C75 | Forward kinematics of robots | induction on the links; rotation matrices; derivative of the pose | proved | RobotProps.v |
| C76 | Lagrangian and energy of robots | kinetic and potential energy of rigid bodies; invariance under replaced coordinates; power of the motors | proved | RobotProps.v |
| C77 | Which robots are translated | case analysis of the link attributes by induction | proved | RobotProps.v |
| C78 | Names of the files of figures | sorting is invariant under permutation; splitting strings at the first separator | partial | PlotProps.v |
| C79 | Casadi functions of right-hand sides | casadi symbols as a function of arguments; substitution lemma for renamed symbols; control and coordinate names treated as strings; short and dynamic names refuted | partial | CasProps.v |
| C80 | Residuals of explicit dynamics | residuals reduced to equations of the values of the right-hand sides; tuples refuted | partial | CasProps.v |
| C81 | Residuals of implicit dynamics | values of the expressions before and after the coordinates are replaced by states; Euler-Lagrange equations with multipliers from C73; parameters and controls refuted | partial | CasProps.v |
| C82 | Casadi functions of schemes | schemes as parameters; sizes of arguments as a list | proved | CasProps.v |
| C83 | Numpy functions of right-hand sides | broadcasting model of C69 on the expressions; equality with the casadi functions; missing size check refuted | partial | CasProps.v |
| C84 | Lists and casadi arrays | case analysis on the shape; single column refuted | partial | CasProps.v |
| C85 | The double pendulum function | derivatives of the Lagrangian by Coquelicot; linear system of two equations; default parameters refuted | partial | CasProps.v |
| C86 | Several problems made with one LM object | object state threaded through a list of set-ups; induction on the list; other u_vars refuted | partial | CasProps.v |
| C87 | Errors of implicit dynamics | agreement of the functions with raising and with total dynamics; C53 on the solved dynamics; multipliers and other orders refuted | partial | AnalysisPtProps.v |
| C88 | Integrated errors | fundamental theorem of calculus (Coquelicot) with an exact quadrature as oracle; other schemes and other starts refuted | partial | AnalysisPtProps.v |
| C89 | Texts of right-hand sides | the string is the text of a small python program whose meaning is defined in PrintSpec; its run is computed by induction on the assignments and appends; one control, missing groups and expressions of x' refuted | partial | PrintProps.v |
| C90 | Texts of expressions | as C89, with the groups that are not empty | partial | PrintProps.v |
| C91 | Lagrange's equations | symbolic derivatives are the derivatives along motions (Coquelicot), with simplify and expand as oracles that keep values on a domain; explicit time allowed | proved | LagrEqProps.v |
| C92 | From energies to right-hand sides | the equations of C91 are affine in the accelerations with the Hessian of L as matrix; then C59 on the domain | partial | LagrEqProps.v |
| C93 | Numeric inverse dynamics | the set of parameters and the generated function are modelled; sympy's pseudoinverse and the evaluation of expressions are oracles (left inverse; values kept, no new symbols) | partial | PinvProps.v |
| C94 | Hermite and smooth interpolation | scipy's CubicHermiteSpline is modelled by its formulas (coefficients, choice of the interval, derivative); the three families call it as the code does; the result is characterised by values and slopes at the times and differentiability | partial | SplineProps.v |
| C95 | Controls that explain the motion | the two branches of _newpoint_u are modelled with the minimiser and the inverse dynamics as parameters; the returned control is compared with the states and derivatives that the library itself returns for the same times | partial | UErrProps.v |
| C96 | What solving leaves in a problem | the solver, sol.value and opti.stats are parameters; the writes to the dictionary are modelled in their order, up to the first that raises; the names that the set-ups write are proved distinct for every order; histories of calls by induction | partial | SolveProps.v |
| C97 | Restrictions leave the arrays they are given as they were | memory is a list of typed blocks, an array is a window of one block; copies, views and assignments run in a state monad; the invariant of the loops says which blocks may change; the values are those of the formulas of PwModel | proved | MemProps.v |
| C98 | casadi and numpy agree at the ends of an interval | the functions of PsModel run on symbols, sympy2casadi of CasModel translates the expression and cas_call evaluates it; the derivative is sympy's diff, compared with the derivative of the polynomial along a path | partial | ExtCasProps.v |
| C99 | Dynamics written for one sample work on arrays of samples | numpy arrays as trees with shape, squeeze, array and broadcasting subtraction; try_array_f runs any function on them; functions of one sample are those that give the accelerations of a row in one of three layouts | partial | TryProps.v |
| C100 | Rounding the numbers of an expression rounds each of them | trees with floats and integers as different leaves; subs rebuilds what changed with the constructors of sympy, a parameter; values with the floats read through a function, by induction over the loop | partial | RoundProps.v |
| C101 | Summaries of the errors of a result | lists of rows; numpy.trapz as a recursion over samples, related by induction to Riemann integrals of polylines (Coquelicot), and inequalities between the sums of a row | proved | AnalysisTotProps.v |

## 7. Notes on partial properties

* C01: The code violates the claim for a 2-D tape of one row with several controls (IndexError, *_refuted); it is proved for every other non-empty tape. Empty midpoint tapes raise.
* C03: Proved for every scheme except RK4, whose restriction ignores the next control: proved for constant control, refuted otherwise.
* C10: Proved through the API for every scheme but hsn, which is refuted.
* C12: Proved for times in [0, T]; negative times are answered with wrong samples (refuted).
* C15: Refuted by a two-call history; proved for schemes that do not fill missing arrays.
* C16: casadi mode of expand_F for all orders; numpy mode only order 2, exactly for the layouts of one acceleration array per state, refuted for other orders. expand_G ignores the order: right only for order 2 (casadi: also one coordinate of order 3), refuted otherwise.
* C18: state_mode x proved; state_mode q never returns (refuted).
* C22: lag_pol and lagrangePolynomial proved. unit_Lag_pol is right away from its points and returns a matrix row instead of a number at every one of them (refuted).
* C23: bary_poly and bary_poly_2d proved. vector_interpolator only off the source points; it fails on a shared point (refuted).
* C25: Controls and end derivative proved; states only up to order 2, above that Gauss schemes raise (refuted); the start derivative is taken at tau = 0 (refuted); problem controls with Jacobi sets and order other than 2 use two different point sets (refuted).
* C27: Proved for every order, scheme, interval and polynomial data, except the Gauss schemes with a single collocation point, where the code raises ValueError (refuted).
* C28: The constraints are equivalent to collocation for all schemes, orders and dynamics, except the Gauss schemes with one point, which raise. Interpolation proved for the Legendre and Chebyshev schemes and for order 2; for Jacobi schemes of another order it uses the wrong points (refuted).
* C32: u_sq_cost of every equispaced scheme and quad_cost/sq_cost with middle values are the integrals. Refuted: quad_cost without middle values is twice the integral; sq_cost without them raises RuntimeError.
* C34: The English claim is false of the code: the costs are twice the integral and trapz_cost is a trapezoidal rule with shifted lengths, wrong even on constants. Proved: the exact value of quad_cost, u_sq_cost and trapz_cost for every scheme, size and array.
* C35: u_sq_cost proved as the sum over segments. Refuted: quad_cost always squares and fails on state arrays; trapz_cost raises AttributeError.
* C36: For all strings: accepted exactly if it is one of the listed names, with the right class and mode; otherwise NotImplementedError. Refuted: the documented BU_LG_inv is rejected; unknown dynamics objects are accepted.
* C37: For all histories of calls on any number of problems, with calls that stop half way: no order error after the two set-ups, and results as for a new problem. RuntimeError proved for the methods that check. Refuted: single-segment pseudospectral set-up and several cost methods raise AttributeError; a rejected equispaced set-up leaves half a set-up; multi-segment trapz_cost never works; an old cost survives a new set-up.
* C38: Iff for every N, order, dimension and value: the constraints hold exactly if the dynamics hold at every node and interior point and in every interval the motion of the scheme joins the two ends (through the interior point). The schemes designed for second order (mod, hsj) are proved for order 2; with a system of third order they freeze the velocity (C38_third_order), so they refuse motions of the system (C38_second_order_refuted). Refuted for euler: accepted at construction, KeyError in apply_scheme.
* C39: Proved in full except for strict increase: with a collocation point at an end of its segment (Radau, Lobatto, D2) the time of the knot is there twice, which C39_increasing_refuted shows for every such problem. The times are always non-decreasing and the rest of the property holds.
* C40: Exact characterisation of feasible points for top-down and bottom-up problems; soundness and completeness for pseudospectral ones. False for D2 (C40_D2_refuted: the state jumps) and for Jacobi schemes when the dynamics are not of order 2 (C40_jacobi_refuted).
* C41: The exact set of accepted structures is proved. The English property is false in three ways: the error is AssertionError, equal knots are accepted, and so are numbers of points that are not positive.
* C42: Proved for problems of every class, at all the points. False at the interior points of the hsj schemes (C42_hsj_refuted), for numbers as positions (C42_float_refuted), and the zero guess fails in equispaced problems of order 1 (C42_zero_refuted). Custom guesses are proved for problems of one and of several segments; the accelerations given are dropped at the nodes of equispaced problems (C42_custom_a_refuted). With several segments the knots and ends get no initial controls and the positions of the constraints none (C42_custom_ph_partial, C42_custom_ph_refuted).
* C44: Function dynamics: own arguments for all histories, and the four kinds vanish exactly on the solutions (g_q only for order 2, refuted otherwise). Lagrangian dynamics: own arguments only for the first set-up of the object; refuted afterwards (the arguments of later calls are ignored).
* C45: Proved for 1-D arrays with a component and 2-D arrays with a column and a number of rows other than one; false for one row, no components, and numbers.
* C46: Integral of 1-D data proved, exact on affine data. The derivative has the wrong sign at the last sample (refuted), the integral of 2-D arrays uses the wrong axis (refuted), arrays of integers are truncated (refuted).
* C48: Proved for crashes anywhere when no two processes are in calls of the same function, and for any interleaving when each file is written in one go. False in general: C48_mixing_refuted shows interleaved partial writes that give a wrong value. Also proved: an interrupted write makes every later call raise for ever, and two first calls can collide in makedirs.
* C49: Proved for functions of different names and arguments that are not ==; false for functions of the same name and for arguments that are == (1, 1.0, True).
* C50: Proved for max_p >= 1 and consistent shapes: structure of every division, number of knots, total, old knots kept, increasing. The bound max_p needs min_p <= max_p. Refuted: segments that are not divided can have less than min_p points, even a negative number, which add_points asks for when the error is small.
* C51: Proved for every behaviour of the solver: number of attempts, structure of each, when it stops, results returned, termination. Refuted: failed attempts are not in the log, the points added after failures ignore max_coll_points, and with the default silent=False the loop raises AttributeError.
* C52: Proved for the results that C54 covers (top-down, bottom-up, pseudospectral extended to the ends): blocks, test points, errors and maxima. Missing: results outside C54.
* C53: The errors of piecewise solutions and of bottom-up, top-down and multi-segment solutions are the defect of the trajectory, and zero exactly when the equations hold; with arrays of times each row is the error at its time. Refuted parts: single-segment pseudospectral errors (C53_pseudospectral_refuted), generate_G with multipliers, dynamics_error_mode 'x' of the bottom-up and top-down families (the code indexes the name of the interpolation), bottom-up errors that depend on scheme_order or ask for a problem of order 1, and top-down errors with the interpolation 'lin' for problems of order 2 or more (C53_top_down_lin_refuted).
* C54: n samples, increasing, from the start to the end, each with the motion of its segment, whenever one of n equally spaced times falls in every segment before its end, and samples at two or more given times per segment. Refuted parts: numbers of samples that leave a segment with one sample are refused (arrays of one time come out with another shape and cannot be joined); schemes LG2, JG2, CG2, LGLm do not reach the ends; equispaced results that start after 0 cannot be interpolated.
* C55: Only the error entry is kept: refuted for 'interpolations', for 'f' and for scheme_params.
* C56: The substitutions are proved to be simultaneous for every expression and iteration order, and distinct symbols to get distinct names for all names without '_dot' that do not begin with v or a. Names that collide are shown in _refuted theorems.
* C57: Order independence is unconditional. Exactly-one-group needs the groups the user asks for not to overlap (always true for numbered ones); what goes wrong otherwise, and with control names, is in _refuted theorems.
* C58: The substitution is simultaneous exactly when no coordinate is called x_i with i below its own number or x_n, ..., x_(2n-1) (C58_exactly, an equivalence); the sequential replacement is wrong otherwise (C58_simultaneous_refuted).
* C59: Proved for equations whose accelerations are called q_0''..q_(n-1)''; refuted for other numberings (zero column).
* C61: Accelerations right for constraints linear in the velocities; refuted with terms without velocities, and the multipliers are wrong when the mass matrix couples independent and dependent coordinates.
* C62: Matrices of numbers: recovered exactly when symmetric, and accepted exactly when the entries on and above the diagonal are numbers.  Matrices with symbols are refused with TypeError (C62_symbols_refuted).
* C64: The claim is false as stated: seven accepted schemes have no label (three of them documented), and the last sample of a curve is never drawn. Proved: exactly which accepted names have labels and colours, labels are injective over all strings, the pieces are exactly the samples of each part, each sample before the end once. graph_by_segments is modelled up to the pieces of one scheme.
* C67: State samples reproduced for 16 schemes; inverted Gauss schemes, control interpolation and the slopes are refuted.
* C69: Expressions are trees of element-wise operations on numpy arrays. Proved when every component depends on a state or a control and there is not exactly one sample; false otherwise (refuted).
* C70: Refuted: the time is assumed to go from 0 to 2; for a horizon T the result is 2/T times the integral.
* C72: rhs and lambda_vector do depend on previous calls (refuted); the others do not.
* C73: implicit_dynamics_q in full; implicit_dynamics_x for coordinates that do not clash with the states (x_clear) and are not called lam_k. With a clash it is wrong (C73_names_refuted).
* C74: Without constraints right; with them the result is off by the pseudoinverse of the constraint forces (C74_constraints, and an example in C74_constraints_refuted), and ImplicitLagrangesMethod raises.
* C78: Proved for names without '-' (distinctness, no additional text) and without '/' (folder); refuted otherwise.
* C79: Proved for coordinates given by number or by a list of clean names. Refuted: coordinates called q1, q2, ... and controls given as dynamic symbols are taken for parameters, so the function does not depend on the arguments.
* C80: Proved for lists of coordinates and for a number of coordinates. Refuted: a tuple of coordinates is counted as one and refused.
* C81: The functions are proved. Refuted: params_sym of an implicit problem includes accelerations that its functions do not take; u_vars are not used; f and g can disagree on the number of controls.
* C83: Values proved. Refuted: only the total number of entries is checked, and Sym2Fx with a number of states names them q_i, not x_i. Samples are proved where each right-hand side has a state or a control.
* C84: Refuted for samples of one number, taken for one sample.
* C85: Motions proved with ten parameters. Refuted: the five default parameters always fail.
* C86: Holds for implicit dynamics, and for explicit dynamics when all problems have the same u_vars or no earlier one could be set up. False otherwise: the object keeps the functions and numbers of the first problem that was set up, so the u_vars of later ones are ignored (C86_controls_refuted).
* C87: Proved for systems of order 2 without multipliers. The code refuses systems with multipliers (C87_multipliers_refuted) and of other orders (C87_order_refuted). That it returns is proved for every piecewise scheme of order 1 or 2 except hs_scipy, with linear controls.
* C88: Proved for the Hermite interpolation (hs_scipy), linear controls and times from 0, with an exact quadrature. With other schemes F_point and doub_quad_problem always raise, and quad_problem always (they call _newpoint_der with one argument too many); with times that do not start at 0 doub_quad_problem is wrong (C88_start_refuted).
* C89: Proved (text, value, agreement with RHS2numpy, flavours) for at least two controls, one parameter and one coordinate with names that python accepts; refuted for one control, for missing groups, for expressions of the whole x' and for a parameter called result. The printer of sympy is an oracle: python is trusted to read its text as the expression.
* C90: Proved for any groups except one control, where it is refuted, and names that python accepts. The printer of sympy is an oracle: python is trusted to read its text as the expression.
* C92: Proved for coordinates q_0, ..., q_(n-1) and energies of coordinates, velocities, time and constants. Missing: other names, that lagr_to_RHS does not find (C59_names_refuted), and other dynamic symbols.
* C93: Proved for SimpLagrangesMethod without constraints and with no dynamic symbols but coordinates and controls. Refuted: with constraints, with other dynamic symbols, and in ImplicitLagrangesMethod it always raises. Parameters that cancel in the product of mass matrix and forces are NameErrors at every call (C93_function).
* C94: Proved for bottom-up, top-down and the pseudospectral schemes whose arrays are not extended. Refuted: pseudospectral schemes LG, CG, LG_inv, CG_inv (C94_extended_refuted, C94_extended_inv_refuted), derivatives of order other than 1 asked for by themselves (C94_derivatives_refuted), and smooth controls, which never return. The piecewise scheme hs_scipy is proved for values and the first two derivatives; higher ones are zeros (C94_piecewise_third_refuted).
* C95: Proved between samples for every scheme but hs_scipy, with any minimiser and any inverse; it returns for all times in the horizon. Refuted: at the times of the samples the sample itself is returned (C95_samples_refuted), and with the default scheme hs_scipy there is no answer between samples (C95_default_refuted).
* C96: Proved for every solver. Refuted: with several segments the scheme of the results is the name without its prefixes (C96_scheme_refuted), so bottom-up and top-down ones differ only in scheme_mode; solve_repetitions has no default value (C96_default_refuted).
* C98: All of it except the slope at the start, which the code takes in the middle of the interval (C98_start_slope_refuted); values of states for orders up to 2, because above them the code raises (C25_states_refuted).
* C99: Proved for two or more coordinates, exactly when the function, if it accepts arrays, treats them sample by sample. Refuted for one coordinate and for functions that accept arrays otherwise.
* C100: Proved for every simplification that does not compute with floats, and with sympy's when all floats are equal. Refuted otherwise (C100_computed_refuted). Rationals and sums of more than two terms are not modelled apart.

## 8. Findings: where the code does not do what one would rely on

Each is a theorem about the model (in parentheses).

* C01 (`C01_single_row_refuted`): The claim fails for a tape of one step with several controls: the number of controls is taken for the number of steps.
* C01 (`C01_single_row_others_refuted`): Integrators return the whole recurrence
* C03 (`C03_rk4_refuted`): Simulation and transcription agree
* C10 (`C10_hsn_refuted`): Scheme "hsn": the interpolation recomputes the interior point with the first-order formula, and misses the end of the step.
* C12 (`C12_negative_times_refuted`): A negative time is not rejected: at t = -h the last sample is returned.
* C15 (`C15_refuted`): Two calls that share a dictionary: the second one uses the interior derivatives of the first one's data.
* C16 (`C16_G_order_refuted`): For any other order it raises, although there is an argument for the order.
* C16 (`C16_G_one_refuted`): With one coordinate and order 1 there is no exception: the result has one     number too many, the state itself before its derivative.
* C16 (`C16_layouts_order_refuted`): Any other order raises, for one state and for an array of states.
* C16 (`C16_samples_order_refuted`): expand_F and reduce_F are inverse
* C16 (`C16_expand_numpy_refuted`): numpy mode fails for every other order.
* C18 (`C18_state_mode_q_refuted`): state_mode "q": no function is ever returned.
* C22 (`C22_unit_at_points_refuted`): At every point of the set the result is a row of a matrix ([None] in the model), never 0 or 1.
* C23 (`C23_vector_interpolator_refuted`): A target point shared with the source set makes the call fail.
* C25 (`C25_states_refuted`): Extreme point functions evaluate the interpolating polynomial
* C25 (`C25_start_derivative_refuted`): The start derivative is taken in the middle of the interval.
* C25 (`C25_problem_controls_refuted`): Not so for the Jacobi schemes when the order is not 2: two different sets of points are used.
* C26 (`C26_order3_refuted`): Problems of order 3 or more cannot be transcribed with the Gauss schemes.
* C27 (`C27_single_point_refuted`): With one collocation point the Gauss schemes have no integration matrix.
* C28 (`C28_single_point_refuted`): Bottom-up constraints mean the polynomial obeys the dynamics
* C28 (`C28_interpolation_jacobi_refuted`): A feasible point whose stored final rate is 1; the interpolation returns 5/3, because it assumes order 2 for the points.
* C32 (`C32_quad_cost_refuted`): Without middle values quad_cost is twice the integral.
* C32 (`C32_sq_cost_default_refuted`): Without middle values it never works.
* C34 (`C34_quad_cost_refuted`): The cost of a constant is twice its integral.
* C34 (`C34_u_sq_pseudospectral_refuted`): u_sq_cost of a pseudospectral problem: twice the integral of the polynomial through the squares of the controls.
* C34 (`C34_trapz_cost_refuted`): With two LGL points the trapezoidal cost of every constant is 0.
* C34 (`C34_trapz_chebyshev_refuted`): Pseudospectral costs are integrals over time
* C35 (`C35_always_squared_refuted`): quad_cost squares whether asked or not.
* C35 (`C35_squared_ignored_refuted`): Multi-segment costs add up segment integrals
* C35 (`C35_state_rows_refuted`): quad_cost on state arrays always fails.
* C36 (`C36_documented_refuted`): One documented name is rejected.
* C36 (`C36_no_dynamics_refuted`): A dynamics object that is neither known nor callable is accepted, and the problem has no dynamic_setup.
* C36 (`C36_C38_euler_refuted`): The name euler is accepted, but its problems cannot apply the scheme.
* C37 (`C37_pseudospectral_refuted`): Methods called out of order raise RuntimeError
* C37 (`C37_cost_refuted`): Methods called out of order raise RuntimeError
* C37 (`C37_equispaced_refuted`): The rejected set-up of an equispaced problem leaves half of its attributes, so a later apply_scheme does not see that opti_setup is missing.
* C37 (`C37_multi_trapz_refuted`): The trapz_cost of a multi-segment problem never works.
* C37 (`C37_no_dynamics_refuted`): Methods called out of order raise RuntimeError
* C37 (`C37_stale_cost_refuted`): The cost of an earlier set-up survives the next set-up: a solve without a new cost goes through and reports the old one.
* C38 (`C38_second_order_refuted`): ... and refuse the motion t^2 / 2 of a system without jerk.
* C39 (`C39_increasing_refuted`): With a collocation point at an end of the segment the time of the end is there twice.
* C40 (`C40_D2_refuted`): With D2 the state jumps at the knot: both points are at time 1.
* C40 (`C40_jacobi_refuted`): With a Jacobi scheme and dynamics of order 1 the times of the problem are not those where the equations hold.
* C41 (`C41_rejected_refuted`): The error is never ValueError.
* C41 (`C41_equal_knots_refuted`): Two equal knots are accepted: a segment of length 0.
* C41 (`C41_counts_refuted`): So are numbers of points that are not positive.
* C42 (`C42_hsj_refuted`): With "hsj" the interior point is at two fifths of the interval, but its guess is that of the middle.
* C42 (`C42_float_refuted`): A number as position, as the documentation allows, is an IndexError.
* C42 (`C42_zero_refuted`): The default guess fails in equispaced problems of order 1.
* C42 (`C42_custom_a_refuted`): The accelerations of a custom guess are ignored: zero is used whatever they are.
* C42 (`C42_custom_ph_refuted`): So the controls at the knots and ends, which are variables too, and the positions of the constraints of top-down problems get no initial value: controls for every point are refused.
* C44 (`C44_symbolic_refuted`): Otherwise the dynamics are those of the earlier call: the arguments d2 are ignored.
* C44 (`C44_kind_g_q_refuted`): Kind g_q with any other order: the sizes do not match.
* C45 (`C45_one_row_refuted`): A 2-D array of one sample is an AssertionError.
* C45 (`C45_empty_refuted`): So are, with another error, arrays without components.
* C45 (`C45_number_refuted`): A number comes back as an array of one element.
* C46 (`C46_derivative_affine_refuted`): On affine data it is exact at every sample but the last, where it is the opposite of the slope.
* C46 (`C46_derivative_short_refuted`): Numerical integral and derivative
* C46 (`C46_integral_2d_refuted`): The integral of a 2-D array is along its rows, not along the time: a ValueError ...
* C46 (`C46_integral_2x2_refuted`): ... except for two samples of two components, where it is wrong.
* C46 (`C46_integers_refuted`): Results for arrays of integers lose their decimals.
* C47 (`C47_unhashable_refuted`): With an argument that has no hash (a list, an array) the stored function raises although the function itself returns.
* C48 (`C48_mixing_refuted`): Two processes that write the file of a function in pieces at the same time can leave an entry of one with the value of the other; the next call returns it.
* C48 (`C48_stuck_refuted`): A crash never gives a wrong value, but the file it leaves makes every later call fail: nothing repairs or removes it.
* C48 (`C48_makedirs_refuted`): Two processes that find no directory: the second to make it raises.
* C49 (`C49_same_name_refuted`): Two functions of the same name (in different modules) share their results.
* C49 (`C49_equal_arguments_refuted`): So do arguments that are [==] but different (1, 1.0 and True).
* C50 (`C50_bounds_refuted`): With min_p above max_p the segments have more than max_p points.
* C50 (`C50_min_refuted`): Segments that are not divided may have less than min_p points ...
* C50 (`C50_negative_refuted`): ... or a negative number of them, ...
* C50 (`C50_added_refuted`): ... which add_points does ask for, when the error is small.
* C51 (`C51_not_silent_refuted`): By default (silent=False) no refinement runs: the first message uses the function time as a module.
* C51 (`C51_failed_refuted`): If all attempts fail, the log is empty; and each of them has one more point in each segment, without limit.
* C51 (`C51_limit_refuted`): A result may have more than max_coll_points points: here 13 and not 5.
* C53 (`C53_implicit_multipliers_refuted`): With multipliers it is a ValueError, although the code means to drop them.
* C53 (`C53_top_down_lin_refuted`): The documented interpolation "lin" has no errors in top-down mode, for     problems of order two or more, unless as many times are asked for as there     are points (or there is one point): its second derivatives have as many rows as the points.
* C53 (`C53_mode_x_refuted`): The option mode="x", documented as the errors with the components of the     state in the dynamics, never returns when more times are asked for than the     name of the interpolation has letters (the default is 2000 times and     "pol"), whatever the data and the dynamics, even if they accept a letter as     a state.
* C53 (`C53_top_down_mode_x_refuted`): Dynamic error measures the defect
* C53 (`C53_bottom_up_scheme_order_refuted`): The order of the scheme, documented as used by the Jacobi schemes only, must     not be below the order of the problem: with its default, 2, problems of     order 3 or more have no dynamic errors at all.
* C53 (`C53_bottom_up_order_one_refuted`): With the same default and a problem of order 1: no error for one     coordinate, the rate of the first coordinate minus each value of the     dynamics for two or three, and a ValueError for more.
* C53 (`C53_bottom_up_tanks_refuted`): Two tanks filled at rates 1 and 2, with every scheme and number of points:     the trajectory is the exact solution; the error of the second tank is -1.
* C53 (`C53_pseudospectral_refuted`): A trajectory that obeys q'' = g(q) all over the horizon [0, 1] gets a non-zero error, because the error is computed at the single time t = n_interp.
* C54 (`C54_few_samples_refuted`): A number of samples that leaves a segment with one is refused: here the times are 0 and 3 and no time is in the second segment but its end.
* C54 (`C54_not_extended_refuted`): With the schemes of [half_open] no sample is at the start or at the end.
* C54 (`C54_late_start_refuted`): A result of an equispaced scheme that starts after time 0 cannot be interpolated.
* C55 (`C55_interpolations_refuted`): Result-returning functions keep the caller's data
* C55 (`C55_row_refuted`): So the dictionary is not the same afterwards.
* C55 (`C55_scheme_params_refuted`): dynamic_error writes its order in the caller's scheme_params.
* C56 (`C56_distinct_refuted`): Other names collide; and a coordinate called q is an error.
* C56 (`C56_standard_refuted`): It merges q1 and q_1.
* C57 (`C57_index_refuted`): A control whose index is not below the number of symbols is taken for a parameter.
* C57 (`C57_order_refuted`): Found controls are in alphabetical order: u_10 goes before u_2.
* C57 (`C57_dynamic_refuted`): A control given as a dynamic symbol is also taken for a parameter.
* C57 (`C57_overlap_refuted`): A coordinate given as a control is in two groups.
* C58 (`C58_simultaneous_refuted`): The replacements are made one after the other: with coordinates called x_1 and x_0 one replacement undoes the other.
* C59 (`C59_names_refuted`): For the equation 2 q_1'' + q_1 = u the matrix that is inverted is 0.
* C61 (`C61_lambda_refuted`): L = q_0'^2 + q_0' q_1' + q_1'^2, q_0' + q_1' = 0, a unit force on q_0: the multiplier is -1/2, the code gives -1.
* C61 (`C61_offset_refuted`): The constraint q_1' + q_0 = 0: a motion that follows the right-hand side leaves it.
* C62 (`C62_symbols_refuted`): A symmetric matrix with a symbol in it is refused, although masses and lengths may be symbols.
* C64 (`C64_labels_refuted`): Of the names the factory accepts, exactly those of the seven schemes euler, LG_inv, JG_inv, JG2, CG2, LGLm and D2 have no label, and five of them no colour: they raise KeyError, three of them although documented.
* C64 (`C64_colours_refuted`): Colours do not tell schemes apart.
* C64 (`C64_last_refuted`): The sample at the end is in no piece: of equally spaced samples from 0 to the end the last one is never drawn.
* C64 (`C64_graph_last_refuted`): Also in graph_by_segments.
* C64 (`C64_legend_refuted`): It is repeated if there is no sample in the first part.
* C67 (`C67_inverted_gauss_refuted`): The last node is at the final time 1 with value 1, yet -1 is returned there.
* C67 (`C67_controls_refuted`): Linear interpolation of the controls fails for every scheme with more nodes than collocation points.
* C67 (`C67_slope_refuted`): From 0 to 1 in unit time, and a slope of 1/2 reported.
* C69 (`C69_constant_refuted`): A component without states or controls (a constant acceleration) makes it fail on arrays of samples ...
* C69 (`C69_all_constant_refuted`): ... and if there are no others the result has one row instead of n.
* C69 (`C69_one_sample_refuted`): Numerical dynamics evaluate arrays of samples row by row
* C70 (`C70_scaled_refuted`): The accumulated error is T / 2 times what analyze_ph_run gives, when the horizon is T: it is right only if T = 2.
* C72 (`C72_rhs_refuted`): rhs gives another result after calculate_RHS_complete.
* C72 (`C72_lambda_refuted`): Asked too early, an AttributeError.
* C73 (`C73_names_refuted`): With coordinates called x_1 and x_0 the spring of the first acts on the second.
* C74 (`C74_constraints_refuted`): Two bodies kept opposite, the first pushed with u = 1: the result is 1/2.
* C74 (`C74_implicit_constraints_refuted`): ImplicitLagrangesMethod.sym_pinv_dyn always fails with constraints.
* C78 (`C78_add_refuted`): With the additional text that is not so: the text may be taken for a scheme.
* C78 (`C78_dash_refuted`): Names of the files of figures
* C78 (`C78_folder_refuted`): It is not for a problem name with a directory: the file would be in out/p_figs/out, which save_fig does not make.
* C79 (`C79_short_names_refuted`): Coordinates called q1, q2, ...: the functions do not depend on them.
* C79 (`C79_dynamic_controls_refuted`): Controls given as dynamic symbols: the functions do not depend on them.
* C80 (`C80_tuple_refuted`): A tuple of coordinates, counted as one, is refused.
* C81 (`C81_params_refuted`): params_sym of an implicit problem has accelerations that are no parameters of its functions.
* C81 (`C81_controls_refuted`): The controls given by the user are not used in an implicit problem.
* C81 (`C81_index_refuted`): theta'' - u_2 = 0: u_2 is a control for f and a parameter for g.
* C83 (`C83_sizes_refuted`): Only the total number of entries matters: entries of the state may be given as controls.
* C83 (`C83_sym2fx_number_refuted`): With a number of states: unless they are called q_i, the function does not depend on the states.
* C84 (`C84_single_refuted`): but samples of one number are taken for one sample of many numbers.
* C85 (`C85_default_refuted`): With its own default parameters it always fails.
* C86 (`C86_controls_refuted`): so the u_vars of a second problem are not used.
* C87 (`C87_multipliers_refuted`): A system with multipliers is refused, although generate_G is meant to drop them.
* C87 (`C87_order_refuted`): A system of an order other than 2 is refused, although there is an argument for the order.
* C88 (`C88_start_refuted`): Times that do not start at 0: an exact motion, q = t + 1/2 without force, has error 1/2.
* C88 (`C88_point_refuted`): With any other scheme F_point raises an exception,
* C88 (`C88_double_refuted`): so does doub_quad_problem,
* C88 (`C88_quad_refuted`): and quad_problem with any scheme.
* C89 (`C89_missing_refuted`): Without controls, parameters or coordinates the text is not python:
* C89 (`C89_one_control_refuted`): With one control, its name stands for the list that unpack returns, and so does the entry of the result: q_0'' = u_0, q_1'' = m q_0.
* C89 (`C89_state_refuted`): With expressions of the whole x', that RHS2numpy also takes, the velocities are there twice.
* C89 (`C89_result_refuted`): A parameter called result is lost.
* C90 (`C90_one_control_refuted`): With one control the value is again the list.
* C93 (`C93_constraints_refuted`): With constraints it always fails.
* C93 (`C93_implicit_refuted`): That of ImplicitLagrangesMethod always fails.
* C93 (`C93_moving_refuted`): A spring on a base that moves, y(t).
* C94 (`C94_derivatives_refuted`): The second derivative of t^2, asked for by itself, is -18 at the start.
* C94 (`C94_extended_refuted`): CG: the speed is t; its derivative at time 0 is 7 / sqrt 2 - 2.
* C94 (`C94_extended_inv_refuted`): CG_inv: q is t; its value at time 1 is -1.
* C94 (`C94_smooth_refuted`): Smooth controls: no call returns.
* C94 (`C94_smooth_bottom_up_refuted`): Bottom-up.
* C94 (`C94_smooth_top_down_refuted`): Top-down.
* C94 (`C94_piecewise_third_refuted`): The third derivative of the cubic is -12; the answer is 0.
* C95 (`C95_samples_refuted`): The sample 0 explains nothing of the acceleration 1 of the motion.
* C95 (`C95_default_refuted`): The default scheme has no answer between samples.
* C96 (`C96_default_refuted`): The documentation says that solve_repetitions is optional, with default     value 1: it is not.
* C96 (`C96_scheme_refuted`): In two problems with several segments the scheme of the results is the     same, and the name given is not.
* C97 (`C97_integers_refuted`): Restrictions leave the arrays they are given as they were
* C98 (`C98_start_slope_refuted`): So the slope at the start is wrong: 0 in place of -2 for x^2.
* C99 (`C99_one_coordinate_refuted`): With one coordinate, a function that does not accept arrays gives a square     array: the error of each sample against the acceleration of every sample.
* C99 (`C99_silent_refuted`): A function of one sample that accepts arrays without treating them sample     by sample gives a wrong result and no exception.
* C100 (`C100_computed_refuted`): With two floats it can be wrong, and leave a float: (0.4 x + 3) ** 1.4     gives 3 ** 1.4 computed as a float, and not 3.
