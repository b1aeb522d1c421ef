{"id": "C01", "title": "Integrators return the whole recurrence", "statement": "For every integrate_* function: the result has len(u)+1 states, the first is x_0, and every consecutive pair is related by the scheme's step with controls u[i], u[i+1] (and the given or averaged mid control), the last step reusing u[-1] for every control of the step.", "quantifier": "all dynamics F, initial states, control tapes of any length >= 1, dt, params, and any root finder", "why_tests_cant": "The claim ranges over every dynamics function and every real state/control; a test fixes one F and a few literals. Tape length is unbounded.", "anchors": ["chords/piecewise.py:integrate_euler", "chords/piecewise.py:integrate_rk4", "chords/piecewise.py:integrate_trapz", "chords/piecewise.py:integrate_trapz_mod", "chords/piecewise.py:integrate_hs", "chords/piecewise.py:integrate_hs_mod", "chords/piecewise.py:integrate_hs_parab", "chords/piecewise.py:integrate_hs_mod_parab", "chords/piecewise.py:integrate_hsj", "chords/piecewise.py:integrate_hsj_parab"]}
{"id": "C02", "title": "Integrators are causal", "statement": "State number i of an integrate_* result depends only on x_0 and the controls u[0..i] (u[0..i-1] for Euler): two tapes that agree on that prefix give the same states up to i.", "quantifier": "all pairs of control tapes agreeing on a prefix of any length", "why_tests_cant": "Needs every pair of tapes and every prefix length.", "anchors": ["chords/piecewise.py:integrate_euler", "chords/piecewise.py:integrate_rk4", "chords/piecewise.py:integrate_trapz", "chords/piecewise.py:integrate_hs"]}
{"id": "C03", "title": "Simulation and transcription agree", "statement": "A state x_n is a root of the implicit step residual of a scheme exactly when the corresponding *_restr function is zero, so a simulated trajectory satisfies the optimisation restriction and conversely; explicit steps (Euler, RK4) zero their own *_restr.", "quantifier": "all F, x, x_n, u, u_n, u_c, dt, params", "why_tests_cant": "The claim ranges over every dynamics function and every real state/control; a test fixes one F and a few literals.", "anchors": ["chords/piecewise.py:trapz_opti_step", "chords/piecewise.py:trapz_restr", "chords/piecewise.py:hs_opti_step", "chords/piecewise.py:hs_restr", "chords/piecewise.py:hs_mod_opti_step", "chords/piecewise.py:hs_mod_restr", "chords/piecewise.py:hsj_opti_step", "chords/piecewise.py:hsj_restr", "chords/piecewise.py:rk4_step", "chords/piecewise.py:rk4_restr"]}
{"id": "C04", "title": "State restrictions equal acceleration restrictions", "statement": "If a, a_n (and a_c at the scheme's interior point) are the accelerations the dynamics give at those points, the *_accel_restr of a scheme is zero exactly when its *_restr is zero.", "quantifier": "all second-order F, states, controls, steps", "why_tests_cant": "The claim ranges over every dynamics function and every real state/control; a test fixes one F and a few literals.", "anchors": ["chords/piecewise.py:euler_accel_restr", "chords/piecewise.py:trapz_accel_restr", "chords/piecewise.py:trapz_mod_accel_restr", "chords/piecewise.py:hs_accel_restr", "chords/piecewise.py:hs_mod_accel_restr", "chords/piecewise.py:hsj_accel_restr", "chords/piecewise.py:hs_half_x", "chords/piecewise.py:hs_mod_half_x", "chords/piecewise.py:hsj_half_x"]}
{"id": "C05", "title": "Interior point formulas agree", "statement": "The interior-point formula of the step/restriction, of the half_x function given to the optimiser and of the midpoint used when interpolating give the same state whenever the scheme's restrictions hold, and all are the value of the interpolating polynomial at that point.", "quantifier": "all states, accelerations, steps satisfying the restrictions", "why_tests_cant": "The claim ranges over every dynamics function and every real state/control; a test fixes one F and a few literals.", "anchors": ["chords/piecewise.py:hs_half_x", "chords/piecewise.py:hs_mod_half_x", "chords/piecewise.py:hsj_half_x", "chords/piecewise.py:hs_midpoint", "chords/piecewise.py:hs_mod_midpoint", "chords/piecewise.py:hsj_midpoint"]}
{"id": "C06", "title": "Order-M schemes generalise the fixed ones", "statement": "generate_trapz_m_func(1), (2) equal the trapz and trapz_mod acceleration restrictions; generate_hs_m_funcs(1), (2) equal the hs and hs_mod ones (restriction and half point).", "quantifier": "all states, accelerations, dt, all dimensions", "why_tests_cant": "All dimensions and values.", "anchors": ["chords/piecewise.py:generate_trapz_m_func", "chords/piecewise.py:generate_hs_m_funcs"]}
{"id": "C07", "title": "Order-M restriction is the interpolant at the end of the step", "statement": "For every order M, the trapz_m / hs_m restriction is x_n minus the value at tau = h of the order-M interpolating polynomial built from x and the accelerations; so it is zero exactly when the interpolated trajectory ends at x_n.", "quantifier": "all orders M >= 1, all dimensions, states, accelerations, h != 0", "why_tests_cant": "M is unbounded.", "anchors": ["chords/piecewise.py:generate_trapz_m_func", "chords/piecewise.py:generate_hs_m_funcs", "chords/piecewise.py:generate_tz_interp", "chords/piecewise.py:generate_hs_interp"]}
{"id": "C08", "title": "Interpolated derivatives are derivatives", "statement": "For every order M and derivation order d, the interpolator generated with deriv=d+1 is the true time derivative of the one with deriv=d, at every tau; likewise hsj_interp, hsj_dot_interp, hsj_dot_dot_interp.", "quantifier": "all M >= 1, d >= 0, tau, h, all data", "why_tests_cant": "Derivative is a limit over a continuum; M and d unbounded.", "anchors": ["chords/piecewise.py:generate_tz_interp", "chords/piecewise.py:generate_hs_interp", "chords/piecewise.py:hsj_interp", "chords/piecewise.py:hsj_dot_interp", "chords/piecewise.py:hsj_dot_dot_interp"]}
{"id": "C09", "title": "The M-th derivative interpolates the accelerations", "statement": "The order-M derivative of the interpolated coordinate equals a at tau=0, a_n at tau=h (and a_c at the scheme's interior point), and inside a step every coordinate block of the state is the derivative of the previous one (v is the derivative of q everywhere) for the modified and order-M schemes.", "quantifier": "all M, data, h != 0", "why_tests_cant": "Continuum of tau and unbounded M.", "anchors": ["chords/piecewise.py:generate_tz_interp", "chords/piecewise.py:generate_hs_interp", "chords/piecewise.py:hsj_interp"]}
{"id": "C10", "title": "Interpolated trajectories satisfy the dynamics at collocation points", "statement": "If a scheme's restriction holds on a step and the accelerations come from F, then the interpolated state passes through x and x_n and its time derivative equals F at the start, interior and end points of the step.", "quantifier": "all F, states and controls meeting the restrictions", "why_tests_cant": "The claim ranges over every dynamics function and every real state/control; a test fixes one F and a few literals.", "anchors": ["chords/piecewise.py:interpolated_array", "chords/piecewise.py:interpolated_array_derivative", "chords/piecewise.py:_newpoint", "chords/piecewise.py:_newpoint_der"]}
{"id": "C11", "title": "Exactness on polynomial motions", "statement": "If the true motion is a polynomial of degree at most M+1 (trapezoidal) or M+2 (Hermite-Simpson; the top-order block even one more) then its samples satisfy the order-M restriction exactly, the half point is the true mid state, and the interpolant reproduces the motion at every time.", "quantifier": "all M, all polynomials of that degree, all h", "why_tests_cant": "Unbounded degree and infinitely many polynomials.", "anchors": ["chords/piecewise.py:generate_trapz_m_func", "chords/piecewise.py:generate_hs_m_funcs", "chords/piecewise.py:generate_hs_interp", "chords/piecewise.py:generate_tz_interp"]}
{"id": "C12", "title": "Interpolation hits the samples and picks the right segment", "statement": "For t in [0, (N-1)h] the interpolation uses the segment that contains t and at t = n*h returns sample n (up to the 1e-8 h snap); times outside the samples are rejected with an error, never extrapolated silently.", "quantifier": "all t, all sample counts", "why_tests_cant": "Every real t; boundary and negative times included.", "anchors": ["chords/piecewise.py:_newpoint", "chords/piecewise.py:_newpoint_u", "chords/piecewise.py:_newpoint_der", "chords/piecewise.py:_prepare_interp"]}
{"id": "C13", "title": "Interpolated trajectory is continuous", "statement": "When the restrictions hold on every step, the interpolated state is a continuous function of time over the whole horizon (the segments meet at the samples) up to the snap tolerance.", "quantifier": "all sample arrays meeting the restrictions", "why_tests_cant": "Continuity over a continuum and any number of segments.", "anchors": ["chords/piecewise.py:_newpoint"]}
{"id": "C14", "title": "Control interpolation formulas", "statement": "Linear, parabolic and 2/5-parabolic control interpolation pass through the node values and the given interior value (at h/2 or 2h/5), and reproduce every linear, respectively quadratic, control exactly.", "quantifier": "all node values, all times in the step", "why_tests_cant": "Infinitely many controls and times.", "anchors": ["chords/piecewise.py:_newpoint_u", "chords/piecewise.py:interp_parab", "chords/piecewise.py:interp_parab_j"]}
{"id": "C15", "title": "Interpolation leaves its arguments unchanged", "statement": "Calling interpolated_array twice with the same scheme_params dictionary and different data gives the result each data set alone would give.", "quantifier": "all histories of calls sharing a dictionary", "why_tests_cant": "History dependence across arbitrary call sequences.", "anchors": ["chords/piecewise.py:_calculate_missing_arrays", "chords/piecewise.py:interpolated_array"]}
{"id": "C16", "title": "expand_F and reduce_F are inverse", "statement": "expand_F(F)(x,u) is the state derivative: all blocks of x but the first, followed by F(x,u), and likewise expand_G(G) with G of the blocks; in numpy mode for one state and for arrays of states, however the accelerations are laid out; reduce_F(expand_F(F)) returns F's accelerations and expand_F of a reduced first-order function returns that function; for every order.", "quantifier": "all F, orders, dimensions, x, u", "why_tests_cant": "The claim ranges over every dynamics function and every real state/control; a test fixes one F and a few literals.", "anchors": ["chords/piecewise.py:expand_F", "chords/piecewise.py:expand_G", "chords/piecewise.py:reduce_F"]}
{"id": "C17", "title": "State division and reunion are inverse", "statement": "get_x_divisions cuts a state of order*n entries in order blocks of n; reunite_matrix of those blocks gives the state back and changes nothing else.", "quantifier": "all orders, dimensions, states", "why_tests_cant": "All sizes.", "anchors": ["chords/piecewise.py:get_x_divisions", "chords/piecewise.py:reunite_matrix", "chords/piecewise.py:index_div"]}
{"id": "C18", "title": "Raising the order of implicit dynamics keeps the solutions", "statement": "increase_order_implicit_func returns a residual that is zero exactly when the original one is zero on the lower derivatives and the extra derivative blocks are consistent (q^(k)' = q^(k+1)).", "quantifier": "all implicit F, orders old <= new, states", "why_tests_cant": "The claim ranges over every dynamics function and every real state/control; a test fixes one F and a few literals.", "anchors": ["chords/piecewise.py:increase_order_implicit_func"]}
{"id": "C19", "title": "Time maps between tau and t are inverse affine maps", "statement": "tau_to_t_points maps -1 to t0 and 1 to t1, is increasing, and t_to_tau_points is its inverse; a function moved with tau_to_t_function takes the same value at corresponding points.", "quantifier": "all t0 != t1, all tau", "why_tests_cant": "Every real interval.", "anchors": ["chords/pseudospectral.py:tau_to_t_points", "chords/pseudospectral.py:t_to_tau_points", "chords/pseudospectral.py:tau_to_t_function"]}
{"id": "C20", "title": "Node, collocation and index bookkeeping agree", "statement": "For every scheme and number of collocation points, the indices returned for a scheme select from the node list exactly the collocation points, and the number of nodes is the one announced.", "quantifier": "all schemes in the lists, all N", "why_tests_cant": "N unbounded.", "anchors": ["chords/pseudospectral.py:coll_points", "chords/pseudospectral.py:node_points", "chords/pseudospectral.py:n_col_to_n_nodes", "chords/pseudospectral.py:get_coll_indices", "chords/pseudospectral.py:get_coll_indices_from_nodes"]}
{"id": "C21", "title": "Chebyshev point sets are valid", "statement": "The Chebyshev generators return N distinct points of [-1,1] in increasing order, with -1 and/or 1 included exactly for the Radau/Lobatto variants; inverted and wrapped point sets keep distinctness and order.", "quantifier": "all N", "why_tests_cant": "N unbounded.", "anchors": ["chords/pseudospectral.py:CG", "chords/pseudospectral.py:CGL", "chords/pseudospectral.py:CGR", "chords/pseudospectral.py:coll_points"]}
{"id": "C22", "title": "Lagrange basis", "statement": "lagrangePolynomial and unit_Lag_pol are 1 at their own node and 0 at the others, so lagrangePolynomial(taus, ys) is the unique polynomial of degree < N through the data.", "quantifier": "all lists of distinct nodes, all values", "why_tests_cant": "N and values unbounded.", "anchors": ["chords/pseudospectral.py:lag_pol", "chords/pseudospectral.py:lagrangePolynomial", "chords/pseudospectral.py:unit_Lag_pol"]}
{"id": "C23", "title": "Barycentric interpolation equals Lagrange interpolation", "statement": "bary_poly and bary_poly_2d return at every time the value of the unique interpolating polynomial of degree < N (and the sample itself at a node), for any non-zero common scaling of the weights; vector_interpolator gives the same as a row of coefficients.", "quantifier": "all distinct nodes, data, times", "why_tests_cant": "Continuum of times, any N.", "anchors": ["chords/pseudospectral.py:bary_poly", "chords/pseudospectral.py:bary_poly_2d", "chords/pseudospectral.py:vector_interpolator", "chords/pseudospectral.py:v_coef", "chords/pseudospectral.py:_v_sum"]}
{"id": "C24", "title": "The differentiation matrix is exact", "statement": "matrix_D_bary applied to the node values of any polynomial of degree < N gives the node values of its derivative; every row sums to zero; the k-th power gives k-th derivatives.", "quantifier": "all node sets, all polynomials of degree < N, all k", "why_tests_cant": "All N, all polynomials.", "anchors": ["chords/pseudospectral.py:matrix_D_bary", "chords/td_pseudospectral.py:matrix_D_nu"]}
{"id": "C25", "title": "Extreme point functions evaluate the interpolating polynomial", "statement": "get_bary_extreme_f(..., point='start'/'end') returns the interpolating polynomial's value at tau=-1 / tau=1 (the coefficient itself when the scheme has a point there), diff_end_p and diff_start_p the same at the ends.", "quantifier": "all schemes, N, coefficient vectors", "why_tests_cant": "All N, all values.", "anchors": ["chords/pseudospectral.py:get_bary_extreme_f", "chords/pseudospectral.py:diff_end_p_fun", "chords/pseudospectral.py:diff_start_p_fun"]}
{"id": "C26", "title": "Collocation constraints mean the polynomial obeys the dynamics", "statement": "For a pseudospectral problem, any values satisfying the constraints that apply_scheme emits are such that the interpolating polynomial of the state nodes, as a function of time, has derivative F(x,u) at every collocation point, starts at x_start and ends at x_end.", "quantifier": "all schemes, N, dynamics, horizons, candidate solutions", "why_tests_cant": "The claim ranges over every dynamics function and every real state/control; a test fixes one F and a few literals.", "anchors": ["chords/opti.py:_Pseudospectral.opti_setup", "chords/opti.py:_Pseudospectral.apply_scheme"]}
{"id": "C27", "title": "Integration matrices integrate", "statement": "Each row of Integration_Matrix / Extreme_Matrix gives the P-th derivative, at that construction point (at tau=1), of the unique function whose M-th derivative is the polynomial through the collocation accelerations and whose first derivatives at the start are the given initial values, including the time scaling of an interval of length h.", "quantifier": "all N, schemes, orders M, derivative orders P <= M, h, data", "why_tests_cant": "All sizes and data.", "anchors": ["chords/bu_pseudospectral.py:Integration_Polynomial_Matrix", "chords/bu_pseudospectral.py:Integration_Matrix", "chords/bu_pseudospectral.py:Extreme_Matrix"]}
{"id": "C28", "title": "Bottom-up constraints mean the polynomial obeys the dynamics", "statement": "For a bottom-up problem the constraints hold exactly when the coordinate polynomial built from start state and accelerations has the stored values and derivatives at the construction points and satisfies the dynamics at each collocation point, and ends at x_end.", "quantifier": "all schemes, N, orders, dynamics", "why_tests_cant": "The claim ranges over every dynamics function and every real state/control; a test fixes one F and a few literals.", "anchors": ["chords/opti.py:_BU_Pseudospectral.apply_scheme", "chords/bu_pseudospectral.py:Integration_Matrix", "chords/bu_pseudospectral.py:Polynomial_interpolations_BU"]}
{"id": "C29", "title": "Top-down constraints mean the polynomial obeys the dynamics", "statement": "For a top-down problem the constraints hold exactly when the coordinate polynomial through its construction values has, at the collocation points, the stored derivatives (scaled by 2/h per order) and satisfies the dynamics there.", "quantifier": "all schemes, N, orders, dynamics", "why_tests_cant": "The claim ranges over every dynamics function and every real state/control; a test fixes one F and a few literals.", "anchors": ["chords/opti.py:_TD_Pseudospectral.apply_scheme", "chords/td_pseudospectral.py:matrix_L", "chords/td_pseudospectral.py:Polynomial_interpolations_TD"]}
{"id": "C30", "title": "Repeated and polynomial integrals are exact", "statement": "gauss_integral is exact on polynomials up to degree 2N-1 on any interval; gauss_rep_integral is the n-fold repeated integral of a polynomial of degree n_pol; poly_integral returns its antiderivative with value y0 at t0.", "quantifier": "all polynomials, intervals, integration orders", "why_tests_cant": "All degrees and intervals.", "anchors": ["chords/util.py:gauss_integral", "chords/util.py:gauss_rep_integral", "chords/util.py:poly_integral", "chords/util.py:poly_integral_2d", "chords/util.py:Lag_integ_2d"]}
{"id": "C31", "title": "Quadrature weights integrate interpolants", "statement": "get_weights(N, scheme) satisfies sum w_i p(tau_i) = integral of p over [-1,1] for every polynomial of degree < N; in particular the weights sum to 2.", "quantifier": "all N, node sets, polynomials", "why_tests_cant": "All N.", "anchors": ["chords/util.py:get_weights"]}
{"id": "C32", "title": "Equispaced quadratic cost is the integral of the interpolated control", "statement": "u_sq_cost and quad_cost of an equispaced problem are the trapezoidal / Simpson / 2-5 rule of the array over the real horizon: exact for controls whose square is polynomial of the rule's degree, and equal to T*c for a constant c.", "quantifier": "all arrays, horizons, N", "why_tests_cant": "All arrays.", "anchors": ["chords/opti.py:_Equispaced.quad_cost", "chords/opti.py:_Equispaced.u_sq_cost", "chords/opti.py:_Equispaced.sq_cost"]}
{"id": "C33", "title": "Exact quadratic squared integration", "statement": "exact_cuadratic_squared_integration returns the exact integral of the square of the parabola through the three points over a step of length h.", "quantifier": "all a, b, c, h", "why_tests_cant": "Equality of an integral over all reals.", "anchors": ["chords/opti.py:exact_cuadratic_squared_integration"]}
{"id": "C34", "title": "Pseudospectral costs are integrals over time", "statement": "quad_cost / u_sq_cost / trapz_cost of pseudospectral, bottom-up and top-down problems equal the integral over [t_start, t_end] of the interpolating polynomial (squared when asked), with the real time scaling, and integrate a constant to c*(t_end-t_start).", "quantifier": "all schemes, N, arrays, horizons", "why_tests_cant": "All N and arrays.", "anchors": ["chords/opti.py:_get_cost_obj_quad_int_cas", "chords/opti.py:_get_cost_obj_trap_int", "chords/opti.py:_Pseudospectral.quad_cost", "chords/opti.py:_Pseudospectral.trapz_cost"]}
{"id": "C35", "title": "Multi-segment costs add up segment integrals", "statement": "The cost of a ph problem is the sum over segments of the single-segment cost with that segment's duration; squared only when asked.", "quantifier": "all structures, knots, arrays", "why_tests_cant": "Any number of segments.", "anchors": ["chords/opti.py:_multi_pseudospectral.quad_cost", "chords/opti.py:_multi_pseudospectral.u_sq_cost", "chords/opti.py:_multi_pseudospectral.trapz_cost"]}
{"id": "C36", "title": "Scheme names are dispatched consistently", "statement": "Opti_Problem accepts exactly the documented scheme names (with BU_, TD_, ph_ prefixes), builds the matching kind of problem, and rejects every other name at construction; each accepted name can be set up.", "quantifier": "all strings", "why_tests_cant": "All strings.", "anchors": ["chords/opti.py:Opti_Problem", "chords/opti.py:_Opti_Problem.__init__"]}
{"id": "C37", "title": "Methods called out of order raise RuntimeError", "statement": "Any sequence of method calls that skips dynamic_setup/opti_setup gets RuntimeError from the method that needs it and leaves the problem usable; after the documented order, no RuntimeError.", "quantifier": "all sequences of method calls", "why_tests_cant": "All histories.", "anchors": ["chords/opti.py:_Opti_Problem", "chords/opti.py:_Equispaced.apply_scheme", "chords/opti.py:_Pseudospectral.apply_scheme"]}
{"id": "C38", "title": "Equispaced constraints are exactly the step restrictions", "statement": "apply_scheme of an equispaced problem emits, for every interval and only those, the scheme's restriction between its two ends, the dynamics at every node (and interior point), and consistency of the interior point.", "quantifier": "all N, schemes, dimensions", "why_tests_cant": "All N.", "anchors": ["chords/opti.py:_Equispaced.apply_scheme", "chords/opti.py:_Equispaced.opti_setup"]}
{"id": "C39", "title": "ph arrays are a partition aligned with time", "statement": "In a multi-segment problem the per-segment slices of the global arrays are disjoint except for the shared knots, cover every row, and row i of every array corresponds to entry i of the time array, which is increasing.", "quantifier": "all point structures and knot lists", "why_tests_cant": "Any number of segments and points.", "anchors": ["chords/opti.py:_multi_pseudospectral.opti_setup"]}
{"id": "C40", "title": "ph segments join continuously", "statement": "In any feasible point of a multi-segment problem the polynomial of a segment ends at the state where the next one starts, for every scheme kind.", "quantifier": "all structures, schemes, feasible points", "why_tests_cant": "Any number of segments.", "anchors": ["chords/opti.py:_multi_pseudospectral.apply_scheme"]}
{"id": "C41", "title": "Structure validation", "statement": "Setting up a multi-segment problem succeeds only if the number of knots is one less than the number of segments, all are inside the horizon and increasing; otherwise ValueError.", "quantifier": "all knot lists and structures", "why_tests_cant": "All lists.", "anchors": ["chords/opti.py:_multi_pseudospectral._check_structure_consistency"]}
{"id": "C42", "title": "Linear and waypoint initial guesses", "statement": "The linear guess is q_s at the start, q_e at the end, affine in time in between, with v its constant slope and higher derivatives zero; the waypoint guess passes through every waypoint and is affine between them.", "quantifier": "all end points, horizons, grids", "why_tests_cant": "All grids.", "anchors": ["chords/opti.py:_Lin_init.initial_guess", "chords/opti.py:_Waypoints_init.initial_guess", "chords/opti.py:_Custom_init.initial_guess"]}
{"id": "C43", "title": "Result names", "statement": "get_q_and_ders_names(M) has M+1 distinct names: the coordinate and its first M derivatives, prefix-compatible between orders.", "quantifier": "all orders", "why_tests_cant": "Unbounded order.", "anchors": ["chords/opti.py:get_q_and_ders_names"]}
{"id": "C44", "title": "dynamic_setup reflects its own arguments", "statement": "The dynamics used by a problem are those of the arguments of its own dynamic_setup call, whatever other problems did before with the same Lagrangian object; the four function kinds of a callable dynamics describe the same solutions.", "quantifier": "all call histories; all F", "why_tests_cant": "Histories and all dynamics.", "anchors": ["chords/opti.py:_Explicit_Dynamics.dynamic_setup", "chords/opti.py:_Implicit_Dynamics.dynamic_setup", "chords/opti.py:_Function_Dynamics.dynamic_setup"]}
{"id": "C45", "title": "unpack and congruent_concatenate are inverse", "statement": "congruent_concatenate(unpack(X)) is X for 1D and 2D arrays; unpack yields one entry per state component; higher dimensions are rejected.", "quantifier": "all arrays", "why_tests_cant": "All shapes.", "anchors": ["chords/numpy.py:unpack", "chords/numpy.py:congruent_concatenate", "chords/numpy.py:combinefunctions"]}
{"id": "C46", "title": "Numerical integral and derivative", "statement": "trapz_integrate starts at the initial condition and increments by the trapezoidal area of each step; num_derivative is exact on affine data at every sample including the ends; integrating and differentiating are consistent on affine data.", "quantifier": "all arrays, steps", "why_tests_cant": "All arrays.", "anchors": ["chords/numpy.py:trapz_integrate", "chords/numpy.py:num_derivative"]}
{"id": "C47", "title": "store_results is transparent", "statement": "Whatever calls were made before (in this or earlier processes, through any argument style: positional, keyword, default), a cached call returns what the function would return for those arguments, provided the function is deterministic and the stored files were written by completed calls.", "quantifier": "all histories of calls and process restarts", "why_tests_cant": "All histories.", "anchors": ["chords/numpy.py:store_results", "chords/numpy.py:get_default_args"]}
{"id": "C48", "title": "store_results survives crashes and concurrency", "statement": "A crash at any point of a call, or another process running calls at the same time, never makes a later call return a wrong value.", "quantifier": "all crash points and interleavings", "why_tests_cant": "All crash points and schedules.", "anchors": ["chords/numpy.py:store_results"]}
{"id": "C49", "title": "Cached results are isolated by function", "statement": "Two different functions or two different argument tuples never share a stored result.", "quantifier": "all pairs of functions/arguments", "why_tests_cant": "All pairs.", "anchors": ["chords/numpy.py:store_results"]}
{"id": "C50", "title": "New mesh structure respects its bounds", "statement": "calc_new_struct returns, for every segment, a structure with no segment above max_p, at least the requested number of points in total, every old knot kept, knots strictly increasing inside the horizon and one less than the number of segments.", "quantifier": "all structures, knots, errors, bounds", "why_tests_cant": "All lists.", "anchors": ["chords/adaptive.py:calc_new_struct", "chords/adaptive.py:add_points"]}
{"id": "C51", "title": "Adaptive refinement terminates within its limits", "statement": "The refinement loop runs at most max_iter iterations, stops as soon as the error is below tolerance or the next structure exceeds the point limit, and returns the log of every iteration run.", "quantifier": "all solver outcomes (any sequence of errors and failures)", "why_tests_cant": "All sequences of outcomes.", "anchors": ["chords/adaptive.py:adaptive_refinement_system"]}
{"id": "C52", "title": "Segment errors use that segment's samples", "statement": "analyze_res_err splits the error samples into consecutive blocks, one per segment, covering all samples exactly once, and reports each block's maximum scaled by 1+max|q|.", "quantifier": "all structures and sample arrays", "why_tests_cant": "All lists.", "anchors": ["chords/adaptive.py:analyze_res_err", "chords/adaptive.py:calc_test_point_arr", "chords/adaptive.py:max_err"]}
{"id": "C53", "title": "Dynamic error measures the defect", "statement": "dynamic_error returns the difference between the derivative of the interpolated state block and the next block / the dynamics; it is zero at a time exactly when the interpolation satisfies the equations there, and identically zero for exact solutions.", "quantifier": "all schemes, trajectories, F", "why_tests_cant": "The claim ranges over every dynamics function and every real state/control; a test fixes one F and a few literals.", "anchors": ["chords/analysis.py:dynamic_error", "chords/analysis.py:dynamic_errors_from_interp"]}
{"id": "C54", "title": "ph interpolation covers the horizon once", "statement": "Interpolating a multi-segment result with n_interp points returns exactly n_interp samples, starting at t_start, ending at t_end, increasing, each evaluated with the polynomial of the segment containing it.", "quantifier": "all structures, n_interp", "why_tests_cant": "All sizes.", "anchors": ["chords/analysis.py:interpolation", "chords/analysis.py:_generate_sub_problems"]}
{"id": "C55", "title": "Result-returning functions keep the caller's data", "statement": "dynamic_errors(save_in_res=False) and dynamic_errors_from_interp leave the caller's dictionaries unchanged.", "quantifier": "all dictionaries", "why_tests_cant": "All histories.", "anchors": ["chords/analysis.py:dynamic_errors", "chords/analysis.py:dynamic_errors_from_interp", "chords/analysis.py:dynamic_error"]}
{"id": "C56", "title": "Symbol renaming keeps distinct symbols distinct", "statement": "diff_to_symb and standard_notation map distinct dynamic symbols/derivatives to distinct static symbols, so substitution loses nothing.", "quantifier": "all finite sets of symbols and derivative levels", "why_tests_cant": "All names.", "anchors": ["chords/symbolic.py:diff_to_symb", "chords/symbolic.py:standard_notation", "chords/symbolic.py:diff_to_symb_expr"]}
{"id": "C57", "title": "find_arguments classifies every symbol once and deterministically", "statement": "Every free symbol of the expressions ends in exactly one of the returned groups, in an order that does not depend on set iteration order.", "quantifier": "all symbol sets, all iteration orders", "why_tests_cant": "All orders (hash seeds).", "anchors": ["chords/symbolic.py:find_arguments"]}
{"id": "C58", "title": "q to x substitution", "statement": "q_2_x(q, qdot) replaces coordinates by x_0..x_{n-1} and velocities by x_n..x_{2n-1} simultaneously.", "quantifier": "all coordinate lists and expressions", "why_tests_cant": "All names.", "anchors": ["chords/symbolic.py:q_2_x"]}
{"id": "C59", "title": "lagr_to_RHS solves the equations of motion", "statement": "The right-hand sides returned, substituted for the accelerations, satisfy M a + c = u for every state and control.", "quantifier": "all linear-in-acceleration systems with invertible mass matrix", "why_tests_cant": "All matrices of all sizes.", "anchors": ["chords/symbolic.py:lagr_to_RHS"]}
{"id": "C60", "title": "Christoffel form of the Lagrange equations", "statement": "The Coriolis matrix built from the mass matrix makes M' - 2C skew-symmetric and M q'' + C q' + G equals the Euler-Lagrange expression of the Lagrangian.", "quantifier": "all symmetric mass matrices and potentials, all sizes", "why_tests_cant": "All functions.", "anchors": ["chords/symbolic.py:_C_from_M", "chords/symbolic.py:SimpLagrangesMethod.form_lagranges_equations"]}
{"id": "C61", "title": "Constrained dynamics reduction", "statement": "The reduced right-hand side gives independent accelerations such that, with the dependent ones from the constraints, the full constrained equations hold for some multipliers; the returned multipliers are those.", "quantifier": "all mass, constraint and force matrices", "why_tests_cant": "All matrices.", "anchors": ["chords/symbolic.py:SimpLagrangesMethod.rhs", "chords/symbolic.py:SimpLagrangesMethod.calculate_RHS_complete", "chords/symbolic.py:SimpLagrangesMethod.lambda_vector"]}
{"id": "C62", "title": "Inertia vector", "statement": "matrix_to_6_vect lists the six independent entries of a symmetric inertia matrix in an order from which the matrix is recovered.", "quantifier": "all symmetric 3x3 matrices", "why_tests_cant": "All values.", "anchors": ["chords/robots.py:matrix_to_6_vect"]}
{"id": "C63", "title": "Joint torques are internal", "statement": "In robot_to_sympy the torque of joint i acts with opposite sign on the previous link: the total of applied torques telescopes to the first joint's.", "quantifier": "all robots, any number of links", "why_tests_cant": "Any number of links.", "anchors": ["chords/robots.py:robot_to_sympy"]}
{"id": "C64", "title": "Scheme labels and plotting segments", "statement": "Every scheme name accepted by Opti_Problem has labels and colours; plotting by segments draws every sample of the array exactly once per segment boundary.", "quantifier": "all accepted names; all arrays", "why_tests_cant": "All names and arrays.", "anchors": ["chords/util.py:sch_to_lab", "chords/util.py:sch_to_long_label", "chords/util.py:sch_to_color", "chords/util.py:plot_by_segments"]}
{"id": "C65", "title": "Explicit steps reproduce known flows", "statement": "On linear dynamics x'=Ax an explicit Euler step returns the degree-1, and an RK4 step the degree-4, Taylor polynomial of the exact flow; on dynamics that only depend on the control, Euler returns the left-endpoint rule and RK4 returns Simpson's rule on the start, mid and end controls.", "quantifier": "all state sizes, linear maps, states, controls and step lengths", "why_tests_cant": "A wrong stage weight can vanish on particular data; the identity must hold for every linear map and control.", "anchors": ["chords/piecewise.py:euler_step", "chords/piecewise.py:rk4_step"]}
{"id": "C66", "title": "Polynomial interpolation of a pseudospectral solution is the solution polynomial", "statement": "interpolations_pseudospectral with polynomial interpolation returns, at every time, the value of the polynomial through the node states, its first and second derivative, and the value of the polynomial through the collocation controls; interpolations_deriv_pseudospectral returns its k-th derivative.", "quantifier": "all schemes, numbers of points, horizons, solutions, times and derivative orders", "why_tests_cant": "Continuum of times and values, any N and k.", "anchors": ["chords/pseudospectral.py:interpolations_pseudospectral", "chords/pseudospectral.py:interpolations_deriv_pseudospectral", "chords/pseudospectral.py:get_pol_x", "chords/pseudospectral.py:get_pol_u"]}
{"id": "C67", "title": "Linear interpolation of a pseudospectral solution passes through the samples", "statement": "With linear interpolation, interpolations_pseudospectral returns the node states at the node times and the collocation controls at the collocation times, and slopes are with respect to time.", "quantifier": "all schemes, numbers of points, horizons, solutions", "why_tests_cant": "Any N, all real samples.", "anchors": ["chords/pseudospectral.py:interpolations_pseudospectral", "chords/pseudospectral.py:extend_x_arrays", "chords/pseudospectral.py:extend_u_array", "chords/pseudospectral.py:interpolations_deriv_pseudospectral"]}
{"id": "C68", "title": "Collocation points have Gauss, Radau and Lobatto accuracy", "statement": "Replacing a function by its interpolant at the collocation points does not change its integral over the interval (for Jacobi schemes built for dynamics of order M: its integral repeated M times) as long as the function is a polynomial of degree at most 2N-1, 2N-2 or 2N-3 for the Gauss, Radau and Lobatto sets; the quadrature weights returned for the Legendre schemes are exact to the same degrees.", "quantifier": "all N, orders, Legendre and Jacobi schemes, polynomials", "why_tests_cant": "All N and all polynomials; the points are irrational.", "anchors": ["chords/pseudospectral.py:LG", "chords/pseudospectral.py:LGR", "chords/pseudospectral.py:LGL", "chords/pseudospectral.py:JG", "chords/pseudospectral.py:JGR", "chords/pseudospectral.py:JGR_inv", "chords/pseudospectral.py:JGL", "chords/pseudospectral.py:coll_points", "chords/util.py:get_weights"]}
{"id": "C69", "title": "Numerical dynamics evaluate arrays of samples row by row", "statement": "The function that RHS2numpy or Sym2Fx builds from symbolic expressions, called with arrays of n states and n controls, returns an array whose i-th row is the value of the expressions at the i-th state and control; in mode 'x' it is (v, a) and in mode 'q' it is a, whichever of the two the expressions were.", "quantifier": "all expressions, numbers of samples, states and controls", "why_tests_cant": "All expressions and shapes.", "anchors": ["chords/numpy.py:RHS2numpy", "chords/numpy.py:Sym2Fx", "chords/numpy.py:unpack", "chords/numpy.py:congruent_concatenate"]}
{"id": "C70", "title": "Accumulated errors of a refinement integrate over the horizon", "statement": "The accumulated errors that analyze_ph_run reports for each case are the integrals over the horizon of that case of the absolute errors sampled there.", "quantifier": "all horizons, numbers of samples and errors", "why_tests_cant": "All horizons and arrays; a test with a horizon of two seconds passes.", "anchors": ["chords/adaptive.py:analyze_ph_run", "chords/analysis.py:total_state_error"]}
{"id": "C71", "title": "Energy balance", "statement": "Along a motion that obeys M q'' + C q' + G = F with the matrices of LagrangesMethod, kinetic plus potential energy changes at the rate of the power of F; without F it is constant.", "quantifier": "all Lagrangians with a quadratic kinetic energy, all motions", "why_tests_cant": "All systems and motions.", "anchors": ["chords/symbolic.py:LagrangesMethod.form_lagranges_equations", "chords/symbolic.py:_C_from_M"]}
{"id": "C72", "title": "Results do not depend on what was asked before", "statement": "Once the equations are formed, rhs, rhs_full, rhs_reduced, calculate_RHS_complete and lambda_vector give the same results in whatever order they were called before.", "quantifier": "all sequences of calls; systems with and without constraints, reducible or not", "why_tests_cant": "All histories of calls.", "anchors": ["chords/symbolic.py:SimpLagrangesMethod.rhs", "chords/symbolic.py:SimpLagrangesMethod.calculate_RHS_complete", "chords/symbolic.py:SimpLagrangesMethod.lambda_vector", "chords/symbolic.py:SimpLagrangesMethod.rhs_full", "chords/symbolic.py:SimpLagrangesMethod.rhs_reduced"]}
{"id": "C73", "title": "Implicit dynamics vanish exactly on motions", "statement": "The expressions of implicit_dynamics_q along a motion are the two sides of the equations of motion with multipliers subtracted, and the derivatives of the constraints; implicit_dynamics_x is the same in states, with the definition of the velocities.", "quantifier": "all systems with or without constraints, all motions and multipliers", "why_tests_cant": "All systems and motions.", "anchors": ["chords/symbolic.py:ImplicitLagrangesMethod.implicit_dynamics_q", "chords/symbolic.py:ImplicitLagrangesMethod.implicit_dynamics_x"]}
{"id": "C74", "title": "Inverse dynamics", "statement": "sym_pinv_dyn gives the controls of a motion that obeys the equations, and for any motion of a fully actuated system controls that make it obey them.", "quantifier": "all systems with forces affine in the controls, all motions", "why_tests_cant": "All systems and motions.", "anchors": ["chords/symbolic.py:SimpLagrangesMethod.sym_pinv_dyn", "chords/symbolic.py:ImplicitLagrangesMethod.sym_pinv_dyn"]}
{"id": "C75", "title": "Forward kinematics of robots", "statement": "The frame and the centre of mass of each body built by robot_to_sympy are those given by the product of the modified Denavit-Hartenberg matrices of the links; the axes stay orthonormal and right-handed, and the angular velocity of the body is that with which its axes turn.", "quantifier": "all robots of revolute modified-DH links, any number of links, all replaced parameters, all motions", "why_tests_cant": "Any number of links, all parameters and motions.", "anchors": ["chords/robots.py:dhlink_rot_mod_to_symbody", "chords/robots.py:robot_to_sympy"]}
{"id": "C76", "title": "Lagrangian and energy of robots", "statement": "The Lagrangian of the translated robot is the kinetic energy of its rigid bodies minus their potential energy along every motion, and where the equations of motion hold the total energy grows with the power of the motors.", "quantifier": "all robots, any number of links, all motions", "why_tests_cant": "Any number of links, all motions.", "anchors": ["chords/robots.py:robot_to_sympy"]}
{"id": "C77", "title": "Which robots are translated", "statement": "robot_to_sympy succeeds exactly for chains of revolute modified-DH links with a dictionary for each link and numeric inertia, and otherwise raises the exception of the first link that fails.", "quantifier": "all lists of links and dictionaries", "why_tests_cant": "All lists.", "anchors": ["chords/robots.py:robot_to_sympy", "chords/robots.py:matrix_to_6_vect"]}
{"id": "C78", "title": "Names of the files of figures", "statement": "The file name save_fig/gen_fig_filename builds does not depend on the order of the list of schemes, figures of different schemes, sizes N or coordinates get different names, and the file lies in the folder that save_fig creates.", "quantifier": "all problem and graph names, lists of schemes, N, coordinate counters and formats", "why_tests_cant": "Collisions of names range over all strings and lists.", "anchors": ["chords/util.py:gen_fig_filename", "chords/util.py:save_fig"]}
{"id": "C79", "title": "Casadi functions of right-hand sides", "statement": "rhs_to_casadi_function gives a function whose value at any states, controls and parameters is the state derivative (mode x) or acceleration (mode q) that the symbolic right-hand sides have there; arguments of other sizes are refused; it succeeds exactly when the symbols of the arguments are distinct and the sizes fit.", "quantifier": "all lists of symbolic right-hand sides, names of coordinates, forms of q_vars and u_vars, all numeric arguments", "why_tests_cant": "Any expression and any naming of the symbols.", "anchors": ["chords/casadi.py:rhs_to_casadi_function", "chords/casadi.py:sympy2casadi", "chords/symbolic.py:standard_notation", "chords/symbolic.py:find_arguments"]}
{"id": "C80", "title": "Residuals of explicit dynamics", "statement": "The residual functions that an explicit problem gets from symbolic right-hand sides vanish exactly where the motion obeys the equations, in first and second order form, and the problem is set up with the numbers of coordinates, controls and parameters that its functions take.", "quantifier": "all right-hand sides, coordinates, controls, states, accelerations and parameters", "why_tests_cant": "All expressions and all motions.", "anchors": ["chords/opti.py:_get_f_g_funcs", "chords/opti.py:_Explicit_Dynamics.dynamic_setup"]}
{"id": "C81", "title": "Residuals of implicit dynamics", "statement": "The residual functions that an implicit problem gets from symbolic expressions have the values of the expressions; for a Lagrangian system, with or without constraints, they vanish exactly on the motions that obey the Euler-Lagrange equations with multipliers; the problem is set up with the numbers of controls, multipliers and parameters that its functions take.", "quantifier": "all expressions, coordinates, Lagrangian systems, motions and parameters", "why_tests_cant": "All Lagrangian systems and all motions.", "anchors": ["chords/casadi.py:implicit_dynamic_q_to_casadi_function", "chords/casadi.py:implicit_dynamic_x_to_casadi_function", "chords/opti.py:_Implicit_Dynamics.dynamic_setup"]}
{"id": "C82", "title": "Casadi functions of schemes", "statement": "restriction2casadi and accelrestriction2casadi give a function that has the values of the scheme on arguments of the stated sizes and refuses others; scheme parameters are required exactly by the schemes that have them.", "quantifier": "all schemes, sizes and arguments", "why_tests_cant": "All schemes as functions and all sizes.", "anchors": ["chords/casadi.py:restriction2casadi", "chords/casadi.py:accelrestriction2casadi"]}
{"id": "C83", "title": "Numpy functions of right-hand sides", "statement": "RHS2numpy accepts what rhs_to_casadi_function accepts and its function has the same values, on vectors and row by row on arrays of samples; Sym2Fx gives a function with the values of the expressions; both refuse arguments of other sizes.", "quantifier": "all right-hand sides, forms of variables, vectors and arrays of samples", "why_tests_cant": "All expressions and arrays of any number of rows.", "anchors": ["chords/numpy.py:RHS2numpy", "chords/numpy.py:Sym2Fx"]}
{"id": "C84", "title": "Lists and casadi arrays", "statement": "Unpacking a casadi array gives the numbers of a vector or the columns of an array of samples, and a list turned into a casadi array is unpacked to itself.", "quantifier": "all lists and arrays of any shape", "why_tests_cant": "Every shape.", "anchors": ["chords/casadi.py:list2casadi", "chords/casadi.py:unpack", "chords/numpy.py:unpack"]}
{"id": "C85", "title": "The double pendulum function", "statement": "The state derivative doub_pend_F returns is that of a double pendulum: the motions it generates are exactly those that obey the Euler-Lagrange equations of two masses hanging from two rods, with torques u; it can be called with its default parameters.", "quantifier": "all masses, lengths, gravities, motions and torques", "why_tests_cant": "All motions.", "anchors": ["chords/numpy.py:doub_pend_F", "chords/casadi.py:doub_pend_F"]}
{"id": "C86", "title": "Several problems made with one LM object", "statement": "A problem made from an LM object is set up from its dynamics and its own u_vars, as if the object were new, whatever problems were made from it before, successfully or not.", "quantifier": "all dynamics, implicit and explicit, and all histories of problems", "why_tests_cant": "Every history of set-ups.", "anchors": ["chords/opti.py:_Implicit_Dynamics.dynamic_setup", "chords/opti.py:_Explicit_Dynamics.dynamic_setup", "chords/opti.py:_get_f_g_funcs"]}
{"id": "C87", "title": "Errors of implicit dynamics", "statement": "dynamic_error_implicit returns, at each sample of the interpolated solution, the difference between the derivatives of the trajectory and the accelerations that solve M a = F there, as dynamic_error does for explicit dynamics, for any order and with or without multipliers.", "quantifier": "all systems, samples, schemes, orders and modes", "why_tests_cant": "All systems and all solutions.", "anchors": ["chords/analysis.py:dynamic_error_implicit", "chords/analysis.py:generate_G"]}
{"id": "C88", "title": "Integrated errors", "statement": "F_point gives the accelerations of the dynamics at the interpolated motion; quad_problem and doub_quad_problem integrate, once and twice, the difference between the accelerations of the interpolated motion and those of the dynamics, so that an exact motion has error zero.", "quantifier": "all dynamics, samples, times and schemes", "why_tests_cant": "All motions and all instants.", "anchors": ["chords/analysis.py:F_point", "chords/analysis.py:quad_problem", "chords/analysis.py:doub_quad_problem"]}
{"id": "C89", "title": "Texts of right-hand sides", "statement": "print_funcs_RHS returns the text of a python function F(x, u, params) that, once defined, computes x' from the state, the controls and the parameters: the velocities followed by the values of the given expressions, as the function of RHS2numpy does.", "quantifier": "all lists of expressions, coordinates, controls, flavours and arguments", "why_tests_cant": "All expressions, names and arguments.", "anchors": ["chords/symbolic.py:print_funcs_RHS", "chords/symbolic.py:printer_function", "chords/symbolic.py:make_list"]}
{"id": "C90", "title": "Texts of expressions", "statement": "print_funcs returns the text of a python function of the groups of symbols that appear (x, u, params) that, once defined, computes the given expression, or the list of the given expressions.", "quantifier": "all expressions, coordinates, flavours and arguments", "why_tests_cant": "All expressions, names and arguments.", "anchors": ["chords/symbolic.py:print_funcs", "chords/symbolic.py:printer_function", "chords/symbolic.py:make_list"]}
{"id": "C91", "title": "Lagrange's equations", "statement": "get_lagr_eqs(T, U, qs) returns, for each coordinate, an expression whose value along every motion is d/dt (dL/dq') - dL/dq with L = T - U, the same as the equations of LagrangesMethod.", "quantifier": "all kinetic and potential energies, coordinates and motions", "why_tests_cant": "All energies and motions.", "anchors": ["chords/symbolic.py:lagrange", "chords/symbolic.py:get_lagr_eqs"]}
{"id": "C92", "title": "From energies to right-hand sides", "statement": "For lagr_to_RHS(get_lagr_eqs(T, U, n)) a motion obeys Lagrange's equations with generalised forces u_0, ..., u_(n-1) exactly if its accelerations are the values of the right-hand sides returned.", "quantifier": "all energies with an invertible mass matrix, motions and forces", "why_tests_cant": "All energies and motions.", "anchors": ["chords/symbolic.py:get_lagr_eqs", "chords/symbolic.py:lagr_to_RHS"]}
{"id": "C93", "title": "Numeric inverse dynamics", "statement": "num_pinv_dyn(ext_forces) returns a function of positions, speeds, accelerations and physical parameters whose values are those of sym_pinv_dyn, so that on a motion that obeys the equations it gives the controls.", "quantifier": "all systems, controls, motions and parameters", "why_tests_cant": "All systems and values.", "anchors": ["chords/symbolic.py:SimpLagrangesMethod.num_pinv_dyn", "chords/symbolic.py:ImplicitLagrangesMethod.num_pinv_dyn", "chords/symbolic.py:find_dyn_dependencies"]}
{"id": "C94", "title": "Hermite and smooth interpolation", "statement": "With x_interp='Hermite' (scheme='hs_scipy' for piecewise samples) the interpolations of a pseudospectral, bottom-up, top-down or piecewise solution are the piecewise cubic curve that goes through the solution values with the solution rates, without jumps or kinks, together with its derivatives; with u_interp='smooth' the controls are a smooth curve through the control values.", "quantifier": "all schemes, numbers of points, data and times", "why_tests_cant": "All data, schemes and times; the error only shows away from the nodes or for some schemes.", "anchors": ["chords/pseudospectral.py:interpolations_pseudospectral", "chords/pseudospectral.py:interpolations_deriv_pseudospectral", "chords/bu_pseudospectral.py:interpolations_BU_pseudospectral", "chords/bu_pseudospectral.py:interpolations_deriv_BU_pseudospectral", "chords/td_pseudospectral.py:interpolations_TD_pseudospectral", "chords/td_pseudospectral.py:interpolations_deriv_TD_pseudospectral", "chords/piecewise.py:interpolated_array", "chords/piecewise.py:interpolated_array_derivative"]}
{"id": "C95", "title": "Controls that explain the motion", "statement": "With u_scheme='min_err' the interpolated control at every time is the one for which the accelerations given by the dynamics are nearest to those of the interpolated motion, so never further than with the straight line between controls; with u_scheme='pinv_dyn' it is the inverse dynamics of the interpolated motion, so the dynamics hold at every time.", "quantifier": "all dynamics, inverse dynamics, minimisers, samples, schemes and times", "why_tests_cant": "All motions and times; the numbers of a few samples cannot show that no other control explains more.", "anchors": ["chords/piecewise.py:interpolated_array", "chords/piecewise.py:_newpoint_u", "chords/piecewise.py:_u_min_err_opti_step", "chords/piecewise.py:interpolate_u"]}
{"id": "C96", "title": "What solving leaves in a problem", "statement": "After simple_solve() or chrono_solve(n) with n >= 1 the results hold the value in the solution of every array, list and of the cost, the statistics of the solver, the sizes and parameters of the problem and the name of its scheme, each under its own name and nothing else; chrono_solve keeps the last of its n solutions, and cpudt is the mean time. A call that raises leaves the previous results and solution, so after any history of calls results and solution belong together. Both methods give the same results, but for the time.", "quantifier": "all problems, orders, solvers, numbers of repetitions and histories of calls, failing or not", "why_tests_cant": "Needs all solvers, failures at any repetition and all histories of calls.", "anchors": ["chords/opti.py:_Opti_Problem.simple_solve", "chords/opti.py:_Opti_Problem.chrono_solve", "chords/opti.py:_Opti_Problem._save_results", "chords/opti.py:opti_setup"]}
{"id": "C97", "title": "Restrictions leave the arrays they are given as they were", "statement": "The restrictions of the piecewise schemes and their midpoint functions compute in copies: for states of floating point numbers, whatever memory the arguments share with each other, each returns an array of its own memory with the values of its formula and leaves every array of the caller as it was. It holds when taking a part of an array gives a view (numpy) and when it gives a copy (casadi). With states of integers the result does not obey the formula: accelerations are cut to integers.", "quantifier": "all contents of memory, all views into it, all orders and numbers of coordinates, views or copies", "why_tests_cant": "Needs all ways in which arrays can share memory, all orders and sizes.", "anchors": ["chords/piecewise.py:euler_accel_restr", "chords/piecewise.py:trapz_accel_restr", "chords/piecewise.py:trapz_mod_accel_restr", "chords/piecewise.py:hs_half_x", "chords/piecewise.py:hs_accel_restr", "chords/piecewise.py:hs_mod_half_x", "chords/piecewise.py:hs_mod_accel_restr", "chords/piecewise.py:hsj_half_x", "chords/piecewise.py:hsj_accel_restr", "chords/piecewise.py:generate_trapz_m_func", "chords/piecewise.py:generate_hs_m_funcs", "chords/piecewise.py:index_div", "chords/piecewise.py:get_x_divisions", "chords/piecewise.py:reunite_matrix"]}
{"id": "C98", "title": "casadi and numpy agree at the ends of an interval", "statement": "The casadi functions that give the value at the start or the end of a collocation polynomial return what the numpy functions return for the same coefficients, or raise the same exception, and so the value at the end of the interval of the polynomial through the coefficients. The casadi slope at the end is the derivative of that polynomial there. The casadi slope at the start is not: it is the derivative in the middle.", "quantifier": "all schemes, numbers of points, modes, ends, orders and coefficients", "why_tests_cant": "Needs all schemes, sizes and coefficients, and derivatives of polynomials of every degree.", "anchors": ["chords/pseudospectral.py:get_bary_extreme_f_cas", "chords/pseudospectral.py:end_p_fun_cas", "chords/pseudospectral.py:start_p_fun_cas", "chords/pseudospectral.py:diff_end_p_fun_cas", "chords/pseudospectral.py:diff_start_p_fun_cas", "chords/pseudospectral.py:lagrangePolynomial", "chords/casadi.py:sympy2casadi"]}
{"id": "C99", "title": "Dynamics written for one sample work on arrays of samples", "statement": "The dynamic errors of a pseudospectral solution can be computed with dynamics written for one sample: the accelerations used are those of each sample, one row per sample. This holds with two or more coordinates if the function raises when it gets arrays, or treats them sample by sample. It does not hold with one coordinate, where the errors become a square array, nor for functions that accept arrays without treating them sample by sample, which give wrong errors silently.", "quantifier": "all dynamics, numbers of samples and coordinates, and values", "why_tests_cant": "Needs every function and every number of samples; the wrong results raise no exception.", "anchors": ["chords/pseudospectral.py:try_array_f", "chords/pseudospectral.py:dynamic_error_pseudospectral"]}
{"id": "C100", "title": "Rounding the numbers of an expression rounds each of them", "statement": "integerize, roundize and deletezeros return the expression with every float replaced by its rounding, or by zero if it is small: its value is that of the expression with the rounded numbers, and no float is left that is not rounded. This holds as long as sympy does not compute with floats on the way, and for integerize also when all floats are equal. It does not hold otherwise: (0.4*x + 3)**1.4 becomes 3**1.4 = 4.65..., a float.", "quantifier": "all expressions, numbers of decimals, tolerances, and values of the symbols", "why_tests_cant": "Needs every expression; the order in which the floats are replaced and what is simplified in between matter.", "anchors": ["chords/symbolic.py:integerize", "chords/symbolic.py:roundize", "chords/symbolic.py:deletezeros"]}
{"id": "C101", "title": "Summaries of the errors of a result", "statement": "total_state_error and arr_abs_integr_vert give, for each column, the integral over time of the polyline through the absolute errors: never less than the integral of the absolute value of the polyline through the errors, zero only if all of them are, at most their bound times the duration, and additive over consecutive runs. arr_max, arr_mod and arr_sum are the largest absolute value, the norm and the sum of absolute values of each row, in that order; arr_max raises ValueError for rows without entries.", "quantifier": "all increasing times, numbers of samples and of columns, and errors", "why_tests_cant": "The totals must be right for every set of samples, also unevenly spaced ones; the inequalities hold between quantities no finite set of samples determines.", "anchors": ["chords/analysis.py:total_state_error", "chords/analysis.py:arr_abs_integr_vert", "chords/analysis.py:arr_sum", "chords/analysis.py:arr_max", "chords/analysis.py:arr_mod"]}
