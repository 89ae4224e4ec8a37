{
 "claims": [
  {
   "property": "C01",
   "status": "proved",
   "theorems": [
    "C01_certificate",
    "C01_complete",
    "C01_requested_tolerance_refuted",
    "C01_runs"
   ],
   "note": "Exact rationals. Model quantities (gradients, multipliers, sub-solver steps, Lagrange values) are arbitrary answers, one record per pass; every theorem holds for all of them and for every first state with consistent data. C01_runs links a complete run with the loop heads used in the theorems."
  },
  {
   "property": "C02",
   "status": "proved",
   "theorems": [
    "C02_budget",
    "C02_at_most_miter_refuted"
   ],
   "note": "Exact rationals. Model quantities (gradients, multipliers, sub-solver steps, Lagrange values) are arbitrary answers, one record per pass; every theorem holds for all of them and for every first state with consistent data. "
  },
  {
   "property": "C03",
   "status": "proved",
   "theorems": [
    "C03_budget",
    "C03_loop_head",
    "C03_at_most_msimul_refuted"
   ],
   "note": "Exact rationals. Model quantities (gradients, multipliers, sub-solver steps, Lagrange values) are arbitrary answers, one record per pass; every theorem holds for all of them and for every first state with consistent data. k0 is the number of calls of the initial phase."
  },
  {
   "property": "C04",
   "status": "proved",
   "theorems": [
    "C04_terminates"
   ],
   "note": "Exact rationals. Model quantities (gradients, multipliers, sub-solver steps, Lagrange values) are arbitrary answers, one record per pass; every theorem holds for all of them and for every first state with consistent data. An exception also counts as an end."
  },
  {
   "property": "C05",
   "status": "proved",
   "theorems": [
    "C05_codes",
    "C05_stalled"
   ],
   "note": "Exact rationals. Model quantities (gradients, multipliers, sub-solver steps, Lagrange values) are arbitrary answers, one record per pass; every theorem holds for all of them and for every first state with consistent data. The code of the main loop only; prelim's codes are not covered here."
  },
  {
   "property": "C06",
   "status": "proved",
   "theorems": [
    "C06_incumbent",
    "C06_returned",
    "C06_constraints",
    "C06_info_f",
    "C06_info_f_refuted"
   ],
   "note": "Exact rationals. Model quantities (gradients, multipliers, sub-solver steps, Lagrange values) are arbitrary answers, one record per pass; every theorem holds for all of them and for every first state with consistent data. "
  },
  {
   "property": "C07",
   "status": "proved",
   "theorems": [
    "C07_accepted",
    "C07_unconstrained",
    "C07_reference",
    "C07_slacks",
    "C07_decision",
    "C07_descent_refuted",
    "C07_new_slacks"
   ],
   "note": "Exact rationals. Model quantities (gradients, multipliers, sub-solver steps, Lagrange values) are arbitrary answers, one record per pass; every theorem holds for all of them and for every first state with consistent data. "
  },
  {
   "property": "C08",
   "status": "proved",
   "theorems": [
    "C08_penalty",
    "C08_rule",
    "C08_bounded",
    "C08_changes"
   ],
   "note": "Exact rationals. Model quantities (gradients, multipliers, sub-solver steps, Lagrange values) are arbitrary answers, one record per pass; every theorem holds for all of them and for every first state with consistent data. "
  },
  {
   "property": "C09",
   "status": "proved",
   "theorems": [
    "C09_low",
    "C09_high",
    "C09_rule",
    "C09_maximum_refuted"
   ],
   "note": "Exact rationals. Model quantities (gradients, multipliers, sub-solver steps, Lagrange values) are arbitrary answers, one record per pass; every theorem holds for all of them and for every first state with consistent data. "
  },
  {
   "property": "C10",
   "status": "proved",
   "theorems": [
    "C10_bookkeeping",
    "C10_size",
    "C10_archive"
   ],
   "note": "Exact rationals. Model quantities (gradients, multipliers, sub-solver steps, Lagrange values) are arbitrary answers, one record per pass; every theorem holds for all of them and for every first state with consistent data. "
  },
  {
   "property": "C11",
   "status": "proved",
   "theorems": [
    "C11_swap",
    "C11_twice",
    "C11_symmetric",
    "C11_out_of_range"
   ],
   "note": "Any point type; the factorisation that is recomputed from the new set is not represented."
  },
  {
   "property": "C12",
   "status": "proved",
   "theorems": [
    "C12_moves",
    "C12_stays",
    "C12_position_one_refuted",
    "C12_bound_test_sound",
    "C12_bound_test_complete_refuted",
    "C12_true_merit_refuted"
   ],
   "note": "Rational numbers; the norm of the slack-corrected constraints and the bound test are arguments; the bound test is also modelled concretely."
  },
  {
   "property": "C13",
   "status": "proved",
   "theorems": [
    "C13_chosen",
    "C13_nothing"
   ],
   "note": "Rational numbers; distances and Lagrange values are arguments. Thresholds >= 0 as in all calls."
  },
  {
   "property": "C14",
   "status": "proved",
   "theorems": [
    "C14_frame",
    "C14_new_points",
    "C14_kept_points",
    "C14_settled",
    "C14_radius",
    "C14_bounded",
    "C14_radius_refuted"
   ],
   "note": "Rational numbers; distances, the descending sort and the answers of the point generator are arguments. Threshold for improvements positive, far threshold >= 0, set not empty."
  },
  {
   "property": "C15",
   "status": "proved",
   "theorems": [
    "C15_size",
    "C15_sequence",
    "C15_block_refuted"
   ],
   "note": ""
  },
  {
   "property": "C16",
   "status": "proved",
   "theorems": [
    "C16_goes_on",
    "C16_returns",
    "C16_reported_refuted"
   ],
   "note": "Exact rationals. Model quantities (gradients, multipliers, sub-solver steps, Lagrange values) are arbitrary answers, one record per pass; every theorem holds for all of them and for every first state with consistent data. The initial phase is treated with C25. A pass that evaluates a failing improvement point neither continues nor returns (C16_goes_on, C16_returns), so it raises; C16_reported_refuted is a run that does."
  },
  {
   "property": "C17",
   "status": "proved",
   "theorems": [
    "C17_clamp",
    "C17_moderate_values_kept",
    "C17_rule",
    "C17_bounded",
    "C17_error",
    "C17_zero_refuted",
    "C17_ten_times_refuted",
    "C17_sign_refuted",
    "C17_still_huge_refuted"
   ],
   "note": "Rational numbers; infinities are represented by values beyond 1e25 (they are clamped first); NaN is excluded by the earlier check."
  },
  {
   "property": "C18",
   "status": "proved",
   "theorems": [
    "C18_accepted",
    "C18_range",
    "C18_pass_or_flag1",
    "C18_outcome"
   ],
   "note": "Numbers are rationals, infinities and NaN; integers and floats are distinguished. Strings of enumerations are modelled with their case and blanks."
  },
  {
   "property": "C19",
   "status": "proved",
   "theorems": [
    "C19_numeric_idempotent",
    "C19_second_validation_refuted",
    "C19_instance_untouched",
    "C19_class_overwritten_refuted",
    "C19_class_failed"
   ],
   "note": "Objects are cells of a heap with a flag instance/class; copy.copy is modelled on them."
  },
  {
   "property": "C20",
   "status": "proved",
   "theorems": [
    "C20_refused",
    "C20_quit",
    "C20_entered",
    "C20_functions",
    "C20_no_run"
   ],
   "note": "Arguments are modelled by what the checks look at."
  },
  {
   "property": "C21",
   "status": "proved",
   "theorems": [
    "C21_number",
    "C21_unique",
    "C21_onesided",
    "C21_short"
   ],
   "note": "Bounds may be infinite or NaN."
  },
  {
   "property": "C22",
   "status": "proved",
   "theorems": [
    "C22_independent",
    "C22_leftover_count",
    "C22_leftover_raises",
    "C22_dependence_refuted"
   ],
   "note": "The computation after the argument checks is an arbitrary function of the arguments and of the stored slack data; the theorems hold for each such function."
  },
  {
   "property": "C23",
   "status": "proved",
   "theorems": [
    "C23_calls_in_bounds",
    "C23_start",
    "C23_crossed",
    "C23_all_fixed"
   ],
   "note": "Exact rationals. lb and ub have at least as many entries as x0 (the driver builds them so)."
  },
  {
   "property": "C24",
   "status": "proved",
   "theorems": [
    "C24_start_outside_refuted",
    "C24_simplex_outside_refuted",
    "C24_integer_bounds"
   ],
   "note": "Exact rationals; conversion to integer by truncation towards zero as numpy does."
  },
  {
   "property": "C25",
   "status": "proved",
   "theorems": [
    "C25_calls",
    "C25_zero_start",
    "C25_endless",
    "C25_nonzero_start",
    "C25_give_up_refuted",
    "C25_handover"
   ],
   "note": "Exact rationals; geometry and model computations are arguments that may raise. The clause about non-termination is about exact arithmetic: in floating point the radius underflows after about 160 rounds."
  },
  {
   "property": "C26",
   "status": "proved",
   "theorems": [
    "C26_fixed_raises",
    "C26_shapes"
   ],
   "note": "Array shapes and numpy broadcasting are modelled; the index error of X[:,m] on the empty one-dimensional X covers the 1+1 case."
  },
  {
   "property": "C27",
   "status": "proved",
   "theorems": [
    "C27_expansion",
    "C27_expansion_shifted"
   ],
   "note": "Exact reals; one evaluation point per call. The shift/scale form needs n >= 1 and the scale vector built by build_QR."
  },
  {
   "property": "C28",
   "status": "proved",
   "theorems": [
    "C28_symmetric",
    "C28_complete",
    "C28_independent",
    "C28_count",
    "C28_too_many"
   ],
   "note": "Exact reals. Completeness (every quadratic function), independence (coefficients determined by the function) and the count together say each monomial occurs exactly once."
  },
  {
   "property": "C29",
   "status": "proved",
   "theorems": [
    "C29_interpolates",
    "C29_linear",
    "C29_reproduces",
    "C29_reproduces_underdetermined_refuted",
    "C29_minimum_norm",
    "C29_least_squares"
   ],
   "note": "Regular case: exact triangular solves, exact generalised inverse of non-singular triangles, exact orthonormal-triangular factorisation without curing, poised set."
  },
  {
   "property": "C30",
   "status": "proved",
   "theorems": [
    "C30_delta",
    "C30_model_value",
    "C30_sum_one",
    "C30_sum_one_without_shift_refuted",
    "C30_routines_agree"
   ],
   "note": "Same regular case as C29."
  },
  {
   "property": "C31",
   "status": "proved",
   "theorems": [
    "C31_never_finite",
    "C31_elementwise",
    "C31_incomplete_raises",
    "C31_unknown_mode"
   ],
   "note": "A value that is not finite is None; sums and products with it stay so."
  },
  {
   "property": "C32",
   "status": "proved",
   "theorems": [
    "C32_when_it_raises"
   ],
   "note": "Singular triangles (LinAlgError of numpy.linalg.solve) are the excluded solver failures."
  },
  {
   "property": "C33",
   "status": "proved",
   "theorems": [
    "C33_projection",
    "C33_norm",
    "C33_zero_iff_first_order",
    "C33_outside_refuted"
   ],
   "note": "Exact reals, bounds finite or infinite."
  },
  {
   "property": "C34",
   "status": "proved",
   "theorems": [
    "C34_inside",
    "C34_flags",
    "C34_solved",
    "C34_boundary",
    "C34_descent",
    "C34_forward",
    "C34_monotone",
    "C34_cauchy",
    "C34_decrease",
    "C34_longer",
    "C34_precision",
    "C34_precision_boundary_refuted"
   ],
   "note": "Exact reals. Radius and tolerance nonnegative where the theorem says so; descent and monotonicity need a symmetric matrix."
  },
  {
   "property": "C35",
   "status": "proved",
   "theorems": [
    "C35_update",
    "C35_failure_unchanged",
    "C35_failure_iff",
    "C35_entries",
    "C35_growth"
   ],
   "note": "Exact reals. The matrix handed in is assumed symmetric positive definite for the success theorem; the failure theorems hold for every matrix."
  },
  {
   "property": "C36",
   "status": "proved",
   "theorems": [
    "C36_convexified",
    "C36_eigenvalues",
    "C36_condition_close",
    "C36_condition_unchanged",
    "C36_condition_regular_refuted",
    "C36_condition_number",
    "C36_condition_repaired"
   ],
   "note": "Exact reals. Eigen- and singular value decompositions are arguments assumed exact; NaN/infinite entries are not modelled. The refutation uses an exact singular value decomposition of the zero matrix other than the one a particular library version may return."
  },
  {
   "property": "C37",
   "status": "proved",
   "theorems": [
    "C37_regular_exit",
    "C37_regular_optimal",
    "C37_regular_gap",
    "C37_newton",
    "C37_total",
    "C37_work",
    "C37_zero_step",
    "C37_zero_step_optimal_refuted",
    "C37_bracket",
    "C37_next_value",
    "C37_hard_entry",
    "C37_hard_norm",
    "C37_hard_optimal",
    "C37_hard_descent_refuted",
    "C37_reported_norm_refuted",
    "C37_message"
   ],
   "note": "Cholesky, triangular solves and the eigen-decomposition are arguments; exactness is a hypothesis where needed. Rounding, NaN and complex-entry branches are not modelled. The three _refuted theorems are the negative clauses of the statement; the uphill witness is g = 1, H = -1e-16, radius 1e14."
  },
  {
   "property": "C38",
   "status": "proved",
   "theorems": [
    "C38_feasible",
    "C38_work",
    "C38_ends",
    "C38_pinned",
    "C38_reported",
    "C38_limit_value_refuted",
    "C38_gradient_refuted",
    "C38_length",
    "C38_length_applies",
    "C38_radius_refuted"
   ],
   "note": "Model of bcdfo_solve_TR_MS_bc_ branch by branch; the calls of the unconstrained solver and of the homotopy linear algebra are arguments quantified over. C38_length_applies shows that the model of the unconstrained solver (C37) meets the hypothesis. Three refuted theorems cover the clauses that deny a behaviour: stale value at the limit, wrong gradient, step longer than the radius."
  },
  {
   "property": "C39",
   "status": "proved",
   "theorems": [
    "C39_terminates",
    "C39_passes",
    "C39_no_exception",
    "C39_bounds",
    "C39_bounds_apply",
    "C39_radius_applies",
    "C39_unconstrained",
    "C39_length",
    "C39_radius_refuted"
   ],
   "note": "Model of sqpdfo_solve_TR_bc_ with and without slacks, branch by branch; restoration solver, convexification, null space, conjugate gradients and multipliers are arguments quantified over. C39_bounds_apply and C39_radius_applies show that the models of the library's own solvers (C38, C34) meet the hypotheses. No fixed variables, no general inequalities (the library turns them into equalities before)."
  },
  {
   "property": "C40",
   "status": "proved",
   "theorems": [
    "C40_signs",
    "C40_near",
    "C40_blls"
   ],
   "note": "sqpdfo_compute_multiplier.py modelled in full except the size checks; the solver is any function, blls is plugged in for C40_blls."
  },
  {
   "property": "C41",
   "status": "proved",
   "theorems": [
    "C41_free",
    "C41_signed",
    "C41_least_squares_refuted"
   ],
   "note": "Exact reals; eigenvalue answers only need to be sound (a reported negative eigenvalue must exist)."
  },
  {
   "property": "C42",
   "status": "proved",
   "theorems": [
    "C42_measures",
    "C42_kkt",
    "C42_slack",
    "C42_first_order_refuted"
   ],
   "note": "sqpdfo_optimality.py modelled in full except printing; measures = main-loop lines 248-260. Witness: minimise -x subject to x >= 0 at x = 0."
  },
  {
   "property": "C43",
   "status": "proved",
   "theorems": [
    "C43_residual",
    "C43_bounds",
    "C43_total",
    "C43_exit",
    "C43_stationary_solves",
    "C43_near_solution",
    "C43_start",
    "C43_exit0_refuted",
    "C43_decrease_refuted"
   ],
   "note": "blls.py modelled completely (verbose 0), the pseudo-inverse being an argument. Both refutations use an exact pseudo-inverse."
  },
  {
   "property": "C44",
   "status": "proved",
   "theorems": [
    "C44_minimiser",
    "C44_unbounded"
   ],
   "note": "Exact reals; bounds finite or infinite."
  },
  {
   "property": "C45",
   "status": "proved",
   "theorems": [
    "C45_trace",
    "C45_variable_zero_once",
    "C45_dimension_one"
   ],
   "note": "Exact reals; fuel-bounded trace with explicit exhaustion."
  },
  {
   "property": "C46",
   "status": "proved",
   "theorems": [
    "C46_max2",
    "C46_min2",
    "C46_max2_number",
    "C46_min2_number",
    "C46_max2_first_number",
    "C46_min2_first_number",
    "C46_lengths_raise",
    "C46_position_empty",
    "C46_max2_empty",
    "C46_max1",
    "C46_min1",
    "C46_max1_position",
    "C46_min1_position",
    "C46_position_raises",
    "C46_find",
    "C46_find_first",
    "C46_setdiff",
    "C46_vertical",
    "C46_horizontal",
    "C46_concatenate_succeeds",
    "C46_tuple_raises",
    "C46_compare",
    "C46_compare_itself",
    "C46_symmetric_refuted"
   ],
   "note": "Numbers are exact, with infinities and NaN. nargout=2 of find_, arrays of different sizes in compare_array and three-argument forms are not modelled."
  },
  {
   "property": "C47",
   "status": "proved",
   "theorems": [
    "C47_null_step",
    "C47_unknown_mode",
    "C47_bfgs_valid",
    "C47_bfgs_recovers",
    "C47_bfgs_secant",
    "C47_restart_crashes",
    "C47_model_mode",
    "C47_model_exact"
   ],
   "note": "Exact reals. The interpolation Hessian of the model mode is an argument (see C29); info.ai is left out since there are no inequality rows. In sqpdfo_main null_step is the constant 0, so the null-step clause concerns the procedure only."
  },
  {
   "property": "C48",
   "status": "proved",
   "theorems": [
    "C48_fails_only_if_coincident",
    "C48_unit_ball",
    "C48_scale_vector",
    "C48_frobenius"
   ],
   "note": "The failure of the singular value decomposition on NaN input is part of the model."
  },
  {
   "property": "C49",
   "status": "proved",
   "theorems": [
    "C49_origin",
    "C49_radius",
    "C49_improvement",
    "C49_best",
    "C49_poisedness",
    "C49_bound",
    "C49_hardcons",
    "C49_ms_radius",
    "C49_ms_value",
    "C49_ms_total"
   ],
   "note": "Lagrange polynomials, solver and the two routines modelled over exact reals; the solver is a parameter with stated conditions, then instantiated with the modelled bcdfo_solve_TR_MS."
  },
  {
   "property": "C50",
   "status": "proved",
   "theorems": [
    "C50_excess",
    "C50_inside_refuted"
   ],
   "note": "The main-loop run is for one variable, with the improvement points tied to the modelled bcdfo_find_new_yj and bcdfo_solve_TR_MS."
  },
  {
   "property": "C51",
   "status": "proved",
   "theorems": [
    "C51_feasible_descent"
   ],
   "note": "Exact reals; holds after every number of steps."
  },
  {
   "property": "C52",
   "status": "proved",
   "theorems": [
    "C52_finite_termination",
    "C52_iterations"
   ],
   "note": "Exact arithmetic; rounding may need more rounds."
  },
  {
   "property": "C53",
   "status": "proved",
   "theorems": [
    "C53_never_included",
    "C53_crash"
   ],
   "note": "Exact rationals. Model quantities (gradients, multipliers, sub-solver steps, Lagrange values) are arbitrary answers, one record per pass; every theorem holds for all of them and for every first state with consistent data. "
  },
  {
   "property": "C54",
   "status": "proved",
   "theorems": [
    "C54_initial_residuals",
    "C54_positive_hidden",
    "C54_equality_violation_refuted"
   ],
   "note": "Exact reals (square roots of the slacks)."
  },
  {
   "property": "C55",
   "status": "proved",
   "theorems": [
    "C55_stall",
    "C55_largest_refuted",
    "C55_inside"
   ],
   "note": "The ratio computation of the shortened step (lines 532-558), in isolation and in a whole run of the model (C55_run)."
  },
  {
   "property": "C56",
   "status": "proved",
   "theorems": [
    "C56_point",
    "C56_slack_bounds",
    "C56_slack_bounds_refuted",
    "C56_slacks_refuted"
   ],
   "note": "The model records the displacements made in each pass; C56_slacks_refuted is a run of three passes in which the slack reported is 14/5 although it was moved by 0 in total."
  },
  {
   "property": "C57",
   "status": "proved",
   "theorems": [
    "C57_codes",
    "C57_point",
    "C57_failures",
    "C57_budget",
    "C57_ends",
    "C57_ends_refuted",
    "C57_always_code_refuted"
   ],
   "note": "Bounds and start point of matching shapes; exceptions of the unmodelled parts of the initial phase are arbitrary answers."
  },
  {
   "property": "C58",
   "status": "proved",
   "theorems": [
    "C58_usable",
    "C58_flat_start_refuted",
    "C58_column_start_refuted",
    "C58_flat_bounds_refuted",
    "C58_slack_bounds",
    "C58_long_bounds",
    "C58_short_bounds_refuted"
   ],
   "note": "If exactly one of the two bound arrays is one-dimensional, the outcome depends on the sign of the gradient and no claim is made."
  },
  {
   "property": "C59",
   "status": "proved",
   "theorems": [
    "C59_exchanges",
    "C59_kept"
   ],
   "note": ""
  },
  {
   "property": "C60",
   "status": "proved",
   "theorems": [
    "C60_quiet",
    "C60_quiet_return",
    "C60_loud",
    "C60_at_least_one",
    "C60_verbosity_refuted"
   ],
   "note": "Recomputation is an input of the model of a pass (absent below verbosity 4). The set of one variable in the refuted statement uses the model of the library's own trust-region solver with exact linear algebra."
  },
  {
   "property": "C61",
   "status": "proved",
   "theorems": [
    "C61_value",
    "C61_gradient",
    "C61_poised",
    "C61_lagrangian",
    "C61_exit",
    "C61_quiet_exit_refuted",
    "C61_minimum_norm_refuted"
   ],
   "note": "Exact arithmetic. The set measured, the model coefficients and the tested gradient norm are tied to the pass through the hypotheses of C61_exit: poisedness and radius are those of the routine, and the component of the model Lagrangian gradient is at most the norm the pass tests; sqpdfo_optimality.py alters components of variables within 1e-5 of a bound, for which this is not the case in general."
  },
  {
   "property": "C62",
   "status": "proved",
   "theorems": [
    "C62_update",
    "C62_direction",
    "C62_definite",
    "C62_positive",
    "C62_unchanged",
    "C62_zero",
    "C62_fill_refuted",
    "C62_alarm_refuted"
   ],
   "note": "Exact reals; the arguments are one- and two-dimensional arrays of matching sizes. The linear solver is an argument assumed only to return solutions."
  },
  {
   "property": "C63",
   "status": "proved",
   "theorems": [
    "C63_insert",
    "C63_insert_direction",
    "C63_first",
    "C63_first_refuted",
    "C63_remove",
    "C63_remove_refuted"
   ],
   "note": "As for C62. That the blocks are joined by numpy.bmat into a matrix object, whose later indexing differs from that of arrays, is not modelled."
  },
  {
   "property": "C64",
   "status": "proved",
   "theorems": [
    "C64_decrease",
    "C64_decrease_applies",
    "C64_predicted",
    "C64_predicted_sign",
    "C64_single_pass",
    "C64_linear_refuted"
   ],
   "note": "The solvers called are arguments; the decrease is proved for every number of passes from the state carried by the loop. Witness for the false part: three variables, one constraint, two passes."
  },
  {
   "property": "C65",
   "status": "proved",
   "theorems": [
    "C65_exits",
    "C65_lower",
    "C65_release_refuted"
   ],
   "note": "The witness for the false part is a run of two passes ending at a point that satisfies the first-order conditions with the multipliers returned."
  },
  {
   "property": "C66",
   "status": "proved",
   "theorems": [
    "C66_quits",
    "C66_code1",
    "C66_code2",
    "C66_box",
    "C66_empty",
    "C66_slack_bounds",
    "C66_earlier_calls",
    "C66_earlier_calls_refuted"
   ],
   "note": ""
  },
  {
   "property": "C67",
   "status": "proved",
   "theorems": [
    "C67_calls",
    "C67_point",
    "C67_same_point",
    "C67_same_point_refuted",
    "C67_recorded",
    "C67_failed",
    "C67_escapes",
    "C67_imaginary",
    "C67_in_loop",
    "C67_message"
   ],
   "note": ""
  },
  {
   "property": "C68",
   "status": "proved",
   "theorems": [
    "C68_left",
    "C68_refused",
    "C68_refused_untouched_refuted",
    "C68_kept",
    "C68_again"
   ],
   "note": ""
  },
  {
   "property": "C69",
   "status": "proved",
   "theorems": [
    "C69_untouched",
    "C69_started",
    "C69_silent_refuted",
    "C69_closed",
    "C69_no_lines",
    "C69_bare",
    "C69_lines",
    "C69_torn",
    "C69_first_value",
    "C69_last_value",
    "C69_decreasing_refuted",
    "C69_printing",
    "C69_printing_refuted",
    "C69_limit_refuted"
   ],
   "note": "the file is assumed to be writable and options.fout to be an integer"
  },
  {
   "property": "C70",
   "status": "proved",
   "theorems": [
    "C70_refines",
    "C70_ends",
    "C70_applies",
    "C70_bracket",
    "C70_next",
    "C70_found",
    "C70_length",
    "C70_one_variable",
    "C70_breakdown",
    "C70_progress_refuted"
   ],
   "note": "Exact reals; bcdfo_solve_TR_MS_bc.py:174-417 for stratLam = 1 only. A zero denominator gives an infinite Newton value in numpy; the model then lets all further factorisations fail, because the shifted matrix has NaN entries."
  },
  {
   "property": "C71",
   "status": "proved",
   "theorems": [
    "C71_columns",
    "C71_small",
    "C71_apart",
    "C71_spanned",
    "C71_exact",
    "C71_null_refuted"
   ],
   "note": "The singular value decomposition is an argument, assumed exact (orthonormal factors, singular values not negative)."
  },
  {
   "property": "C72",
   "status": "proved",
   "theorems": [
    "C72_ends",
    "C72_bounds",
    "C72_length",
    "C72_decrease",
    "C72_messages",
    "C72_active",
    "C72_predicted_inside",
    "C72_predicted",
    "C72_predicted_refuted"
   ],
   "note": "The models of C34, C70, C40, C71 and of sqpdfo_check_convex_ put in the places of the sub-solvers of C39 and C64. Theorems ending in _refuted disprove the negated clauses. Exact linear algebra is a hypothesis, and so is the answer of bcdfo_solve_TR_MS_ (C37, C70_applies)."
  },
  {
   "property": "C73",
   "status": "proved",
   "theorems": [
    "C73_adjust",
    "C73_residual",
    "C73_step",
    "C73_axes",
    "C73_hard_refuted",
    "C73_descent_refuted",
    "C73_run",
    "C73_exit"
   ],
   "note": "C73_adjust, C73_residual: the adjustment in the main loop. C73_step, C73_axes: the step of C72. C73_run, C73_exit: the main loop of C53, in which the adjustment is described by what C73_adjust proves (hypothesis adjusts) and the step's slacks are answers. C73_hard_refuted and C73_descent_refuted disprove the negated clauses with runs of the model in one variable and one slack."
  },
  {
   "property": "C74",
   "status": "proved",
   "theorems": [
    "C74_points",
    "C74_poised",
    "C74_model",
    "C74_affine",
    "C74_shortest",
    "C74_shortest_affine_refuted",
    "C74_error",
    "C74_poisedness",
    "C74_first_test"
   ],
   "note": "Exact arithmetic; the factorisation is assumed exact and not regularised (it exists for every dimension in mode 0, see C74_poised_ex). Solvers of the poisedness sub-problems are quantified over with explicit tolerances."
  },
  {
   "property": "C75",
   "status": "proved",
   "theorems": [
    "C75_recorded",
    "C75_returned",
    "C75_feasible",
    "C75_call",
    "C75_huge_refuted"
   ],
   "note": "main loop with any environment, and the complete call of C52; refuted without the bound on the constraint values"
  },
  {
   "property": "C76",
   "status": "proved",
   "theorems": [
    "C76_feasible",
    "C76_descent",
    "C76_optimal",
    "C76_codes",
    "C76_steps",
    "C76_passes",
    "C76_unbounded",
    "C76_matrix",
    "C76_info_refuted",
    "C76_optimal_refuted",
    "C76_indefinite_refuted"
   ],
   "note": "The positive statements hold for arbitrary answers of the linear solver; three readings are refuted by runs of the model."
  },
  {
   "property": "C77",
   "status": "proved",
   "theorems": [
    "C77_test",
    "C77_raises",
    "C77_no_point",
    "C77_default",
    "C77_near",
    "C77_column",
    "C77_flat",
    "C77_stored",
    "C77_sum"
   ],
   "note": "The rest of the initial phase may raise for other reasons as well; the theorems only need that it raises where the modelled test does. Shapes follow the documented numpy broadcasting rules."
  },
  {
   "property": "C78",
   "status": "proved",
   "theorems": [
    "C78_when",
    "C78_says",
    "C78_iterations",
    "C78_norms",
    "C78_texts",
    "C78_converged",
    "C78_nan",
    "C78_tables",
    "C78_feasibility_refuted",
    "C78_place",
    "C78_fout"
   ],
   "note": "Lines are entries with unrounded numbers; dashes, titles, multipliers and bounds in the tables are not represented. C78_fout assumes that the exception of the heading is among those of the unmodelled rest of the initial phase (needs_output)."
  },
  {
   "property": "C79",
   "status": "proved",
   "theorems": [
    "C79_refines",
    "C79_ends",
    "C79_next",
    "C79_hard_case",
    "C79_interval",
    "C79_bisection_refuted",
    "C79_found",
    "C79_succeeds",
    "C79_length",
    "C79_progress_refuted"
   ],
   "note": "Exact arithmetic; factorisations, triangular solves and the unconstrained solver are arguments. The library itself calls the solver with stratLam = 1 (C70)."
  },
  {
   "property": "C80",
   "status": "proved",
   "theorems": [
    "C80_first",
    "C80_feasibility",
    "C80_none",
    "C80_optimal_refuted"
   ],
   "note": "Exact arithmetic; slacks are arbitrary. Whether NumPy accepts an assignment between empty arrays of shapes (0,1) and (0,0) is an argument of the model."
  },
  {
   "property": "C81",
   "status": "proved",
   "theorems": [
    "C81_meaning",
    "C81_order",
    "C81_inequalities",
    "C81_count",
    "C81_count_refuted",
    "C81_large_refuted",
    "C81_equalities",
    "C81_warning",
    "C81_equalities_refuted",
    "C81_driver"
   ],
   "note": "Exact rationals; the arrays of the collection have equal lengths."
  },
  {
   "property": "C82",
   "status": "proved",
   "theorems": [
    "C82_known",
    "C82_unknown",
    "C82_dimensions",
    "C82_kinds",
    "C82_start",
    "C82_nb",
    "C82_minimum",
    "C82_multipliers"
   ],
   "note": "Exact reals; optimality is not claimed for problems 5, 6 and 7."
  },
  {
   "property": "C83",
   "status": "proved",
   "theorems": [
    "C83_run",
    "C83_limit_refuted",
    "C83_more_refuted",
    "C83_held_refuted"
   ],
   "note": "The description is the set of relations of BLP_Spec.v; exact arithmetic; verbose 0."
  },
  {
   "property": "C84",
   "status": "proved",
   "theorems": [
    "C84_vector",
    "C84_matrix",
    "C84_empty",
    "C84_raises",
    "C84_length",
    "C84_matlab",
    "C84_matlab_refuted",
    "C84_size",
    "C84_zeros",
    "C84_zeros_int"
   ],
   "note": ""
  },
  {
   "property": "C85",
   "status": "proved",
   "theorems": [
    "C85_python3",
    "C85_returns",
    "C85_values",
    "C85_unit",
    "C85_cdf",
    "C85_weights_refuted",
    "C85_total_refuted",
    "C85_remove"
   ],
   "note": ""
  },
  {
   "property": "C86",
   "status": "proved",
   "theorems": [
    "C86_returned",
    "C86_recognised",
    "C86_opposite_bound_refuted"
   ],
   "note": "Exact reals. The converse direction of C42: first-order points pass the test, points passing the test need not be first-order points."
  },
  {
   "property": "C87",
   "status": "proved",
   "theorems": [
    "C87_general",
    "C87_applies",
    "C87_library",
    "C87_decrease",
    "C87_one_pass",
    "C87_full",
    "C87_dependent_refuted"
   ],
   "note": "Exact reals; the numerical library (svd, factorisations, eigenvalues) is an argument. The exactness of the singular value decomposition is required only for the matrix of the linearised constraints followed by rows of the identity."
  },
  {
   "property": "C88",
   "status": "proved",
   "theorems": [
    "C88_first",
    "C88_flag",
    "C88_kept",
    "C88_unchanged_refuted"
   ],
   "note": "Uses the main-loop model of C01-C10 (Main_Model). The settings are those of sane: the set is sorted by numpy's argsort in descending order and pfinal <= pquad."
  },
  {
   "property": "C89",
   "status": "proved",
   "theorems": [
    "C89_pass",
    "C89_halving",
    "C89_count",
    "C89_shrinks_refuted"
   ],
   "note": "Uses the main-loop model of C01-C10 (Main_Model). The settings are those of sane, and the objective tolerance is not negative. Passes in which the set is improved may change the radius first (C09) and are left out of the sequences."
  }
 ]
}