# Print Assumptions per theorem

Generated by `tools/gen_assumptions.py` from the output of `Print Assumptions` beneath each theorem.

* **A**: closed under the global context
* **B**: `ClassicalDedekindReals.sig_forall_dec`
* **C**: `ClassicalDedekindReals.sig_forall_dec`, `FunctionalExtensionality.functional_extensionality_dep`
* **D**: `ClassicalDedekindReals.sig_forall_dec`, `ClassicalDedekindReals.sig_not_dec`, `FunctionalExtensionality.functional_extensionality_dep`

| theorem | assumptions |
|---|---|
| C01_certificate | A |
| C01_complete | A |
| C01_requested_tolerance_refuted | A |
| C01_runs | A |
| C02_at_most_miter_refuted | A |
| C02_budget | A |
| C03_at_most_msimul_refuted | A |
| C03_budget | A |
| C03_loop_head | A |
| C04_terminates | A |
| C05_codes | A |
| C05_stalled | A |
| C06_constraints | A |
| C06_incumbent | A |
| C06_info_f | A |
| C06_info_f_refuted | A |
| C06_returned | A |
| C07_accepted | A |
| C07_decision | A |
| C07_descent_refuted | A |
| C07_new_slacks | A |
| C07_reference | A |
| C07_slacks | A |
| C07_unconstrained | A |
| C08_bounded | A |
| C08_changes | A |
| C08_penalty | A |
| C08_rule | A |
| C09_high | A |
| C09_low | A |
| C09_maximum_refuted | A |
| C09_rule | A |
| C10_archive | A |
| C10_bookkeeping | A |
| C10_size | A |
| C11_out_of_range | A |
| C11_swap | A |
| C11_symmetric | A |
| C11_twice | A |
| C12_bound_test_complete_refuted | A |
| C12_bound_test_sound | A |
| C12_moves | A |
| C12_position_one_refuted | A |
| C12_stays | A |
| C12_true_merit_refuted | A |
| C13_chosen | A |
| C13_nothing | A |
| C14_bounded | A |
| C14_frame | A |
| C14_kept_points | A |
| C14_new_points | A |
| C14_radius | A |
| C14_radius_refuted | A |
| C14_settled | A |
| C15_block_refuted | A |
| C15_sequence | A |
| C15_size | A |
| C16_goes_on | A |
| C16_reported_refuted | A |
| C16_returns | A |
| C17_bounded | A |
| C17_clamp | A |
| C17_error | A |
| C17_moderate_values_kept | A |
| C17_rule | A |
| C17_sign_refuted | A |
| C17_still_huge_refuted | A |
| C17_ten_times_refuted | A |
| C17_zero_refuted | A |
| C18_accepted | A |
| C18_outcome | A |
| C18_pass_or_flag1 | A |
| C18_range | A |
| C19_class_failed | A |
| C19_class_overwritten_refuted | A |
| C19_instance_untouched | A |
| C19_numeric_idempotent | A |
| C19_second_validation_refuted | A |
| C20_entered | A |
| C20_functions | A |
| C20_no_run | B |
| C20_quit | A |
| C20_refused | A |
| C21_number | A |
| C21_onesided | A |
| C21_short | A |
| C21_unique | A |
| C22_dependence_refuted | D |
| C22_independent | B |
| C22_leftover_count | B |
| C22_leftover_raises | D |
| C23_all_fixed | A |
| C23_calls_in_bounds | A |
| C23_crossed | A |
| C23_start | A |
| C24_integer_bounds | A |
| C24_simplex_outside_refuted | A |
| C24_start_outside_refuted | A |
| C25_calls | A |
| C25_endless | A |
| C25_give_up_refuted | A |
| C25_handover | A |
| C25_nonzero_start | A |
| C25_zero_start | A |
| C26_fixed_raises | A |
| C26_shapes | A |
| C27_expansion | C |
| C27_expansion_shifted | C |
| C28_complete | C |
| C28_count | C |
| C28_independent | C |
| C28_symmetric | B |
| C28_too_many | C |
| C29_interpolates | D |
| C29_least_squares | D |
| C29_linear | D |
| C29_minimum_norm | D |
| C29_reproduces | D |
| C29_reproduces_underdetermined_refuted | D |
| C30_delta | D |
| C30_model_value | D |
| C30_routines_agree | D |
| C30_sum_one | D |
| C30_sum_one_without_shift_refuted | D |
| C31_elementwise | C |
| C31_incomplete_raises | C |
| C31_never_finite | C |
| C31_unknown_mode | C |
| C32_when_it_raises | B |
| C33_norm | C |
| C33_outside_refuted | C |
| C33_projection | C |
| C33_zero_iff_first_order | C |
| C34_boundary | D |
| C34_cauchy | D |
| C34_decrease | D |
| C34_descent | D |
| C34_flags | D |
| C34_forward | D |
| C34_inside | D |
| C34_longer | D |
| C34_monotone | D |
| C34_precision | D |
| C34_precision_boundary_refuted | D |
| C34_solved | D |
| C35_entries | D |
| C35_failure_iff | D |
| C35_failure_unchanged | D |
| C35_growth | D |
| C35_update | D |
| C36_condition_close | D |
| C36_condition_number | C |
| C36_condition_regular_refuted | C |
| C36_condition_repaired | C |
| C36_condition_unchanged | C |
| C36_convexified | C |
| C36_eigenvalues | C |
| C37_bracket | D |
| C37_hard_descent_refuted | D |
| C37_hard_entry | D |
| C37_hard_norm | D |
| C37_hard_optimal | D |
| C37_message | D |
| C37_newton | D |
| C37_next_value | D |
| C37_regular_exit | D |
| C37_regular_gap | D |
| C37_regular_optimal | D |
| C37_reported_norm_refuted | D |
| C37_total | D |
| C37_work | D |
| C37_zero_step | D |
| C37_zero_step_optimal_refuted | D |
| C38_ends | D |
| C38_feasible | D |
| C38_gradient_refuted | D |
| C38_length | D |
| C38_length_applies | D |
| C38_limit_value_refuted | D |
| C38_pinned | D |
| C38_radius_refuted | D |
| C38_reported | D |
| C38_work | D |
| C39_bounds | D |
| C39_bounds_apply | D |
| C39_length | D |
| C39_no_exception | D |
| C39_passes | D |
| C39_radius_applies | D |
| C39_radius_refuted | D |
| C39_terminates | D |
| C39_unconstrained | D |
| C40_blls | D |
| C40_near | C |
| C40_signs | C |
| C41_free | D |
| C41_least_squares_refuted | D |
| C41_signed | D |
| C42_first_order_refuted | D |
| C42_kkt | C |
| C42_measures | C |
| C42_slack | D |
| C43_bounds | D |
| C43_decrease_refuted | D |
| C43_exit | D |
| C43_exit0_refuted | D |
| C43_near_solution | D |
| C43_residual | D |
| C43_start | D |
| C43_stationary_solves | D |
| C43_total | D |
| C44_minimiser | C |
| C44_unbounded | C |
| C45_dimension_one | C |
| C45_trace | C |
| C45_variable_zero_once | C |
| C46_compare | A |
| C46_compare_itself | A |
| C46_concatenate_succeeds | A |
| C46_find | A |
| C46_find_first | A |
| C46_horizontal | A |
| C46_lengths_raise | A |
| C46_max1 | A |
| C46_max1_position | A |
| C46_max2 | A |
| C46_max2_empty | A |
| C46_max2_first_number | A |
| C46_max2_number | A |
| C46_min1 | A |
| C46_min1_position | A |
| C46_min2 | A |
| C46_min2_first_number | A |
| C46_min2_number | A |
| C46_position_empty | A |
| C46_position_raises | A |
| C46_setdiff | A |
| C46_symmetric_refuted | A |
| C46_tuple_raises | A |
| C46_vertical | A |
| C47_bfgs_recovers | D |
| C47_bfgs_secant | D |
| C47_bfgs_valid | D |
| C47_model_exact | D |
| C47_model_mode | D |
| C47_null_step | B |
| C47_restart_crashes | D |
| C47_unknown_mode | D |
| C48_fails_only_if_coincident | D |
| C48_frobenius | D |
| C48_scale_vector | D |
| C48_unit_ball | D |
| C49_best | D |
| C49_bound | D |
| C49_hardcons | D |
| C49_improvement | D |
| C49_ms_radius | D |
| C49_ms_total | D |
| C49_ms_value | D |
| C49_origin | B |
| C49_poisedness | D |
| C49_radius | D |
| C50_excess | D |
| C50_inside_refuted | D |
| C51_feasible_descent | C |
| C52_finite_termination | D |
| C52_iterations | D |
| C53_crash | A |
| C53_never_included | A |
| C54_equality_violation_refuted | D |
| C54_initial_residuals | D |
| C54_positive_hidden | D |
| C55_inside | C |
| C55_largest_refuted | C |
| C55_stall | C |
| C56_point | D |
| C56_slack_bounds | D |
| C56_slack_bounds_refuted | D |
| C56_slacks_refuted | D |
| C57_always_code_refuted | A |
| C57_budget | A |
| C57_codes | A |
| C57_ends | A |
| C57_ends_refuted | A |
| C57_failures | A |
| C57_point | A |
| C58_column_start_refuted | A |
| C58_flat_bounds_refuted | A |
| C58_flat_start_refuted | A |
| C58_long_bounds | A |
| C58_short_bounds_refuted | A |
| C58_slack_bounds | A |
| C58_usable | A |
| C59_exchanges | A |
| C59_kept | A |
| C60_at_least_one | D |
| C60_loud | A |
| C60_quiet | A |
| C60_quiet_return | A |
| C60_verbosity_refuted | D |
| C61_exit | D |
| C61_gradient | D |
| C61_lagrangian | D |
| C61_minimum_norm_refuted | D |
| C61_poised | D |
| C61_quiet_exit_refuted | D |
| C61_value | D |
| C62_alarm_refuted | C |
| C62_definite | C |
| C62_direction | C |
| C62_fill_refuted | C |
| C62_positive | C |
| C62_unchanged | C |
| C62_update | C |
| C62_zero | C |
| C63_first | C |
| C63_first_refuted | C |
| C63_insert | C |
| C63_insert_direction | C |
| C63_remove | C |
| C63_remove_refuted | C |
| C64_decrease | D |
| C64_decrease_applies | D |
| C64_linear_refuted | D |
| C64_predicted | D |
| C64_predicted_sign | D |
| C64_single_pass | D |
| C65_exits | D |
| C65_lower | D |
| C65_release_refuted | D |
| C66_box | A |
| C66_code1 | A |
| C66_code2 | A |
| C66_earlier_calls | A |
| C66_earlier_calls_refuted | A |
| C66_empty | A |
| C66_quits | A |
| C66_slack_bounds | A |
| C67_calls | A |
| C67_escapes | A |
| C67_failed | A |
| C67_imaginary | A |
| C67_in_loop | A |
| C67_message | A |
| C67_point | A |
| C67_recorded | A |
| C67_same_point | A |
| C67_same_point_refuted | A |
| C68_again | A |
| C68_kept | A |
| C68_left | A |
| C68_refused | A |
| C68_refused_untouched_refuted | A |
| C69_bare | A |
| C69_closed | A |
| C69_decreasing_refuted | A |
| C69_first_value | A |
| C69_last_value | A |
| C69_limit_refuted | A |
| C69_lines | A |
| C69_no_lines | A |
| C69_printing | A |
| C69_printing_refuted | A |
| C69_silent_refuted | A |
| C69_started | A |
| C69_torn | A |
| C69_untouched | A |
| C70_applies | D |
| C70_bracket | D |
| C70_breakdown | D |
| C70_ends | D |
| C70_found | D |
| C70_length | D |
| C70_next | D |
| C70_one_variable | D |
| C70_progress_refuted | D |
| C70_refines | D |
| C71_apart | D |
| C71_columns | C |
| C71_exact | C |
| C71_null_refuted | D |
| C71_small | D |
| C71_spanned | C |
| C72_active | D |
| C72_bounds | D |
| C72_decrease | D |
| C72_ends | D |
| C72_length | D |
| C72_messages | A |
| C72_predicted | D |
| C72_predicted_inside | D |
| C72_predicted_refuted | D |
| C73_adjust | D |
| C73_axes | C |
| C73_descent_refuted | D |
| C73_exit | A |
| C73_hard_refuted | D |
| C73_residual | D |
| C73_run | A |
| C73_step | D |
| C74_affine | C |
| C74_error | D |
| C74_first_test | D |
| C74_model | D |
| C74_points | C |
| C74_poised | D |
| C74_poisedness | D |
| C74_shortest | D |
| C74_shortest_affine_refuted | D |
| C75_call | A |
| C75_feasible | A |
| C75_huge_refuted | A |
| C75_recorded | A |
| C75_returned | A |
| C76_codes | C |
| C76_descent | C |
| C76_feasible | C |
| C76_indefinite_refuted | C |
| C76_info_refuted | C |
| C76_matrix | C |
| C76_optimal | C |
| C76_optimal_refuted | C |
| C76_passes | C |
| C76_steps | C |
| C76_unbounded | C |
| C77_column | A |
| C77_default | A |
| C77_flat | A |
| C77_near | A |
| C77_no_point | A |
| C77_raises | A |
| C77_stored | A |
| C77_sum | A |
| C77_test | A |
| C78_converged | A |
| C78_feasibility_refuted | A |
| C78_fout | A |
| C78_iterations | A |
| C78_nan | A |
| C78_norms | A |
| C78_place | A |
| C78_says | A |
| C78_tables | A |
| C78_texts | A |
| C78_when | A |
| C79_bisection_refuted | D |
| C79_ends | D |
| C79_found | D |
| C79_hard_case | D |
| C79_interval | D |
| C79_length | D |
| C79_next | D |
| C79_progress_refuted | D |
| C79_refines | D |
| C79_succeeds | D |
| C80_feasibility | C |
| C80_first | D |
| C80_none | C |
| C80_optimal_refuted | D |
| C81_count | A |
| C81_count_refuted | A |
| C81_driver | A |
| C81_equalities | A |
| C81_equalities_refuted | A |
| C81_inequalities | A |
| C81_large_refuted | A |
| C81_meaning | A |
| C81_order | A |
| C81_warning | A |
| C82_dimensions | D |
| C82_kinds | C |
| C82_known | C |
| C82_minimum | D |
| C82_multipliers | D |
| C82_nb | C |
| C82_start | C |
| C82_unknown | D |
| C83_held_refuted | D |
| C83_limit_refuted | D |
| C83_more_refuted | D |
| C83_run | D |
| C84_empty | D |
| C84_length | A |
| C84_matlab | A |
| C84_matlab_refuted | B |
| C84_matrix | D |
| C84_raises | D |
| C84_size | A |
| C84_vector | D |
| C84_zeros | A |
| C84_zeros_int | A |
| C85_cdf | A |
| C85_python3 | A |
| C85_remove | A |
| C85_returns | A |
| C85_total_refuted | A |
| C85_unit | A |
| C85_values | A |
| C85_weights_refuted | A |
| C86_opposite_bound_refuted | D |
| C86_recognised | D |
| C86_returned | D |
| C87_applies | D |
| C87_decrease | D |
| C87_dependent_refuted | D |
| C87_full | D |
| C87_general | D |
| C87_library | D |
| C87_one_pass | D |
| C88_first | A |
| C88_flag | A |
| C88_kept | A |
| C88_unchanged_refuted | A |
| C89_count | A |
| C89_halving | A |
| C89_pass | A |
| C89_shrinks_refuted | A |
