# What `Print Assumptions` lists

Generated by tools/assumptions.py from the built development; every theorem of MANIFEST.json is in exactly one group.  All of the names are declared in Coq's standard library.

## closed under the global context (no axiom)

C22_run_protocol, C22_run_not_finished, C22_run_calls, C23_logging_does_not_change_the_result_partial, C23_one_line_per_round, C23_time_limit_stops, C60_rounding_refuted, C67_sample_reader, C67_neural_network, C67_logger, C83_drawing_is_a_tree

## `ClassicalDedekindReals.sig_forall_dec`

C40_split_dense, C40_split_sparse_refuted, C40_split_window_partial, C44_parallel_update_order_independent, C49_set_target_accepts, C49_sample_bookkeeping, C49_csv_cells, C49_csv_accepts, C49_csv_short_row_refuted, C49_svmlight_cells, C49_set_target, C49_replace_names, C49_dummy, C49_target_check

## `PropFloatCERLPFit.C107_fit_guarantee`

C107_fit_guarantee

## `PropFloatCERLPFit.C107_fit_never_panics`

C107_fit_never_panics

## `PropFloatCERLPFit.C107_no_repeats`

C107_no_repeats

## `ClassicalDedekindReals.sig_forall_dec`, `FunctionalExtensionality.functional_extensionality_dep`

C13_weighted_majority_convex, C13_weighted_majority_scale_invariant, C13_push_normalize_decompose, C13_normalize_unit_norm, C19_graphsep_terminates, C19_graphsep_strict_progress, C20_graphsep_distribution, C20_graphsep_zero_error, C20_graphsep_end, C21_naive_aggregation_recall, C23_graph_separation_logged, C23_lpboost_logged, C24_bins, C24_bins_exist, C24_pack_bin, C25_pack, C25_trailing_bins_dropped, C26_offered, C28_conversion, C29_leaf, C29_split, C29_tree, C29_every_split, C29_squared_loss, C29_every_split_squared_loss, C29_any_loss, C29_L1_uphill_refuted, C29_zero_sum_leaf, C29_zero_sum_refuted, C29_L1_split_refuted, C30_l2_gradient_partial, C30_l1_gradient_refuted, C30_loss_value_partial, C30_loss_panics_partial, C30_gradient_panics_iff_partial, C31_l1_coefficient, C31_l1_total, C31_l2_coefficient_partial, C31_l2_coefficient_refuted, C31_l2_panics_partial, C32_gbm_returned_partial, C32_gbm_returned_refuted, C33_lpboost_program, C33_lpboost_objective_refuted, C34_certificate, C34_hard_margin_optimal, C34_soft_margin_refuted, C39_sparse_reads_like_dense, C39_distinct_values_partial, C39_distinct_values_refuted, C39_zero_rows_partial, C39_dense_label_statistics, C39_sparse_label_mean_refuted, C39_sparse_label_variance_refuted, C39_sparse_label_mean_partial, C39_sparse_label_variance_partial, C41_folds_partial, C41_panic_iff, C41_default_refuted, C41_default_partition, C41_test_size_positive, C41_configuration, C42_soft_margin_unique_existence, C42_soft_margin, C42_hard_margin, C42_soft_margin_monotone, C44_parallel_sum_schedule_independent, C44_parallel_inner_product, C45_discretize, C45_multiclass_round_trip, C45_binary_round_trip, C45_two_scores_partial, C45_two_scores_refuted, C45_scalar_score_refuted, C45_vectorize_rejects, C46_best_answer, C46_can_be_built, C46_confidence_bounded, C46_confidence_refuted, C46_nu_range, C46_nu_n_refuted, C47_learns_class_statistics, C54_gbm_protocol, C54_gbm_stops, C55_gbm_perfect_residual_fit_refuted, C55_gbm_returns_partial, C60_build_iff, C60_tiny_range_refuted, C63_lpboost_terminates, C66_linear_rounds, C67_adaboost_family, C67_smoothboost, C67_totalboost, C67_decision_tree, C67_regression_tree, C67_worst_case_learner, C67_cross_validation, C68_numbers, C68_csv_with_header, C68_csv_without_header, C68_csv_rejects, C68_svmlight, C68_reader_csv, C68_reader_other, C68_header_blanks, C69_graph_separation_log, C69_lpboost_log, C70_lpboost_log_is_optimal, C70_lpboost_log_never_decreases, C72_inexact_solver_margin, C72_inexact_solver_terminates, C75_squared_loss_drifts_refuted, C75_first_round_partial, C76_gbm_with_regression_trees_refuted, C81_accepted_targets, C81_large_labels_refuted, C81_zero_label_never_predicted, C83_reads_like_the_tree, C84_graph_separation, C84_gradient_boosting, C84_lpboost, C85_settings_partial

## `ClassicalDedekindReals.sig_forall_dec`, `ClassicalDedekindReals.sig_not_dec`, `FunctionalExtensionality.functional_extensionality_dep`

C56_exponential_loss

## `ClassicalDedekindReals.sig_forall_dec`, `Classical_Prop.classic`, `FunctionalExtensionality.functional_extensionality_dep`

C67_lpboost, C67_softboost

## `ClassicalDedekindReals.sig_forall_dec`, `ClassicalDedekindReals.sig_not_dec`, `Classical_Prop.classic`, `FunctionalExtensionality.functional_extensionality_dep`

C01_projection_in_capped_simplex, C01_projection_stable_sort, C01_projection_rejects_bad_cap, C02_projection_threshold_form, C02_projection_tie_independent, C03_projection_is_entropy_projection, C04_adaboost_queries_are_distributions, C04_adaboost_starts_uniform, C05_adaboost_exponential_distribution, C06_adaboost_last_hypothesis_has_zero_edge, C07_adaboost_training_error_bound, C08_adaboost_round_limit, C08_adaboost_crash_cause, C08_adaboost_no_crash, C08_adaboost_exact_rounds, C09_adaboost_perfect_hypothesis_is_returned, C09_adaboost_stops_at_perfect_hypothesis, C09_adaboost_negative_edge_refuted, C09_adaboost_perfect_run, C10_adaboost_zero_training_error_partial, C10_adaboost_max_loop_guarantee_refuted, C10_max_loop_too_small_refuted, C11_adaboostv_queries_are_distributions, C11_adaboostv_exponential_distribution, C11_adaboostv_keeps_every_hypothesis, C12_adaboostv_margin_guarantee, C12_adaboostv_margin_at_max_loop, C12_adaboostv_zero_training_error, C12_adaboostv_configured_margin, C14_adaboost_returns_its_vote_partial, C14_returned_vote_refuted, C15_madaboost_queries_are_distributions, C15_madaboost_distribution_form, C15_madaboost_moves_weight_to_mistakes_refuted, C16_smoothboost_queries_are_smooth, C16_smoothboost_distribution_form, C17_smoothboost_defaults_refuted, C17_smoothboost_result, C17_smoothboost_uses_all_partial, C17_smoothboost_all_hypotheses_refuted, C18_smoothboost_margin_partial, C18_smoothboost_kappa_fraction_refuted, C23_cerlpboost_logged, C23_mlpboost_logged, C23_erlpboost_logged, C23_softboost_logged, C23_logged_adaboost_refuted, C23_adaboost_logged, C23_adaboostv_logged, C23_madaboost_logged, C23_smoothboost_logged, C26_edge_split, C27_tree, C27_mean, C27_edge, C28_pruning, C28_redundant_leaves_refuted, C33_erlpboost_program, C33_mlpboost_program, C33_mlpboost_caps_refuted, C33_softboost_program, C33_totalboost_program, C33_softboost_final_program, C33_softboost_caps_refuted, C35_configured_rounds, C35_regularisation, C35_rounds, C35_terminates, C35_criterion, C36_classic_keeps_simplex, C36_line_search_keeps_simplex, C36_short_step_keeps_simplex, C36_first_round, C36_line_search_first_round_refuted, C36_pairwise_keeps_simplex, C36_moves_towards_the_answer, C36_pairwise_direction, C36_pairwise_repeated_refuted, C37_line_search_refuted, C37_line_search_never_beats_half_refuted, C38_objval, C38_better_weight, C38_round, C38_monotone, C43_entropy_bounds, C43_entropy_capped, C47_score_partial, C47_answer_maximises_score, C47_one_feature_is_bayes_partial, C47_bayes_label_refuted, C48_softmax, C48_derivative_partial, C48_sigmoid_derivative_refuted, C48_relu_threshold_refuted, C48_forward_shape, C48_train_shape, C48_training_run, C50_adaboostv_round_limit, C50_adaboostv_no_crash, C50_adaboostv_exact_rounds, C51_madaboost_exact_rounds, C51_madaboost_round_limit, C51_madaboost_result, C52_smoothboost_configured_rounds, C52_smoothboost_terminates, C53_graphsep_rate, C57_weight_step, C57_bias_step, C57_run_is_a_chain_of_steps, C58_hidden_sigmoid_refuted, C59_binary_prediction, C59_multiclass_prediction_refuted, C59_network_value, C59_regression, C61_best_split, C61_every_split, C62_cerlp_queries_capped, C62_cerlp_round_limit, C62_cerlp_guarantee, C62_cerlp_optimal, C62_cerlp_crash_only_when, C62_cerlp_always_answers_refuted, C62_cerlp_configured, C62_line_search_refuted, C64_rounds, C64_configured_rounds, C64_best_vote, C64_terminates, C64_full_cap_refuted, C64_stuck_refuted, C64_tolerance_refuted, C65_line_search_refuted, C65_rounds, C65_guarantee_any_answers, C65_exact_answers_are_usable, C65_guarantee, C65_optimal_any_answers, C65_optimal, C65_configured, C65_full_cap_refuted, C67_erlpboost, C67_cerlpboost, C67_mlpboost, C69_adaboost_log, C69_adaboostv_log, C69_madaboost_log, C69_smoothboost_log, C69_erlpboost_log, C69_softboost_log, C69_cerlpboost_log, C69_mlpboost_log, C71_learner_returns, C71_initial_weights, C71_no_layer, C73_adaboost_with_trees, C73_trees_zero_training_error, C73_uninformative_sample_refuted, C74_cerlpboost_with_trees, C74_mlpboost_with_trees, C74_lpboost_with_trees, C74_erlpboost_with_trees, C77_parallel_sum_error, C77_schedules_close, C77_schedules_may_differ, C77_inner_product_error, C77_edge_error, C78_accepts, C78_rejects_sum, C78_rejects_entry, C78_uniform, C79_confidence_close, C79_prediction_exact, C79_bound_needed, C80_mean_margin, C81_boosters_refuse, C82_erlpboost_uses_only_solved, C82_status_ignored_refuted, C83_two_decimals_refuted, C84_adaboost, C84_adaboostv, C84_madaboost, C84_smoothboost, C84_erlpboost, C84_softboost, C84_totalboost, C84_cerlpboost, C84_mlpboost, C85_tolerance_refuted, C86_train_size_partial, C86_default_exact, C86_percentage_refuted, C87_power_of_two, C87_close_to_one_partial, C87_ten_rows_refuted, C88_always_found, C88_near_median, C89_adaboost_weights_fall_gently, C89_adaboost_weights_bounded_below, C89_adaboost_new_weights_exact, C89_adaboostv_weights_fall_gently, C90_tree_grows, C90_gini_absorbed_label_refuted, C91_uncapped, C91_checked, C91_correct_accurate, C91_platform, C91_large_logs_refuted, C91_cap_refuted, C92_weights_stay_positive, C92_no_round_panics, C92_weight_accurate, C92_accurate, C92_correct_precise, C92_platform, C92_two_zero_weights, C93_training_error, C93_no_mistakes, C94_inexact_best_vote, C94_inexact_terminates, C95_softboost_log_is_optimal, C95_softboost_log_never_decreases, C96_edge_split, C96_tree_nearly_greedy, C96_edge_of_best_stump, C97_training_error, C97_no_mistakes, C97_round_succeeds, C98_queries, C98_margins, C98_stop, C98_training_error, C98_correct_proper, C98_platform, C99_queries, C99_rounds, C99_exponents, C99_accurate, C99_alpha, C100_weights_stay_positive, C100_no_round_panics, C100_margins, C100_vote, C100_weight_accurate, C100_estimate, C101_tree_nearly_greedy, C101_fit, C101_zero_lambda_refuted, C102_drift, C102_tree_drift, C102_perfect_fit_panics, C102_tree_diverges_refuted, C103_adaboost, C103_adaboostv, C103_madaboost, C103_softboost, C103_cerlpboost_mlpboost, C103_erlpboost, C103_smoothboost, C103_default_tolerance, C103_vanishing_tolerance, C103_no_number, C103_one_example, C103_one_round_short, C104_unit_weights, C104_step_refused, C104_history_close, C104_classic_run, C104_short_step, C104_short_step_refuted, C105_search_ends, C105_search_finds, C105_line_search_update, C105_pairwise_update, C106_distribution, C106_classic_round, C107_run_never_panics, C107_stop_certifies_margin, C107_guarantee

## `ClassicalDedekindReals.sig_forall_dec`, `ClassicalDedekindReals.sig_not_dec`, `ClassicalEpsilon.constructive_indefinite_description`, `Classical_Prop.classic`, `FunctionalExtensionality.functional_extensionality_dep`

C34_exact_solver_exists, C34_end_to_end, C34_configured, C35_exact_solver_exists, C35_end_to_end, C64_exact_solver_exists, C64_end_to_end_refuted, C65_exact_solver_exists, C65_end_to_end, C66_lower_bound_attained, C72_inexact_solver_exists, C80_soft_margin_refuted, C82_lpboost_returns_refuted
