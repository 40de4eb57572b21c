{
 "claims": [
  {
   "property": "C01",
   "status": "proved",
   "theorems": [
    "C01_projection_in_capped_simplex",
    "C01_projection_stable_sort",
    "C01_projection_rejects_bad_cap"
   ],
   "note": "for every list of reals, every 1<=nu<=n and every sorting permutation (any tie breaking); bad caps are rejected"
  },
  {
   "property": "C02",
   "status": "proved",
   "theorems": [
    "C02_projection_threshold_form",
    "C02_projection_tie_independent"
   ],
   "note": "threshold form, monotone, ties equal, positive; independent of the sort's tie breaking"
  },
  {
   "property": "C03",
   "status": "proved",
   "theorems": [
    "C03_projection_is_entropy_projection"
   ],
   "note": "optimal among all capped distributions, and unique"
  },
  {
   "property": "C04",
   "status": "proved",
   "theorems": [
    "C04_adaboost_queries_are_distributions",
    "C04_adaboost_starts_uniform"
   ],
   "note": "all queries of all finished, crashed or unfinished runs, against an arbitrary round-dependent weak learner"
  },
  {
   "property": "C05",
   "status": "proved",
   "theorems": [
    "C05_adaboost_exponential_distribution"
   ],
   "note": "every query of every run"
  },
  {
   "property": "C06",
   "status": "proved",
   "theorems": [
    "C06_adaboost_last_hypothesis_has_zero_edge"
   ],
   "note": "answers with values +1/-1, edges in (-1,1)"
  },
  {
   "property": "C07",
   "status": "proved",
   "theorems": [
    "C07_adaboost_training_error_bound"
   ],
   "note": "edges non-negative; answers in [-1,1] only for the hypotheses that the learner returned"
  },
  {
   "property": "C08",
   "status": "proved",
   "theorems": [
    "C08_adaboost_round_limit",
    "C08_adaboost_crash_cause",
    "C08_adaboost_no_crash",
    "C08_adaboost_exact_rounds"
   ],
   "note": "round limit, termination; a panic needs that no edge was positive or the last edge was at most -1 (C08_adaboost_crash_cause), so none when edges are positive"
  },
  {
   "property": "C09",
   "status": "partial",
   "theorems": [
    "C09_adaboost_perfect_hypothesis_is_returned",
    "C09_adaboost_stops_at_perfect_hypothesis",
    "C09_adaboost_negative_edge_refuted",
    "C09_adaboost_perfect_run"
   ],
   "note": "the positive half is proved: a round of edge >= 1 is the last one and the run itself ends normally with that hypothesis, weight 1, alone (perfect_run); the negative half (edge <= -1) is false of the code and refuted: from_slices panics because the weight is -1"
  },
  {
   "property": "C10",
   "status": "partial",
   "theorems": [
    "C10_adaboost_zero_training_error_partial",
    "C10_adaboost_max_loop_guarantee_refuted",
    "C10_max_loop_too_small_refuted"
   ],
   "note": "false of the code as documented, refuted twice: max_loop() can be 0, and also where it is a sensible number of rounds - with tolerance 3/5, 4 examples and a learner whose edge is >= 3/5 under every distribution the configured max_loop() = 3 rounds run and the returned vote still misclassifies (the formula lacks the factor 2); proved: zero error once g^2 T > 2 ln n"
  },
  {
   "property": "C11",
   "status": "proved",
   "theorems": [
    "C11_adaboostv_queries_are_distributions",
    "C11_adaboostv_exponential_distribution",
    "C11_adaboostv_keeps_every_hypothesis"
   ],
   "note": "all queries of all executions; coefficients positive; every hypothesis kept"
  },
  {
   "property": "C12",
   "status": "proved",
   "theorems": [
    "C12_adaboostv_margin_guarantee",
    "C12_adaboostv_margin_at_max_loop",
    "C12_adaboostv_zero_training_error",
    "C12_adaboostv_configured_margin"
   ],
   "note": "the guarantee for T > 2 ln n / tol^2 rounds; plus what holds at the default T = max_loop() (rounded down), plus zero training error"
  },
  {
   "property": "C13",
   "status": "proved",
   "theorems": [
    "C13_weighted_majority_convex",
    "C13_weighted_majority_scale_invariant",
    "C13_push_normalize_decompose",
    "C13_normalize_unit_norm"
   ],
   "note": "convexity, kept pairs, prediction sign, panic condition, scale invariance, normalize"
  },
  {
   "property": "C14",
   "status": "partial",
   "theorems": [
    "C14_adaboost_returns_its_vote_partial",
    "C14_returned_vote_refuted"
   ],
   "note": "holds when all edges are positive (proved); in general false of the code (refuted: negative-weight hypotheses are dropped)"
  },
  {
   "property": "C15",
   "status": "partial",
   "theorems": [
    "C15_madaboost_queries_are_distributions",
    "C15_madaboost_distribution_form",
    "C15_madaboost_moves_weight_to_mistakes_refuted"
   ],
   "note": "first half proved (every query of every run is a positive distribution, with its exact form); the second half is false of the code: in the second query, correct examples always get strictly more mass than misclassified ones (refuted for every sample and weak learner)"
  },
  {
   "property": "C16",
   "status": "proved",
   "theorems": [
    "C16_smoothboost_queries_are_smooth",
    "C16_smoothboost_distribution_form"
   ],
   "note": "every query of every run, with the exact form of the distribution"
  },
  {
   "property": "C17",
   "status": "partial",
   "theorems": [
    "C17_smoothboost_defaults_refuted",
    "C17_smoothboost_result",
    "C17_smoothboost_uses_all_partial",
    "C17_smoothboost_all_hypotheses_refuted"
   ],
   "note": "false of the code: run() with the default gamma=1/2 always panics, and hypotheses beyond the n-th (n examples) are dropped (both refuted); proved: the exact returned vote, all hypotheses with equal weights when rounds <= n"
  },
  {
   "property": "C18",
   "status": "partial",
   "theorems": [
    "C18_smoothboost_margin_partial",
    "C18_smoothboost_kappa_fraction_refuted"
   ],
   "note": "proved: under the documented guarantee the run stops by its criterion strictly before max_loop() and fewer than kappa n examples have vote <= T theta - 1, fewer than kappa n/sqrt(1-gamma) have vote <= T theta; the exact kappa-fraction claim is refuted (the code starts from n_j=1 instead of 0)"
  },
  {
   "property": "C19",
   "status": "proved",
   "theorems": [
    "C19_graphsep_terminates",
    "C19_graphsep_strict_progress"
   ],
   "note": "GraphSep.v models preprocess, update_params, boost, postprocess with hash sets as duplicate free lists; the weak learner is an arbitrary function of round and distribution. run() stops within n^2 rounds and every non-final round strictly decreases the number of unseparated pairs."
  },
  {
   "property": "C20",
   "status": "proved",
   "theorems": [
    "C20_graphsep_distribution",
    "C20_graphsep_zero_error",
    "C20_graphsep_end"
   ],
   "note": "The distribution is the degree vector of the graph of unseparated opposite-label pairs divided by twice the number of edges; a run that ends with no unseparated pair yields an aggregation with zero training error; and how a run can end is characterised."
  },
  {
   "property": "C21",
   "status": "proved",
   "theorems": [
    "C21_naive_aggregation_recall"
   ],
   "note": "For any instance, confidence is +1 iff the prediction pattern equals that of some positive training row, and -1 otherwise."
  },
  {
   "property": "C22",
   "status": "proved",
   "theorems": [
    "C22_run_protocol",
    "C22_run_not_finished",
    "C22_run_calls"
   ],
   "note": "equivalence of run() with the protocol relation, for every booster; call log of a spied booster"
  },
  {
   "property": "C23",
   "status": "partial",
   "theorems": [
    "C23_cerlpboost_logged",
    "C23_mlpboost_logged",
    "C23_erlpboost_logged",
    "C23_softboost_logged",
    "C23_logging_does_not_change_the_result_partial",
    "C23_one_line_per_round",
    "C23_time_limit_stops",
    "C23_logged_adaboost_refuted",
    "C23_graph_separation_logged",
    "C23_adaboost_logged",
    "C23_adaboostv_logged",
    "C23_madaboost_logged",
    "C23_smoothboost_logged",
    "C23_lpboost_logged"
   ],
   "note": "holds when current_hypothesis() does not panic and print_every is not 0 (proved, with the time limit behaviour and one line per round); for all ten boosters that implement Research the precondition is reduced to conditions on the run (C23_*_logged; TotalBoost is SoftBoost with nu = 1); refuted in general: logging AdaBoost panics while no weight is positive"
  },
  {
   "property": "C24",
   "status": "proved",
   "theorems": [
    "C24_bins",
    "C24_bins_exist",
    "C24_pack_bin"
   ],
   "note": "Exact arithmetic. cut succeeds iff it gets one bin, or more bins of width >= 1e-9; then the bins form a chain from f64::MIN to f64::MAX, every number lies in exactly one of them and the binary search of pack finds it. Values within 1 of the ends of the f64 range are excluded. Rounding of the bin ends: see C60_rounding_refuted."
  },
  {
   "property": "C25",
   "status": "proved",
   "theorems": [
    "C25_pack",
    "C25_trailing_bins_dropped"
   ],
   "note": "C25_pack: chain, one bin per packed example, label weights per bin, and the offered splits of the examples are unchanged. C25_trailing_bins_dropped records that empty bins at the end are dropped, so the last bin need not reach f64::MAX (harmless: every node packs from the original bins)."
  },
  {
   "property": "C26",
   "status": "proved",
   "theorems": [
    "C26_edge_split",
    "C26_offered"
   ],
   "note": "Over all features and all offered thresholds; C26_offered says which thresholds those are (equally spaced between the smallest and largest value)."
  },
  {
   "property": "C27",
   "status": "proved",
   "theorems": [
    "C27_tree",
    "C27_mean",
    "C27_edge"
   ],
   "note": "Totality (no panic), depth, confidence range on any sample, value of each leaf, edge >= (sum d y)^2 / sum d, and for the edge criterion edge >= (best stump edge)^2 / sum d (a weak learning guarantee for the tree). For integer labels in the range of i32, learners that were built (C60), exact arithmetic."
  },
  {
   "property": "C28",
   "status": "partial",
   "theorems": [
    "C28_conversion",
    "C28_pruning",
    "C28_redundant_leaves_refuted"
   ],
   "note": "Proved: conversion and removal of redundant leaves never change an answer. Refuted (C28_redundant_leaves_refuted): leaves that do not affect the training error are not removed, because the costs compared multiply the already weighted loss by the node weight again; on the trees the learner grows the removal never fires."
  },
  {
   "property": "C29",
   "status": "partial",
   "theorems": [
    "C29_leaf",
    "C29_split",
    "C29_tree",
    "C29_every_split",
    "C29_squared_loss",
    "C29_every_split_squared_loss",
    "C29_any_loss",
    "C29_L1_uphill_refuted",
    "C29_zero_sum_leaf",
    "C29_zero_sum_refuted",
    "C29_L1_split_refuted"
   ],
   "note": "Proved for positive Hessians (the squared loss): the value of every leaf is the unique minimiser of its regularised quadratic, the chosen split has the best score over every threshold offered, no other leaf values give the same questions a lower objective, the tree lowers the squared loss by at least the one-leaf and best-stump amounts, depth is at most max_depth - 1, and every tree returned points downhill along the gradient it was given.  Refuted: with the absolute loss (zero Hessian) a bin whose gradients cancel is dropped as empty and the chosen split can score 100 where an offered one scores 500; with the absolute loss the returned tree points uphill (the gradient has the wrong sign, see C30); residuals that sum to zero give the constant 0 whatever the splits would gain."
  },
  {
   "property": "C30",
   "status": "partial",
   "theorems": [
    "C30_l2_gradient_partial",
    "C30_l1_gradient_refuted",
    "C30_loss_value_partial",
    "C30_loss_panics_partial",
    "C30_gradient_panics_iff_partial"
   ],
   "note": "Refuted for the absolute loss: the code returns minus the derivative (loss_functions.rs:104), proved for every point. For the squared loss the reported gradient is half the derivative of the reported loss (derivative of the halved square), the Hessian is the derivative of the gradient."
  },
  {
   "property": "C31",
   "status": "partial",
   "theorems": [
    "C31_l1_coefficient",
    "C31_l1_total",
    "C31_l2_coefficient_partial",
    "C31_l2_coefficient_refuted",
    "C31_l2_panics_partial"
   ],
   "note": "Proved in full for the absolute loss (weighted median minimises, unreachable branch never taken, panics exactly when all predictions are 0). Refuted for the squared loss: sum(y)/sum(p) is not the least squares coefficient (loss_functions.rs:177-182); it zeroes the residual sum, and minimises when predictions are constant."
  },
  {
   "property": "C32",
   "status": "partial",
   "theorems": [
    "C32_gbm_returned_partial",
    "C32_gbm_returned_refuted"
   ],
   "note": "Refuted: postprocess uses WeightedMajority::from_slices, which drops non-positive coefficients and divides by their sum; for every target vector with non-zero sum a weak learner answering y/2 gives an ensemble growing to 100 y while y/2 is returned. What is returned is characterised exactly."
  },
  {
   "property": "C33",
   "status": "partial",
   "theorems": [
    "C33_erlpboost_program",
    "C33_lpboost_program",
    "C33_lpboost_objective_refuted",
    "C33_mlpboost_program",
    "C33_mlpboost_caps_refuted",
    "C33_softboost_program",
    "C33_totalboost_program",
    "C33_softboost_final_program",
    "C33_softboost_caps_refuted"
   ],
   "note": "LPBoost: the constraints are exactly those documented, the objective is rho - nu*sum xi instead of rho - (1/nu)*sum xi (refuted). ERLPBoost: constraints and objective exactly as documented, for every program of every run. TotalBoost's QP and SoftBoost's final LP: exactly as documented. SoftBoost's QP and MLPBoost's LP: objective and constraints exact except that the documented caps 1/nu are missing (both refuted)."
  },
  {
   "property": "C34",
   "status": "partial",
   "theorems": [
    "C34_certificate",
    "C34_hard_margin_optimal",
    "C34_soft_margin_refuted",
    "C34_exact_solver_exists",
    "C34_end_to_end",
    "C34_configured"
   ],
   "note": "Proved: for every nu the returned vote's minimum margin is the best over the hull of the hypotheses received and within the tolerance of the smallest edge seen; so LPBoost certifies the hard margin, for any nu. The claim about the soft margin is refuted: LPModel::init receives 1/nu and takes its inverse again, so the slack weight handed to the solver is nu instead of 1/nu, and the distributions shown are not capped by 1/nu. The exact-solver hypothesis is satisfiable for every sample and learner: C34_exact_solver_exists (LP duality by Fourier-Motzkin in Duality.v); C34_end_to_end has no hypothesis on the solver."
  },
  {
   "property": "C35",
   "status": "proved",
   "theorems": [
    "C35_configured_rounds",
    "C35_regularisation",
    "C35_rounds",
    "C35_terminates",
    "C35_criterion",
    "C35_exact_solver_exists",
    "C35_end_to_end"
   ],
   "note": "Rounds bounded by max_loop for every solver and weak learner (C35_rounds); the entropy term lies in [0, half tolerance] on every capped distribution (C35_regularisation). Termination with a result is proved for a solver that answers every posed QP exactly (clarabel itself is not modelled), including the inner SQP loop; a first edge <= half_tolerance - 1 makes the run panic (empty vote), stated as the only exception. The hypothesis on the solver is satisfiable for every sample and learner (C35_exact_solver_exists: compactness gives a minimiser, LP duality its multipliers, QPExist.v); C35_end_to_end has no hypothesis on the solver."
  },
  {
   "property": "C36",
   "status": "partial",
   "theorems": [
    "C36_classic_keeps_simplex",
    "C36_line_search_keeps_simplex",
    "C36_short_step_keeps_simplex",
    "C36_first_round",
    "C36_line_search_first_round_refuted",
    "C36_pairwise_keeps_simplex",
    "C36_moves_towards_the_answer",
    "C36_pairwise_direction",
    "C36_pairwise_repeated_refuted"
   ],
   "note": "Classic, short-step and line-search keep the simplex from every weight vector on it (short-step panics exactly when the new hypothesis has the margins of the current vote); blended pairwise keeps it while the new hypothesis has weight 0. Refuted: line-search and pairwise in the first round (weight at most 1e-9 instead of 1), pairwise when a hypothesis with weight is returned again."
  },
  {
   "property": "C37",
   "status": "partial",
   "theorems": [
    "C37_line_search_refuted",
    "C37_line_search_never_beats_half_refuted"
   ],
   "note": "Refuted, in one case and for every case. C37_line_search_refuted: a concrete reachable case where the new hypothesis improves the edge, the line search takes a full step and the regularised soft margin it maximises strictly drops. C37_line_search_never_beats_half_refuted: for every sample, hypotheses, weights and parameters the line search returns the full step, the half step, or a step within 1e-9 of 0 or 1 whose objective is strictly below that of the half step (the bisection moves the wrong end). C36_line_search_first_round_refuted shows that it also stalls at 1e-9 when the full step is optimal."
  },
  {
   "property": "C38",
   "status": "proved",
   "theorems": [
    "C38_objval",
    "C38_better_weight",
    "C38_round",
    "C38_monotone"
   ],
   "note": "For every pair of weightings the one with the larger entropy-regularised soft margin is kept; stated for better_weight, for every round of every run, and (short-step rule, every solver whose weights form a distribution) as: no round makes the objective worse."
  },
  {
   "property": "C39",
   "status": "partial",
   "theorems": [
    "C39_sparse_reads_like_dense",
    "C39_distinct_values_partial",
    "C39_distinct_values_refuted",
    "C39_zero_rows_partial",
    "C39_dense_label_statistics",
    "C39_sparse_label_mean_refuted",
    "C39_sparse_label_variance_refuted",
    "C39_sparse_label_mean_partial",
    "C39_sparse_label_variance_partial"
   ],
   "note": "Reading (every row equals the dense column) and the unlabelled mean and variance are proved for every sparsity pattern. Refuted parts: distinct_value_count (sparse and dense differ; partial theorem gives the exact condition), weighted per-label mean and variance of a sparse column. What the code computes instead is stated exactly for every sparse column (C39_sparse_label_mean_partial: the k-th stored entry gets the label of row k, and entries of the label are left out; C39_sparse_label_variance_partial: unstored rows count whatever their label, so it equals the dense variance whenever all unstored rows have the label). Dense statistics are proved equal to their definitions."
  },
  {
   "property": "C40",
   "status": "partial",
   "theorems": [
    "C40_split_dense",
    "C40_split_sparse_refuted",
    "C40_split_window_partial"
   ],
   "note": "Proved for dense columns: test half = window rows, train half = the others, every cell and the target follow the row, for every permutation and window. Refuted for sparse columns (entries keep their position in the permutation instead of their row in the half), with the exact value read at each row. split is reached only through cross validation (C41)."
  },
  {
   "property": "C41",
   "status": "partial",
   "theorems": [
    "C41_folds_partial",
    "C41_panic_iff",
    "C41_default_refuted",
    "C41_default_partition",
    "C41_test_size_positive",
    "C41_configuration"
   ],
   "note": "Refuted as stated: with the defaults the folds panic for exactly n in {1,2,3,6,7,11} (C41_default_refuted); C41_panic_iff gives the exact condition for every ratio/number of folds/shuffle. Where no panic occurs (dense columns) the test folds are disjoint, each train set is the complement and, if folds*test_size >= n, they partition the rows. The ratio product is on exact reals, not f64."
  },
  {
   "property": "C42",
   "status": "proved",
   "theorems": [
    "C42_soft_margin_unique_existence",
    "C42_soft_margin",
    "C42_hard_margin",
    "C42_soft_margin_monotone"
   ],
   "note": "soft margin evaluation = minimum of the edge over all distributions capped by 1/nu (attained), hard margin = minimal margin, monotone in nu; panics exactly on empty samples / nu outside [1,n]; exactly one soft margin exists for every function and nu in [1,n]"
  },
  {
   "property": "C43",
   "status": "proved",
   "theorems": [
    "C43_entropy_bounds",
    "C43_entropy_capped"
   ],
   "note": ""
  },
  {
   "property": "C44",
   "status": "proved",
   "theorems": [
    "C44_parallel_sum_schedule_independent",
    "C44_parallel_inner_product",
    "C44_parallel_update_order_independent"
   ],
   "note": "reduction trees of any shape; element-wise updates in any order"
  },
  {
   "property": "C45",
   "status": "partial",
   "theorems": [
    "C45_discretize",
    "C45_multiclass_round_trip",
    "C45_binary_round_trip",
    "C45_two_scores_partial",
    "C45_two_scores_refuted",
    "C45_scalar_score_refuted",
    "C45_vectorize_rejects"
   ],
   "note": "round trips (multiclass, binary) and discretize = arg max proved for every size; the sign claim for two scores is proved for non-negative scores and refuted for negative ones; a scalar score is read with the opposite sign (C45_scalar_score_refuted), so the last clause of the property is false of the code"
  },
  {
   "property": "C46",
   "status": "partial",
   "theorems": [
    "C46_best_answer",
    "C46_can_be_built",
    "C46_confidence_bounded",
    "C46_confidence_refuted",
    "C46_nu_range",
    "C46_nu_n_refuted"
   ],
   "note": "Best-of-pool answer and last-of-ties proved for every pool and distribution; built pool and confidences within [-1,1] proved for tolerances in [0,1]. The claim for every accepted tolerance is refuted (C46_confidence_refuted: tolerance 8 gives a confidence of absolute value 3), and the documented range [1,n] of nu is refuted (nu = n panics)."
  },
  {
   "property": "C47",
   "status": "partial",
   "theorems": [
    "C47_score_partial",
    "C47_answer_maximises_score",
    "C47_learns_class_statistics",
    "C47_one_feature_is_bayes_partial",
    "C47_bayes_label_refuted"
   ],
   "note": "False of the code for two or more features: Gaussian::log_probability multiplies ln(variance) by the number of features inside the sum over features. C47_bayes_label_refuted gives a sample of four rows where the learnt classifier answers -1 on an example of label 1 although prior x density is larger for 1. Proved: the exact score for any number of features (C47_score_partial), the answer maximises prior x exp(score) (C47_answer_maximises_score), what is learnt is exactly the class weights, means, variances (C47_learns_class_statistics), and for one feature the classifier is the Gaussian naive Bayes rule on every row (C47_one_feature_is_bayes_partial). Dense columns; real arithmetic."
  },
  {
   "property": "C48",
   "status": "partial",
   "theorems": [
    "C48_softmax",
    "C48_derivative_partial",
    "C48_sigmoid_derivative_refuted",
    "C48_relu_threshold_refuted",
    "C48_forward_shape",
    "C48_train_shape",
    "C48_training_run"
   ],
   "note": "softmax is a distribution; forward/backward/whole training runs keep shapes and never panic on fitting data (every depth, width, batch); derivatives of softmax/identity/ReLU away from the threshold proved; the sigmoid derivative and the ReLU at a non-zero threshold are refuted, so the derivative clause is false of the code for them"
  },
  {
   "property": "C49",
   "status": "partial",
   "theorems": [
    "C49_set_target_accepts",
    "C49_sample_bookkeeping",
    "C49_csv_cells",
    "C49_csv_accepts",
    "C49_csv_short_row_refuted",
    "C49_svmlight_cells",
    "C49_set_target",
    "C49_replace_names",
    "C49_dummy",
    "C49_target_check"
   ],
   "note": "Proved for every history of reading (rectangular CSV / data frame / SVMLight without repeated indices), set_target and replace_names; set_target panics exactly when no column has the name. Refuted for CSV rows shorter than the header (silently accepted and misaligned). Text and number parsing: C68."
  },
  {
   "property": "C50",
   "status": "proved",
   "theorems": [
    "C50_adaboostv_round_limit",
    "C50_adaboostv_no_crash",
    "C50_adaboostv_exact_rounds"
   ],
   "note": ""
  },
  {
   "property": "C51",
   "status": "proved",
   "theorems": [
    "C51_madaboost_exact_rounds",
    "C51_madaboost_round_limit",
    "C51_madaboost_result"
   ],
   "note": "limit and termination for every weak learner; result for positive edges"
  },
  {
   "property": "C52",
   "status": "proved",
   "theorems": [
    "C52_smoothboost_configured_rounds",
    "C52_smoothboost_terminates"
   ],
   "note": "limit for every weak learner; no panic for accepted parameters"
  },
  {
   "property": "C53",
   "status": "proved",
   "theorems": [
    "C53_graphsep_rate"
   ],
   "note": "Rate proved from the identity: pairs separated by h >= edge * (number of unseparated pairs)."
  },
  {
   "property": "C54",
   "status": "proved",
   "theorems": [
    "C54_gbm_protocol",
    "C54_gbm_stops"
   ],
   "note": "For an arbitrary implementation of best_coefficient (including one that panics)."
  },
  {
   "property": "C55",
   "status": "partial",
   "theorems": [
    "C55_gbm_perfect_residual_fit_refuted",
    "C55_gbm_returns_partial"
   ],
   "note": "Refuted: a weak learner that fits the residuals perfectly makes run() panic in round 2 (assert_ne p_sum). Positive: returns if every answer has a coefficient and the first is positive."
  },
  {
   "property": "C56",
   "status": "proved",
   "theorems": [
    "C56_exponential_loss"
   ],
   "note": "exact value for every sample with labels +-1 and every hypothesis"
  },
  {
   "property": "C57",
   "status": "proved",
   "theorems": [
    "C57_weight_step",
    "C57_bias_step",
    "C57_run_is_a_chain_of_steps"
   ],
   "note": "every weight and bias, every depth/width/batch, for softmax+cross-entropy, identity+squared error, sigmoid+binary cross-entropy outputs; hidden ReLU units not exactly at their threshold; a run is the chain of its steps (C57_run_is_a_chain_of_steps)"
  },
  {
   "property": "C58",
   "status": "partial",
   "theorems": [
    "C58_hidden_sigmoid_refuted"
   ],
   "note": "refuted by C58_hidden_sigmoid_refuted (the step is twice the gradient); the missing positive case cannot be proved as it is false"
  },
  {
   "property": "C59",
   "status": "partial",
   "theorems": [
    "C59_binary_prediction",
    "C59_multiclass_prediction_refuted",
    "C59_network_value",
    "C59_regression"
   ],
   "note": "Every network computes the composition of its layers; the regressor answers its single output; binary with two softmax outputs proved; multi-class refuted (prediction is always +1)"
  },
  {
   "property": "C60",
   "status": "partial",
   "theorems": [
    "C60_build_iff",
    "C60_tiny_range_refuted",
    "C60_rounding_refuted"
   ],
   "note": "Refuted as stated: C60_tiny_range_refuted (two values 1e-9 apart: the assertion on the number of bins fails even in exact arithmetic) and C60_rounding_refuted (binary64: the column 0,1,...,8,2^24 makes 11 bins instead of 10 and panics). Proved: C60_build_iff characterises exactly when building succeeds in exact arithmetic."
  },
  {
   "property": "C61",
   "status": "proved",
   "theorems": [
    "C61_best_split",
    "C61_every_split"
   ],
   "note": "All four criteria, over all features and offered thresholds, for integer labels in the range of i32; exact arithmetic."
  },
  {
   "property": "C62",
   "status": "partial",
   "theorems": [
    "C62_cerlp_queries_capped",
    "C62_cerlp_round_limit",
    "C62_cerlp_guarantee",
    "C62_cerlp_optimal",
    "C62_cerlp_crash_only_when",
    "C62_cerlp_always_answers_refuted",
    "C62_cerlp_configured",
    "C62_line_search_refuted"
   ],
   "note": "Queries capped and round limit for all four step rules; the g - tolerance guarantee and its optimality consequence for the classic and the default short-step rule (Frank-Wolfe analysis with the smoothness constant derived from Hoeffding's lemma). Refuted for the other two rules (C62_line_search_refuted): with LineSearch or BlendedPairwise, three examples, nu = 1, every tolerance below 2/3 and a weak learner that always returns the best of two hypotheses (every edge at least 1/3), the run alternates between the two corners until the round limit and returns one hypothesis with soft margin -1, where an even vote of the two reaches 0. Also refuted: the run panics when the first edge is at most tolerance/2 or nu = n (C62_cerlp_always_answers_refuted)."
  },
  {
   "property": "C63",
   "status": "proved",
   "theorems": [
    "C63_lpboost_terminates"
   ],
   "note": "Exact solver assumed (it answers every program the run poses with a KKT point), and shown to exist for every run (C34_exact_solver_exists); the answers are counted up to equality of confidences on the sample."
  },
  {
   "property": "C64",
   "status": "partial",
   "theorems": [
    "C64_rounds",
    "C64_configured_rounds",
    "C64_best_vote",
    "C64_terminates",
    "C64_full_cap_refuted",
    "C64_stuck_refuted",
    "C64_tolerance_refuted",
    "C64_exact_solver_exists",
    "C64_end_to_end_refuted"
   ],
   "note": "Proved: at most max_loop() rounds for every solver and every weak learner; with an exact solver the run terminates and the returned vote maximises the soft margin over the convex hull of the hypotheses received. Refuted: the documented tolerance guarantee (C64_tolerance_refuted); with an edge-maximising learner every distribution shown is uniform, since the edge bound handed to the QP is gamma_hat without the tolerance (C64_stuck_refuted); nu = n panics because max_loop() is 0 (C64_full_cap_refuted); the QP leaves the caps out (C33_softboost_caps_refuted). One solver is exact on all programs that have a feasible point (C64_exact_solver_exists); C64_end_to_end_refuted has no hypothesis on the solver: for every sample and every edge-maximising learner the run terminates, returns the best vote over what it received, and shows only the uniform distribution."
  },
  {
   "property": "C65",
   "status": "partial",
   "theorems": [
    "C65_line_search_refuted",
    "C65_rounds",
    "C65_guarantee_any_answers",
    "C65_exact_answers_are_usable",
    "C65_guarantee",
    "C65_optimal_any_answers",
    "C65_optimal",
    "C65_configured",
    "C65_full_cap_refuted",
    "C65_exact_solver_exists",
    "C65_end_to_end"
   ],
   "note": "Proved: rounds and capped distributions for every rule, solver and weak learner; for 1 <= nu < n, the Classic and ShortStep (default) rules and every LP solver whose answers have the right lengths and whose hypothesis weights form a distribution - optimal or not (C65_guarantee_any_answers) - the run finishes without a panic and the guarantee holds, also in terms of the configured tolerance. C65_exact_solver_exists and C65_end_to_end discharge the hypothesis on the solver. Refuted for LineSearch and BlendedPairwise (C65_line_search_refuted): three examples, nu = 1, every tolerance below 2/3, an exact solver, an edge-maximising weak learner and a noise stream in (0,1): every edge is at least 1/3 and the returned vote has soft margin -1. Refuted for nu = n: max_loop() is 0 and the run panics."
  },
  {
   "property": "C66",
   "status": "proved",
   "theorems": [
    "C66_linear_rounds",
    "C66_lower_bound_attained"
   ],
   "note": "Lower and upper bound for every n; C66_lower_bound_attained discharges the exact-solver hypothesis (LP duality proved in Duality.v/Solvable.v). Exact real arithmetic."
  },
  {
   "property": "C67",
   "status": "proved",
   "theorems": [
    "C67_adaboost_family",
    "C67_smoothboost",
    "C67_lpboost",
    "C67_erlpboost",
    "C67_softboost",
    "C67_totalboost",
    "C67_cerlpboost",
    "C67_mlpboost",
    "C67_decision_tree",
    "C67_regression_tree",
    "C67_worst_case_learner",
    "C67_sample_reader",
    "C67_cross_validation",
    "C67_neural_network",
    "C67_logger"
   ],
   "note": "All boosters with setters, the decision tree, regression tree, worst-case learner, neural network and logger builders, the file reader and cross validation: any sequence of calls. GBM's tolerance setter is not modelled (the field is never read)."
  },
  {
   "property": "C68",
   "status": "proved",
   "theorems": [
    "C68_numbers",
    "C68_csv_with_header",
    "C68_csv_without_header",
    "C68_csv_rejects",
    "C68_svmlight",
    "C68_reader_csv",
    "C68_reader_other",
    "C68_header_blanks"
   ],
   "note": "Text as ASCII characters; literals have their exact value (no rounding to binary64); inf/nan literals are left out. Header names are taken verbatim, blanks included (C68_header_blanks), while values are trimmed."
  },
  {
   "property": "C69",
   "status": "proved",
   "theorems": [
    "C69_adaboost_log",
    "C69_adaboostv_log",
    "C69_madaboost_log",
    "C69_smoothboost_log",
    "C69_graph_separation_log",
    "C69_lpboost_log",
    "C69_erlpboost_log",
    "C69_softboost_log",
    "C69_cerlpboost_log",
    "C69_mlpboost_log"
   ],
   "note": "log_truthful (ResearchSpec.v) is proved for ten boosters, by showing that current_hypothesis and postprocess agree in every state. TotalBoost delegates to SoftBoost. GBM implements no Research."
  },
  {
   "property": "C70",
   "status": "proved",
   "theorems": [
    "C70_lpboost_log_is_optimal",
    "C70_lpboost_log_never_decreases"
   ],
   "note": "Exact solver assumed, as in C34 (it exists: C34_exact_solver_exists)."
  },
  {
   "property": "C71",
   "status": "proved",
   "theorems": [
    "C71_learner_returns",
    "C71_initial_weights",
    "C71_no_layer"
   ],
   "note": "The random draws of Layer::new and of sample_weighted are universally quantified; sample_weighted itself is not modelled. The learning rate is the constant of the code; learning with it is C57."
  },
  {
   "property": "C72",
   "status": "proved",
   "theorems": [
    "C72_inexact_solver_margin",
    "C72_inexact_solver_terminates",
    "C72_inexact_solver_exists"
   ],
   "note": "Margin guarantee and termination for every eps-accurate solver (C72_inexact_solver_margin, C72_inexact_solver_terminates); solvers that are inexact on every program of every run exist (C72_inexact_solver_exists). Arithmetic outside the solver is over the reals. As for C34, the guarantee is about the smallest margin, not the soft margin (C34_soft_margin_refuted)."
  },
  {
   "property": "C73",
   "status": "partial",
   "theorems": [
    "C73_adaboost_with_trees",
    "C73_trees_zero_training_error",
    "C73_uninformative_sample_refuted"
   ],
   "note": "Holds for every sample (C73_adaboost_with_trees, C73_trees_zero_training_error) except that AdaBoost may panic in its last step instead of returning a vote: exactly when every tree had edge zero, which happens on a concrete sample for every criterion, depth, limit and hash order (C73_uninformative_sample_refuted)."
  },
  {
   "property": "C74",
   "status": "proved",
   "theorems": [
    "C74_cerlpboost_with_trees",
    "C74_mlpboost_with_trees",
    "C74_lpboost_with_trees",
    "C74_erlpboost_with_trees"
   ],
   "note": "CERLPBoost unconditionally (no solver); the others with an exact solver (which exists: C34_exact_solver_exists, C35/C65 likewise). Frank-Wolfe rules Classic and ShortStep."
  },
  {
   "property": "C75",
   "status": "partial",
   "theorems": [
    "C75_squared_loss_drifts_refuted",
    "C75_first_round_partial"
   ],
   "note": "Refuted by the code: P with suffix _refuted shows the drift for the squared loss and every weak learner (the coefficient is fitted to the targets, not to the residuals). The _partial theorem is what holds: the first round with the absolute loss. Missing: nothing true remains open; the later L1 rounds fit targets too and need not lower the loss."
  },
  {
   "property": "C76",
   "status": "partial",
   "theorems": [
    "C76_gbm_with_regression_trees_refuted"
   ],
   "note": "Refuted by the code, in exact real arithmetic, for every sample and configuration (squared loss in both booster and tree). In f64 the residual sum is a rounding error instead of exactly 0, so instead of panicking the run may go on with a huge coefficient: that is C102. The weak learner itself never panics (part of the theorem)."
  },
  {
   "property": "C77",
   "status": "proved",
   "theorems": [
    "C77_parallel_sum_error",
    "C77_schedules_close",
    "C77_schedules_may_differ",
    "C77_inner_product_error",
    "C77_edge_error"
   ],
   "note": "In IEEE binary64 (Flocq's binary_float 53 1024, overflow included), not in exact reals. schedules_may_differ shows that exact equality, which C44 proves over the reals, does not hold in f64."
  },
  {
   "property": "C78",
   "status": "proved",
   "theorems": [
    "C78_accepts",
    "C78_rejects_sum",
    "C78_rejects_entry",
    "C78_uniform"
   ],
   "note": "In IEEE binary64. Between 9e-6 and 1.1e-5 the outcome depends on rounding and is left open on purpose."
  },
  {
   "property": "C79",
   "status": "proved",
   "theorems": [
    "C79_confidence_close",
    "C79_prediction_exact",
    "C79_bound_needed"
   ],
   "note": "In IEEE binary64. bound_needed shows that the exception for votes close to zero cannot be dropped."
  },
  {
   "property": "C80",
   "status": "partial",
   "theorems": [
    "C80_soft_margin_refuted",
    "C80_mean_margin"
   ],
   "note": "The claim is false of the code: C80_soft_margin_refuted exhibits a sample of four examples (nu = 1, tolerance 1/20) and a weak learner that always returns a hypothesis of largest edge, on which, with every exact QP solver, ERLPBoost stops after three rounds, all received edges are at least 0, the vote (1/2, 1/2) over the received hypotheses has soft margin 0, and the returned vote has soft margin -1/2. Cause: the first quadratic program of the inner loop has a vertex as its solution; the next one is expanded there, with 1e-100 in place of the zero weights, so its weights ignore the other examples, and the improvement of the third is below 1e-9 and discarded. C80_mean_margin is what holds in general: for nu = n the returned vote reaches g - tolerance; for smaller nu only the edge at the last distribution is known (C35_criterion)."
  },
  {
   "property": "C81",
   "status": "partial",
   "theorems": [
    "C81_accepted_targets",
    "C81_large_labels_refuted",
    "C81_boosters_refuse",
    "C81_zero_label_never_predicted"
   ],
   "note": "Proved for labels in the range of i32 (accepted iff exactly two kinds of integers) and for all ten boosters (TotalBoost delegates to SoftBoost): a refused column means Crashed with an empty trace, a returned result means an accepted column. Refuted outside the range: the labels are cast to i32 first, so 3e9 and 4e9 count as one kind and [1; 3e9; 4e9] passes. C81_zero_label_never_predicted records that 0/1 labels pass (with a warning only) although no vote ever answers 0."
  },
  {
   "property": "C82",
   "status": "partial",
   "theorems": [
    "C82_erlpboost_uses_only_solved",
    "C82_status_ignored_refuted",
    "C82_lpboost_returns_refuted"
   ],
   "note": "Proved for ERLPBoost, for every solver: a run that returns never got a failure status, and all distributions and the weights of the returned vote come from answers reported as solved (or are uniform/older ones). Refuted for LPBoost, SoftBoost/TotalBoost and MLPBoost (C82_status_ignored_refuted): they never read the status, so the same numbers reported as failures give exactly the same run; C82_lpboost_returns_refuted has LPBoost return a classifier although every program was reported as failed."
  },
  {
   "property": "C83",
   "status": "partial",
   "theorems": [
    "C83_drawing_is_a_tree",
    "C83_reads_like_the_tree",
    "C83_two_decimals_refuted"
   ],
   "note": "The structure (C83_drawing_is_a_tree) is proved for every tree. The reading is proved (C83_reads_like_the_tree) when no feature value of the row lies within 1/200 of a threshold (or the threshold is printed exactly), since thresholds are printed with two decimals; without that it is refuted: C83_two_decimals_refuted has a tree learned without error whose drawing gives a training row the opposite label, for every rounding to two decimals."
  },
  {
   "property": "C84",
   "status": "proved",
   "theorems": [
    "C84_adaboost",
    "C84_adaboostv",
    "C84_madaboost",
    "C84_smoothboost",
    "C84_graph_separation",
    "C84_gradient_boosting",
    "C84_lpboost",
    "C84_erlpboost",
    "C84_softboost",
    "C84_totalboost",
    "C84_cerlpboost",
    "C84_mlpboost"
   ],
   "note": "One theorem per booster. GraphSepBoost and GBM have no setter that changes a later run in the model (GBM: the loss is passed to both runs), so theirs compare the runs directly. RerunSpec.left_behind is the state a finished or abandoned run leaves."
  },
  {
   "property": "C85",
   "status": "partial",
   "theorems": [
    "C85_settings_partial",
    "C85_tolerance_refuted"
   ],
   "note": "Proved: every chain of settings, the last loss counts in the run, at most 100 rounds (C85_settings_partial). The tolerance clause is false of the code: preprocess keeps max_iter = 100 whatever tolerance was set, and max_loop() without settings is usize::MAX, not the documented 100 (C85_tolerance_refuted)."
  },
  {
   "property": "C86",
   "status": "partial",
   "theorems": [
    "C86_train_size_partial",
    "C86_default_exact",
    "C86_percentage_refuted"
   ],
   "note": "Proved for binary64 (Flocq): the accepted ratios, at least one test row, size floor(r n) or one more when r n is within a relative 2^-53 of the next integer (C86_train_size_partial); the default is exactly floor(4n/5) up to 2^50 rows (C86_default_exact). The exact claim for the fraction as written is false: train_ratio(0.29) on 100 rows trains on 28 (C86_percentage_refuted)."
  },
  {
   "property": "C87",
   "status": "partial",
   "theorems": [
    "C87_power_of_two",
    "C87_close_to_one_partial",
    "C87_ten_rows_refuted"
   ],
   "note": "In exact arithmetic this is C09 (AdaBoost). In binary64: proved for 2^k rows in every schedule (C87_power_of_two); for other row counts the edge is within (4n+4) 2^-53 of one (C87_close_to_one_partial), but the claim itself is false: with ten rows the outcome of the test depends on the schedule (C87_ten_rows_refuted)."
  },
  {
   "property": "C88",
   "status": "proved",
   "theorems": [
    "C88_always_found",
    "C88_near_median"
   ],
   "note": "Binary64 arithmetic (Flocq, round to nearest even). always_found: no bound on sizes or magnitudes. near_median: n <= 2^40 rows, total weight in [2^-900, 2^1023); the quotients are the computed (rounded) ones. The sort is modelled as a stable insertion sort; a NaN quotient (not reachable from finite inputs with nonzero prediction) panics."
  },
  {
   "property": "C89",
   "status": "proved",
   "theorems": [
    "C89_adaboost_weights_fall_gently",
    "C89_adaboost_weights_bounded_below",
    "C89_adaboost_new_weights_exact",
    "C89_adaboostv_weights_fall_gently"
   ],
   "note": "C89_adaboost_weights_fall_gently (factor 1+|edge|, never half), C89_adaboost_weights_bounded_below (1/(n 2^k)), C89_adaboost_new_weights_exact for +1/-1 classifiers, C89_adaboostv_weights_fall_gently. That past edges lie in (-1,1) is proved, not assumed. Exact real arithmetic."
  },
  {
   "property": "C90",
   "status": "partial",
   "theorems": [
    "C90_tree_grows",
    "C90_gini_absorbed_label_refuted"
   ],
   "note": "Refuted for Gini: C90_gini_absorbed_label_refuted gives a builder, sample and positive weights with exact sum 1 on which produce panics (split_by_gini removes a label's right weight as soon as it is <= 0 in f64 and unwraps it at the next bin of the same label). C90_tree_grows proves the claim for Entropy, Edge and Twoing for all weights (total < 2^1000, 2n + bins <= 2^32) and for Gini when n * total <= 2^49 * each positive weight; also every row of the sample gets an answer, one of the leaves. Feature values, bins and thresholds are exact reals here; weights, label sums and scores are IEEE binary64 (Flocq)."
  },
  {
   "property": "C91",
   "status": "partial",
   "theorems": [
    "C91_uncapped",
    "C91_checked",
    "C91_correct_accurate",
    "C91_platform",
    "C91_large_logs_refuted",
    "C91_cap_refuted"
   ],
   "note": "C91_uncapped proves the claim for nu = 1 (no panic, softmax up to 2^-19) for every accurate exp/ln; C91_checked: whatever comes back, for any nu, is in the capped simplex up to rounding of the cap and 1.1e-5. The claim is false of the code outside that range: C91_cap_refuted (nu = 107/64, n = 2, correctly rounded exp and ln: the first weight exp(-ln nu) rounds one unit above 1/nu and the final check panics) and C91_large_logs_refuted (logarithms of 2^53 lose ln 2, both weights are 1, the check panics)."
  },
  {
   "property": "C92",
   "status": "proved",
   "theorems": [
    "C92_weights_stay_positive",
    "C92_no_round_panics",
    "C92_weight_accurate",
    "C92_accurate",
    "C92_correct_precise",
    "C92_platform",
    "C92_two_zero_weights"
   ],
   "note": "C92_weights_stay_positive, C92_no_round_panics, C92_accurate, C92_weight_accurate: over all runs in binary64, exp and ln being any functions with relative error 2^-52 (C92_correct_precise: correctly rounded ones qualify; C92_platform: they exist). C92_two_zero_weights shows what the property protects from. The domain (n at most 65536, edges away from 1 and -1 by 2^-10, confidences in [-1,1]) is part of the statement."
  },
  {
   "property": "C93",
   "status": "proved",
   "theorems": [
    "C93_training_error",
    "C93_no_mistakes"
   ],
   "note": "C93_training_error, C93_no_mistakes: all runs in binary64, rounds, returned vote (from_slices) and predictions included. The domain (sizes, edge range, total weight) is part of the statement."
  },
  {
   "property": "C94",
   "status": "proved",
   "theorems": [
    "C94_inexact_best_vote",
    "C94_inexact_terminates"
   ],
   "note": "The solver's accuracy is NearSpec.nearly_solves (that of C72). C94_inexact_best_vote needs it only for the final linear program: the vote is optimal over the received hypotheses up to eps (2 n + 5), whatever the quadratic programs were answered. C94_inexact_terminates: with all answers right up to eps the run (inner loops included) ends within max_loop rounds without a panic. C94_hypotheses_met: a run with a solver that is not exact."
  },
  {
   "property": "C95",
   "status": "proved",
   "theorems": [
    "C95_softboost_log_is_optimal",
    "C95_softboost_log_never_decreases"
   ],
   "note": "Exact solver assumed for the linear programs of the measurements only (soft_measures, LogMoreSpec.v); the example exhibits a run with an exact solver whose log has lines."
  },
  {
   "property": "C96",
   "status": "proved",
   "theorems": [
    "C96_edge_split",
    "C96_tree_nearly_greedy",
    "C96_edge_of_best_stump"
   ],
   "note": "In binary64 for the edge criterion: the split is nearly best (C96_edge_split), the whole tree is nearly greedy with leaves near the mean label and edge near the exact bound (C96_tree_nearly_greedy), and after the redundant-branch clean-up the tree's edge is at least the squared edge of the best offered stump up to rounding (C96_edge_of_best_stump). Feature values and thresholds are exact reals (as in C90); weights, sums, quotients and comparisons are binary64."
  },
  {
   "property": "C97",
   "status": "proved",
   "theorems": [
    "C97_training_error",
    "C97_no_mistakes",
    "C97_round_succeeds"
   ],
   "note": "C97_round_succeeds (trees are produced, answers exist, the edge is at least g^2 - 2^-20, the update succeeds and the run goes on), C97_training_error, C97_no_mistakes. Composition of C96_edge_of_best_stump with C92/C93. Feature values and thresholds are exact reals (as in C90); everything computed from the weights is binary64. The domain (sizes, total weight, edges at most 1 - 2^-10) is part of the statement."
  },
  {
   "property": "C98",
   "status": "proved",
   "theorems": [
    "C98_queries",
    "C98_margins",
    "C98_stop",
    "C98_training_error",
    "C98_correct_proper",
    "C98_platform"
   ],
   "note": "all in binary64 (Flocq); powf is a parameter assumed only to map a base in [1/2, 1] and an exponent in [0, 2^60] into [0, 1] (met by a correctly rounded powf, C98_correct_proper); the hypothesis T <= n of the training error is needed because postprocess makes one weight per example"
  },
  {
   "property": "C99",
   "status": "proved",
   "theorems": [
    "C99_queries",
    "C99_rounds",
    "C99_exponents",
    "C99_accurate",
    "C99_alpha"
   ],
   "note": "rounds of MadaBoost in binary64 (square root correctly rounded, exp and ln parameters with relative error 2^-52); queries, exponents, weights, vote weights, and the one edge at which the round's assertion fails"
  },
  {
   "property": "C100",
   "status": "proved",
   "theorems": [
    "C100_weights_stay_positive",
    "C100_no_round_panics",
    "C100_margins",
    "C100_vote",
    "C100_weight_accurate",
    "C100_estimate"
   ],
   "note": "rounds of AdaBoostV in binary64 (exp and ln parameters with relative error 2^-52, as in C92): weights positive and normalised, no panic, vote weights up to 2^-44, margins of the training rows and of the vote evaluated in binary64; the domain (n, tol, edges in [tol, 1 - 2^-10], sum of the weights at most 256, T at most 2^30) is part of the statement; the f64 value of max_loop is not part of it"
  },
  {
   "property": "C101",
   "status": "partial",
   "theorems": [
    "C101_tree_nearly_greedy",
    "C101_fit",
    "C101_zero_lambda_refuted"
   ],
   "note": "Proved in binary64 for the squared loss with 2^-20 <= lambda <= 2^100 (C101_tree_nearly_greedy, C101_fit). The range lambda >= 0 the code accepts is refuted at lambda = 0 by C101_zero_lambda_refuted: the code violates the claim there. The absolute loss has hessian 0 and is covered (refuted) by C29 in exact arithmetic."
  },
  {
   "property": "C102",
   "status": "partial",
   "theorems": [
    "C102_drift",
    "C102_tree_drift",
    "C102_perfect_fit_panics",
    "C102_tree_diverges_refuted"
   ],
   "note": "The claim is false of the code: C102_tree_diverges_refuted (a run computed in binary64) and C102_perfect_fit_panics. What holds of every run in binary64: C102_drift, C102_tree_drift."
  },
  {
   "property": "C103",
   "status": "proved",
   "theorems": [
    "C103_adaboost",
    "C103_adaboostv",
    "C103_madaboost",
    "C103_softboost",
    "C103_cerlpboost_mlpboost",
    "C103_erlpboost",
    "C103_smoothboost",
    "C103_default_tolerance",
    "C103_vanishing_tolerance",
    "C103_no_number",
    "C103_one_example",
    "C103_one_round_short"
   ],
   "note": "GBM's max_loop is AdaBoost's formula (and is never read by its run). powi(2) is one multiplication; the platform logarithm is an abstract function with relative error 2^-52 (precise_ln), shown to exist."
  },
  {
   "property": "C104",
   "status": "partial",
   "theorems": [
    "C104_unit_weights",
    "C104_step_refused",
    "C104_history_close",
    "C104_classic_run",
    "C104_short_step",
    "C104_short_step_refuted"
   ],
   "note": "Everything is proved but the last sentence, which the code violates: the short-step rule panics exactly when the quotient numer/(eta*denom^2) is not a number, which happens whenever the new hypothesis has the margins of the current vote (0/0; C104_short_step_refuted). The margins are inputs of the short-step theorems; the line-search and pairwise rules are treated over the reals only (C36, C37)."
  },
  {
   "property": "C105",
   "status": "proved",
   "theorems": [
    "C105_search_ends",
    "C105_search_finds",
    "C105_line_search_update",
    "C105_pairwise_update"
   ],
   "note": "The gradients are a parameter (any function or panic), and so are the two positions of the pairwise rule; that the full step of the pairwise rule goes to the newest hypothesis rather than to the chosen one is what the code does (see C36)."
  },
  {
   "property": "C106",
   "status": "proved",
   "theorems": [
    "C106_distribution",
    "C106_classic_round"
   ],
   "note": "Without a cap (nu = 1), as in C91 (with a cap the projection can panic: C91_cap_refuted). Labels and confidences are inputs."
  },
  {
   "property": "C107",
   "status": "proved",
   "theorems": [
    "C107_run_never_panics",
    "C107_stop_certifies_margin",
    "C107_guarantee",
    "C107_fit_never_panics",
    "C107_fit_guarantee",
    "C107_no_repeats",
    "C107_moves_to_returned",
    "C107_fit_training_error"
   ],
   "note": "Full run of boost in binary64, confidences, learner and hypothesis equality arbitrary, nu = 1 and the classic rule only (C62 refutes the guarantee for the line-search rules; the short-step rule can produce 0/0, C104). A run that ends at the round limit, or stops in the very first round with an empty vote (see C62), carries no margin guarantee; the theorems say nothing more about it than that it has not panicked. exp and ln are any functions within 2^-50 (C91)."
  }
 ]
}