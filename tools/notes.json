{
"C01": [
"proved",
"for every list of reals, every 1<=nu<=n and every sorting permutation (any tie breaking); bad caps are rejected"
],
"C02": [
"proved",
"threshold form, monotone, ties equal, positive; independent of the sort's tie breaking"
],
"C03": [
"proved",
"optimal among all capped distributions, and unique"
],
"C04": [
"proved",
"all queries of all finished, crashed or unfinished runs, against an arbitrary round-dependent weak learner"
],
"C05": [
"proved",
"every query of every run"
],
"C06": [
"proved",
"answers with values +1/-1, edges in (-1,1)"
],
"C07": [
"proved",
"edges non-negative; answers in [-1,1] only for the hypotheses that the learner returned"
],
"C08": [
"proved",
"round limit, termination; a panic needs that no edge was positive or the last edge was at most -1 (C08_adaboost_crash_cause), so none when edges are positive"
],
"C09": [
"partial",
"the positive half is proved: a round of edge >= 1 is the last one and the run itself ends normally with that hypothesis, weight 1, alone (perfect_run); the negative half (edge <= -1) is false of the code and refuted: from_slices panics because the weight is -1"
],
"C10": [
"partial",
"false of the code as documented, refuted twice: max_loop() can be 0, and also where it is a sensible number of rounds - with tolerance 3/5, 4 examples and a learner whose edge is >= 3/5 under every distribution the configured max_loop() = 3 rounds run and the returned vote still misclassifies (the formula lacks the factor 2); proved: zero error once g^2 T > 2 ln n"
],
"C13": [
"proved",
"convexity, kept pairs, prediction sign, panic condition, scale invariance, normalize"
],
"C14": [
"partial",
"holds when all edges are positive (proved); in general false of the code (refuted: negative-weight hypotheses are dropped)"
],
"C43": [
"proved",
""
],
"C44": [
"proved",
"reduction trees of any shape; element-wise updates in any order"
],
"C11": [
"proved",
"all queries of all executions; coefficients positive; every hypothesis kept"
],
"C12": [
"proved",
"the guarantee for T > 2 ln n / tol^2 rounds; plus what holds at the default T = max_loop() (rounded down), plus zero training error"
],
"C22": [
"proved",
"equivalence of run() with the protocol relation, for every booster; call log of a spied booster"
],
"C23": [
"partial",
"holds when current_hypothesis() does not panic and print_every is not 0 (proved, with the time limit behaviour and one line per round); for all ten boosters that implement Research the precondition is reduced to conditions on the run (C23_*_logged; TotalBoost is SoftBoost with nu = 1); refuted in general: logging AdaBoost panics while no weight is positive"
],
"C50": [
"proved",
""
],
"C15": [
"partial",
"first half proved (every query of every run is a positive distribution, with its exact form); the second half is false of the code: in the second query, correct examples always get strictly more mass than misclassified ones (refuted for every sample and weak learner)"
],
"C51": [
"proved",
"limit and termination for every weak learner; result for positive edges"
],
"C16": [
"proved",
"every query of every run, with the exact form of the distribution"
],
"C17": [
"partial",
"false of the code: run() with the default gamma=1/2 always panics, and hypotheses beyond the n-th (n examples) are dropped (both refuted); proved: the exact returned vote, all hypotheses with equal weights when rounds <= n"
],
"C18": [
"partial",
"proved: under the documented guarantee the run stops by its criterion strictly before max_loop() and fewer than kappa n examples have vote <= T theta - 1, fewer than kappa n/sqrt(1-gamma) have vote <= T theta; the exact kappa-fraction claim is refuted (the code starts from n_j=1 instead of 0)"
],
"C52": [
"proved",
"limit for every weak learner; no panic for accepted parameters"
],
"C19": [
"proved",
"GraphSep.v models preprocess, update_params, boost, postprocess with hash sets as duplicate free lists; the weak learner is an arbitrary function of round and distribution. run() stops within n^2 rounds and every non-final round strictly decreases the number of unseparated pairs."
],
"C20": [
"proved",
"The distribution is the degree vector of the graph of unseparated opposite-label pairs divided by twice the number of edges; a run that ends with no unseparated pair yields an aggregation with zero training error; and how a run can end is characterised."
],
"C21": [
"proved",
"For any instance, confidence is +1 iff the prediction pattern equals that of some positive training row, and -1 otherwise."
],
"C53": [
"proved",
"Rate proved from the identity: pairs separated by h >= edge * (number of unseparated pairs)."
],
"C30": [
"partial",
"Refuted for the absolute loss: the code returns minus the derivative (loss_functions.rs:104), proved for every point. For the squared loss the reported gradient is half the derivative of the reported loss (derivative of the halved square), the Hessian is the derivative of the gradient."
],
"C31": [
"partial",
"Proved in full for the absolute loss (weighted median minimises, unreachable branch never taken, panics exactly when all predictions are 0). Refuted for the squared loss: sum(y)/sum(p) is not the least squares coefficient (loss_functions.rs:177-182); it zeroes the residual sum, and minimises when predictions are constant."
],
"C32": [
"partial",
"Refuted: postprocess uses WeightedMajority::from_slices, which drops non-positive coefficients and divides by their sum; for every target vector with non-zero sum a weak learner answering y/2 gives an ensemble growing to 100 y while y/2 is returned. What is returned is characterised exactly."
],
"C54": [
"proved",
"For an arbitrary implementation of best_coefficient (including one that panics)."
],
"C55": [
"partial",
"Refuted: a weak learner that fits the residuals perfectly makes run() panic in round 2 (assert_ne p_sum). Positive: returns if every answer has a coefficient and the first is positive."
],
"C39": [
"partial",
"Reading (every row equals the dense column) and the unlabelled mean and variance are proved for every sparsity pattern. Refuted parts: distinct_value_count (sparse and dense differ; partial theorem gives the exact condition), weighted per-label mean and variance of a sparse column. What the code computes instead is stated exactly for every sparse column (C39_sparse_label_mean_partial: the k-th stored entry gets the label of row k, and entries of the label are left out; C39_sparse_label_variance_partial: unstored rows count whatever their label, so it equals the dense variance whenever all unstored rows have the label). Dense statistics are proved equal to their definitions."
],
"C40": [
"partial",
"Proved for dense columns: test half = window rows, train half = the others, every cell and the target follow the row, for every permutation and window. Refuted for sparse columns (entries keep their position in the permutation instead of their row in the half), with the exact value read at each row. split is reached only through cross validation (C41)."
],
"C41": [
"partial",
"Refuted as stated: with the defaults the folds panic for exactly n in {1,2,3,6,7,11} (C41_default_refuted); C41_panic_iff gives the exact condition for every ratio/number of folds/shuffle. Where no panic occurs (dense columns) the test folds are disjoint, each train set is the complement and, if folds*test_size >= n, they partition the rows. The ratio product is on exact reals, not f64."
],
"C49": [
"partial",
"Proved for every history of reading (rectangular CSV / data frame / SVMLight without repeated indices), set_target and replace_names; set_target panics exactly when no column has the name. Refuted for CSV rows shorter than the header (silently accepted and misaligned). Text and number parsing: C68."
],
"C42": [
"proved",
"soft margin evaluation = minimum of the edge over all distributions capped by 1/nu (attained), hard margin = minimal margin, monotone in nu; panics exactly on empty samples / nu outside [1,n]; exactly one soft margin exists for every function and nu in [1,n]"
],
"C45": [
"partial",
"round trips (multiclass, binary) and discretize = arg max proved for every size; the sign claim for two scores is proved for non-negative scores and refuted for negative ones; a scalar score is read with the opposite sign (C45_scalar_score_refuted), so the last clause of the property is false of the code"
],
"C56": [
"proved",
"exact value for every sample with labels +-1 and every hypothesis"
],
"C48": [
"partial",
"softmax is a distribution; forward/backward/whole training runs keep shapes and never panic on fitting data (every depth, width, batch); derivatives of softmax/identity/ReLU away from the threshold proved; the sigmoid derivative and the ReLU at a non-zero threshold are refuted, so the derivative clause is false of the code for them"
],
"C57": [
"proved",
"every weight and bias, every depth/width/batch, for softmax+cross-entropy, identity+squared error, sigmoid+binary cross-entropy outputs; hidden ReLU units not exactly at their threshold; a run is the chain of its steps (C57_run_is_a_chain_of_steps)"
],
"C58": [
"partial",
"refuted by C58_hidden_sigmoid_refuted (the step is twice the gradient); the missing positive case cannot be proved as it is false"
],
"C59": [
"partial",
"Every network computes the composition of its layers; the regressor answers its single output; binary with two softmax outputs proved; multi-class refuted (prediction is always +1)"
],
"C24": [
"proved",
"Exact arithmetic. cut succeeds iff it gets one bin, or more bins of width >= 1e-9; then the bins form a chain from f64::MIN to f64::MAX, every number lies in exactly one of them and the binary search of pack finds it. Values within 1 of the ends of the f64 range are excluded. Rounding of the bin ends: see C60_rounding_refuted."
],
"C25": [
"proved",
"C25_pack: chain, one bin per packed example, label weights per bin, and the offered splits of the examples are unchanged. C25_trailing_bins_dropped records that empty bins at the end are dropped, so the last bin need not reach f64::MAX (harmless: every node packs from the original bins)."
],
"C26": [
"proved",
"Over all features and all offered thresholds; C26_offered says which thresholds those are (equally spaced between the smallest and largest value)."
],
"C27": [
"proved",
"Totality (no panic), depth, confidence range on any sample, value of each leaf, edge >= (sum d y)^2 / sum d, and for the edge criterion edge >= (best stump edge)^2 / sum d (a weak learning guarantee for the tree). For integer labels in the range of i32, learners that were built (C60), exact arithmetic."
],
"C28": [
"partial",
"Proved: conversion and removal of redundant leaves never change an answer. Refuted (C28_redundant_leaves_refuted): leaves that do not affect the training error are not removed, because the costs compared multiply the already weighted loss by the node weight again; on the trees the learner grows the removal never fires."
],
"C60": [
"partial",
"Refuted as stated: C60_tiny_range_refuted (two values 1e-9 apart: the assertion on the number of bins fails even in exact arithmetic) and C60_rounding_refuted (binary64: the column 0,1,...,8,2^24 makes 11 bins instead of 10 and panics). Proved: C60_build_iff characterises exactly when building succeeds in exact arithmetic."
],
"C61": [
"proved",
"All four criteria, over all features and offered thresholds, for integer labels in the range of i32; exact arithmetic."
],
"C29": [
"partial",
"Proved for positive Hessians (the squared loss): the value of every leaf is the unique minimiser of its regularised quadratic, the chosen split has the best score over every threshold offered, no other leaf values give the same questions a lower objective, the tree lowers the squared loss by at least the one-leaf and best-stump amounts, depth is at most max_depth - 1, and every tree returned points downhill along the gradient it was given.  Refuted: with the absolute loss (zero Hessian) a bin whose gradients cancel is dropped as empty and the chosen split can score 100 where an offered one scores 500; with the absolute loss the returned tree points uphill (the gradient has the wrong sign, see C30); residuals that sum to zero give the constant 0 whatever the splits would gain."
],
"C62": [
"partial",
"Queries capped and round limit for all four step rules; the g - tolerance guarantee and its optimality consequence for the classic and the default short-step rule (Frank-Wolfe analysis with the smoothness constant derived from Hoeffding's lemma). Refuted for the other two rules (C62_line_search_refuted): with LineSearch or BlendedPairwise, three examples, nu = 1, every tolerance below 2/3 and a weak learner that always returns the best of two hypotheses (every edge at least 1/3), the run alternates between the two corners until the round limit and returns one hypothesis with soft margin -1, where an even vote of the two reaches 0. Also refuted: the run panics when the first edge is at most tolerance/2 or nu = n (C62_cerlp_always_answers_refuted)."
],
"C36": [
"partial",
"Classic, short-step and line-search keep the simplex from every weight vector on it (short-step panics exactly when the new hypothesis has the margins of the current vote); blended pairwise keeps it while the new hypothesis has weight 0. Refuted: line-search and pairwise in the first round (weight at most 1e-9 instead of 1), pairwise when a hypothesis with weight is returned again."
],
"C37": [
"partial",
"Refuted, in one case and for every case. C37_line_search_refuted: a concrete reachable case where the new hypothesis improves the edge, the line search takes a full step and the regularised soft margin it maximises strictly drops. C37_line_search_never_beats_half_refuted: for every sample, hypotheses, weights and parameters the line search returns the full step, the half step, or a step within 1e-9 of 0 or 1 whose objective is strictly below that of the half step (the bisection moves the wrong end). C36_line_search_first_round_refuted shows that it also stalls at 1e-9 when the full step is optimal."
],
"C63": [
"proved",
"Exact solver assumed (it answers every program the run poses with a KKT point), and shown to exist for every run (C34_exact_solver_exists); the answers are counted up to equality of confidences on the sample."
],
"C34": [
"partial",
"Proved: for every nu the returned vote's minimum margin is the best over the hull of the hypotheses received and within the tolerance of the smallest edge seen; so LPBoost certifies the hard margin, for any nu. The claim about the soft margin is refuted: LPModel::init receives 1/nu and takes its inverse again, so the slack weight handed to the solver is nu instead of 1/nu, and the distributions shown are not capped by 1/nu. The exact-solver hypothesis is satisfiable for every sample and learner: C34_exact_solver_exists (LP duality by Fourier-Motzkin in Duality.v); C34_end_to_end has no hypothesis on the solver."
],
"C33": [
"partial",
"LPBoost: the constraints are exactly those documented, the objective is rho - nu*sum xi instead of rho - (1/nu)*sum xi (refuted). ERLPBoost: constraints and objective exactly as documented, for every program of every run. TotalBoost's QP and SoftBoost's final LP: exactly as documented. SoftBoost's QP and MLPBoost's LP: objective and constraints exact except that the documented caps 1/nu are missing (both refuted)."
],
"C35": [
"proved",
"Rounds bounded by max_loop for every solver and weak learner (C35_rounds); the entropy term lies in [0, half tolerance] on every capped distribution (C35_regularisation). Termination with a result is proved for a solver that answers every posed QP exactly (clarabel itself is not modelled), including the inner SQP loop; a first edge <= half_tolerance - 1 makes the run panic (empty vote), stated as the only exception. The hypothesis on the solver is satisfiable for every sample and learner (C35_exact_solver_exists: compactness gives a minimiser, LP duality its multipliers, QPExist.v); C35_end_to_end has no hypothesis on the solver."
],
"C64": [
"partial",
"Proved: at most max_loop() rounds for every solver and every weak learner; with an exact solver the run terminates and the returned vote maximises the soft margin over the convex hull of the hypotheses received. Refuted: the documented tolerance guarantee (C64_tolerance_refuted); with an edge-maximising learner every distribution shown is uniform, since the edge bound handed to the QP is gamma_hat without the tolerance (C64_stuck_refuted); nu = n panics because max_loop() is 0 (C64_full_cap_refuted); the QP leaves the caps out (C33_softboost_caps_refuted). One solver is exact on all programs that have a feasible point (C64_exact_solver_exists); C64_end_to_end_refuted has no hypothesis on the solver: for every sample and every edge-maximising learner the run terminates, returns the best vote over what it received, and shows only the uniform distribution."
],
"C65": [
"partial",
"Proved: rounds and capped distributions for every rule, solver and weak learner; for 1 <= nu < n, the Classic and ShortStep (default) rules and every LP solver whose answers have the right lengths and whose hypothesis weights form a distribution - optimal or not (C65_guarantee_any_answers) - the run finishes without a panic and the guarantee holds, also in terms of the configured tolerance. C65_exact_solver_exists and C65_end_to_end discharge the hypothesis on the solver. Refuted for LineSearch and BlendedPairwise (C65_line_search_refuted): three examples, nu = 1, every tolerance below 2/3, an exact solver, an edge-maximising weak learner and a noise stream in (0,1): every edge is at least 1/3 and the returned vote has soft margin -1. Refuted for nu = n: max_loop() is 0 and the run panics."
],
"C38": [
"proved",
"For every pair of weightings the one with the larger entropy-regularised soft margin is kept; stated for better_weight, for every round of every run, and (short-step rule, every solver whose weights form a distribution) as: no round makes the objective worse."
],
"C46": [
"partial",
"Best-of-pool answer and last-of-ties proved for every pool and distribution; built pool and confidences within [-1,1] proved for tolerances in [0,1]. The claim for every accepted tolerance is refuted (C46_confidence_refuted: tolerance 8 gives a confidence of absolute value 3), and the documented range [1,n] of nu is refuted (nu = n panics)."
],
"C66": [
"proved",
"Lower and upper bound for every n; C66_lower_bound_attained discharges the exact-solver hypothesis (LP duality proved in Duality.v/Solvable.v). Exact real arithmetic."
],
"C47": [
"partial",
"False of the code for two or more features: Gaussian::log_probability multiplies ln(variance) by the number of features inside the sum over features. C47_bayes_label_refuted gives a sample of four rows where the learnt classifier answers -1 on an example of label 1 although prior x density is larger for 1. Proved: the exact score for any number of features (C47_score_partial), the answer maximises prior x exp(score) (C47_answer_maximises_score), what is learnt is exactly the class weights, means, variances (C47_learns_class_statistics), and for one feature the classifier is the Gaussian naive Bayes rule on every row (C47_one_feature_is_bayes_partial). Dense columns; real arithmetic."
],
"C67": [
"proved",
"All boosters with setters, the decision tree, regression tree, worst-case learner, neural network and logger builders, the file reader and cross validation: any sequence of calls. GBM's tolerance setter is not modelled (the field is never read)."
],
"C68": [
"proved",
"Text as ASCII characters; literals have their exact value (no rounding to binary64); inf/nan literals are left out. Header names are taken verbatim, blanks included (C68_header_blanks), while values are trimmed."
],
"C69": [
"proved",
"log_truthful (ResearchSpec.v) is proved for ten boosters, by showing that current_hypothesis and postprocess agree in every state. TotalBoost delegates to SoftBoost. GBM implements no Research."
],
"C70": [
"proved",
"Exact solver assumed, as in C34 (it exists: C34_exact_solver_exists)."
],
"C71": [
"proved",
"The random draws of Layer::new and of sample_weighted are universally quantified; sample_weighted itself is not modelled. The learning rate is the constant of the code; learning with it is C57."
],
"C72": [
"proved",
"Margin guarantee and termination for every eps-accurate solver (C72_inexact_solver_margin, C72_inexact_solver_terminates); solvers that are inexact on every program of every run exist (C72_inexact_solver_exists). Arithmetic outside the solver is over the reals. As for C34, the guarantee is about the smallest margin, not the soft margin (C34_soft_margin_refuted)."
],
"C73": [
"partial",
"Holds for every sample (C73_adaboost_with_trees, C73_trees_zero_training_error) except that AdaBoost may panic in its last step instead of returning a vote: exactly when every tree had edge zero, which happens on a concrete sample for every criterion, depth, limit and hash order (C73_uninformative_sample_refuted)."
],
"C74": [
"proved",
"CERLPBoost unconditionally (no solver); the others with an exact solver (which exists: C34_exact_solver_exists, C35/C65 likewise). Frank-Wolfe rules Classic and ShortStep."
],
"C75": [
"partial",
"Refuted by the code: P with suffix _refuted shows the drift for the squared loss and every weak learner (the coefficient is fitted to the targets, not to the residuals). The _partial theorem is what holds: the first round with the absolute loss. Missing: nothing true remains open; the later L1 rounds fit targets too and need not lower the loss."
],
"C76": [
"partial",
"Refuted by the code, in exact real arithmetic, for every sample and configuration (squared loss in both booster and tree). In f64 the residual sum is a rounding error instead of exactly 0, so instead of panicking the run may go on with a huge coefficient: that is C102. The weak learner itself never panics (part of the theorem)."
],
"C77": [
"proved",
"In IEEE binary64 (Flocq's binary_float 53 1024, overflow included), not in exact reals. schedules_may_differ shows that exact equality, which C44 proves over the reals, does not hold in f64."
],
"C78": [
"proved",
"In IEEE binary64. Between 9e-6 and 1.1e-5 the outcome depends on rounding and is left open on purpose."
],
"C79": [
"proved",
"In IEEE binary64. bound_needed shows that the exception for votes close to zero cannot be dropped."
],
"C80": [
"partial",
"The claim is false of the code: C80_soft_margin_refuted exhibits a sample of four examples (nu = 1, tolerance 1/20) and a weak learner that always returns a hypothesis of largest edge, on which, with every exact QP solver, ERLPBoost stops after three rounds, all received edges are at least 0, the vote (1/2, 1/2) over the received hypotheses has soft margin 0, and the returned vote has soft margin -1/2. Cause: the first quadratic program of the inner loop has a vertex as its solution; the next one is expanded there, with 1e-100 in place of the zero weights, so its weights ignore the other examples, and the improvement of the third is below 1e-9 and discarded. C80_mean_margin is what holds in general: for nu = n the returned vote reaches g - tolerance; for smaller nu only the edge at the last distribution is known (C35_criterion)."
],
"C81": [
"partial",
"Proved for labels in the range of i32 (accepted iff exactly two kinds of integers) and for all ten boosters (TotalBoost delegates to SoftBoost): a refused column means Crashed with an empty trace, a returned result means an accepted column. Refuted outside the range: the labels are cast to i32 first, so 3e9 and 4e9 count as one kind and [1; 3e9; 4e9] passes. C81_zero_label_never_predicted records that 0/1 labels pass (with a warning only) although no vote ever answers 0."
],
"C82": [
"partial",
"Proved for ERLPBoost, for every solver: a run that returns never got a failure status, and all distributions and the weights of the returned vote come from answers reported as solved (or are uniform/older ones). Refuted for LPBoost, SoftBoost/TotalBoost and MLPBoost (C82_status_ignored_refuted): they never read the status, so the same numbers reported as failures give exactly the same run; C82_lpboost_returns_refuted has LPBoost return a classifier although every program was reported as failed."
],
"C83": [
"partial",
"The structure (C83_drawing_is_a_tree) is proved for every tree. The reading is proved (C83_reads_like_the_tree) when no feature value of the row lies within 1/200 of a threshold (or the threshold is printed exactly), since thresholds are printed with two decimals; without that it is refuted: C83_two_decimals_refuted has a tree learned without error whose drawing gives a training row the opposite label, for every rounding to two decimals."
],
"C84": [
"proved",
"One theorem per booster. GraphSepBoost and GBM have no setter that changes a later run in the model (GBM: the loss is passed to both runs), so theirs compare the runs directly. RerunSpec.left_behind is the state a finished or abandoned run leaves."
],
"C85": [
"partial",
"Proved: every chain of settings, the last loss counts in the run, at most 100 rounds (C85_settings_partial). The tolerance clause is false of the code: preprocess keeps max_iter = 100 whatever tolerance was set, and max_loop() without settings is usize::MAX, not the documented 100 (C85_tolerance_refuted)."
],
"C86": [
"partial",
"Proved for binary64 (Flocq): the accepted ratios, at least one test row, size floor(r n) or one more when r n is within a relative 2^-53 of the next integer (C86_train_size_partial); the default is exactly floor(4n/5) up to 2^50 rows (C86_default_exact). The exact claim for the fraction as written is false: train_ratio(0.29) on 100 rows trains on 28 (C86_percentage_refuted)."
],
"C87": [
"partial",
"In exact arithmetic this is C09 (AdaBoost). In binary64: proved for 2^k rows in every schedule (C87_power_of_two); for other row counts the edge is within (4n+4) 2^-53 of one (C87_close_to_one_partial), but the claim itself is false: with ten rows the outcome of the test depends on the schedule (C87_ten_rows_refuted)."
],
"C88": [
"proved",
"Binary64 arithmetic (Flocq, round to nearest even). always_found: no bound on sizes or magnitudes. near_median: n <= 2^40 rows, total weight in [2^-900, 2^1023); the quotients are the computed (rounded) ones. The sort is modelled as a stable insertion sort; a NaN quotient (not reachable from finite inputs with nonzero prediction) panics."
],
"C89": [
"proved",
"C89_adaboost_weights_fall_gently (factor 1+|edge|, never half), C89_adaboost_weights_bounded_below (1/(n 2^k)), C89_adaboost_new_weights_exact for +1/-1 classifiers, C89_adaboostv_weights_fall_gently. That past edges lie in (-1,1) is proved, not assumed. Exact real arithmetic."
],
"C90": [
"partial",
"Refuted for Gini: C90_gini_absorbed_label_refuted gives a builder, sample and positive weights with exact sum 1 on which produce panics (split_by_gini removes a label's right weight as soon as it is <= 0 in f64 and unwraps it at the next bin of the same label). C90_tree_grows proves the claim for Entropy, Edge and Twoing for all weights (total < 2^1000, 2n + bins <= 2^32) and for Gini when n * total <= 2^49 * each positive weight; also every row of the sample gets an answer, one of the leaves. Feature values, bins and thresholds are exact reals here; weights, label sums and scores are IEEE binary64 (Flocq)."
],
"C91": [
"partial",
"C91_uncapped proves the claim for nu = 1 (no panic, softmax up to 2^-19) for every accurate exp/ln; C91_checked: whatever comes back, for any nu, is in the capped simplex up to rounding of the cap and 1.1e-5. The claim is false of the code outside that range: C91_cap_refuted (nu = 107/64, n = 2, correctly rounded exp and ln: the first weight exp(-ln nu) rounds one unit above 1/nu and the final check panics) and C91_large_logs_refuted (logarithms of 2^53 lose ln 2, both weights are 1, the check panics)."
],
"C92": [
"proved",
"C92_weights_stay_positive, C92_no_round_panics, C92_accurate, C92_weight_accurate: over all runs in binary64, exp and ln being any functions with relative error 2^-52 (C92_correct_precise: correctly rounded ones qualify; C92_platform: they exist). C92_two_zero_weights shows what the property protects from. The domain (n at most 65536, edges away from 1 and -1 by 2^-10, confidences in [-1,1]) is part of the statement."
],
"C93": [
"proved",
"C93_training_error, C93_no_mistakes: all runs in binary64, rounds, returned vote (from_slices) and predictions included. The domain (sizes, edge range, total weight) is part of the statement."
],
"C94": [
"proved",
"The solver's accuracy is NearSpec.nearly_solves (that of C72). C94_inexact_best_vote needs it only for the final linear program: the vote is optimal over the received hypotheses up to eps (2 n + 5), whatever the quadratic programs were answered. C94_inexact_terminates: with all answers right up to eps the run (inner loops included) ends within max_loop rounds without a panic. C94_hypotheses_met: a run with a solver that is not exact."
],
"C95": [
"proved",
"Exact solver assumed for the linear programs of the measurements only (soft_measures, LogMoreSpec.v); the example exhibits a run with an exact solver whose log has lines."
],
"C96": [
"proved",
"In binary64 for the edge criterion: the split is nearly best (C96_edge_split), the whole tree is nearly greedy with leaves near the mean label and edge near the exact bound (C96_tree_nearly_greedy), and after the redundant-branch clean-up the tree's edge is at least the squared edge of the best offered stump up to rounding (C96_edge_of_best_stump). Feature values and thresholds are exact reals (as in C90); weights, sums, quotients and comparisons are binary64."
],
"C97": [
"proved",
"C97_round_succeeds (trees are produced, answers exist, the edge is at least g^2 - 2^-20, the update succeeds and the run goes on), C97_training_error, C97_no_mistakes. Composition of C96_edge_of_best_stump with C92/C93. Feature values and thresholds are exact reals (as in C90); everything computed from the weights is binary64. The domain (sizes, total weight, edges at most 1 - 2^-10) is part of the statement."
],
"C98": [
"proved",
"all in binary64 (Flocq); powf is a parameter assumed only to map a base in [1/2, 1] and an exponent in [0, 2^60] into [0, 1] (met by a correctly rounded powf, C98_correct_proper); the hypothesis T <= n of the training error is needed because postprocess makes one weight per example"
],
"C99": [
"proved",
"rounds of MadaBoost in binary64 (square root correctly rounded, exp and ln parameters with relative error 2^-52); queries, exponents, weights, vote weights, and the one edge at which the round's assertion fails"
],
"C100": [
"proved",
"rounds of AdaBoostV in binary64 (exp and ln parameters with relative error 2^-52, as in C92): weights positive and normalised, no panic, vote weights up to 2^-44, margins of the training rows and of the vote evaluated in binary64; the domain (n, tol, edges in [tol, 1 - 2^-10], sum of the weights at most 256, T at most 2^30) is part of the statement; the f64 value of max_loop is not part of it"
],
"C101": [
"partial",
"Proved in binary64 for the squared loss with 2^-20 <= lambda <= 2^100 (C101_tree_nearly_greedy, C101_fit). The range lambda >= 0 the code accepts is refuted at lambda = 0 by C101_zero_lambda_refuted: the code violates the claim there. The absolute loss has hessian 0 and is covered (refuted) by C29 in exact arithmetic."
],
"C102": [
"partial",
"The claim is false of the code: C102_tree_diverges_refuted (a run computed in binary64) and C102_perfect_fit_panics. What holds of every run in binary64: C102_drift, C102_tree_drift."
],
"C103": [
"proved",
"GBM's max_loop is AdaBoost's formula (and is never read by its run). powi(2) is one multiplication; the platform logarithm is an abstract function with relative error 2^-52 (precise_ln), shown to exist."
],
"C104": [
"partial",
"Everything is proved but the last sentence, which the code violates: the short-step rule panics exactly when the quotient numer/(eta*denom^2) is not a number, which happens whenever the new hypothesis has the margins of the current vote (0/0; C104_short_step_refuted). The margins are inputs of the short-step theorems; the line-search and pairwise rules are treated over the reals only (C36, C37)."
],
"C105": [
"proved",
"The gradients are a parameter (any function or panic), and so are the two positions of the pairwise rule; that the full step of the pairwise rule goes to the newest hypothesis rather than to the chosen one is what the code does (see C36)."
],
"C106": [
"proved",
"Without a cap (nu = 1), as in C91 (with a cap the projection can panic: C91_cap_refuted). Labels and confidences are inputs."
],
"C107": [
"proved",
"Full run of boost in binary64, confidences, learner and hypothesis equality arbitrary, nu = 1 and the classic rule only (C62 refutes the guarantee for the line-search rules; the short-step rule can produce 0/0, C104). A run that ends at the round limit, or stops in the very first round with an empty vote (see C62), carries no margin guarantee; the theorems say nothing more about it than that it has not panicked. exp and ln are any functions within 2^-50 (C91)."
]
}