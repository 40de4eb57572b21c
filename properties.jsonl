{"id": "C01", "title": "Projection returns a point of the capped simplex", "statement": "For every vector of finite log-weights of length n and every cap parameter 1 <= nu <= n, projecting onto the capped simplex returns a vector of the same length with all entries in [0, 1/nu] that sums to one, and none of the internal assertions of the projection fires.", "quantifier": "every n >= 1, every real vector of length n, every real nu in [1,n], every tie-breaking of the sort", "why_tests_cant": "the input space is a continuum and the stopping point of the loop depends on it; tests sample a few vectors", "anchors": ["src/common/utils.rs:project_log_distribution_to_capped_simplex", "src/common/checker.rs:check_capped_simplex_condition"]}
{"id": "C02", "title": "Projection has the threshold form and keeps the order", "statement": "The projected distribution is min(1/nu, xi*exp(x_i)) for a single positive scale xi common to all coordinates; hence it is monotone in the log-weights, equal log-weights get equal mass, and the result does not depend on how ties are sorted.", "quantifier": "every n, every log-weight vector, every nu in [1,n], every pair of coordinates", "why_tests_cant": "needs every ordering and every tie pattern", "anchors": ["src/common/utils.rs:project_log_distribution_to_capped_simplex"]}
{"id": "C03", "title": "Projection is the relative-entropy projection", "statement": "Among all distributions capped by 1/nu the returned one minimises the relative entropy to the un-normalised weights exp(x_i) (and it is the unique minimiser).", "quantifier": "every competitor distribution in the capped simplex", "why_tests_cant": "a minimiser over a continuum cannot be established by sampling competitors", "anchors": ["src/common/utils.rs:project_log_distribution_to_capped_simplex", "src/common/utils.rs:entropy"]}
{"id": "C04", "title": "AdaBoost hands the weak learner a true distribution in every round", "statement": "In every round of AdaBoost the vector handed to the weak learner has one strictly positive entry per training example and sums to one, whatever hypotheses the weak learner returned before.", "quantifier": "every sample, every weak learner (adversarial, round dependent), every round", "why_tests_cant": "quantifies over all histories of weak-learner answers", "anchors": ["src/booster/adaboost/adaboost_algorithm.rs:AdaBoost::boost", "src/booster/adaboost/adaboost_algorithm.rs:AdaBoost::update_params"]}
{"id": "C05", "title": "AdaBoost distribution is the exponential-loss distribution of the current combination", "statement": "After any number of rounds the distribution of AdaBoost is exactly exp(-y_i F(x_i)) / sum_j exp(-y_j F(x_j)), where F is the weighted sum of the hypotheses collected so far with the weights collected so far.", "quantifier": "every history of hypotheses of every length", "why_tests_cant": "inductive statement over unbounded histories", "anchors": ["src/booster/adaboost/adaboost_algorithm.rs:AdaBoost::update_params"]}
{"id": "C06", "title": "AdaBoost makes the last hypothesis useless", "statement": "After the update with a hypothesis that takes values in {-1,+1}, the edge of this very hypothesis under the new distribution is zero.", "quantifier": "every distribution, every +-1 hypothesis with |edge| < 1", "why_tests_cant": "exact identity over a continuum of distributions", "anchors": ["src/booster/adaboost/adaboost_algorithm.rs:AdaBoost::update_params"]}
{"id": "C07", "title": "AdaBoost training error bound", "statement": "If every edge gamma_t met during the run is positive, the fraction of training examples misclassified by the returned combined hypothesis is at most the product over rounds of sqrt(1 - gamma_t^2).", "quantifier": "every sample with +-1 labels, every weak learner with confidences in [-1,1], every number of rounds", "why_tests_cant": "universal bound over all histories", "anchors": ["src/booster/adaboost/adaboost_algorithm.rs", "src/hypothesis/weighted_majority.rs"]}
{"id": "C08", "title": "AdaBoost terminates within its advertised number of rounds", "statement": "run() of AdaBoost consults the weak learner at most max_loop() times (or at most the number given to force_quit_at), then stops and builds the combined hypothesis.", "quantifier": "every weak learner", "why_tests_cant": "termination for all schedules", "anchors": ["src/booster/adaboost/adaboost_algorithm.rs:max_loop", "src/booster/core.rs:Booster::run"]}
{"id": "C09", "title": "AdaBoost stops immediately on a perfect hypothesis and returns it", "statement": "If in some round the weak learner returns a hypothesis of edge at least 1 then the run ends there and the returned combined hypothesis equals this hypothesis with weight one; a hypothesis of edge at most -1 also ends the run with a usable result.", "quantifier": "every history before the perfect round", "why_tests_cant": "arbitrary history before the event", "anchors": ["src/booster/adaboost/adaboost_algorithm.rs:boost", "src/hypothesis/weighted_majority.rs:from_slices"]}
{"id": "C10", "title": "AdaBoost reaches zero training error within max_loop()", "statement": "If the weak learner always returns hypotheses of edge at least the tolerance, then after max_loop() iterations the returned hypothesis classifies every training example correctly (documented guarantee of max_loop()).", "quantifier": "every sample and weak learner with that edge guarantee", "why_tests_cant": "needs a worst-case weak learner, not a typical one", "anchors": ["src/booster/adaboost/adaboost_algorithm.rs:max_loop"]}
{"id": "C11", "title": "AdaBoostV keeps distribution and non-negative weights", "statement": "In every round of AdaBoostV the distribution is positive and sums to one, is proportional to exp(-y_i F(x_i)), and, as long as the smallest edge so far minus the tolerance stays above -1, each hypothesis gets a strictly positive weight.", "quantifier": "every weak learner and every history", "why_tests_cant": "inductive over unbounded histories", "anchors": ["src/booster/adaboostv/adaboostv_algorithm.rs:update_params"]}
{"id": "C12", "title": "AdaBoostV margin guarantee", "statement": "After more than 2 ln(n)/tol^2 rounds the combined hypothesis has margin at least (minimum edge seen) - tol on every training example.", "quantifier": "every sample, every weak learner, every tolerance in (0,1)", "why_tests_cant": "worst-case convergence bound", "anchors": ["src/booster/adaboostv/adaboostv_algorithm.rs:max_loop"]}
{"id": "C13", "title": "Weighted majority vote is a convex combination", "statement": "Building the combined hypothesis from weights and hypotheses keeps exactly the pairs with positive weight in order, the resulting weights are positive and sum to one, the confidence stays in [-1,1] when the base confidences do, and predictions are the sign of the positively weighted vote; it panics exactly when no weight is positive.", "quantifier": "every weight vector, every hypothesis list, every row of every sample", "why_tests_cant": "all lengths, all sign patterns", "anchors": ["src/hypothesis/weighted_majority.rs:from_slices", "src/hypothesis/weighted_majority.rs:confidence", "src/common/utils.rs:normalize"]}
{"id": "C14", "title": "Combined hypothesis is the vote the booster maintained", "statement": "The returned weighted majority predicts with the sign of the full weighted sum that the booster's own distribution was computed from (no collected hypothesis is silently ignored).", "quantifier": "every history, including hypotheses worse than random", "why_tests_cant": "depends on the sign of every weight in the history", "anchors": ["src/hypothesis/weighted_majority.rs:from_slices", "src/booster/adaboost/adaboost_algorithm.rs:postprocess"]}
{"id": "C15", "title": "MadaBoost keeps a distribution and moves weight to mistakes", "statement": "In every round of MadaBoost the vector handed to the weak learner is a distribution, and after each update misclassified examples gain weight relative to correctly classified ones.", "quantifier": "every history", "why_tests_cant": "all histories", "anchors": ["src/booster/madaboost/madaboost_algorithm.rs"]}
{"id": "C16", "title": "SmoothBoost distributions are smooth", "statement": "In every round SmoothBoost hands the weak learner a distribution whose entries are positive, sum to one and never exceed 1/(kappa n).", "quantifier": "every history, every kappa, gamma accepted by the precondition check", "why_tests_cant": "smoothness must hold for every reachable state", "anchors": ["src/booster/smoothboost/smoothboost_algorithm.rs:boost"]}
{"id": "C17", "title": "SmoothBoost parameters: defaults are usable and the final vote uses every hypothesis", "statement": "SmoothBoost::init(..).run(..) with default parameters runs; and the returned vote contains every hypothesis obtained, each with the same weight.", "quantifier": "every sample size and every number of rounds", "why_tests_cant": "depends on the relation between rounds and sample size", "anchors": ["src/booster/smoothboost/smoothboost_algorithm.rs:init", "src/booster/smoothboost/smoothboost_algorithm.rs:postprocess"]}
{"id": "C18", "title": "SmoothBoost margin progress", "statement": "If every hypothesis has edge at least the promised bound, SmoothBoost stops within max_loop() rounds because the total weight falls below kappa n, and at most a kappa fraction of the examples then has margin below theta.", "quantifier": "every weak learner satisfying the assumption", "why_tests_cant": "potential argument over all histories", "anchors": ["src/booster/smoothboost/smoothboost_algorithm.rs"]}
{"id": "C19", "title": "Graph separation boosting terminates", "statement": "Each non-final round of graph separation boosting strictly decreases the number of unseparated opposite-label pairs, so run() stops after at most n^2 rounds whatever the weak learner does.", "quantifier": "every sample, every weak learner", "why_tests_cant": "termination for every adversary", "anchors": ["src/booster/graph_separation_boosting/graph_separation_algorithm.rs"]}
{"id": "C20", "title": "Graph separation boosting: distribution and zero training error", "statement": "The vector handed to the weak learner is the normalised degree distribution (non-negative, sums to one); if the run ends with no unseparated pair, the returned aggregation predicts every training example correctly.", "quantifier": "every sample with +-1 labels, every weak learner", "why_tests_cant": "all histories", "anchors": ["src/booster/graph_separation_boosting/graph_separation_algorithm.rs", "src/hypothesis/naive_aggregation.rs"]}
{"id": "C21", "title": "Naive aggregation recalls exactly the patterns it saw", "statement": "A naive aggregation answers +1 on a row iff the vector of base predictions on that row equals the vector of base predictions of some positive training row.", "quantifier": "every list of hypotheses, every sample, every row", "why_tests_cant": "all bit patterns of all lengths", "anchors": ["src/hypothesis/naive_aggregation.rs"]}
{"id": "C22", "title": "Booster::run is the preprocess / iterate-until-Break / postprocess protocol", "statement": "run() calls preprocess once, boost with 1,2,3,... until the first Break and never after it, and then postprocess once; the rounds are consecutive and start at 1.", "quantifier": "every booster and every break position", "why_tests_cant": "every break point", "anchors": ["src/booster/core.rs:Booster::run"]}
{"id": "C23", "title": "Logging does not change the learned hypothesis", "statement": "Logger::run, when the time limit is not reached, returns what Booster::run would return and writes one line per round; when it is reached it stops after that round with the current state postprocessed.", "quantifier": "every booster, every clock behaviour, every time limit", "why_tests_cant": "timing is nondeterministic", "anchors": ["src/research/logger.rs:run"]}
{"id": "C24", "title": "Decision-tree bins partition the real line", "statement": "The histogram bins built for a feature are contiguous, ordered and disjoint, cover every value, and packing an example places it into the one bin that contains its feature value; no example is lost or double-counted.", "quantifier": "every feature column, every number of bins, every value", "why_tests_cant": "continuum of values; boundaries", "anchors": ["src/weak_learner/decision_tree/bin.rs"]}
{"id": "C25", "title": "Removing empty bins keeps a partition", "statement": "Removing zero-weight bins merges neighbours so that the remaining bins still are contiguous and each of the packed examples lies in exactly one of them, the weight per label of every remaining bin is that of the examples in it (divided by the total), and exactly the same splits of the examples are offered as before.", "quantifier": "every pattern of empty bins", "why_tests_cant": "2^n patterns", "anchors": ["src/weak_learner/decision_tree/bin.rs:remove_zero_weight_pack_and_normalize"]}
{"id": "C26", "title": "Edge criterion picks the best threshold", "statement": "Under the edge criterion the chosen threshold maximises, over all thresholds offered by the bins, the absolute weighted edge of the decision stump.", "quantifier": "every packed histogram", "why_tests_cant": "max over all candidate thresholds", "anchors": ["src/weak_learner/decision_tree/criterion.rs:split_by_edge"]}
{"id": "C27", "title": "Decision tree respects its depth and outputs confidences in [-1,1]", "statement": "The trained decision tree has depth at most max_depth (a leaf when depth is exhausted), every prediction confidence is in [-1,1], and its edge on the training distribution is non-negative for +-1 labels.", "quantifier": "every sample, every distribution, every depth", "why_tests_cant": "recursive construction over all inputs", "anchors": ["src/weak_learner/decision_tree/decision_tree_algorithm.rs", "src/weak_learner/decision_tree/train_node.rs"]}
{"id": "C28", "title": "Converting/pruning the tree preserves its answers", "statement": "Converting the trained tree into the returned classifier preserves the confidence on every row, the removal of redundant leaves never changes an answer, and it removes the leaves that do not affect the training error.", "quantifier": "every tree", "why_tests_cant": "all shapes", "anchors": ["src/weak_learner/decision_tree/train_node.rs", "src/weak_learner/decision_tree/node.rs"]}
{"id": "C29", "title": "Regression tree leaf value is optimal", "statement": "The leaf value of a regression tree minimises the regularised second-order loss G w + (H+lambda) w^2/2, and the chosen split maximises the sum of the children scores among offered thresholds.", "quantifier": "every gradient/hessian vector, lambda >= 0", "why_tests_cant": "optimum over a continuum", "anchors": ["src/weak_learner/regression_tree/regression_tree_algorithm.rs", "src/weak_learner/regression_tree/bin.rs"]}
{"id": "C30", "title": "Loss gradients are the derivatives of the losses", "statement": "For every loss offered to gradient boosting the reported gradient is the derivative of the per-example loss with respect to the prediction.", "quantifier": "every prediction / target pair (off the kink)", "why_tests_cant": "pointwise statement over a continuum", "anchors": ["src/common/loss_functions.rs:gradient"]}
{"id": "C31", "title": "GBM coefficient is the line-search minimiser", "statement": "best_coefficient(targets, predictions) returns a minimiser over c of the total loss of c*predictions against targets, and never hits the unreachable branch.", "quantifier": "every targets/predictions vectors", "why_tests_cant": "minimiser over a continuum", "anchors": ["src/common/loss_functions.rs:best_coefficient"]}
{"id": "C32", "title": "GBM returns the ensemble it fitted", "statement": "The regressor returned by GBM predicts the same values as the running predictions the algorithm maintained while fitting.", "quantifier": "every history of hypotheses and coefficients", "why_tests_cant": "history dependent", "anchors": ["src/booster/gradient_boost/gbm.rs", "src/hypothesis/weighted_majority.rs"]}
{"id": "C33", "title": "LP/QP models encode the documented optimisation problem", "statement": "The sparse matrix and right-hand sides handed to the solver encode exactly the documented soft-margin problem: a vector is feasible for the solver iff it is a distribution capped by 1/nu (or its dual), with the edge constraints of every hypothesis.", "quantifier": "every sample size, every number of hypotheses, every candidate point", "why_tests_cant": "feasibility over a continuum for every size", "anchors": ["src/booster/lpboost/lp_model.rs", "src/booster/erlpboost/qp_model.rs", "src/booster/softboost/qp_model.rs", "src/booster/mlpboost/perturbed_lp_model.rs"]}
{"id": "C34", "title": "LPBoost stopping certificate", "statement": "When LPBoost stops by its criterion, the soft margin objective value of the last solution is within the tolerance of the smallest edge seen, which upper bounds the optimum.", "quantifier": "every weak learner, every exact solver", "why_tests_cant": "history dependent", "anchors": ["src/booster/lpboost/lpboost_algorithm.rs"]}
{"id": "C35", "title": "ERLPBoost terminates within max_loop and its eta bounds the entropy term", "statement": "ERLPBoost stops after at most max_loop() rounds; its regularisation weight makes the entropy term at most half the tolerance for every capped distribution.", "quantifier": "every distribution in the capped simplex; every weak learner", "why_tests_cant": "bound over a continuum", "anchors": ["src/booster/erlpboost/erlpboost_algorithm.rs"]}
{"id": "C36", "title": "Frank-Wolfe steps stay on the simplex", "statement": "Every step-size rule of the Frank-Wolfe routine yields a step in [0,1] and the updated hypothesis weights are again non-negative and sum to one.", "quantifier": "every rule, every round, every weight vector on the simplex", "why_tests_cant": "unbounded histories", "anchors": ["src/common/frank_wolfe.rs"]}
{"id": "C37", "title": "Line search never increases the objective", "statement": "The line-search step of Frank-Wolfe returns a step at which the convex objective is not larger than at the starting point.", "quantifier": "every sample, weights, direction", "why_tests_cant": "convexity argument over continuum", "anchors": ["src/common/frank_wolfe.rs:line_search"]}
{"id": "C38", "title": "MLPBoost takes the better of its two candidate updates", "statement": "Each round MLPBoost keeps the candidate weight vector with the larger objective value so its objective never falls below the secondary candidate's.", "quantifier": "every pair of candidates", "why_tests_cant": "history", "anchors": ["src/booster/mlpboost/mlpboost_algorithm.rs:better_weight"]}
{"id": "C39", "title": "Sparse features are observationally equal to dense ones", "statement": "A sparse feature column reads at each row as the dense column it represents: same value at every row, same weighted mean, weighted variance and per-label statistics.", "quantifier": "every sparse column and every row and weights", "why_tests_cant": "all sparsity patterns", "anchors": ["src/sample/feature_struct.rs"]}
{"id": "C40", "title": "Train/test split partitions the rows", "statement": "Splitting a sample by a permutation and an index window yields a test sample with exactly the window rows and a train sample with exactly the others; every feature value and target follows its row.", "quantifier": "every permutation, every window, dense or sparse features", "why_tests_cant": "all permutations", "anchors": ["src/sample/sample_struct.rs:split"]}
{"id": "C41", "title": "Cross-validation folds are disjoint and cover", "statement": "The test folds produced by cross validation are pairwise disjoint windows within range, each fold's train set is the complement, and building the folds never panics.", "quantifier": "every sample size, number of folds and train ratio", "why_tests_cant": "arithmetic corner cases for every n", "anchors": ["src/research/cross_validation.rs"]}
{"id": "C42", "title": "Soft margin objective is the worst capped edge", "statement": "The soft margin evaluation of a combined hypothesis equals the minimum over distributions capped by 1/nu of the edge; the hard margin one equals the minimal margin.", "quantifier": "every margin vector, every nu in [1,n]", "why_tests_cant": "minimum over a continuum", "anchors": ["src/research/objective_functions.rs"]}
{"id": "C43", "title": "Entropy bounds", "statement": "The (negative) entropy of a distribution lies in [-ln n, 0], so the relative entropy from uniform lies in [0, ln n]; for a distribution capped by 1/nu it is at most ln(n/nu).", "quantifier": "every distribution", "why_tests_cant": "continuum", "anchors": ["src/common/utils.rs:entropy", "src/common/utils.rs:entropy_from_uni_distribution"]}
{"id": "C44", "title": "Parallel reductions do not depend on the schedule", "statement": "Sums, inner products and element-wise updates executed in parallel give the same result for every work-stealing schedule (over exact arithmetic).", "quantifier": "every split tree of the index range", "why_tests_cant": "schedules are nondeterministic", "anchors": ["src/common/utils.rs:inner_product", "src/common/utils.rs:normalize"]}
{"id": "C45", "title": "Label encoding round-trips", "statement": "Converting a class label to a one-hot vector and back yields the label; converting a score vector to a binary confidence has the sign of the more likely class; a scalar score is read as confidence of the label +1.", "quantifier": "every number of classes, every label, every score vector", "why_tests_cant": "all sizes", "anchors": ["src/common/task.rs"]}
{"id": "C46", "title": "Worst-case weak learner answers with the best hypothesis", "statement": "The worst-case learner returns a hypothesis of maximum edge among its pool and its confidences are within [-1,1].", "quantifier": "every distribution", "why_tests_cant": "continuum of distributions", "anchors": ["src/weak_learner/bad_learner/worstcase_lpboost.rs", "src/weak_learner/bad_learner/worstcase_classifier.rs"]}
{"id": "C47", "title": "Naive Bayes score is the log of prior times product of densities", "statement": "The score of the Gaussian naive Bayes learner for a class is, up to a constant common to all classes, the log of the class prior times the product over features of the Gaussian densities.", "quantifier": "every sample, every number of features", "why_tests_cant": "all dimensions", "anchors": ["src/weak_learner/naive_bayes/probability.rs", "src/weak_learner/naive_bayes/nbayes_classifier.rs"]}
{"id": "C48", "title": "Neural-network derivatives and shapes", "statement": "Softmax outputs a distribution, each activation's reported derivative is its derivative, and the forward/backward passes preserve the layer dimensions.", "quantifier": "every vector, every layer shape", "why_tests_cant": "continuum / all shapes", "anchors": ["src/weak_learner/neural_network/activation.rs", "src/weak_learner/neural_network/layer.rs"]}
{"id": "C49", "title": "Sample bookkeeping is consistent", "statement": "After reading/renaming/setting the target/removing all-zero features, the name-to-index lookup returns the feature with that name, all columns have the sample's length, and at(i) returns row i of every column.", "quantifier": "every sequence of these operations", "why_tests_cant": "operation sequences", "anchors": ["src/sample/sample_struct.rs"]}
{"id": "C50", "title": "AdaBoostV terminates and does not crash with usable weak learners", "statement": "run() of AdaBoostV consults the weak learner at most max_loop() times (or the number given to force_quit_at) and then stops; if all edges are above tolerance-1 it returns a classifier and does not panic.", "quantifier": "every sample, weak learner (adversarial, round dependent), tolerance and round limit", "why_tests_cant": "the number of rounds and the weak learner's answers are unbounded", "anchors": ["src/booster/adaboostv/adaboostv_algorithm.rs: AdaBoostV::max_loop, preprocess, boost, postprocess"]}
{"id": "C51", "title": "MadaBoost obeys its round limit and returns the vote it collected", "statement": "run() of MadaBoost consults the weak learner at most max_loop() times (or the number given to force_quit_at) and then stops; with positive edges the returned classifier predicts with the sign of the full weighted vote of all hypotheses collected (or is the single perfect hypothesis).", "quantifier": "every sample, weak learner (adversarial, round dependent), tolerance and round limit", "why_tests_cant": "the number of rounds and the weak learner's answers are unbounded", "anchors": ["src/booster/madaboost/madaboost_algorithm.rs: MadaBoost::max_loop, preprocess, boost, postprocess"]}
{"id": "C52", "title": "SmoothBoost terminates within its round limit", "statement": "run() of SmoothBoost consults the weak learner at most max_loop() = ceil(2/(kappa gamma^2 sqrt(1-gamma))) times whatever the weak learner does, and for accepted parameters and a valid binary sample it always returns a classifier without panicking.", "quantifier": "every sample, weak learner (adversarial, round dependent), kappa and gamma", "why_tests_cant": "the number of rounds and the weak learner's answers are unbounded", "anchors": ["src/booster/smoothboost/smoothboost_algorithm.rs: SmoothBoost::max_loop, preprocess, boost, postprocess"]}
{"id": "C53", "title": "Graph separation boosting: number of rounds with a weak learner", "statement": "If every hypothesis returned by the weak learner has edge (computed with its +-1 predictions) at least g > 0 under the distribution it was shown, run() of graph separation boosting returns after at most 1 + 2 ln(n)/g rounds, and the returned aggregation predicts every training example correctly.", "quantifier": "every sample with +-1 labels, every weak learner of edge at least g, every g > 0", "why_tests_cant": "ranges over all samples, all weak learners and all histories", "anchors": ["src/booster/graph_separation_boosting/graph_separation_algorithm.rs: preprocess, boost, update_params, postprocess", "src/hypothesis/naive_aggregation.rs: NaiveAggregation::new, confidence"]}
{"id": "C54", "title": "Gradient boosting stops and shows the ensemble fitted so far", "statement": "run() of GBM calls the weak learner at most 100 times and then returns or panics; the vector handed to the weak learner in round k is the ensemble sum of coefficient times hypothesis over the first k-1 rounds, with the coefficients chosen by the loss.", "quantifier": "every sample, weak learner and loss implementation", "why_tests_cant": "all histories and all loss functions", "anchors": ["src/booster/gradient_boost/gbm.rs: preprocess, boost, postprocess"]}
{"id": "C55", "title": "Gradient boosting returns a regressor", "statement": "run() of GBM returns a regressor for every weak learner whose hypotheses fit the residuals.", "quantifier": "every sample, every residual-fitting weak learner", "why_tests_cant": "all histories", "anchors": ["src/booster/gradient_boost/gbm.rs: boost", "src/common/loss_functions.rs: best_coefficient"]}
{"id": "C56", "title": "Exponential-loss objective", "statement": "The exponential-loss objective of a hypothesis is computed from its predictions in {-1,+1}: it always equals 1/e + (e - 1/e) times the fraction of misclassified examples.", "quantifier": "every non-empty sample with labels in {-1,+1}, every hypothesis", "why_tests_cant": "all samples and all hypotheses", "anchors": ["src/research/objective_functions.rs"]}
{"id": "C57", "title": "A neural-network training step is gradient descent", "statement": "One training step moves every weight and every bias of the network by -rate times the partial derivative of the minibatch loss with respect to it, all taken at the network before the step, for identity or ReLU hidden layers and an output activation matched with the loss. A training run is the chain of such steps: the configured number of steps on each minibatch in turn, each from the network the previous one left.", "quantifier": "every layer shape, depth, weights, minibatch and learning rate", "why_tests_cant": "continuum of weights, all depths", "anchors": ["src/weak_learner/neural_network/nn_hypothesis.rs: train", "src/weak_learner/neural_network/layer.rs"]}
{"id": "C58", "title": "Training through a sigmoid hidden layer", "statement": "A training step of a network with a sigmoid hidden layer is a gradient step too.", "quantifier": "every network with a sigmoid hidden layer", "why_tests_cant": "continuum of weights", "anchors": ["src/weak_learner/neural_network/activation.rs: diff"]}
{"id": "C59", "title": "The network classifier answers the most probable class", "statement": "predict() of a trained classifier returns the label of the class with the highest output, for binary and multi-class tasks. The outputs of a network are the composition of its layers, each the activation of W x + b; a network for regression answers its single output.", "quantifier": "every network, every input", "why_tests_cant": "continuum of weights and inputs", "anchors": ["src/weak_learner/neural_network/nn_hypothesis.rs: confidence", "src/hypothesis/hypothesis_traits.rs: predict"]}
{"id": "C60", "title": "A tree learner can be built for every sample", "statement": "DecisionTreeBuilder::new(&sample).build() succeeds for every sample with rows, a target and finite feature values.", "quantifier": "every sample, every choice of builder parameters", "why_tests_cant": "The bins are cut by a floating-point loop followed by an assertion; whether it holds depends on the values of the column.", "anchors": ["src/weak_learner/decision_tree/builder.rs", "src/weak_learner/decision_tree/bin.rs:cut"]}
{"id": "C61", "title": "Every criterion picks its best split", "statement": "Under entropy, Gini and twoing, the (feature, threshold) pair chosen at a node optimises, over all features and all thresholds offered by their bins, the textbook criterion: weighted entropy, weighted Gini index, twoing value.", "quantifier": "every sample, every set of rows at a node, every distribution, every criterion", "why_tests_cant": "Must hold for all label counts, weights and bins; the code keeps incremental left/right histograms and merges empty bins.", "anchors": ["src/weak_learner/decision_tree/criterion.rs:best_split"]}
{"id": "C62", "title": "Corrective ERLPBoost finds an approximately optimal soft margin", "statement": "CERLPBoost shows the weak learner only distributions capped by 1/nu, stops within max_loop() rounds, and if every hypothesis it received has edge at least g, the soft margin of the returned vote is at least g minus the tolerance; with an exact weak learner the vote maximises the soft margin over the convex hull of the class up to the tolerance.", "quantifier": "every sample, every weak learner with confidences in [-1,1], every nu and tolerance", "why_tests_cant": "convergence proof over unbounded histories", "anchors": ["src/booster/cerlpboost/cerlpboost_algorithm.rs", "src/common/frank_wolfe.rs", "src/common/utils.rs:exp_distribution"]}
{"id": "C63", "title": "LPBoost stops within N+1 rounds for a weak learner with N hypotheses", "statement": "With an exact solver, LPBoost never panics on a valid sample with 1 <= nu <= n and stops after at most N+1 rounds when the weak learner answers from a set of N hypotheses.", "quantifier": "every valid sample, every nu and nonnegative tolerance, every weak learner with finitely many answers, every exact solver", "why_tests_cant": "termination over unbounded histories", "anchors": ["src/booster/lpboost/lpboost_algorithm.rs:boosting", "src/booster/lpboost/lp_model.rs:update"]}
{"id": "C64", "title": "SoftBoost and TotalBoost return an approximately optimal soft margin", "statement": "SoftBoost and TotalBoost stop within max_loop() rounds, show the weak learner only distributions capped by 1/nu, and the soft margin of the returned vote is within the tolerance of the smallest edge of the hypotheses received; the final vote maximises the soft margin over the convex hull of the hypotheses received.", "quantifier": "every valid sample, every nu and tolerance, every weak learner, every exact solver", "why_tests_cant": "guarantee over unbounded histories and all samples", "anchors": ["src/booster/softboost/softboost_algorithm.rs", "src/booster/softboost/qp_model.rs", "src/booster/totalboost/totalboost_algorithm.rs"]}
{"id": "C65", "title": "MLPBoost finds an approximately optimal soft margin", "statement": "MLPBoost shows the weak learner only distributions capped by 1/nu, stops within max_loop() rounds whatever the LP solver answers, never panics, and if every hypothesis it received has edge at least g, the soft margin of the returned vote is at least g minus the tolerance.", "quantifier": "every valid sample, every nu in [1,n] and positive tolerance, every Frank-Wolfe rule, every noise stream, every weak learner with confidences in [-1,1]", "why_tests_cant": "convergence proof over unbounded histories", "anchors": ["src/booster/mlpboost/mlpboost_algorithm.rs", "src/booster/mlpboost/perturbed_lp_model.rs", "src/common/frank_wolfe.rs"]}
{"id": "C66", "title": "The worst-case learner forces LPBoost to a linear number of rounds", "statement": "With the crate's worst-case weak learner (cap 1, tolerance in (0,1/2]) and an exact LP solver, LPBoost on n examples with labels +1/-1 makes at least n/2+1 and at most (n+1)/2+2 rounds before it returns, whatever optimal solutions the solver picks.", "quantifier": "every sample size n, every labelling with both labels, every accepted nu and tolerance of LPBoost, every exact solver", "why_tests_cant": "the bound is about all n and all exact solvers", "anchors": ["src/weak_learner/bad_learner/worstcase_lpboost.rs", "src/booster/lpboost/lpboost_algorithm.rs"]}
{"id": "C67", "title": "Builder calls: the last call of each setter counts", "statement": "For every booster and weak-learner builder, configuring it with any sequence of setter calls, in any order and with repetitions, leaves each parameter at the value of the last call of its own setter, or at its documented default if that setter was never called; setters do not disturb each other's parameters. A cap nu outside [1, n], a gamma outside [0, 1/2), a depth of zero or a bin count for a feature that does not exist makes the configuration panic, whatever other calls are made; every other sequence succeeds.", "quantifier": "every sample, every finite sequence of setter calls with arbitrary arguments", "why_tests_cant": "The number of call sequences is infinite; an interaction between two setters (one overwriting the other's field, a tolerance halved twice) appears only in particular orders.", "anchors": ["src/booster/adaboost/adaboost_algorithm.rs: tolerance, force_quit_at", "src/booster/lpboost/lpboost_algorithm.rs: nu, tolerance", "src/booster/erlpboost/erlpboost_algorithm.rs: nu, tolerance", "src/booster/softboost/softboost_algorithm.rs: nu, tolerance", "src/booster/totalboost/totalboost_algorithm.rs: tolerance", "src/booster/cerlpboost/cerlpboost_algorithm.rs: nu, tolerance, fw_type", "src/booster/mlpboost/mlpboost_algorithm.rs: nu, tolerance, frank_wolfe", "src/booster/smoothboost/smoothboost_algorithm.rs: kappa, gamma", "src/weak_learner/decision_tree/builder.rs", "src/weak_learner/regression_tree/builder.rs", "src/weak_learner/bad_learner/builder.rs"]}
{"id": "C68", "title": "A file holds exactly the table that was written", "statement": "SampleReader::read on a file ending in .csv gives the sample whose rows, columns, names and target are exactly those of the comma separated table in the file: blanks around numbers, LF or CRLF line ends, a missing final line end, signs, fractions and exponents make no difference; any entry that is not a decimal number (an empty line included) is rejected with a panic. Every other file is read as SVMLight text and gives exactly the labels and entries in it. A missing file is reported as an error; a missing file name or a CSV file without a target name panics.", "quantifier": "every file content, every table of literals, every path and reader configuration", "why_tests_cant": "The number of ways to write a table is infinite (blanks, line ends, number formats); a test reads a few files.", "anchors": ["src/sample/sample_reader.rs: SampleReader::read, file, has_header, target_feature", "src/sample/sample_struct.rs: from_csv, from_svmlight, index_and_feature, set_target"]}
{"id": "C69", "title": "A line of the log describes the hypothesis of that round", "statement": "In every log that Logger::run writes, the k-th line holds the accumulated time of the first k rounds and the objective value, training loss and test loss of the combined hypothesis the same run would have returned had it been stopped by the time limit after round k; when the run returns, the last line is about the returned hypothesis.", "quantifier": "every booster in the crate that implements Research (AdaBoost, AdaBoostV, MadaBoost, SmoothBoost, GraphSepBoost, LPBoost, ERLPBoost, SoftBoost, CERLPBoost, MLPBoost), every weak learner, sample, solver, objective, loss, clock, time limit, print interval and configuration", "why_tests_cant": "A log line depends on the whole history of the run and on a method, current_hypothesis, that is written separately from postprocess for every booster; a test sees one run of one booster.", "anchors": ["src/research/logger.rs: Logger::run, Research", "src/booster/*/*_algorithm.rs: Research::current_hypothesis, Booster::postprocess"]}
{"id": "C70", "title": "The objective column of an LPBoost log is optimal and never decreases", "statement": "With the hard-margin objective, the value on line k of a log of LPBoost is the largest smallest margin that any convex combination of the first k hypotheses attains on the sample; so the objective column never decreases.", "quantifier": "every sample, weak learner, clock, limit, loss function, round; exact answers of the LP solver", "why_tests_cant": "It quantifies over all convex combinations of the hypotheses of a round and over all runs.", "anchors": ["src/booster/lpboost/lpboost_algorithm.rs: boost, current_hypothesis", "src/booster/lpboost/lp_model.rs: update, weight", "src/research/logger.rs: Logger::run", "src/research/objective_functions.rs:HardMarginObjective"]}
{"id": "C71", "title": "The neural network learner returns a network of the configured shape", "statement": "After any chain of NeuralNetwork::append, n_epoch, n_iter, minibatch_size and task calls with at least one append of positive dimension, produce returns (does not panic) whatever initial weights are drawn and whatever rows the minibatches contain, provided labels fit the output dimension; the network has exactly the appended layers in order, starting from the number of features of the sample, and evaluates every row to a vector of the last dimension. The untrained layers hold the drawn weights. With no layer appended it panics.", "quantifier": "every sample, chain of configuration calls, random initialisation, sequence of minibatches", "why_tests_cant": "Initial weights and minibatches are random; layer lists are unbounded.", "anchors": ["src/weak_learner/neural_network/nn_weak_learner.rs: NeuralNetwork, produce", "src/weak_learner/neural_network/nn_hypothesis.rs: NNHypothesis::new, train", "src/weak_learner/neural_network/layer.rs: Layer::new"]}
{"id": "C72", "title": "LPBoost survives a solver of finite accuracy", "statement": "If the LP solver answers every program of the run with residuals (constraints, stationarity, duality gap, reported objective) of at most eps instead of exactly, the vote that LPBoost returns has a smallest margin within tolerance + eps*(nu*n + 2*rounds + 3) of the best smallest margin over the weak learner's class, the distributions it shows the weak learner are nonnegative and sum to one up to eps, and if the tolerance is at least eps*(nu*n + 6*N + 15) it still stops within N + 1 rounds without a panic, N being the number of distinct hypotheses.", "quantifier": "every sample, nu, tolerance, weak learner that is optimal on its class, every eps < 1 and every solver whose answers have residuals at most eps, every run length", "why_tests_cant": "the answers of an interior point solver are never exact, and no finite set of runs bounds the effect of its error over all samples and histories", "anchors": ["src/booster/lpboost/lpboost_algorithm.rs:LPBoost::boost", "src/booster/lpboost/lp_model.rs:LPModel::update", "src/hypothesis/weighted_majority.rs:WeightedMajority::from_slices"]}
{"id": "C73", "title": "AdaBoost with the crate's decision trees as weak learner", "statement": "On every sample with +1/-1 labels that the tree learner accepts, a run of AdaBoost with the decision tree learner never makes the learner panic, shows it only distributions, gets trees within the depth limit with confidences in [-1,1] and non-negative edges, and returns a vote whose training error is at most the product of sqrt(1 - edge^2); if every distribution leaves some offered stump with absolute edge at least g and the criterion is Edge, the vote is right on every training example after 2 ln(n)/g^4 rounds.", "quantifier": "every trainable sample, builder history, hash order, criterion, depth, tolerance, forced limit and number of rounds", "why_tests_cant": "it is about the composition of two components over whole runs: the distributions the tree learner sees depend on all its earlier trees", "anchors": ["src/booster/adaboost/adaboost_algorithm.rs:boost", "src/weak_learner/decision_tree/decision_tree_algorithm.rs:produce", "src/booster/core.rs:run"]}
{"id": "C74", "title": "Margin boosters with the crate's decision trees", "statement": "With decision trees grown by the edge criterion as weak learner, CERLPBoost, MLPBoost, LPBoost and ERLPBoost return votes that compete with every vote of decision stumps on offer: if such a stump vote has (soft or hard) margin r >= 0 as the crate's objective reports it, the returned vote has margin at least r^2 - tolerance (for ERLPBoost: edge at least that under the last distribution); ERLPBoost with trees never panics.", "quantifier": "every trainable sample with +1/-1 labels, builder history, hash order, capping, tolerance, exact solver, and every weighted vote of signed stumps", "why_tests_cant": "it compares the outcome of whole runs with all votes of an infinite family, and the trees depend on all earlier distributions", "anchors": ["src/booster/cerlpboost/cerlpboost_algorithm.rs:boost", "src/booster/mlpboost/mlpboost_algorithm.rs:boost", "src/booster/lpboost/lpboost_algorithm.rs:boost", "src/booster/erlpboost/erlpboost_algorithm.rs:boost", "src/weak_learner/decision_tree/decision_tree_algorithm.rs:produce", "src/research/objective_functions.rs:SoftMarginObjective"]}
{"id": "C75", "title": "Gradient boosting and the training loss", "statement": "Gradient boosting lowers the training loss as rounds go by. With the squared loss this fails for every weak learner: after k rounds the running predictions sum to k times the total of the targets, so the loss the crate reports is at least ((k-1) mean(y))^2. What holds: with the absolute loss the first round leaves the least loss of any multiple of the first hypothesis.", "quantifier": "every target vector, every weak learner (a function of the round and the current predictions), every number of rounds", "why_tests_cant": "it speaks about all weak learners and all rounds; a test sees one learner and a few rounds", "anchors": ["src/booster/gradient_boost/gbm.rs:boost", "src/common/loss_functions.rs:best_coefficient", "src/common/loss_functions.rs:eval_at_point"]}
{"id": "C76", "title": "Gradient boosting with the crate's regression trees returns a regressor", "statement": "Running gradient boosting with the squared loss on the crate's own regression trees with the squared loss returns a regressor. This fails: in exact arithmetic, on every sample and for every tree configuration, run() panics in the first or second round, because the residuals of the first ensemble sum to zero, the tree learner then answers with the zero leaf and best_coefficient asserts a non-zero sum of predictions.", "quantifier": "every trainable sample, every history of builder calls, every non-negative regularisation, every number of rounds", "why_tests_cant": "the sample and the configuration range over infinite sets; a test can only show single panics", "anchors": ["src/booster/gradient_boost/gbm.rs:boost", "src/weak_learner/regression_tree/regression_tree_algorithm.rs:produce", "src/common/loss_functions.rs:best_coefficient"]}
{"id": "C77", "title": "Sums in f64 under every parallel schedule", "statement": "A sum or inner product computed in f64 by rayon is finite and within ((1+2^-53)^n - 1) times the sum of the absolute terms (plus n 2^-1074 for products) of the exact value, for every way the range is split; two schedules are at most twice that apart; they need not be equal. For margins in [-1,1] and weights that sum to at most 2 the edge is within n 2^-50.", "quantifier": "every list of finite f64 numbers up to 2^52 terms whose absolute sum does not overflow, every split tree", "why_tests_cant": "schedules are nondeterministic and rounding depends on every bit of the inputs", "anchors": ["src/common/utils.rs:inner_product", "src/common/utils.rs:normalize"]}
{"id": "C78", "title": "The simplex check in f64", "statement": "The check that a vector is in the capped simplex accepts every vector of at most 2^30 f64 numbers in [0, 1/nu] whose exact sum is within 9e-6 of 1 and panics when the exact sum is off by 1.1e-5 or more, when an entry is negative, or when an entry exceeds 1/nu by more than a relative 2^-52; the uniform distribution 1/n as the boosters compute it passes for every admissible nu.", "quantifier": "every vector of finite f64 numbers, every finite nu", "why_tests_cant": "the outcome depends on accumulated rounding; tests see a few sizes", "anchors": ["src/common/checker.rs:check_capped_simplex_condition", "src/common/checker.rs:check_nu"]}
{"id": "C79", "title": "Votes and predictions in f64", "statement": "The weighted vote that is returned and evaluated in f64 has a confidence within (n+1) 2^-50 of the exact normalised vote of its n members with positive weight; hence, unless the exact vote is that close to zero, the predicted label is its sign. The exception is needed: there is a vote with a negative exact value and predicted label +1.", "quantifier": "all finite f64 weights (any sign) with a positive one and no overflow, all hypotheses with f64 confidences in [-1,1], up to 2^40 members", "why_tests_cant": "rounding depends on every bit; tests cannot cover all weight vectors", "anchors": ["src/hypothesis/weighted_majority.rs:from_slices", "src/hypothesis/weighted_majority.rs:confidence", "src/hypothesis/hypothesis_traits.rs:predict", "src/common/utils.rs:normalize"]}
{"id": "C80", "title": "ERLPBoost: soft margin of the returned vote", "statement": "ERLPBoost's documentation promises a combined hypothesis whose soft margin is within the tolerance of the best possible. If the weak learner answered every round with edge at least g and the algorithm stopped before max_loop(), the soft margin of the returned vote should be at least g - tolerance.", "quantifier": "every sample, every 1 <= nu <= n, every tolerance, every weak learner, every exact QP solver, every number of rounds", "why_tests_cant": "The property quantifies over all samples and weak learners and over an exact real-arithmetic solver; the failing instance needs the inner loop to hit a vertex, where a smoothing constant of 1e-100 freezes the other examples.", "anchors": ["src/booster/erlpboost/erlpboost_algorithm.rs:ERLPBoost::boost", "src/booster/erlpboost/qp_model.rs:QPModel::update"]}
{"id": "C81", "title": "Training sets that are not binary problems are refused before training", "statement": "run() of every booster for binary classification panics before it consults the weak learner when the target column is not made of exactly two kinds of integers, and goes on otherwise; so a run that returns was given exactly two kinds of integer labels.", "quantifier": "every target column, every booster, weak learner, solver and configuration", "why_tests_cant": "the check is on the whole column, and ten boosters must each make it before the first query; tests try a few columns on one booster", "anchors": ["src/sample/sample_struct.rs:is_valid_binary_instance", "src/booster/adaboost/adaboost_algorithm.rs:preprocess", "src/booster/mlpboost/mlpboost_algorithm.rs:preprocess"]}
{"id": "C82", "title": "Answers the solver reports as failed are not used", "statement": "When a booster that solves an optimisation problem in every round gets an answer that the solver itself reports as failed, it does not go on with those numbers: it panics or keeps its previous state, so a run() that returns used only answers reported as solved.", "quantifier": "every solver and every sequence of answers and statuses, every sample, weak learner and configuration", "why_tests_cant": "tests use one solver, which practically never fails on their data", "anchors": ["src/booster/erlpboost/qp_model.rs:update", "src/booster/lpboost/lp_model.rs:update", "src/booster/softboost/qp_model.rs", "src/booster/mlpboost/perturbed_lp_model.rs:update"]}
{"id": "C83", "title": "The DOT file of a tree reads like the tree", "statement": "to_dot_file of decision and regression trees writes a graph that is a tree rooted at node_0 with one node per node of the tree, and answering its questions for a row and following the Yes/No links leads to a box with the tree's answer for that row.", "quantifier": "every tree, every sample row", "why_tests_cant": "trees are arbitrary; a wrong number shows only in trees of some depth on some side, and misread rows only for some thresholds", "anchors": ["src/weak_learner/decision_tree/node.rs:to_dot_info", "src/weak_learner/decision_tree/decision_tree_classifier.rs:to_dot_file", "src/weak_learner/regression_tree/node.rs:to_dot_info", "src/weak_learner/regression_tree/regression_tree_regressor.rs:to_dot_file"]}
{"id": "C84", "title": "A booster that has been run can be configured and run again as if it were new", "statement": "After a run of a booster, whether it ended by itself or was abandoned between two rounds, every chain of configuration calls followed by another run (with the same or another weak learner) has exactly the effect it would have had on the booster before the first run: the same calls to the weak learner, the same panics, the same returned hypothesis. Nothing but the configured parameters survives a run.", "quantifier": "every booster of the crate, every training set and weak learner for the first and the second run, every point where the first run ends or is abandoned, every chain of configuration calls in between", "why_tests_cant": "a test re-runs one booster on one data set; a field that preprocess forgets to reset shows only for some histories", "anchors": ["src/booster/core.rs:Booster::run", "src/booster/adaboost/adaboost_algorithm.rs:preprocess", "src/booster/adaboostv/adaboostv_algorithm.rs:preprocess", "src/booster/madaboost/madaboost_algorithm.rs:preprocess", "src/booster/smoothboost/smoothboost_algorithm.rs:preprocess", "src/booster/graph_separation_boosting/graph_separation_algorithm.rs:preprocess", "src/booster/gradient_boost/gbm.rs:preprocess", "src/booster/lpboost/lpboost_algorithm.rs:preprocess", "src/booster/erlpboost/erlpboost_algorithm.rs:preprocess", "src/booster/softboost/softboost_algorithm.rs:preprocess", "src/booster/totalboost/totalboost_algorithm.rs:preprocess", "src/booster/cerlpboost/cerlpboost_algorithm.rs:preprocess", "src/booster/mlpboost/mlpboost_algorithm.rs:preprocess", "src/research/logger.rs:Logger::run"]}
{"id": "C85", "title": "GBM honours its settings", "statement": "Every chain of tolerance() and loss() calls succeeds, the last loss set is the one whose coefficients the run uses, and the tolerance determines the number of rounds as documented: max_loop() rounds, 100 by default.", "quantifier": "every training set, weak learner and chain of settings", "why_tests_cant": "the settings interact with every round of every run; a test sees one configuration", "anchors": ["src/booster/gradient_boost/gbm.rs:tolerance", "src/booster/gradient_boost/gbm.rs:loss", "src/booster/gradient_boost/gbm.rs:max_loop", "src/booster/gradient_boost/gbm.rs:preprocess"]}
{"id": "C86", "title": "Cross validation trains on the requested fraction of the rows", "statement": "train_ratio(r) accepts exactly the numbers strictly between 0 and 1 and makes the training part of every fold floor(r n) of the n rows, leaving at least one row to test on; without it the training part is floor(0.8 n). This holds of the binary64 computation the program performs, for the fraction the user wrote.", "quantifier": "every number of rows, every f64 ratio including NaN and infinities", "why_tests_cant": "the product is rounded before it is truncated; only some pairs of a ratio and a number of rows fall on the wrong side of an integer", "anchors": ["src/research/cross_validation.rs:train_ratio", "src/research/cross_validation.rs:new"]}
{"id": "C87", "title": "A perfect weak hypothesis is recognised in the first round", "statement": "When the weak learner's first hypothesis makes no error on the training rows, its edge is one, so AdaBoost and AdaBoostV return that hypothesis at once - whatever the number of rows and however the parallel sum is split.", "quantifier": "every training set, every labelling, every schedule of the parallel sum, in f64", "why_tests_cant": "whether the f64 sum reaches one depends on the number of rows and on the schedule", "anchors": ["src/booster/adaboost/adaboost_algorithm.rs:boost", "src/booster/adaboostv/adaboostv_algorithm.rs:boost", "src/common/utils.rs:inner_product", "src/common/utils.rs:margins_of_hypothesis"]}
{"id": "C88", "title": "The absolute-loss coefficient in machine arithmetic", "statement": "For finite 64-bit targets and predictions, asking the absolute loss for its best coefficient returns the (rounded) quotient target/prediction of one of the rows whenever some prediction is not zero - the search never runs off its end because of rounding or overflow of the weights - and panics exactly when every prediction is zero. With at most 2^40 rows and a total weight that neither overflows nor vanishes, the returned value is a weighted median up to rounding: on either side of it lies at most a fraction 1/2 + 6 n 2^-53 of the total weight.", "quantifier": "all lists of finite binary64 targets and predictions of equal length, all magnitudes and signs", "why_tests_cant": "tests compare a few small vectors against a hand-computed median; that the accumulated, rounded weights always reach half of the rounded total, even when the sums overflow to infinity, is a statement about every float vector", "anchors": ["src/common/loss_functions.rs:best_coefficient", "src/common/loss_functions.rs:weighted_median"]}
{"id": "C89", "title": "AdaBoost changes the weights of the examples gently", "statement": "Between one distribution AdaBoost shows the weak learner and the next, no example loses more than the factor 1+|edge of the round|, so never half of its weight, whatever the weak learner answers with confidences in [-1,1]; after k rounds every one of the n examples still has weight at least 1/(n 2^k). If the answers are +1/-1 classifiers, the new weight is exactly d/(1+edge) where the answer was right and d/(1-edge) where it was wrong. AdaBoostV, with a non-negative tolerance, keeps at least the share (1+rho)/(1+edge) of every weight, rho being the smallest edge so far minus the tolerance.", "quantifier": "every sample with +1/-1 targets, every weak learner with confidences in [-1,1], every setting, every run (finished, crashed or in progress), every round, every example", "why_tests_cant": "the weights depend on the whole history of answers; a test sees one weak learner on one sample", "anchors": ["src/booster/adaboost/adaboost_algorithm.rs:AdaBoost::update_params", "src/booster/adaboostv/adaboostv_algorithm.rs:AdaBoostV::update_params", "src/common/utils.rs:inner_product"]}
{"id": "C90", "title": "Tree learner with f64 weights", "statement": "Training a decision tree on any finite non-negative f64 weights, not all zero, returns a tree: no unwrap on a missing label, no comparison with a NaN score and no out-of-range index occurs for any of the four criteria, whatever the order in which rayon and the hash maps add the weights, and every leaf's confidence is a number in [-1, 1]. (False for the Gini criterion when one weight is absorbed by another: the learner panics. Proved for the other three criteria, and for Gini when no positive weight is below n * total * 2^-49.)", "quantifier": "all training samples, builders, criteria, weight vectors, summation orders and associations, hash-map iteration orders and logarithm functions of bounded error", "why_tests_cant": "the panic needs weights whose ratio exceeds 2^53, which late boosting rounds produce and hand-written tests do not; every summation order of the parallel reductions must be covered", "anchors": ["src/weak_learner/decision_tree/criterion.rs:split_by_gini", "src/weak_learner/decision_tree/criterion.rs:best_split", "src/weak_learner/decision_tree/bin.rs:pack", "src/weak_learner/decision_tree/decision_tree_algorithm.rs:produce"]}
{"id": "C91", "title": "The exponential distribution in f64", "statement": "The projection onto the capped simplex that MLPBoost, CERLPBoost, the Frank-Wolfe rules and the neural network's softmax use to turn logarithms of weights into a distribution, computed in binary64: without a cap (nu = 1) it never panics and returns the exponential (softmax) distribution of the logarithms up to a relative error of 2^-19, for every platform exp and ln accurate to 2^-50, every non-empty list of logarithms bounded by M with n*(M+64) <= 2^30; with a cap it returns a distribution too.", "quantifier": "all lists of binary64 logarithms, all capping parameters, all exp/ln functions accurate to the stated bound", "why_tests_cant": "the rounding errors of n nested logsumexp steps, in a data-dependent order, cannot be enumerated", "anchors": ["src/common/utils.rs:project_log_distribution_to_capped_simplex", "src/common/checker.rs:check_capped_simplex_condition"]}
{"id": "C92", "title": "AdaBoost's example weights in f64 never vanish and stay accurate", "statement": "With up to 65536 training examples, labels 1 and -1, confidences in [-1, 1] and edges not within 2^-10 of 1 or -1, AdaBoost run in f64 (with an exp and ln of relative error at most 2^-52) keeps every example's weight finite, positive and at most 1, and the weights sum to 1 within 2^-21, after any number of rounds, for every order in which the edge is summed and every outcome of the unstable sort; no round panics. As long as the weights of the hypotheses add up to at most 256, each example's weight after T rounds equals the exponential weight exp(-margin)/sum up to a factor exp(2^-20 + (T+1) 2^-38). Each hypothesis weight is (1/2) ln((1+edge)/(1-edge)) up to 2^-46.", "quantifier": "every training set up to that size, every sequence of answers of the weak learner, any number of rounds, every summation schedule and sort outcome, every exp/ln of the stated precision", "why_tests_cant": "Underflow of a weight to zero needs a long adversarial history of rounds (two zero weights would turn the whole distribution into NaN and make the next round panic); no finite set of runs shows it never happens, and it depends on the platform's exp and ln.", "anchors": ["src/booster/adaboost/adaboost_algorithm.rs:update_params", "src/booster/adaboost/adaboost_algorithm.rs:boost", "src/common/utils.rs:inner_product"]}
{"id": "C93", "title": "AdaBoost's training error bound holds in f64", "statement": "With up to 65536 training examples, labels 1 and -1, confidences in [-1, 1]: if in every one of the T rounds the edge computed in f64 is at least gamma (at least 2^-40) and at most 1 - 2^-10, and the hypothesis weights sum to at most 256, then the WeightedMajority that is returned, evaluated in f64, mispredicts at most n (sqrt(1 - gamma^2) + 2^-14)^T (1 + 2^-20) of the n training examples; in particular none once this number is below 1.", "quantifier": "every training set up to that size, every sequence of weak-learner answers, every number of rounds up to 2^30, every summation schedule and sort outcome, every exp/ln with relative error at most 2^-52", "why_tests_cant": "The textbook bound is about exact arithmetic; whether the rounding errors of T rounds of exp, ln, sums and the final vote can break it is a question about all runs.", "anchors": ["src/booster/adaboost/adaboost_algorithm.rs:boost", "src/booster/adaboost/adaboost_algorithm.rs:update_params", "src/booster/adaboost/adaboost_algorithm.rs:postprocess", "src/hypothesis/weighted_majority.rs:from_slices"]}
{"id": "C94", "title": "SoftBoost and TotalBoost tolerate an inexact solver", "statement": "If the solver answers the final linear program only up to an accuracy eps (constraints, stationarity and duality gap met up to eps), the vote that SoftBoost returns is still a convex combination of the hypotheses it received, and its soft margin is within eps (2 n + 5) of the best soft margin that any convex combination of them has, n being the number of training examples. If the quadratic programs are answered up to eps as well, the run still ends within max_loop() rounds without a panic, and every distribution shown to the weak learner is positive and adds up to 1 up to eps.", "quantifier": "every sample, every 1 <= nu < n, every tolerance, every weak learner with confidences in [-1, 1], every solver of accuracy eps < 1, every number of rounds", "why_tests_cant": "The statement quantifies over all solvers of a given accuracy; tests run the one solver on a few problems and cannot see how its errors add up in the returned vote.", "anchors": ["src/booster/softboost/qp_model.rs: QPModel::update, QPModel::weights", "src/booster/softboost/softboost_algorithm.rs: SoftBoost", "src/booster/totalboost/totalboost_algorithm.rs: TotalBoost"]}
{"id": "C95", "title": "The objective column of a SoftBoost log is optimal and never decreases", "statement": "With the soft-margin objective of the booster's own nu, the value on line k of a log of SoftBoost or TotalBoost is the largest soft margin that any convex combination of the hypotheses received in the first k rounds attains on the sample; so the objective column never decreases, whatever the solver answers to the quadratic programs in between.", "quantifier": "every sample, weak learner, nu, tolerance, clock, time limit, print interval, loss function and round; exact answers to the linear programs of the measurements, arbitrary answers to the quadratic programs", "why_tests_cant": "It is a statement about every prefix of every run; a test sees one run and has no access to the optimum over all convex combinations.", "anchors": ["src/research/logger.rs:run", "src/booster/softboost/softboost_algorithm.rs:current_hypothesis", "src/booster/softboost/qp_model.rs:weights", "src/research/objective_functions.rs:SoftMarginObjective"]}
{"id": "C96", "title": "Edge-criterion trees in double precision are right up to rounding", "statement": "With binary64 weights (any summation schedule of the parallel sums and any hash order) and +1/-1 labels, the tree learner with the edge criterion always returns a tree in which every split asks the question of an offered threshold whose absolute stump edge over the rows that reach it is within a relative error of 128(2n + bins) * 2^-53 of the best offered one over all features, every leaf answers the weighted mean label of its rows up to the same error and lies in [-1,1], and the tree's edge is at least (sum d y)^2 / sum d minus that error. Weak-learning guarantee: if the total weight lies in [2^-200, 2^200], the edge of the returned tree is at least the squared edge of every offered stump divided by the total weight, minus 12 times that error, and every answer of the tree is a confidence in [-1,1].", "quantifier": "every trainable sample, builder history, positive finite weights, summation schedule, hash order", "why_tests_cant": "rounding errors depend on every weight and on the order the parallel sums happen to run in; tests see one schedule and a handful of weights", "anchors": ["src/weak_learner/decision_tree/decision_tree_algorithm.rs", "src/weak_learner/decision_tree/criterion.rs", "src/weak_learner/decision_tree/bin.rs", "src/weak_learner/decision_tree/train_node.rs"]}
{"id": "C97", "title": "AdaBoost over edge-criterion trees learns the training set, all in f64", "statement": "Train AdaBoost with the decision tree learner (edge criterion) on up to 65536 examples with labels +1/-1, all weights, sums, edges, confidences and votes being f64. If on every distribution some stump on a threshold offered to the learner has an edge of absolute value at least g (at least 2^-9), then no round panics, the f64 edge of every round is at least g^2 - 2^-20 and within 2^-34 of the exact edge of the tree, and, as long as no edge comes within 2^-10 of 1 and the hypothesis weights sum to at most 256, the vote returned after T rounds, evaluated in f64, mispredicts at most n (sqrt(1 - gamma^2) + 2^-14)^T (1 + 2^-20) training examples with gamma = g^2 - 2^-20; none once this is below 1.", "quantifier": "every trainable sample and builder history, every number of rounds, every summation schedule, hash order and sort outcome in every round, every exp/ln with relative error at most 2^-52", "why_tests_cant": "composition of the weak learner's guarantee with the booster's over any number of rounds, under every schedule; rounding errors of both accumulate", "anchors": ["src/booster/adaboost/adaboost_algorithm.rs: AdaBoost::boost, update_params", "src/weak_learner/decision_tree/decision_tree_algorithm.rs: DecisionTree::produce", "src/hypothesis/weighted_majority.rs: WeightedMajority"]}
{"id": "C98", "title": "SmoothBoost's promises survive f64 rounding", "statement": "Run SmoothBoost in f64 with accepted parameters kappa (at least 2^-900) and gamma on n examples with labels +1/-1. In every round that goes on, after any number of rounds, the vector handed to the weak learner has n finite non-negative entries that sum to 1 up to 2^-20 and none above (1 + 2^-50)/(kappa n). After T <= 2^24 rounds the quantity kept for an example equals 1 + (sum of its margins) - T theta up to (2T^2 + 9T) 2^-53, where theta = gamma/(2 + gamma). When the run stops by itself, fewer than kappa n (1 + 2^-52) examples have a margin sum of at most T theta - 1 (up to that error); and if T <= n and T theta >= 2, the vote returned, evaluated in f64, mispredicts fewer than kappa n (1 + 2^-52) training examples.", "quantifier": "every training set of up to 2^29 examples, every pair of accepted parameters, every number of rounds (at most 2^24 for the margin statements), every weak learner with confidences in [-1, 1], every powf that maps a base in [1/2, 1] and a non-negative exponent into [0, 1]", "why_tests_cant": "rounding errors accumulate over unboundedly many rounds, and any sequence of weak-learner answers may occur", "anchors": ["src/booster/smoothboost/smoothboost_algorithm.rs: SmoothBoost::boost, SmoothBoost::postprocess, SmoothBoost::check_preconditions, SmoothBoost::theta", "src/hypothesis/weighted_majority.rs: WeightedMajority::from_slices"]}
{"id": "C99", "title": "MadaBoost's weights survive f64 rounding", "statement": "Run MadaBoost in f64 on n examples with labels +1/-1, for T rounds with n (T + 12) <= 2^25, with any weak learner whose confidences are in [-1, 1]. Every query hands the weak learner n finite weights in [0, 1] that sum to 1 up to 2^-20, whatever the order of summation and the outcome of the sort, and no query panics. The exponent kept for an example is 1/n plus the sum of (its margin times the factor sqrt(eps'/(1 - eps')), eps' = sqrt((1 - edge)/4)) up to (T^2 + 60 T + 2) 2^-53, and for T <= 2^14 each weight is the softmax of these exponents capped at 1, up to a relative error of 2^-20. A round whose edge lies strictly between -1 and 1 completes, with one exception: for the edge -1 + 2^-53 the assertion on the error fails and the run panics. The weight a hypothesis gets in the returned vote is the logarithm of the inverse of its factor up to 2^-46.", "quantifier": "every training set and number of rounds within n (T + 12) <= 2^25, every sequence of weak-learner answers in [-1, 1], every order in which an edge is summed, every outcome of the sort, every exp and ln with a relative error of at most 2^-52", "why_tests_cant": "rounding errors accumulate over the rounds, and the answers of the weak learner, the summation orders and the sort outcomes are unbounded", "anchors": ["src/booster/madaboost/madaboost_algorithm.rs: MadaBoost::boost, MadaBoost::update_params, MadaBoost::beta2distribution, MadaBoost::preprocess"]}
{"id": "C100", "title": "AdaBoostV's weights and margins survive f64 rounding", "statement": "Run AdaBoostV in f64 on n <= 2^16 examples with labels +1/-1 and a tolerance tol in [2^-20, 1], with any weak learner whose confidences are in [-1, 1]. While every edge is at least tol and at most 1 - 2^-10, in every round of a run of any length the weak learner is handed n positive finite weights, each at most 1, that sum to 1 up to 2^-21, no round panics, whatever the order of summation and the outcome of the sort, and every hypothesis gets a positive finite weight of at most 5, equal to the exact AdaBoostV weight of its edge and margin estimate up to 2^-44. If all edges lie between g >= tol and G <= 1 - 2^-10, T <= 2^30 and the weights sum to W <= 256, the margin of every training example is at least (g - tol) W + T (tol^2/2 - 2^-20/(1 - G)) - ln n - (T + 1) 2^-39. Hence as soon as T (tol^2/2 - 2^-20/(1 - G)) >= ln n + (T + 1) 2^-39 the returned vote, evaluated in f64, has margin at least g - tol - (T + 1) 2^-50 on every training example, and predicts every training label if g - tol exceeds (T + 1) 2^-49.", "quantifier": "every training set of at most 2^16 examples, every tolerance in [2^-20, 1], every sequence of weak-learner answers with edges in [tol, 1 - 2^-10], every order in which an edge is summed, every outcome of the sort, every exp and ln with a relative error of at most 2^-52", "why_tests_cant": "rounding errors accumulate over the rounds and must not eat up the margin guarantee; the answers of the weak learner, the summation orders and the sort outcomes are unbounded", "anchors": ["src/booster/adaboostv/adaboostv_algorithm.rs: AdaBoostV::update_params, AdaBoostV::boost, AdaBoostV::preprocess, AdaBoostV::postprocess", "src/hypothesis/weighted_majority.rs: WeightedMajority::from_slices"]}
{"id": "C101", "title": "The regression tree learner in f64", "statement": "In binary64, whatever order the sums are taken in, the regression tree learner with the squared loss and an L2 penalty lambda in [2^-20, 2^100] returns a tree on every trainable sample of at most 2^16 rows with residuals (prediction minus target) at most B in absolute value: every question it asks scores no less than any offered question minus 2^-24 n B^2 for the n rows that reach it, every leaf holds minus the sum of its residuals over (n + lambda) up to 2^-30 B n/(n+lambda), all answers are finite and at most (1 + 2^-30) B, and adding the answers to the predictions brings the penalised squared error down by at least sum^2/(n+lambda), and (from depth 2, unless the residuals nearly sum to zero) by at least the score of the best single question, up to (depth+1) 2^-24 n B^2. With lambda = 0 none of this holds: a rounding error divided by an exhausted hessian is +infinity and wins, so the tree may be a single leaf although a question is 10% better.", "quantifier": "every summation order, trainable sample, learner settings with the squared loss, finite targets and predictions, penalty and residual bound", "why_tests_cant": "the rounding of every partial sum depends on the reduction schedule and the data; the failure at lambda = 0 needs gradients whose f64 sum does not cancel exactly", "anchors": ["src/weak_learner/regression_tree/regression_tree_algorithm.rs: produce, full_tree, best_split, best_split_at, prediction_and_loss", "src/weak_learner/regression_tree/bin.rs: pack, remove_zero_weight_pack_and_normalize", "src/common/loss_functions.rs: gradient, hessian"]}
{"id": "C102", "title": "Gradient boosting with the squared loss in f64", "statement": "Gradient boosting with the squared loss over the crate's own regression trees fits its training data in binary64. This fails in every way: (1) whatever the weak learner answers, as long as no hypothesis' answers cancel to less than 2^-16 of their size, after k <= 100 rounds the running predictions sum to k times the sum of the targets up to k 2^-18 of the targets' size, so the squared error is at least ((k-1)|sum y| - k 2^-18 sum|y|)^2 / n; (2) when the predictions equal the targets the next round panics (assert_ne on the sum of the answers); (3) with the default penalty 0.01 and depth 2 there is a three-row sample with targets 0.1, 0.2, 0.3 whose squared error is at most 0.01 after the first round and more than 20000 after the second.", "quantifier": "every target vector of at most 2^16 rows, every weak learner and history of up to 100 rounds, every summation order, every trainable sample and learner setting", "why_tests_cant": "the drift is a statement about all histories with their rounding errors; in exact arithmetic (C76) the run panics in the second round, in binary64 the residuals do not sum to exactly zero and the run goes on with a huge coefficient", "anchors": ["src/booster/gradient_boost/gbm.rs: boost", "src/common/loss_functions.rs: best_coefficient, gradient", "src/weak_learner/regression_tree/regression_tree_algorithm.rs: produce"]}
{"id": "C103", "title": "Round limits in f64", "statement": "The number of rounds a booster allows itself (max_loop), computed in binary64, is the documented formula cut off at usize::MAX and rounded to a whole number (down for AdaBoost and AdaBoostV, up for MadaBoost, SoftBoost, CERLPBoost, MLPBoost, ERLPBoost, SmoothBoost), but for an error of 2^-50 of the formula (plus 2^-48 / tolerance^2 where the capping parameter enters; twice 2^-50 for the default tolerance 1/(n+1)). A tolerance whose square is zero gives usize::MAX rounds, a NaN tolerance and a single training example give zero rounds; the limit can indeed be one round below the formula (MadaBoost, two examples, default tolerance: 9 rounds).", "quantifier": "every number of examples below 2^53, every tolerance between 2^-100 and 2^100 (and every vanishing one), every capping parameter between 1 and n, every accepted kappa and gamma, every platform logarithm with relative error 2^-52", "why_tests_cant": "a limit off by one appears only where the formula is within rounding of a whole number, and saturation only for tolerances no test uses", "anchors": ["src/booster/adaboost/adaboost_algorithm.rs: max_loop", "src/booster/adaboostv/adaboostv_algorithm.rs: max_loop", "src/booster/madaboost/madaboost_algorithm.rs: max_loop", "src/booster/softboost/softboost_algorithm.rs: max_loop", "src/booster/cerlpboost/cerlpboost_algorithm.rs: max_loop", "src/booster/mlpboost/mlpboost_algorithm.rs: max_loop", "src/booster/erlpboost/erlpboost_algorithm.rs: max_loop", "src/booster/smoothboost/smoothboost_algorithm.rs: max_loop", "src/booster/gradient_boost/gbm.rs: max_loop"]}
{"id": "C104", "title": "Frank-Wolfe weight updates in f64", "statement": "Computed in binary64, a Frank-Wolfe step is refused (panic) exactly when the step size is not a number in [0,1]; otherwise every weight stays a number in [0,1]. Over any history of new hypotheses and steps, whose step sizes are the exact ones rounded, the weights differ from the exactly computed ones by at most (steps) 2^-49, summed over all hypotheses. With the classic rule, after T rounds from scratch the weights sum to one up to T 2^-49, the vote of any confidences in [-1,1] is the exact one up to T 2^-49, and the simplex check passes. The short-step rule keeps every weight in [0,1] and never panics.", "quantifier": "every step size, every list of weights, every history of at most 2^29 new hypotheses and steps, every sequence of positions CERLPBoost can find, all confidences in [-1,1]; for the short-step rule all eta, distributions and margins", "why_tests_cant": "a test runs a few rounds; the accumulated rounding over every history, and the refusal of a quotient that is not a number, are statements about all of them", "anchors": ["src/common/frank_wolfe.rs: classic, short_step, interior_point", "src/common/checker.rs: check_stepsize, check_capped_simplex_condition", "src/booster/cerlpboost/cerlpboost_algorithm.rs: boost, update_distribution_mut", "src/booster/mlpboost/mlpboost_algorithm.rs: boost"]}
{"id": "C105", "title": "Line search in f64", "statement": "Computed in binary64, the bisection of the line-search and pairwise Frank-Wolfe rules over [0, w] ends after at most thirty evaluations of the gradient, whatever these return (NaN and infinities included), with a step that is a number in [0, w]; if the computed gradient has the right sign further than delta away from the best step, the step found is within delta + 1e-9 (1 + 2^-49) of it. The line-search update is never refused, keeps every weight a number in [0,1], and gives the exact weights of the step found up to 2^-49, summed over the hypotheses. The pairwise update takes at most its weight from the worst hypothesis and gives it to the chosen one, one rounding on each side, and leaves all other weights alone.", "quantifier": "every w in [0,1], every function the gradient can be, every list of weights in [0,1], every position", "why_tests_cant": "a test evaluates one gradient; termination of a floating-point loop for every gradient, and the error of the step, are statements about all of them", "anchors": ["src/common/frank_wolfe.rs: line_search, blended_pairwise, SUB_TOLERANCE", "src/booster/cerlpboost/cerlpboost_algorithm.rs: boost", "src/booster/mlpboost/mlpboost_algorithm.rs: boost"]}
{"id": "C106", "title": "Exponential distribution of the corrective boosters in f64", "statement": "The distribution that CERLPBoost and MLPBoost compute in binary64 from the weights of the hypotheses (vote, margins, times -eta, projection without a cap) is, example by example, the exact one - proportional to exp(-eta * exact margin) with exact weights - up to a relative error of 2^-18 (plus 2^-50), provided eta times the error of the weights and of the vote is at most 2^-22; in particular after any run of the classic rule of T rounds with eta (T + 2) <= 2^26, against a run that computes everything exactly. No step of it panics.", "quantifier": "every training set with labels plus or minus one and confidences in [-1,1], every eta >= 0 with n (eta + 65) <= 2^30, every list of weights near a distribution, every sequence of hypotheses, every platform exp and ln accurate to 2^-50", "why_tests_cant": "a test compares one distribution with an expected value; the error of the exponential of a sum of rounded products is a statement about every training set and every history", "anchors": ["src/common/utils.rs: margins_of_weighted_hypothesis, log_exp_distribution, exp_distribution, exp_distribution_from_margins, project_log_distribution_to_capped_simplex", "src/booster/cerlpboost/cerlpboost_algorithm.rs: update_distribution_mut", "src/booster/mlpboost/mlpboost_algorithm.rs: boost"]}
{"id": "C107", "title": "CERLPBoost with the classic rule keeps its guarantee in f64", "statement": "In binary64 arithmetic, a CERLPBoost run with the classic Frank-Wolfe rule (nu = 1) never panics, whatever hypotheses the weak learner returns: the weights stay in [0,1] and sum to one up to rounding. When the run stops on its test (after the first round), every training example's margin under the returned weights, normalised, is at least the exact edge of the last hypothesis under the distribution it was trained on, less half the tolerance, less ln n / eta, less 2^-16; so if the learner's edge is at least g under every (nearly normalised) distribution and eta >= ln n / half tolerance, every margin is at least g - tolerance - 2^-16. With the settings the booster computes itself from a tolerance in (0,1], at least two examples, n (2 ln n / tolerance + 66) <= 2^30 and (ln n)^2 / tolerance^3 <= 2^19, this reads: no panic, and if the learner's edge is at least g under every (nearly normalised) distribution, stopping on the test with a non-empty vote means every margin is at least g - tolerance - 2^-15; when g exceeds the tolerance by 2^-14, the classifier returned then predicts, in binary64, the label of every training example. A hypothesis returned again is never added to the vote a second time.", "quantifier": "all label vectors of +-1, all hypotheses with f64 confidences in [-1,1], all weak learners, all finite eta and tolerance with n (eta+65) <= 2^30 and eta (rounds+2) <= 2^26, all round limits up to 2^29, all accurate exp and ln", "why_tests_cant": "The stopping test compares two rounded inner products of up to millions of terms under a distribution that has itself been computed through exp and ln from accumulated weights; whether a passed test still implies the margin depends on every rounding of every round, and a test sees a few runs.", "anchors": ["src/booster/cerlpboost/cerlpboost_algorithm.rs: boost, preprocess, regularization_param, max_loop, update_distribution_mut", "src/common/utils.rs: edge_of_hypothesis, edge_of_weighted_hypothesis, margins_of_hypothesis, exp_distribution", "src/common/frank_wolfe.rs: classic", "src/hypothesis/weighted_majority.rs: from_slices, predict"]}
