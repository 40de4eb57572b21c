# Formal model of miniboosts in Rocq (Coq 8.16.1)

## 1. Trusted base

* Coq's kernel (and `coqchk`).  No plugin, no native_compute, no checks switched off.
* Axioms.  `ASSUMPTIONS.md` (generated by `tools/assumptions.py`) gives what `Print Assumptions` lists for every theorem of
  the manifest.  All of them are declared in Coq's standard library:
  `ClassicalDedekindReals.sig_forall_dec`, `ClassicalDedekindReals.sig_not_dec` and
  `FunctionalExtensionality.functional_extensionality_dep` (the construction of `R`), `Classical_Prop.classic`, and, only for
  the theorems that build an exact solver out of the proof that a solution exists (`C34_/C35_/C64_/C65_exact_solver_exists` and
  the theorems that use them), `ClassicalEpsilon.constructive_indefinite_description`.
  No axiom, parameter or section-less hypothesis is added.
* The reading of /repo into Gallina (the Rust code can not be run here): each model definition cites the file and the lines
  it models and says where it simplifies.
* For the boosters that call clarabel: the solver is a *universally quantified* function from programs to answers.  Theorems
  either hold for every such function, or have the explicit hypothesis that the answers are optimal (KKT conditions,
  `LPSpec.v`, `ConicSpec.v`).  That hypothesis is shown to be satisfiable for every sample and weak learner by
  `C34_/C35_/C65_exact_solver_exists` (`C64_exact_solver_exists`: wherever the program is feasible at all).

## 2. How the code is modelled

* **f64 is modelled as the exact reals `R`** (no rounding, overflow, NaN, infinity).  Where the Rust code would divide by
  zero, take `ln` of a non-positive number, or compare NaN, the model has an explicit panic value (`NonFinite`) or the
  theorem has the guard as a hypothesis.  Two exceptions: in `BinsFloat.v` the bin arithmetic is done in binary64
  (for the refutation `C60_rounding_refuted`), and `Float.v` models sums, inner products, the simplex check, `normalize`,
  `from_slices` and the prediction of a vote on IEEE binary64 numbers (Flocq), for C77-C79.
* **A panic is an explicit value**: functions which can panic return `res A := Ok a | Panic k`.
* **`&mut self` methods return the new state**; loops are structural recursion, or have fuel with an out-of-fuel value that
  the theorems exclude.  `Booster::run` is the fuelled `run`, `Reach.v` the relation "this state is reached".
* **Weak learner, solver, RNG, clock, HashMap order, sort tie-breaking, rayon schedule** are universally quantified
  arguments.
* **Hypotheses** are an arbitrary type `H` with a function `conf : H -> nat -> R` (the confidence on row i of the sample at
  hand): the `Classifier` trait.
* **Files**: `X.v` model; `XSpec.v` vocabulary of the statements, which mentions no model helper where that is possible;
  `XProofs.v` etc. lemmas; `XFacts.v` the property lemmas `P_Cnn_...`; `PropX.v` (generated by `tools/genprops.py`) states
  each one again as `Theorem Cnn_...` in a file with nothing but statements, followed by the examples that show the
  hypotheses are met.
* A property that the code violates is proved false as `..._refuted` with a witness (or for all inputs, where it is always
  false); in the manifest it has status `partial` together with the strongest positive statement that does hold.

## 3. Per property: what is modelled and how it is proved

| id | code modelled | method |
|---|---|---|
| C01 C02 C03 | utils.rs projection on the capped simplex (sorted indices, loop) | suffix-sum invariant, every tie-breaking order; KKT and Gibbs inequality for the entropy projection |
| C04-C08 | AdaBoost: init, preprocess, boost, update_params, postprocess, max_loop | invariant over all histories of `run`; potential function Z_t |
| C09 | same, AdaLoopFacts | positive edge: the run ends with that one hypothesis, proved; edge -1: refuted (panic) |
| C10 | same, AdaLoopFacts | zero error after 2 ln n / g^2 rounds; the documented max_loop() refuted, also by a run in which the learner always beats the tolerance |
| C11 C12 C50 | AdaBoostV | as C04-C08, with convexity of exp for the margin; termination and exact round count |
| C13 C14 | WeightedMajority, from_slices | list induction; C14 false when a weight is negative |
| C15 C51 | MadaBoost | invariant; "moves weight to mistakes" refuted for every sample and learner |
| C16 C17 C18 C52 | SmoothBoost | smoothness invariant, Servedio's potential analysis; defaults, truncated vote and exact kappa refuted |
| C19 C20 C21 C53 | GraphSepBoost, NaiveAggregation | edges measure; recall of seen patterns; rate with a weak learner |
| C22 C23 | Booster::run, Logger | big-step relation of the loop, observation only; logging AdaBoost with no positive weight panics (refuted) |
| C24 C25 C60 | Bins::cut, Bins::pack, builder (in R and, for the refutation, in binary64) | chain invariant; exact condition for building |
| C26 C61 | score of the four criteria, best_split | prefix-sum invariant of the scan; every split of a returned tree (`greedy`) |
| C27 C28 | full_tree, train_node, node conversion, remove_redundant_nodes | tree induction; pruning never changes an answer, but never fires (refuted) |
| C29 | regression tree: pack, best_split_at, full_tree, produce, builder | quadratic minimisation; every split (`greedy_reg`); L1 refuted |
| C30 C31 | GBM losses | derivability; weighted median; L1 sign and L2 coefficient refuted |
| C32 C54 C55 | GBM booster | protocol invariant; returned ensemble refuted |
| C33 | CSC matrices and programs of LPBoost, ERLPBoost, SoftBoost, TotalBoost, MLPBoost | denotation of a CSC matrix as row constraints; every program of every run |
| C34 C63 | LPBoost | KKT of the program = minimax; certificate; N+1 rounds; exact solvers exist by LP duality (Fourier-Motzkin in `Duality.v`, `Solvable.v`) |
| C35 | ERLPBoost | KKT of the QP, entropy potential, number of rounds; exact QP answers exist by compactness + duality (`QPExist.v`) |
| C36 C37 C62 | Frank-Wolfe steps, corrective ERLPBoost | simplex invariants; smoothness constant via Hoeffding's lemma; line search refuted by a case and, by concavity of the objective along the segment, for every input; CERLPBoost's guarantee refuted for the two line-search rules by a run that alternates between two corners (LineRunSpec, LineRunFacts); the same for MLPBoost (C65) with an exact solver and a noise stream that keeps the linear program's answer in the first corner (LineMLPSpec, LineMLPFacts) |
| C72 | LPBoost with a solver of accuracy eps (any answers with residuals at most eps) | weak duality with residuals; perturbation bounds for normalised votes; pigeonhole on the class for termination |
| C73 | AdaBoost (adaboost_algorithm.rs) run on the model of the decision tree learner | composition: C04 gives the distributions the learner sees, C27 its trees, C07/C08 the vote; a concrete sample refutes that a vote is always returned |
| C74 | CERLPBoost, MLPBoost, LPBoost, ERLPBoost run on the model of the decision tree learner; the margins are those of the modelled objective functions | C27 bounds the edge of a tree by the square of the edge of every stump; averaging over a stump vote; C62/C65/C34/C35 for the booster |
| C75 | the GBM model of C54/C55 with the loss objects of C30/C31 | the predictions of each hypothesis are scaled to sum to the total of the targets, so the sum after k rounds is k times it; Cauchy-Schwarz gives the loss bound. First L1 round: C31 |
| C76 | GBM run on the regression tree learner of C29 | residuals of the first ensemble sum to zero, C29's zero-sum theorem gives the zero leaf, best_coefficient asserts |
| C77 | Float.v: sums and inner products on IEEE binary64 numbers (Flocq), with rayon's split trees | relative error of each addition (no underflow in sums), induction on the split tree; the number of roundings on a path is below the number of terms |
| C78 | Float.v: check_nu and check_capped_simplex_condition on binary64 numbers | C77 for the sum, monotonicity of rounding for the entries |
| C79 | Float.v: normalize, from_slices, confidence, predict on binary64 numbers | C77 for normaliser and vote; each normalised weight is within a relative 2(gam+u) of the exact one |
| C80 | ERLP.v: whole runs with an exact solver | refuted on a four-example instance by following the three programs of each inner loop (KKT conditions fix the dual weights); for nu = n the guarantee follows from C35 |
| C81 | Valid (sample_struct.rs:384-444, with the i32 cast), preprocess of all ten boosters | accepted iff two kinds of integers in the range of i32; refused = no query; clamped labels refuted |
| C82 | ERLP (qp_model.rs:150-190), LPBoost, SoftBoost, MLP with the solver's status as part of its answer | invariant over the turns of ERLPBoost's inner loop for an arbitrary solver; the other three refuted: the run does not depend on the status |
| C83 | Dot (decision_tree/node.rs:148-195, regression_tree/node.rs:155-204, the two to_dot_file; text of the statements abstracted to [line]) | induction over the tree; reading = evaluation of the tree with the printed thresholds; two-decimal printing refuted on a learned tree |
| C84 | the preprocess/boost/postprocess and setter models of all boosters (as C22, C67) | the configured parameters are invariant under preprocess and boost, and preprocess depends on nothing else |
| C85 | GBMSet (gbm.rs:128-175 setters and max_loop) on top of GBM | chains of calls by induction; the run ignores the tolerance; refuted clause by the half-target learner for every training set of at least four rows |
| C86 | FloatSplit (cross_validation.rs:74-101 in binary64, Flocq) | monotonicity of rounding, integers are in the format, relative error; 0.8 and 0.29 by their exact binary64 values |
| C87 | FloatEdge (first distribution, margins, inner_product with any schedule, the test edge.abs() >= 1.0 in binary64) | sums of equal dyadic numbers are exact in every schedule; C77 for the error; the refuting schedules are computed by the kernel |
| C88 | `FloatMedian` models the L1 coefficient in binary64: filter, quotient, sort, accumulated weights against half the total | the accumulated sum equals the total, and half of a non-negative float (also of +infinity) is never above it, so the scan stops; error bounds of C77 for the sums on both sides of the returned row |
| C89 | reuses `AdaBoost`, `AdaBoostV` | consecutive queries are exponential distributions of consecutive histories; the normaliser is at most sqrt(1-e^2) by convexity; an invariant shows every past edge is inside (-1,1) |
| C90 | FloatTree.v (whole tree learner with the weights in binary64; sums by any tree of additions, maps in any order), FloatTreeSpec.v | accuracy of partial sums (`acc`) carried through packing, normalising, moving weight from right to left; induction on the depth. Partial: Gini panics on absorbed weights (refuted by a computed example) |
| C91 | `FloatProject.v` models utils.rs:181-250 in binary64 (Flocq), with f64::exp and f64::ln as parameters; `FloatProjectSpec.v` says what is assumed of them (accurate to 2^-50 / correctly rounded) | forward error analysis of the logsum recursion (`FloatProjectProofs.v`), the stopping test at the first index, the check (C78); refutations with rational bounds for exp computed in the kernel (`ExpBounds.v`, `ExpNum.v`) |
| C92 | `FloatAda.v` (weight, logarithms, normaliser, update and rounds in binary64 over arbitrary exp and ln), `FloatAdaSpec.v` | invariant over runs: each weight is multiplied by at least 1/(2 - 2^-12), so the smallest subnormal never rounds to 0; logarithmic error of T rounds by induction |
| C93 | `FloatAda.v` with the vote and prediction of `Float.v`; `FloatBoostSpec.v` counts the mistakes | C92's logarithmic invariant with the product of the normalisers (each at most sqrt(1 - gamma^2) + 2^-15), C79 for the prediction |
| C94 | `SoftBoost.v` with `NearSpec.v`'s accuracy | the residuals of rows and columns of the final program (`SoftNearProofs.v`); a vector close to the capped simplex is moved into it; the inner loop decreases a bounded objective |
| C95 | `Logger.v`, `Research.v`, `SoftBoost.v` with `LogMoreSpec.v` | every line is measured in a state the run went through (`lines_reach2`); there the measurement solves the final program, whose optimum is the best soft margin (C64, C42) |
| C96 | `FloatTree.v` with `FloatBestSpec.v` | the f64 histograms carry relative errors (`rel`), the running edge of the scan an absolute error proportional to the number of additions (`edge_loop_near`); the chosen threshold is compared with the exact scan of C26; leaves and the tree by induction on the depth |
| C97 | `FloatAdaTree.v` with `FloatAdaTreeSpec.v` | runs of the f64 AdaBoost (`FloatAda.v`) whose hypotheses come from the f64 tree learner (`FloatTree.v`), schedules and hash orders chosen anew in each round; C96's weak-learning guarantee gives each round's edge, the run is mapped onto a run of C93 |
| C98 | `FloatSmooth.v` with `FloatSmoothSpec.v` | the rounds of SmoothBoost in binary64 as an inductive relation over any weak-learner answers, powf a parameter; the kept quantities stay below 2^55 in any run (rounding absorbs further steps), so the distribution bound needs no limit on rounds; the margin statements by an error recurrence, the stopping statement by counting the entries equal to 1 in the sequential sum |
| C99 | `FloatMada.v` with `FloatMadaSpec.v` | the rounds of MadaBoost in binary64 as an inductive relation over any weak-learner answers, summation orders and sort outcomes; exp and ln are parameters as in C92, the square root is correctly rounded; the factor by relative-error calculus (every edge below 1 in absolute value is at most 1 - 2^-53, so nothing underflows), the exponents by an error recurrence, the normaliser by the log-sum-exp Lipschitz bound |
| C100 | `FloatAdaV.v` with `FloatAdaVSpec.v` | the rounds of AdaBoostV in binary64 as an inductive relation over any weak-learner answers, summation orders and sort outcomes; the invariant of C92 for the weights (positive, sum to 1 up to 2^-21) carried over to AdaBoostV's smaller steps; the potential of the exact proof (C11) with an error term per round, Pinsker's inequality for the gain tol^2/2, then C79 for the vote |
| C101 | `FloatRTree.v` with `FloatRTreeSpec.v` | the regression tree learner in binary64 for any summation order; the gradients and bin sums are tracked with their rounding errors, each score is near the real score of C29's specification (`FloatRTreeTerm.v`, `FloatRTreeScan.v`), so the maximum in f64 is near the maximum in R; induction over the depth gives the near-greedy tree, and completing the square at each leaf gives the drop of the penalised error; lambda = 0 refuted by a computed run |
| C102 | `FloatGBM.v` with `FloatGBMSpec.v` | the rounds of GBM with the squared loss in binary64 as inductive relations over any answers and over the trees of C101; invariant: the predictions sum to k times the total of the targets up to k 2^-18 of its size (the coefficient is y_sum / p_sum up to rounding, provided the answers do not cancel to below 2^-16), then Cauchy-Schwarz; the panic at a perfect fit for every sample; a two-round run evaluated in binary64 |
| C103 | `FloatRounds.v` with `FloatRoundsSpec.v` | every booster's max_loop in binary64: saturating casts (exact, both directions), ceil by Flocq's nearbyint, a calculus of relative-plus-absolute errors through logarithm, quotient and square; a 1-Lipschitz argument for the cut-off at usize::MAX; edge cases by the IEEE rules |
| C104 | `FloatFW.v` with `FloatFWSpec.v` | interior_point, classic and short_step in binary64: each entry is a contraction plus a few roundings (gradual underflow included), so the L1 distance to the exact weights grows by at most 2^-49 a step, by induction over the history; monotone rounding keeps every weight in [0,1]; the 0/0 of the short-step rule by computing with signed zeros |
| C105 | `FloatLine.v` with `FloatLineSpec.v` | the bisection loop and both updates in binary64 with the gradient as a parameter: the rounded midpoint stays in the interval by monotone rounding and shrinks it by (1+1e-6)/2, so thirty evaluations suffice from any w in [0,1]; an invariant that the best step stays within delta of the interval; updates by C104's one-step bound |
| C106 | `FloatExpDist.v` with `FloatExpDistSpec.v` | margins_of_weighted_hypothesis, log_exp_distribution and exp_distribution in binary64: C77's inner-product bound and C104's distance bound each margin, a perturbation lemma for softmax, then C91; composed with C104's classic run |
| C107 | `FloatCERLP.v` and `FloatCERLPFit.v` with `FloatCERLPSpec.v` | the whole loop of CERLPBoost with the classic rule in binary64: invariant from C104 (weights near an exact distribution), C106 for the distribution of each round, C77 for both edges; on stopping, the softmax inequality (min margin >= weighted margin - ln n / eta) turns the passed test into a margin bound; `preprocess` composed with C103 (round limit) and the same error analysis for eta, so that the guarantee also holds with the settings computed from the tolerance; with C79, the returned classifier predicts every training label |
| C38 C65 | MLPBoost | the better of both candidates; guarantee for classic and short-step rules |
| C39 C40 C41 C49 | Feature, Sample (CSV rows, data frames, SVMLight rows as token lists), split, CrossValidation | list induction; sparse split, short CSV rows, defaults refuted |
| C42 C43 C56 | objective functions, entropies | fractional knapsack, Gibbs |
| C44 | rayon reductions and in-place updates | all reduction trees / all orders |
| C45 C48 C57 C58 C59 | neural network: label codecs, activations, layers, backward, training | shapes by induction over layers; chain rule; refutations |
| C46 C66 | worst-case weak learner, with LPBoost | best of the pool; exact solutions along the run force n/2 rounds |
| C67 | builder calls | a generic induction over call sequences (`calls_field`, `calls_ok`, `calls_bad`), one instance per builder; `last_set` is the specification |
| C69 C70 | Research::current_hypothesis of ten boosters, the numbers of a log line | induction over the logged rounds; current_hypothesis = postprocess; LP optimality for C70 |
| C71 | NeuralNetwork builder, NNHypothesis::new, Layer::new, produce | draws and minibatches universally quantified; shape invariant of training |
| C47 | naive Bayes learner | exact score, class statistics; refuted for two or more features |
| C64 | SoftBoost, TotalBoost | Pinsker potential for rounds, LP optimality of the final vote; tolerance guarantee refuted |
| C68 | SampleReader, CSV/SVMLight text, number literals | a grammar of literals and of files as specification; the parser accepts exactly the literals; line/word splitting inverts the writer |

## 4. Not modelled

Serialisation (serde), non-ASCII text and the rounding of decimal literals to binary64 in files,
polars, the `gurobi` back-ends (feature-gated), `leveragings/*`, `weak_learner/union/*` and `mlpboost/lp_model.rs` (not in the
compiled module tree), `research/` printing apart from the Logger's lines, wall-clock measurement (the clock is an oracle),
`Display` implementations.  Rounding of f64 is not covered
(except in `BinsFloat.v` and the `Float*.v` files: C77-C79, C86-C88, C90-C93, C96-C107).  The linear algebra inside clarabel is not modelled (section 1).
