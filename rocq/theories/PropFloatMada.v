(** Property C99: MadaBoost in binary64. *)
From Coq Require Import ZArith List Bool Reals Lia Lra Psatz Permutation Sorting.
From Verif Require Import Base SortLib Float FloatSpec FloatProofs FloatFacts FloatCheckFacts FloatProjectProofs FloatEdge FloatEdgeSpec FloatEdgeFacts FloatMedian FloatMedianFacts FloatAda FloatAdaSpec FloatAdaProofs FloatAdaStep FloatAdaRun FloatAdaFacts FloatSmoothFacts FloatBestProofs FloatMada FloatMadaSpec FloatMadaProofs FloatMadaFacts.
Open Scope R_scope.


(** ** C99: every query is answered: whatever the earlier answers of the weak learner and the orders of summation, some sort order exists, no sort order makes the query panic, the weights are in [0, 1] and add up to 1 within 2^-20 *)

Theorem C99_queries :
  forall fexp fln y hist betas, precise_exp fexp -> precise_ln fln -> (forall x, In x y -> f_label x) -> (1 <= length y)%nat ->
  f_mada_run fexp fln bounded_conf y hist betas -> INR (length y) * (INR (length hist) + 12) <= 2 ^ 25 ->
  (exists ix, f_ascending (map f_min1 betas) ix) /\
  forall ix, f_ascending (map f_min1 betas) ix -> exists dist, f_mada_query fexp fln ix betas = Ok dist /\ length dist = length y /\
    (forall d, In d dist -> finite_num d /\ 0 <= val d <= 1) /\ Rabs (total dist - 1) <= / 2 ^ 20.
Proof. exact P_C99_queries. Qed.
Print Assumptions C99_queries.

(** ** C99: every further round is completed, except in one case: the edge is finite and, unless it stops the run, the update panics exactly when the edge is the number next to -1 *)

Theorem C99_rounds :
  forall fexp fln y hist betas ix dist conf edge, precise_exp fexp -> precise_ln fln -> (forall x, In x y -> f_label x) -> (1 <= length y)%nat ->
  f_mada_run fexp fln bounded_conf y hist betas -> INR (length y) * (INR (length hist) + 12) <= 2 ^ 25 ->
  f_ascending (map f_min1 betas) ix -> f_mada_query fexp fln ix betas = Ok dist -> length conf = length y -> bounded_conf conf -> f_edge y conf dist edge ->
  finite_num edge /\ Rabs (val edge - dot_exact (f_margins y conf) dist) <= INR (length y) / 2 ^ 50 /\
  (f_perfect edge = false -> edge <> f_nearly_minus1 -> exists betas', f_mada_update betas (f_margins y conf) edge = Ok betas') /\
  (edge = f_nearly_minus1 -> f_perfect edge = false /\ f_mada_update betas (f_margins y conf) edge = Panic AssertFailed).
Proof. exact P_C99_rounds. Qed.
Print Assumptions C99_rounds.

(** ** C99: after T rounds each stored exponent is the exact one (1/n plus the margins times the factors of the edges) up to (T^2 + 60 T + 2) 2^-53 *)

Theorem C99_exponents :
  forall fexp fln y hist betas, precise_exp fexp -> precise_ln fln -> (forall x, In x y -> f_label x) -> (1 <= length y)%nat ->
  f_mada_run fexp fln bounded_conf y hist betas -> INR (length y) * (INR (length hist) + 12) <= 2 ^ 25 -> length betas = length y /\
  (forall i, (i < length y)%nat -> finite_num (nth i betas f0) /\ Rabs (val (nth i betas f0) - exponent_of y hist i) <= exponent_slack (length hist)) /\
  forall h, In h hist -> finite_num (fst h) /\ Rabs (val (fst h)) < 1.
Proof. exact P_C99_exponents. Qed.
Print Assumptions C99_exponents.

(** ** C99: for up to 2^14 rounds every weight handed to the weak learner is the softmax of the exact exponents capped at 1, up to a relative error of 2^-20 *)

Theorem C99_accurate :
  forall fexp fln y hist betas ix dist i, precise_exp fexp -> precise_ln fln -> (forall x, In x y -> f_label x) -> (1 <= length y)%nat ->
  f_mada_run fexp fln bounded_conf y hist betas -> INR (length y) * (INR (length hist) + 12) <= 2 ^ 25 -> INR (length hist) <= 2 ^ 14 ->
  f_ascending (map f_min1 betas) ix -> f_mada_query fexp fln ix betas = Ok dist -> (i < length y)%nat ->
  Rabs (val (nth i dist f0) - capped_soft (length y) (exponent_of y hist) i) <= / 2 ^ 20 * capped_soft (length y) (exponent_of y hist) i + / 2 ^ 1075.
Proof. exact P_C99_accurate. Qed.
Print Assumptions C99_accurate.

(** ** C99: the weight of a hypothesis in the returned vote is the logarithm of the inverse of the factor, up to 2^-46 *)

Theorem C99_alpha :
  forall fln edge, precise_ln fln -> finite_num edge -> Rabs (val edge) < 1 ->
  finite_num (f_mada_alpha fln edge) /\ Rabs (val (f_mada_alpha fln edge) - ln (1 / factor_of (val edge))) <= / 2 ^ 46.
Proof. exact P_C99_alpha. Qed.
Print Assumptions C99_alpha.

(** ** Example: a first round on four examples in which the hypothesis errs on the last one, with an exponential and a logarithm as required *)

Example C99_nonvacuous : let y := [f1; f_minus1; f1; f_minus1] in let conf := [f1; f_minus1; f1; f1] in
  exists fexp fln edge betas, precise_exp fexp /\ precise_ln fln /\ (forall x, In x y -> f_label x) /\
  f_mada_run fexp fln bounded_conf y [(edge, conf)] betas /\ 4 / 10 < val edge < 6 / 10 /\ INR (length y) * (INR 1 + 12) <= 2 ^ 25.
Proof. exact ex_C99. Qed.
