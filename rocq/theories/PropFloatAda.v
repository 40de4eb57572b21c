(** Property C92: AdaBoost's distribution in binary64. *)
From Coq Require Import ZArith List Bool Reals Lia Lra Psatz Permutation Sorting.
From Verif Require Import Base SortLib Float FloatSpec FloatProofs FloatFacts FloatCheckFacts FloatProject FloatProjectSpec FloatProjectProofs FloatProjectFacts ExpBounds ExpNum FloatEdge FloatEdgeSpec FloatEdgeFacts FloatMedian FloatMedianFacts FloatAda FloatAdaSpec FloatAdaProofs FloatAdaStep FloatAdaRun FloatAdaFacts.
Open Scope R_scope.


(** ** C92: along every run, of any length, every weight stays positive and at most 1, and the weights add up to 1 within 2^-21 *)

Theorem C92_weights_stay_positive :
  forall fexp fln y hist dist, precise_exp fexp -> precise_ln fln -> (forall x, In x y -> f_label x) -> (1 <= length y)%nat -> INR (length y) <= 2 ^ 16 ->
  f_ada_run fexp fln mild_round y hist dist ->
  length dist = length y /\ (forall d, In d dist -> finite_num d /\ 0 < val d <= 1) /\ Rabs (total dist - 1) <= / 2 ^ 21.
Proof. exact P_C92_weights_stay_positive. Qed.
Print Assumptions C92_weights_stay_positive.

(** ** C92: no round panics: whatever the learner answers next, in whatever order the edge is summed and the logarithms are sorted *)

Theorem C92_no_round_panics :
  forall fexp fln y hist dist conf edge, precise_exp fexp -> precise_ln fln -> (forall x, In x y -> f_label x) -> (1 <= length y)%nat -> INR (length y) <= 2 ^ 16 ->
  f_ada_run fexp fln mild_round y hist dist -> length conf = length y -> f_edge y conf dist edge -> mild_round conf edge ->
  (exists ix, f_ascending (f_ada_logs fln (f_ada_weight fln edge) (f_margins y conf) dist) ix) /\
  forall ix, f_ascending (f_ada_logs fln (f_ada_weight fln edge) (f_margins y conf) dist) ix ->
    exists dist', f_ada_update fexp fln ix (f_ada_weight fln edge) (f_margins y conf) dist = Ok dist'.
Proof. exact P_C92_no_round_panics. Qed.
Print Assumptions C92_no_round_panics.

(** ** C92: the weight given to a hypothesis is half the logarithm of (1 + edge) / (1 - edge), up to 2^-46 *)

Theorem C92_weight_accurate :
  forall fln edge, precise_ln fln -> finite_num edge -> Rabs (val edge) <= 1 - / 2 ^ 10 ->
  finite_num (f_ada_weight fln edge) /\ Rabs (val (f_ada_weight fln edge) - ln ((1 + val edge) / (1 - val edge)) / 2) <= / 2 ^ 46.
Proof. exact P_C92_weight_accurate. Qed.
Print Assumptions C92_weight_accurate.

(** ** C92: after T rounds every weight is the exponential weight of the margins, up to a factor exp(2^-20 + (T+1) 2^-38), as long as the hypotheses' weights add up to at most 256 *)

Theorem C92_accurate :
  forall fexp fln y hist dist, precise_exp fexp -> precise_ln fln -> (forall x, In x y -> f_label x) -> (1 <= length y)%nat -> INR (length y) <= 2 ^ 16 ->
  f_ada_run fexp fln mild_round y hist dist -> rsum (map (fun h => Rabs (val (fst h))) hist) <= 256 -> INR (length hist) <= 2 ^ 30 ->
  forall i, (i < length y)%nat -> Rabs (ln (val (nth i dist f0)) - ln (exact_weight y hist i)) <= INR (length hist + 1) * / 2 ^ 38 + / 2 ^ 20.
Proof. exact P_C92_accurate. Qed.
Print Assumptions C92_accurate.

(** ** C92: correctly rounded exp and ln are precise enough, and such functions with the usual special cases exist *)

Theorem C92_correct_precise :
  forall fexp fln, correct_exp fexp -> correct_ln fln -> precise_exp fexp /\ precise_ln fln.
Proof. exact P_C92_correct_precise. Qed.
Print Assumptions C92_correct_precise.

Theorem C92_platform :
  exists fexp fln, precise_exp fexp /\ precise_ln fln /\ special_cases fexp fln.
Proof. exact P_C92_platform. Qed.
Print Assumptions C92_platform.

(** ** C92: why it matters: with two weights of zero, one update turns every weight into NaN and the next update panics *)

Theorem C92_two_zero_weights :
  forall fexp fln w margins dist ix i j, special_cases fexp fln -> finite_num w -> (forall m, In m margins -> finite_num m /\ Rabs (val m) <= 1) -> length margins = length dist ->
  (i < length dist)%nat -> (j < length dist)%nat -> i <> j -> zero_num (nth i dist f0) -> zero_num (nth j dist f0) ->
  f_ascending (f_ada_logs fln w margins dist) ix -> (forall d, In d (f_ada_logs fln w margins dist) -> d <> nan_num) ->
  f_ada_update fexp fln ix w margins dist = Ok (repeat nan_num (length dist)) /\
  forall ix' w' margins', length margins' = length dist -> f_ada_update fexp fln ix' w' margins' (repeat nan_num (length dist)) = Panic UnwrapNone.
Proof. exact P_C92_two_zero_weights. Qed.
Print Assumptions C92_two_zero_weights.

(** ** Example: a first round on four examples in which the hypothesis errs on the last one (edge 1/2), with an exponential and a logarithm as required *)

Example C92_nonvacuous : let y := [f1; f_minus1; f1; f_minus1] in let conf := [f1; f_minus1; f1; f1] in
  exists fexp fln dist, precise_exp fexp /\ precise_ln fln /\ special_cases fexp fln /\ (forall x, In x y -> f_label x) /\
  f_edge y conf (f_uniform 4) f_half /\ f_ada_run fexp fln mild_round y [(f_ada_weight fln f_half, conf)] dist /\ Rabs (val (f_ada_weight fln f_half)) <= 8.
Proof. exact ex_C92. Qed.
