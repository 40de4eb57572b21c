(** Property C100: AdaBoostV in binary64. *)
From Coq Require Import ZArith List Bool Reals Lia Lra Psatz Permutation Sorting.
From Verif Require Import Base SortLib Float FloatSpec FloatProofs FloatFacts FloatCheckFacts FloatVoteFacts FloatProject FloatProjectProofs FloatEdge FloatEdgeSpec FloatEdgeFacts FloatMedian FloatMedianFacts FloatAda FloatAdaSpec FloatAdaProofs FloatAdaStep FloatAdaRun FloatAdaFacts FloatBoostSpec FloatBoostFacts FloatBestProofs FloatAdaV FloatAdaVSpec FloatAdaVProofs FloatAdaVFacts.
Open Scope R_scope.


(** ** C100: while every edge is at least the tolerance (at least 2^-20) and at most 1 - 2^-10, in every run of any length every weight of a training example is positive and at most 1 and they add up to 1 within 2^-21, every hypothesis gets a positive weight *)

Theorem C100_weights_stay_positive :
  forall fexp fln y tol edges hist gamma dist, precise_exp fexp -> precise_ln fln -> (forall x, In x y -> f_label x) -> (1 <= length y)%nat -> INR (length y) <= 2 ^ 16 ->
  finite_num tol -> / 2 ^ 20 <= val tol <= 1 -> f_adav_run fexp fln (edge_within (val tol) (1 - / 2 ^ 10)) tol y edges hist gamma dist ->
  length dist = length y /\ (forall d, In d dist -> finite_num d /\ 0 < val d <= 1) /\ Rabs (total dist - 1) <= / 2 ^ 21 /\
  length hist = length edges /\ forall h, In h hist -> finite_num (fst h) /\ 0 < val (fst h) <= 5.
Proof. exact P_C100_weights_stay_positive. Qed.
Print Assumptions C100_weights_stay_positive.

(** ** C100: no such round panics, in whatever order the edge is summed and the logarithms are sorted *)

Theorem C100_no_round_panics :
  forall fexp fln y tol edges hist gamma dist conf edge, precise_exp fexp -> precise_ln fln -> (forall x, In x y -> f_label x) -> (1 <= length y)%nat -> INR (length y) <= 2 ^ 16 ->
  finite_num tol -> / 2 ^ 20 <= val tol <= 1 -> f_adav_run fexp fln (edge_within (val tol) (1 - / 2 ^ 10)) tol y edges hist gamma dist ->
  length conf = length y -> f_edge y conf dist edge -> edge_within (val tol) (1 - / 2 ^ 10) conf edge ->
  f_perfect edge = false /\ let w := f_adav_weight fln edge (f_adav_rho (f_min2 edge gamma) tol) in
  (exists ix, f_ascending (f_ada_logs fln w (f_margins y conf) dist) ix) /\
  forall ix, f_ascending (f_ada_logs fln w (f_margins y conf) dist) ix -> exists dist', f_ada_update fexp fln ix w (f_margins y conf) dist = Ok dist'.
Proof. exact P_C100_no_round_panics. Qed.
Print Assumptions C100_no_round_panics.

(** ** C100: the margins: with every edge between g >= tol and G, after T rounds the margin of every training row is at least (g - tol) times the sum of the weights, plus T (tol^2/2 - 2^-20/(1 - G)) - ln n - (T+1) 2^-39 *)

Theorem C100_margins :
  forall fexp fln y tol g G edges hist gamma dist, precise_exp fexp -> precise_ln fln -> (forall x, In x y -> f_label x) -> (1 <= length y)%nat -> INR (length y) <= 2 ^ 16 ->
  finite_num tol -> / 2 ^ 20 <= val tol -> val tol <= g <= 1 -> G <= 1 - / 2 ^ 10 -> f_adav_run fexp fln (edge_within g G) tol y edges hist gamma dist -> weight_sum hist <= 256 -> INR (length hist) <= 2 ^ 30 ->
  forall i, (i < length y)%nat ->
  (g - val tol) * weight_sum hist + INR (length hist) * (val tol * val tol / 2 - round_loss G) - ln (INR (length y)) - INR (length hist + 1) / 2 ^ 39 <= exact_margin y hist i.
Proof. exact P_C100_margins. Qed.
Print Assumptions C100_margins.

(** ** C100: hence, once T (tol^2/2 - 2^-20/(1 - G)) is at least ln n + (T+1) 2^-39, the returned vote, evaluated in binary64, has margin at least g - tol - (T+1) 2^-50 on every training row, and predicts every training label if g - tol exceeds (T+1) 2^-49 *)

Theorem C100_vote :
  forall fexp fln y tol g G edges hist gamma dist, precise_exp fexp -> precise_ln fln -> (forall x, In x y -> f_label x) -> (1 <= length y)%nat -> INR (length y) <= 2 ^ 16 ->
  finite_num tol -> / 2 ^ 20 <= val tol -> val tol <= g <= 1 -> G <= 1 - / 2 ^ 10 -> f_adav_run fexp fln (edge_within g G) tol y edges hist gamma dist -> weight_sum hist <= 256 -> INR (length hist) <= 2 ^ 30 -> hist <> [] ->
  ln (INR (length y)) + INR (length hist + 1) / 2 ^ 39 <= INR (length hist) * (val tol * val tol / 2 - round_loss G) ->
  exists v, f_from_slices (map fst hist) (map snd hist) = Ok v /\ snd v = map snd hist /\ forall i, (i < length y)%nat ->
    finite_num (f_confidence (fun h => nth i h f0) v) /\ g - val tol - INR (length hist + 1) / 2 ^ 50 <= val (nth i y f0) * val (f_confidence (fun h => nth i h f0) v) /\
    (INR (length hist + 1) / 2 ^ 49 < g - val tol -> IZR (f_predict (fun h => nth i h f0) v) = val (nth i y f0)).
Proof. exact P_C100_vote. Qed.
Print Assumptions C100_vote.

(** ** C100: the weight given to a hypothesis, up to 2^-44 *)

Theorem C100_weight_accurate :
  forall fln edge rho, precise_ln fln -> finite_num edge -> finite_num rho -> 0 <= val rho <= val edge -> val edge <= 1 - / 2 ^ 10 ->
  finite_num (f_adav_weight fln edge rho) /\ Rabs (val (f_adav_weight fln edge rho) - adav_exact (val edge) (val rho)) <= / 2 ^ 44.
Proof. exact P_C100_weight_accurate. Qed.
Print Assumptions C100_weight_accurate.

(** ** C100: every weight follows from the round's edge and the smallest edge so far *)

Theorem C100_estimate :
  forall fexp fln y tol edges hist gamma dist, precise_exp fexp -> precise_ln fln -> (forall x, In x y -> f_label x) -> (1 <= length y)%nat -> INR (length y) <= 2 ^ 16 ->
  finite_num tol -> / 2 ^ 20 <= val tol <= 1 -> f_adav_run fexp fln (edge_within (val tol) (1 - / 2 ^ 10)) tol y edges hist gamma dist ->
  forall k, (k < length edges)%nat -> exists smallest rho,
    In smallest (firstn (S k) edges) /\ (forall e, In e (firstn (S k) edges) -> val smallest <= val e) /\ Rabs (rho - (val smallest - val tol)) <= / 2 ^ 53 /\
    Rabs (val (fst (nth k hist (f0, []))) - adav_exact (val (nth k edges f0)) rho) <= / 2 ^ 44.
Proof. exact P_C100_estimate. Qed.
Print Assumptions C100_estimate.

(** ** Example: two examples, two rounds with tolerance 7/8 and the hypothesis with confidences 15/16 and -15/16: all the theorems apply to this run *)

Example C100_nonvacuous : let y := [f1; f_minus1] in let conf := [f_15_16; f_m15_16] in
  exists fexp fln edges hist gamma dist, precise_exp fexp /\ precise_ln fln /\ (forall x, In x y -> f_label x) /\ finite_num f_7_8 /\ val f_7_8 = 7 / 8 /\
  f_adav_run fexp fln (edge_within (29 / 32) (31 / 32)) f_7_8 y edges hist gamma dist /\ map snd hist = [conf; conf] /\ weight_sum hist <= 256 /\
  ln (INR (length y)) + INR (length hist + 1) / 2 ^ 39 <= INR (length hist) * (val f_7_8 * val f_7_8 / 2 - round_loss (31 / 32)) /\ INR (length hist + 1) / 2 ^ 49 < 29 / 32 - val f_7_8.
Proof. exact ex_C100. Qed.
