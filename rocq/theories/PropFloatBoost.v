(** Property C93: AdaBoost's training error in binary64. *)
From Coq Require Import ZArith List Bool Reals Lia Lra Psatz Permutation Sorting.
From Verif Require Import Base SortLib Float FloatSpec FloatProofs FloatFacts FloatCheckFacts FloatVoteFacts FloatProject FloatProjectSpec FloatProjectProofs FloatProjectFacts ExpBounds FloatEdge FloatEdgeSpec FloatEdgeFacts FloatMedian FloatMedianFacts FloatAda FloatAdaSpec FloatAdaProofs FloatAdaStep FloatAdaRun FloatAdaFacts FloatBoostSpec FloatBoostFacts.
Open Scope R_scope.


(** ** C93: if every round's edge is at least gamma, the vote returned after T rounds, evaluated in binary64, errs on at most n (sqrt(1 - gamma^2) + 2^-14)^T (1 + 2^-20) training examples *)

Theorem C93_training_error :
  forall fexp fln y gamma hist dist, precise_exp fexp -> precise_ln fln -> (forall x, In x y -> f_label x) -> (1 <= length y)%nat -> INR (length y) <= 2 ^ 16 -> / 2 ^ 40 <= gamma <= 1 ->
  f_ada_run fexp fln (good_round gamma) y hist dist -> hist <> [] -> rsum (map (fun h => Rabs (val (fst h))) hist) <= 256 -> INR (length hist) <= 2 ^ 30 ->
  exists v, f_from_slices (map fst hist) (map snd hist) = Ok v /\
    INR (mistakes y v) <= INR (length y) * (sqrt (1 - gamma * gamma) + / 2 ^ 14) ^ length hist * (1 + / 2 ^ 20).
Proof. exact P_C93_training_error. Qed.
Print Assumptions C93_training_error.

(** ** C93: hence, once that number is below 1, the returned vote classifies every training example correctly *)

Theorem C93_no_mistakes :
  forall fexp fln y gamma hist dist, precise_exp fexp -> precise_ln fln -> (forall x, In x y -> f_label x) -> (1 <= length y)%nat -> INR (length y) <= 2 ^ 16 -> / 2 ^ 40 <= gamma <= 1 ->
  f_ada_run fexp fln (good_round gamma) y hist dist -> hist <> [] -> rsum (map (fun h => Rabs (val (fst h))) hist) <= 256 -> INR (length hist) <= 2 ^ 30 ->
  INR (length y) * (sqrt (1 - gamma * gamma) + / 2 ^ 14) ^ length hist * (1 + / 2 ^ 20) < 1 ->
  exists v, f_from_slices (map fst hist) (map snd hist) = Ok v /\ forall i, (i < length y)%nat -> IZR (f_predict (fun h => nth i h f0) v) = val (nth i y f0).
Proof. exact P_C93_no_mistakes. Qed.
Print Assumptions C93_no_mistakes.

(** ** Example: two examples, a hypothesis with confidences 15/16 and -15/16 in the first round: both theorems apply *)

Example C93_nonvacuous : let y := [f1; f_minus1] in let hist := fun fln => [(f_ada_weight fln f_15_16, [f_15_16; f_m15_16])] in
  exists fexp fln dist, precise_exp fexp /\ precise_ln fln /\ (forall x, In x y -> f_label x) /\ f_ada_run fexp fln (good_round (15 / 16)) y (hist fln) dist /\
  rsum (map (fun h => Rabs (val (fst h))) (hist fln)) <= 256 /\ INR (length y) * (sqrt (1 - 15 / 16 * (15 / 16)) + / 2 ^ 14) ^ length (hist fln) * (1 + / 2 ^ 20) < 1.
Proof. exact ex_C93. Qed.
