(** Property C102: gradient boosting with the squared loss in binary64. *)
From Coq Require Import ZArith List Bool Reals Lia Lra Psatz Permutation String.
From Verif Require Import Base Feature FeatureFacts Sample SampleSpec SampleFacts Bins BinsSpec BinsProofs BinsFacts DTree TreeSpec TreeShape DTreeProofs DTreeOut DTreeSplit DTreeBest DTreeGrow Losses RTree RTreeSpec RTreeProofs RTreeFacts Float FloatSpec FloatProofs FloatFacts FloatCheckFacts FloatProjectProofs FloatProjectMain FloatEdgeFacts FloatMadaProofs FloatTree FloatTreeSpec FloatTreeProofs FloatPackProofs FloatGrowProofs FloatGrowthProofs FloatTreeFacts FloatBestProofs FloatAdaTree FloatRTree FloatRTreeSpec FloatRTreeNum FloatRTreeTerm FloatRTreeGrow FloatRTreeFacts FloatGBM FloatGBMSpec FloatGBMProofs FloatGBMFacts.
Open Scope R_scope.


(** ** C102: the predictions drift away from the targets in binary64 as they do in exact arithmetic *)

Theorem C102_drift :
  forall y hist p, f_gbm_run y hist p -> finite_all y -> INR (length y) <= 2 ^ 16 -> / 2 ^ 400 <= size y <= 2 ^ 400 ->
  (length hist <= 100)%nat -> (forall c q, In (c, q) hist -> steady q) ->
  let k := INR (length hist) in let D := (k - 1) * Rabs (FloatSpec.total y) - k * (/ 2 ^ 18 * size y) in
  finite_all p /\ Rabs (FloatSpec.total p - k * FloatSpec.total y) <= k * (/ 2 ^ 18 * size y) /\ (0 <= D -> D ^ 2 <= INR (length y) * squared_error p y).
Proof. exact P_C102_drift. Qed.
Print Assumptions C102_drift.

(** ** C102: the same for every run over the regression trees of the crate *)

Theorem C102_tree_drift :
  forall t lambda s y hist p, f_gbm_tree_run t lambda s y hist p -> length y = fst (shape s) -> finite_all y -> INR (length y) <= 2 ^ 16 -> / 2 ^ 400 <= size y <= 2 ^ 400 ->
  (length hist <= 100)%nat -> (forall c q, In (c, q) hist -> steady q) ->
  let k := INR (length hist) in let D := (k - 1) * Rabs (FloatSpec.total y) - k * (/ 2 ^ 18 * size y) in
  finite_all p /\ Rabs (FloatSpec.total p - k * FloatSpec.total y) <= k * (/ 2 ^ 18 * size y) /\ (0 <= D -> D ^ 2 <= INR (length y) * squared_error p y).
Proof. exact P_C102_tree_drift. Qed.
Print Assumptions C102_tree_drift.

(** ** C102: predictions that equal the targets make the next round panic *)

Theorem C102_perfect_fit_panics :
  forall sched s b t y predictions lambda, summing sched -> trainable s -> rt_made s b -> rb_build b s = Ok t -> rb_loss b = Some L2 ->
  map val y = s_target s -> finite_all y -> finite_all predictions -> map val predictions = map val y -> INR (fst (shape s)) <= 2 ^ 16 ->
  finite_num lambda -> val lambda = rb_lambda b -> / 2 ^ 20 <= rb_lambda b <= 2 ^ 100 ->
  exists h q, f_rt_produce sched (rt_bins t) (rt_n t) (rt_depth t) lambda (rt_loss t) s y predictions = Ok h /\
    f_tree_answers h s (seq 0 (fst (shape s))) = Ok q /\ f_best_l2 y q = Panic AssertFailed.
Proof. exact P_C102_perfect_fit_panics. Qed.
Print Assumptions C102_perfect_fit_panics.

(** ** C102: a run over the trees of the crate that leaves the targets behind, computed in binary64; the numbers of the run *)

Theorem C102_tree_diverges_refuted :
  exists s b t y, trainable s /\ rt_made s b /\ rb_build b s = Ok t /\ rb_loss b = Some L2 /\ rb_lambda b = val f_001 /\ Rabs (val f_001 - / 100) <= / 2 ^ 60 /\ rb_depth b = 2%nat /\
  map val y = s_target s /\ finite_all y /\ (forall x, In x y -> 0 <= val x <= 31 / 100) /\
  exists c1 q1 c2 q2 p1 p2, f_gbm_tree_run t f_001 s y [(c1, q1)] p1 /\ f_gbm_tree_run t f_001 s y [(c1, q1); (c2, q2)] p2 /\
    squared_error p1 y <= 1 / 100 /\ 20000 <= squared_error p2 y.
Proof. exact P_C102_tree_diverges_refuted. Qed.
Print Assumptions C102_tree_diverges_refuted.

(** ** the run above meets the hypotheses of C102_drift *)

Example C102_drift_applies : f_gbm_run dv_y [(dv_c1, [dv_a1; dv_b1; dv_b1]); (dv_c2, [dv_a2; dv_a2; dv_b2])] [dv_r1; dv_r2; dv_r3] /\ (forall c q, In (c, q) [(dv_c1, [dv_a1; dv_b1; dv_b1]); (dv_c2, [dv_a2; dv_a2; dv_b2])] -> steady q) /\
  Rabs (FloatSpec.total [dv_r1; dv_r2; dv_r3] - 2 * FloatSpec.total dv_y) <= 2 * (/ 2 ^ 18 * size dv_y).
Proof. exact ex_C102. Qed.
