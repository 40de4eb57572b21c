(** Property C101: the regression tree learner in binary64. *)
From Coq Require Import ZArith List Bool Reals Lia Lra Psatz Permutation String.
From Verif Require Import Base Feature FeatureFacts Sample SampleSpec SampleFacts Bins BinsSpec BinsProofs BinsFacts DTree TreeSpec TreeShape DTreeProofs DTreeOut DTreeSplit DTreeBest DTreeGrow Losses RTree RTreeSpec RTreeProofs RTreeFacts Float FloatSpec FloatProofs FloatFacts FloatCheckFacts FloatProjectProofs FloatProjectMain FloatEdgeFacts FloatMadaProofs FloatTree FloatTreeSpec FloatTreeProofs FloatTreeFacts FloatBestProofs FloatRTree FloatRTreeSpec FloatRTreeNum FloatRTreeTerm FloatRTreeScan FloatRTreeFeature FloatRTreeGrow FloatRTreeFacts.
Open Scope R_scope.


(** ** C101: every split of the tree nearly maximises the score, every leaf nearly holds the shrunk mean of its residuals *)

Theorem C101_tree_nearly_greedy :
  forall sched s b t y predictions lambda B, summing sched -> trainable s -> rt_made s b -> rb_build b s = Ok t -> rb_loss b = Some L2 ->
  map val y = s_target s -> finite_all y -> finite_all predictions -> length predictions = fst (shape s) -> INR (fst (shape s)) <= 2 ^ 16 ->
  finite_num lambda -> val lambda = rb_lambda b -> / 2 ^ 20 <= rb_lambda b <= 2 ^ 100 ->
  / 2 ^ 400 <= B <= 2 ^ 400 -> (forall i, (i < fst (shape s))%nat -> Rabs (residual y predictions i) <= B) ->
  exists h, f_rt_produce sched (rt_bins t) (rt_n t) (rt_depth t) lambda (rt_loss t) s y predictions = Ok h /\
    nearly_greedy_reg B (residual y predictions) (rb_lambda b) (s_features s) (rt_bins t) h (rb_depth b) (all_rows s).
Proof. exact P_C101_tree_nearly_greedy. Qed.
Print Assumptions C101_tree_nearly_greedy.

(** ** C101: adding the answers to the predictions lowers the penalised squared error as it should *)

Theorem C101_fit :
  forall sched s b t y predictions lambda B, summing sched -> trainable s -> rt_made s b -> rb_build b s = Ok t -> rb_loss b = Some L2 ->
  map val y = s_target s -> finite_all y -> finite_all predictions -> length predictions = fst (shape s) -> INR (fst (shape s)) <= 2 ^ 16 ->
  finite_num lambda -> val lambda = rb_lambda b -> / 2 ^ 20 <= rb_lambda b <= 2 ^ 100 ->
  / 2 ^ 400 <= B <= 2 ^ 400 -> (forall i, (i < fst (shape s))%nat -> Rabs (residual y predictions i) <= B) ->
  let n := INR (fst (shape s)) in let sum := rsum (map (residual y predictions) (all_rows s)) in let loss := INR (rb_depth b + 1) * (/ 2 ^ 24 * n * B ^ 2) in
  exists h, f_rt_produce sched (rt_bins t) (rt_n t) (rt_depth t) lambda (rt_loss t) s y predictions = Ok h /\
    (forall i, (i < fst (shape s))%nat -> exists c, f_rt_predict h s i = Ok c /\ In c (f_leaves h) /\ finite_num c /\ Rabs (val c) <= (1 + / 2 ^ 30) * B) /\
    fit_after y predictions (rb_lambda b) h s (all_rows s) <= fit_before y predictions (all_rows s) - sum ^ 2 / (n + rb_lambda b) + loss /\
    ((2 <= rb_depth b)%nat -> / 2 ^ 30 * B * n < Rabs sum -> forall f t0, In f (s_features s) -> offered (rt_bins t) f t0 ->
      fit_after y predictions (rb_lambda b) h s (all_rows s) <= fit_before y predictions (all_rows s) - split_score (residual y predictions) one (rb_lambda b) (column f) t0 (all_rows s) + loss).
Proof. exact P_C101_fit. Qed.
Print Assumptions C101_fit.

(** ** C101: a sample that meets the hypotheses, and one that shows why lambda may not be zero *)

(** ** C101: with lambda = 0 rounding errors divided by zero win, and the tree may refuse to grow although a question is clearly better *)

Theorem C101_zero_lambda_refuted :
  exists s b t y predictions, trainable s /\ rt_made s b /\ rb_build b s = Ok t /\ rb_loss b = Some L2 /\ rb_lambda b = 0 /\ rb_depth b = 2%nat /\
  map val y = s_target s /\ finite_all y /\ finite_all predictions /\ length predictions = fst (shape s) /\ (forall i, (i < fst (shape s))%nat -> Rabs (residual y predictions i) <= 1) /\
  exists sched h f t0, summing sched /\ f_rt_produce sched (rt_bins t) (rt_n t) (rt_depth t) f0 (rt_loss t) s y predictions = Ok (FLf h) /\
    In f (s_features s) /\ offered (rt_bins t) f t0 /\
    11 / 10 * side_score (residual y predictions) one 0 (all_rows s) < split_score (residual y predictions) one 0 (column f) t0 (all_rows s).
Proof. exact P_C101_zero_lambda_refuted. Qed.
Print Assumptions C101_zero_lambda_refuted.

Example C101_applies : forall sched, summing sched ->
  let y := [f1; f1; fopp f1] in let p := [f0; f0; f0] in
  exists h, f_rt_produce sched (rt_bins (rx_tree 1)) 3 2 f1 L2 (rx_sample y) y p = Ok h /\
    fit_after y p 1 h (rx_sample y) (all_rows (rx_sample y)) <= 7 / 6 + 1 / 1000.
Proof. exact ex_C101. Qed.
