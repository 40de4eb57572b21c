(** Properties C75, C76: the training loss of gradient boosting, and gradient boosting with the regression trees of the crate. *)
From Coq Require Import String.
From Verif Require Import Base Spec LossSpec WMajority WMajorityProofs Booster AdaBoostProofs AdaBoostMain SmoothBoostFacts Losses LossFacts GBM GBMFacts Feature Sample SampleSpec FeatureFacts SampleFacts Bins BinsSpec BinsProofs BinsFacts TreeSpec DTree TreeShape DTreeFacts RTree RTreeSpec RTreeFacts GBMTreeFacts.
Open Scope R_scope.


(** ** C75: with the squared loss the running predictions drift away: after k rounds they sum to k times the total of the
    targets, whatever the weak learner answers, so the reported loss is at least ((k - 1) mean(y))^2 *)

Theorem C75_squared_loss_drifts_refuted :
  forall (H : Type) (pred : H -> nat -> R) produce (y : list R) fuel k, (0 < length y)%nat ->
  let tr := trace_of (run (gbm_booster pred produce y (best_coefficient L2)) fuel (gbm_init y)) in
  (k < length tr)%nat ->
  rsum (nth k tr []) = INR k * rsum y /\
  exists L, loss_eval L2 (nth k tr []) y = Ok L /\ ((INR k - 1) * (rsum y / INR (length y))) ^ 2 <= L.
Proof. exact P_C75_squared_loss_drifts_refuted. Qed.
Print Assumptions C75_squared_loss_drifts_refuted.

(** ** C75: what does hold: with the absolute loss the first round leaves the least loss that any multiple of the first
    hypothesis has, in particular not more than the loss of predicting zero *)

Theorem C75_first_round_partial :
  forall (H : Type) (pred : H -> nat -> R) produce (y : list R) fuel,
  let tr := trace_of (run (gbm_booster pred produce y (best_coefficient L1)) fuel (gbm_init y)) in
  (1 < length tr)%nat ->
  let h := map (pred (produce 1%nat (repeat 0 (length y)))) (seq 0 (length y)) in
  forall c, abs_error y (nth 1 tr []) 1 <= abs_error y h c.
Proof. exact P_C75_first_round_partial. Qed.
Print Assumptions C75_first_round_partial.

(** ** C76: gradient boosting with the squared loss and the crate's regression trees for the squared loss never returns a
    regressor: on every sample, for every configuration of the tree, run() panics in the first or second round.  The first
    ensemble has residuals that sum to zero, the tree learner answers with the zero leaf, and best_coefficient asserts that
    the predictions do not sum to zero.  The weak learner itself never panics *)

Theorem C76_gbm_with_regression_trees_refuted :
  forall s b t fuel, trainable s -> rt_made s b -> rb_build b s = Ok t -> 0 <= rb_lambda b -> rb_loss b = Some L2 -> (2 <= fuel)%nat ->
  let y := s_target s in let pred := fun h i => answer h s i in
  exists tr, run (gbm_booster pred (rt_learner t s) y (best_coefficient L2)) fuel (gbm_init y) = Crashed tr AssertFailed /\ (1 <= length tr <= 2)%nat /\
    forall v, In v tr -> exists h, rt_produce t s v = Ok h.
Proof. exact P_C76_gbm_with_regression_trees_refuted. Qed.
Print Assumptions C76_gbm_with_regression_trees_refuted.

(** ** hypotheses met: a sample, a builder and a regression tree learner built from it exist *)

Example gbm_trees_exist : exists s b t, trainable s /\ rt_made s b /\ rb_build b s = Ok t /\ 0 <= rb_lambda b /\ rb_loss b = Some L2 /\ (2 <= rb_depth b)%nat.
Proof. destruct P_C29_zero_sum_refuted as [s [b [t [v [f [th [A [B [C [D [E [F _]]]]]]]]]]]]. exists s, b, t. tauto. Qed.

(** ** the drift is reached: with targets 1, 2 and a weak learner that always answers 1, the third state of the run has
    predictions that sum to twice the total *)

Example gbm_drift_reached : Nat.lt 2 (length (trace_of (run (gbm_booster (fun (_ : unit) (_ : nat) => 1) (fun _ _ => tt) [1; 2] (best_coefficient L2)) 3 (gbm_init [1; 2])))).
Proof.
  unfold run. cbn [b_pre gbm_booster gbm_pre gbm_init].
  assert (E : forall (l : list unit), best_coefficient L2 [1; 2] (map (fun _ : nat => 1) (seq 0 (length [1; 2]))) = Ok (3 / 2)).
  { intros _. unfold best_coefficient. simpl rsum. rewrite Reqb_false by lra. cbn [negb assert_ bind]. f_equal. field. }
  assert (N : Reqb (3 / 2) 0 = false) by (apply Reqb_false; lra).
  cbn [run_from b_boost gbm_booster]. unfold gbm_boost at 1. cbn [gbm_max_iter Nat.ltb Nat.leb gbm_predictions gbm_weights gbm_hyps]. rewrite (E []). cbn [bind]. rewrite N.
  cbn [run_from b_boost gbm_booster]. unfold gbm_boost at 1. cbn [gbm_max_iter Nat.ltb Nat.leb gbm_predictions gbm_weights gbm_hyps]. rewrite (E []). cbn [bind]. rewrite N.
  cbn [run_from b_boost gbm_booster]. unfold gbm_boost at 1. cbn [gbm_max_iter Nat.ltb Nat.leb gbm_predictions gbm_weights gbm_hyps]. rewrite (E []). cbn [bind]. rewrite N.
  cbn. lia.
Qed.
