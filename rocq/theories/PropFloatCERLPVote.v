(** * C107: the classifier CERLPBoost returns, in binary64 *)
From Coq Require Import ZArith List Bool Reals Lia Lra Psatz.
From Verif Require Import Base Spec Float FloatSpec FloatProofs FloatFacts FloatCheckFacts FloatProjectSpec FloatProject FloatProjectProofs FloatProjectFacts FloatMedian FloatTree FloatMada FloatMadaProofs FloatAdaSpec FloatAdaFacts FloatRounds FloatRoundsSpec FloatRoundsProofs FloatRoundsFacts FloatFWProofs FrankWolfe FrankWolfeProofs FloatFW FloatFWSpec FloatMedianFacts FloatExpDist FloatExpDistSpec FloatExpDistFacts FloatCERLP FloatCERLPSpec FloatCERLPProofs FloatCERLPFacts FloatVoteFacts FloatCERLPFit FloatCERLPFitFacts FloatCERLPVoteFacts.
Open Scope R_scope.


(** ** C107: when the guaranteed edge exceeds the tolerance by 2^-14, a run that stops on its test with a non-empty vote returns a
    classifier that predicts, in binary64, the label of every training example *)

Theorem C107_fit_training_error :
  forall (H : Type) (conf : H -> nat -> f64) (eqH : H -> H -> bool) (produce : nat -> list f64 -> H) (fexp fln : f64 -> f64) (umax : nat) (tol : f64) (ys : list f64) (g : R) t dist h ws hs,
  accurate_exp fexp -> accurate_ln fln -> precise_ln fln -> signed_labels ys -> bounded_confidences conf -> finite_num tol -> 0 < val tol <= 1 -> (2 <= length ys)%nat ->
  INR (length ys) * (2 * ln (INR (length ys)) / val tol + 66) <= 2 ^ 30 -> ln (INR (length ys)) ^ 2 / val tol ^ 3 <= 2 ^ 19 ->
  (forall t d, near_distribution (length ys) d -> g <= true_edge conf ys d (produce t d)) -> val tol + / 2 ^ 14 <= g ->
  f_cerlp_fit conf eqH produce fexp fln umax tol f1 ys = FStopped t dist h ws hs -> ws <> [] ->
  exists v, f_from_slices ws hs = Ok v /\
  forall k, (k < length ys)%nat -> IZR (f_predict (fun h => conf h k) v) = val (nth k ys f0).
Proof. exact P_C107_fit_training_error. Qed.
Print Assumptions C107_fit_training_error.
