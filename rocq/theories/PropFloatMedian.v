(** Property C88: the coefficient of the absolute loss in binary64. *)
From Coq Require Import ZArith List Bool Reals Lia Lra Psatz Permutation Sorted.
From Verif Require Import Base SortLib Float FloatSpec FloatProofs FloatFacts FloatCheckFacts FloatMedian FloatMedianSpec FloatMedianFacts.
Open Scope R_scope.


(** ** for all finite targets and predictions: if some prediction is not zero the coefficient is found, and it is the (rounded) quotient
    target / prediction of one of those rows; neither overflow of the weights nor rounding leads to the unreachable!() at the end.
    If every prediction is zero the call panics *)

Theorem C88_always_found :
  forall targets predictions : list f64, finite_all targets -> finite_all predictions -> length targets = length predictions ->
  ((exists p, In p predictions /\ val p <> 0) ->
     exists i, (i < length targets)%nat /\ val (nth i predictions f0) <> 0 /\
       f_best_l1 targets predictions = Ok (fdiv (nth i targets f0) (nth i predictions f0))) /\
  ((forall p, In p predictions -> val p = 0) -> f_best_l1 targets predictions = Panic AssertFailed).
Proof. exact P_C88_always_found. Qed.
Print Assumptions C88_always_found.

(** ** order of the computed quotients *)

(** ** the coefficient is a weighted median of the computed quotients up to the rounding of the sums: at most (1/2 + 6 n 2^-53) of the total
    weight lies strictly on either side of it (n rows, at most 2^40; total weight neither overflowing nor below 2^-900) *)

Theorem C88_near_median :
  forall (targets predictions : list f64) (c : f64), finite_all targets -> finite_all predictions -> length targets = length predictions ->
  let n := INR (length predictions) in let W := weight_where (fun _ => true) targets predictions in
  n <= 2 ^ 40 -> / 2 ^ 900 <= W -> W < 2 ^ 1023 -> f_best_l1 targets predictions = Ok c ->
  weight_where (fun q => flt q c) targets predictions <= (1 / 2 + 6 * n * uu) * W /\
  weight_where (fun q => flt c q) targets predictions <= (1 / 2 + 6 * n * uu) * W.
Proof. exact P_C88_near_median. Qed.
Print Assumptions C88_near_median.

(** ** Example: two rows with targets 1, 1 and predictions 1, 1 *)

Example C88_hypotheses_met : finite_all [f1; f1] /\ (exists p, In p [f1; f1] /\ val p <> 0) /\ / 2 ^ 900 <= weight_where (fun _ => true) [f1; f1] [f1; f1] < 2 ^ 1023.
Proof.
  destruct f1_spec as [F V]. split; [intros x [<-|[<-|[]]]; exact F|]. split; [exists f1; split; [left; reflexivity|rewrite V; lra]|].
  unfold weight_where. cbn [combine filter map rsum snd]. rewrite V, Rabs_R1. pose proof big1023. split.
  - apply Rle_trans with 1; [rewrite <- Rinv_1; apply Rinv_le_contravar; [lra|apply pow_R1_Rle; lra]|lra].
  - generalize dependent (2 ^ 1023). intros. lra.
Qed.
