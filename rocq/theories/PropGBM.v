(** Facts about gradient boosting: C32, C54. *)
From Verif Require Import Base Spec LossSpec WMajority WMajorityProofs Booster AdaBoostProofs AdaBoostMain SmoothBoostFacts Losses GBM GBMFacts.
Open Scope R_scope.


(** ** C54: gradient boosting always stops, after at most 100 calls of the weak learner, and shows it the
    ensemble fitted so far; [best] is any implementation of the loss' coefficient *)

Theorem C54_gbm_protocol :
  forall (H : Type) (pred : H -> nat -> R) (produce : nat -> list R -> H) (y : list R) (best : list R -> list R -> res R) (fuel : nat),
  let o := run (gbm_booster pred produce y best) fuel (gbm_init y) in
  (length (trace_of o) <= 100)%nat /\
  exists cs, chosen (fun y p c => best y p = Ok c) pred y cs (firstn (length cs) (answers produce (trace_of o))) /\
    (length (trace_of o) <= S (length cs))%nat /\
    forall k, (k < length (trace_of o))%nat ->
      nth k (trace_of o) [] = fitted pred y (firstn k cs) (firstn k (answers produce (trace_of o))).
Proof. exact P_C54_gbm_protocol. Qed.
Print Assumptions C54_gbm_protocol.

(** 101 iterations always suffice: run() returns a regressor or panics *)
Theorem C54_gbm_stops :
  forall (H : Type) (pred : H -> nat -> R) (produce : nat -> list R -> H) (y : list R) (best : list R -> list R -> res R) (fuel : nat),
  (101 <= fuel)%nat ->
  exists tr, (exists f, run (gbm_booster pred produce y best) fuel (gbm_init y) = Finished tr f) \/
             (exists p, run (gbm_booster pred produce y best) fuel (gbm_init y) = Crashed tr p).
Proof. exact P_C54_gbm_stops. Qed.
Print Assumptions C54_gbm_stops.

(** ** C32: what GBM returns.  The returned regressor is the ensemble of the coefficients that are positive,
    divided by their sum; so it is the fitted ensemble exactly when it is multiplied by the sum of the
    coefficients, if all of them are positive *)

Theorem C32_gbm_returned_partial :
  forall (H : Type) (pred : H -> nat -> R) (produce : nat -> list R -> H) (y : list R) (best : list R -> list R -> res R) (fuel : nat) tr f,
  run (gbm_booster pred produce y best) fuel (gbm_init y) = Finished tr f ->
  exists cs, let hs := firstn (length cs) (answers produce tr) in
    chosen (fun y p c => best y p = Ok c) pred y cs hs /\
    ((length cs = 100 /\ length tr = 100)%nat \/ (S (length cs) = length tr)%nat) /\
    (forall i, let pos := filter (fun q => Rltb 0 (fst q)) (combine cs hs) in
       0 < rsum (map fst pos) /\ wm_confidence pred f i = vote pred pos i / rsum (map fst pos)) /\
    (Forall (fun c => 0 < c) cs -> forall i, rsum cs * wm_confidence pred f i = vote pred (combine cs hs) i).
Proof. exact P_C32_gbm_returned_partial. Qed.
Print Assumptions C32_gbm_returned_partial.

Theorem C32_gbm_returned_refuted :
  forall y : list R, rsum y <> 0 ->
  let pred := fun (h : nat -> R) i => h i in
  let half_target := fun (_ : nat) (_ : list R) (i : nat) => nth i y 0 / 2 in
  exists tr f, run (gbm_booster pred half_target y (best_coefficient L2)) 101 (gbm_init y) = Finished tr f /\
    (forall k, (k < 100)%nat -> nth k tr [] = map (fun v => INR k * v) y) /\
    (forall i, wm_confidence pred f i = nth i y 0 / 2).
Proof. exact P_C32_gbm_returned_refuted. Qed.
Print Assumptions C32_gbm_returned_refuted.

(** ** C55: GBM does not always return.  A weak learner that fits the residuals perfectly makes run() panic in its
    second round, for either loss: its second answer is the zero hypothesis *)

Theorem C55_gbm_perfect_residual_fit_refuted :
  forall (y : list R) (fuel : nat), y <> [] -> rsum y <> 0 -> (2 <= fuel)%nat ->
  let pred := fun (h : nat -> R) i => h i in
  let residual_fitter := fun (_ : nat) (v : list R) (i : nat) => nth i y 0 - nth i v 0 in
  exists tr, run (gbm_booster pred residual_fitter y (best_coefficient L2)) fuel (gbm_init y) = Crashed tr AssertFailed /\ length tr = 2%nat.
Proof. exact P_C55_gbm_perfect_residual_fit_refuted. Qed.
Print Assumptions C55_gbm_perfect_residual_fit_refuted.

(** it returns if every answer has a coefficient and the first one's is positive *)
Theorem C55_gbm_returns_partial :
  forall (H : Type) (pred : H -> nat -> R) (produce : nat -> list R -> H) (y : list R) (best : list R -> list R -> res R) (fuel : nat),
  (101 <= fuel)%nat ->
  (forall t v, exists c, best y (map (pred (produce t v)) (seq 0 (length y))) = Ok c) ->
  (forall v c, best y (map (pred (produce 1%nat v)) (seq 0 (length y))) = Ok c -> 0 < c) ->
  exists tr f, run (gbm_booster pred produce y best) fuel (gbm_init y) = Finished tr f.
Proof. exact P_C55_gbm_returns_partial. Qed.
Print Assumptions C55_gbm_returns_partial.
