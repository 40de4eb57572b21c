(** Property C10: the number of rounds that AdaBoost's [max_loop] allows. *)
From Verif Require Import Base Spec Utils WMajority WMajorityProofs Booster Reach AdaBoost AdaBoostProofs AdaBoostMain AdaBoostMore AdaBoostFacts AdaLoopFacts.
Open Scope R_scope.


(** ** C10: [max_loop()] rounds do not suffice (its formula lacks a factor 2): four examples, tolerance 3/5, a weak learner whose
    edges are at least 3/5 under every distribution.  AdaBoost runs its max_loop() = 3 rounds and misclassifies example 0 *)

Theorem C10_max_loop_too_small_refuted :
  exists (produce : nat -> list R -> (nat -> R)) (y : list R) (tol : R),
    is_valid_binary_instance y = Ok tt /\ (forall i, (i < length y)%nat -> pm1 (nth i y 0)) /\ 0 < tol < 1 /\
    (forall t d, length d = length y -> is_dist d -> tol <= edge_of y d (produce t d) /\ forall i, (i < length y)%nat -> -1 <= produce t d i <= 1) /\
    let s := ada_tolerance (ada_init y) tol in
    ada_max_loop y s = 3%nat /\
    forall fuel, (3 < fuel)%nat -> exists tr f, run (adaboost (fun h i => h i) produce y) fuel s = Finished tr f /\
      length tr = ada_max_loop y s /\ wm_predict (fun (h : nat -> R) i => h i) f 0 <> nth 0 y 0.
Proof. exact P_C10_max_loop_too_small_refuted. Qed.
Print Assumptions C10_max_loop_too_small_refuted.

(** ** C09: a round whose hypothesis has edge at least 1 ends the run, and the run returns that hypothesis *)

Theorem C09_adaboost_perfect_run :
  forall (H : Type) (conf : H -> nat -> R) (produce : nat -> list R -> H) (y : list R) (s : ada) (fuel k : nat) tr,
  trace_of (run (adaboost conf produce y) fuel s) = tr -> (k < length tr)%nat -> 1 <= nth k (edges conf produce y tr) 0 ->
  length tr = S k /\ exists h, nth_error (answers produce tr) k = Some h /\
  run (adaboost conf produce y) fuel s = Finished tr (mkWM [1] [h]).
Proof. exact P_C09_adaboost_perfect_run. Qed.
Print Assumptions C09_adaboost_perfect_run.
