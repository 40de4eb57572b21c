(** Property C85: the settings of gradient boosting. *)
From Verif Require Import Base Spec Utils WMajority Booster Losses LossSpec LossFacts GBM GBMFacts AdaBoost AdaBoostMore BuilderSpec Builders GBMSet GBMSetFacts.
Open Scope R_scope.


(** ** every chain of settings succeeds and the last loss counts, in the run too: the coefficients are that loss's;
    the number of rounds is at most 100 whatever was set, and the run is the same for every tolerance *)

Theorem C85_settings_partial :
  forall (H : Type) (pred : H -> nat -> R) (produce : nat -> list R -> H) (y : list R) (loss : gbm_loss) (calls : list gbm_call),
  exists b, apply_calls gbm_config_call (gbm_new y loss) calls = Ok b /\
    gf_loss b = last_set gbm_pick_loss loss calls /\ gf_tol b = last_set gbm_pick_tol 0 calls /\
    forall fuel, let o := gbm_run pred produce y b fuel in
      (length (trace_of o) <= 100)%nat /\
      (exists cs, chosen (fun y p c => best_coefficient (last_set gbm_pick_loss loss calls) y p = Ok c) pred y cs (firstn (length cs) (answers produce (trace_of o))) /\
         (length (trace_of o) <= S (length cs))%nat) /\
      (forall calls' b', apply_calls gbm_config_call (gbm_new y loss) calls' = Ok b' ->
         last_set gbm_pick_loss loss calls' = last_set gbm_pick_loss loss calls -> gbm_run pred produce y b' fuel = o).
Proof. exact P_C85_settings_partial. Qed.
Print Assumptions C85_settings_partial.

(** ** the documentation says that max_loop() is the number of rounds that reaches the tolerance, 100 by default, and that tolerance sets it.
    For every training set of at least four rows whose targets do not sum to zero: without settings max_loop() is usize::MAX, not 100;
    a tolerance of ln(n) asks for no round (max_loop() = 0) (n is at least 4), a small one for more than 100, and in all cases
    the run with the squared loss makes exactly 100 rounds with some weak learner *)

Theorem C85_tolerance_refuted :
  forall (umax : nat) (y : list R), (100 < umax)%nat -> (4 <= length y)%nat -> rsum y <> 0 ->
  let pred := fun (h : nat -> R) i => h i in
  exists produce : nat -> list R -> nat -> R,
    gbm_max_loop umax y (@gbm_new (nat -> R) y L2) = umax /\
    (exists b, apply_calls gbm_config_call (gbm_new y L2) [GTolerance (ln (INR (length y)))] = Ok b /\ gbm_max_loop umax y b = 0%nat /\
       exists tr f, gbm_run pred produce y b 101 = Finished tr f /\ length tr = 100%nat) /\
    (exists b, apply_calls gbm_config_call (gbm_new y L2) [GTolerance (1 / 11)] = Ok b /\ (100 < gbm_max_loop umax y b)%nat /\
       exists tr f, gbm_run pred produce y b 101 = Finished tr f /\ length tr = 100%nat).
Proof. exact P_C85_tolerance_refuted. Qed.
Print Assumptions C85_tolerance_refuted.

(** ** Example: the hypotheses of the refutation hold for four targets *)

Example C85_hypotheses_met : (4 <= length [1; 2; 3; 4])%nat /\ rsum [1; 2; 3; 4] <> 0.
Proof. split; [simpl; lia|simpl; lra]. Qed.
