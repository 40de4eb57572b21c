(** Properties C46, C66: the worst-case weak learner, and the number of rounds that it forces on LPBoost. *)
From Verif Require Import Base Spec Utils UtilsProofs Num WMajority Booster Reach AdaBoost AdaBoostProofs AdaBoostMain AdaBoostMore FrankWolfeProofs CERLPProofs Csc ConicSpec CscProofs LPBoost LPBoostProofs LPBoostFacts BadLearner BadLearnerFacts.
Open Scope R_scope.


(** ** C46: the answer is a hypothesis of largest edge in the pool, of several the last *)

Theorem C46_best_answer :
  forall y n tol nu pool d, bad_new n tol nu = Ok pool -> length d = length y ->
  exists h before after, bad_produce y pool d = Ok h /\ pool = before ++ h :: after /\
    (forall h', In h' pool -> edge_of y d (bad_conf y h') <= edge_of y d (bad_conf y h)) /\
    (forall h', In h' after -> edge_of y d (bad_conf y h') < edge_of y d (bad_conf y h)).
Proof. exact P_C46_best_answer. Qed.
Print Assumptions C46_best_answer.

(** ** values *)

(** ** C46: with a tolerance in [0, 1] the learner can be built for every nonempty sample, has (n+1)/2 + 1 hypotheses,
    and all confidences are in [-1, 1] *)

Theorem C46_can_be_built :
  forall y tol, y <> [] -> 0 <= tol <= 1 ->
  exists pool, bb_build (bb_tolerance (bb_init y) tol) = Ok pool /\ length pool = (Nat.div (length y + 1) 2 + 1)%nat /\ (exists pool', bb_build (bb_init y) = Ok pool').
Proof. exact P_C46_can_be_built. Qed.
Print Assumptions C46_can_be_built.

Theorem C46_confidence_bounded :
  forall y b nu b' pool h row, (forall i, (i < length y)%nat -> pm1 (nth i y 0)) -> 0 <= bb_tol b <= 1 -> bb_n b = length y ->
  bb_nu_set b nu = Ok b' \/ b' = b -> bb_build b' = Ok pool -> In h pool -> (row < length y)%nat -> -1 <= bad_conf y h row <= 1.
Proof. exact P_C46_confidence_bounded. Qed.
Print Assumptions C46_confidence_bounded.

(** the builder accepts any tolerance: with a large one a confidence is 3 *)
Theorem C46_confidence_refuted :
  exists y tol pool h row, is_valid_binary_instance y = Ok tt /\ 0 < tol /\ (row < length y)%nat /\ bb_build (bb_tolerance (bb_init y) tol) = Ok pool /\ In h pool /\ 1 < Rabs (bad_conf y h row).
Proof. exact P_C46_confidence_refuted. Qed.
Print Assumptions C46_confidence_refuted.

(** the setter of nu accepts exactly [1, n); its message says [1, n] *)
Theorem C46_nu_range :
  forall b nu, (exists b', bb_nu_set b nu = Ok b') <-> 1 <= nu < INR (bb_n b).
Proof. exact P_C46_nu_range. Qed.
Print Assumptions C46_nu_range.

Theorem C46_nu_n_refuted :
  forall y, bb_nu_set (bb_init y) (INR (length y)) = Panic AssertFailed.
Proof. exact P_C46_nu_n_refuted. Qed.
Print Assumptions C46_nu_n_refuted.

(** ** LPBoost against this learner *)

(** ** C66: against this weak learner (nu = 1, tolerance in (0, 1/2]) LPBoost with an exact solver makes a number of
    rounds that is linear in the number n of examples: at least n/2 + 1, at most (n+1)/2 + 2 *)

Theorem C66_linear_rounds :
  forall y solve produce (s : @lpboost badh) tol pool, is_valid_binary_instance y = Ok tt -> (forall i, (i < length y)%nat -> pm1 (nth i y 0)) ->
  0 < tol <= 1 / 2 -> bb_build (bb_tolerance (bb_init y) tol) = Ok pool ->
  (forall t d, bad_produce y pool d = Ok (produce t d)) ->
  (forall p, lpb_asks (bad_conf y) solve produce y s p -> solves p (solve p)) ->
  1 <= lb_nu s <= INR (length y) -> 0 <= lb_tol s <= 1 / 2 ->
  forall fuel, (Nat.div (length y + 1) 2 + 1 < fuel)%nat ->
  exists tr f, run (lpboost_booster (bad_conf y) solve produce y) fuel s = Finished tr f /\
    (Nat.div (length y) 2 + 1 <= length tr <= Nat.div (length y + 1) 2 + 2)%nat.
Proof. exact P_C66_linear_rounds. Qed.
Print Assumptions C66_linear_rounds.
