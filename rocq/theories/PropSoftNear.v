(** Property C94: SoftBoost and TotalBoost with a solver of finite accuracy. *)
From Verif Require Import Base Spec RegSpec LPSpec NearSpec Utils UtilsProofs UtilsFacts WMajority WMajorityProofs Booster Reach AdaBoost AdaBoostProofs AdaBoostMain AdaBoostMore Num FrankWolfeProofs CERLPProofs Csc ConicSpec CscProofs LPBoost LPBoostProofs LPBoostFacts EdgeLP EdgeProofs ERLP ERLPProofs ERLPFacts ConfigFacts SoftBoost SoftProofs SoftBoostFacts Solvable SolverFacts SolverQPFacts NearFacts SoftNearProofs SoftNearFacts.
Open Scope R_scope.


(** ** C94: if the answer to the final linear program is right up to [eps], the returned vote is a convex combination of the
    hypotheses that were received, and its soft margin is within [eps] (2 n + 5) of the best that any convex combination of
    them has.  The answers to the quadratic programs before do not matter *)

Theorem C94_inexact_best_vote : forall (H : Type) (conf : H -> nat -> R) solve produce y inner (s : @soft H) fuel tr f eps,
  0 <= eps < 1 ->
  (forall hs p, soft_asks_final conf solve produce y inner s hs p -> nearly_solves eps p (solve p)) ->
  (forall h i, In h (answers produce tr) -> (i < length y)%nat -> -1 <= nth i y 0 * conf h i <= 1) ->
  run (softboost conf solve produce y inner) fuel s = Finished tr f ->
  let hs := answers produce tr in
  (exists ws, length ws = length hs /\ is_dist ws /\ forall i, wm_confidence conf f i = vote conf (combine ws hs) i) /\
  forall v, soft_margin (so_nu s) y (wm_confidence conf f) v ->
  forall ws v', length ws = length hs -> is_dist ws -> soft_margin (so_nu s) y (vote conf (combine ws hs)) v' ->
  v' - eps * (2 * INR (length y) + 5) <= v.
Proof. exact P_C94_inexact_best_vote. Qed.
Print Assumptions C94_inexact_best_vote.

(** ** C94: if the answers to the quadratic programs are right up to [eps] as well, the run ends within max_loop rounds
    without a panic, and every distribution that is shown to the weak learner is positive and adds up to 1 up to [eps] *)

Theorem C94_inexact_terminates : forall (H : Type) (conf : H -> nat -> R) solve produce y inner (s : @soft H) eps,
  0 <= eps < 1 ->
  (forall p, soft_asks conf solve produce y inner s p -> nearly_solves eps p (solve p)) ->
  (forall hs p, soft_asks_final conf solve produce y inner s hs p -> nearly_solves eps p (solve p)) ->
  is_valid_binary_instance y = Ok tt -> so_tol s <> 0 -> 1 <= so_nu s < INR (length y) ->
  (1000000001 + INR (length y)) * 1000000000 + 1 < INR inner ->
  forall fuel, (soft_max_loop (so_tol s) (so_nu s) (length y) < fuel)%nat ->
  exists tr f, run (softboost conf solve produce y inner) fuel s = Finished tr f /\
    (1 <= length tr <= soft_max_loop (so_tol s) (so_nu s) (length y))%nat /\
    forall d, In d tr -> length d = length y /\ (forall x, In x d -> 0 < x) /\ 1 - eps <= rsum d <= 1 + eps.
Proof. exact P_C94_inexact_terminates. Qed.
Print Assumptions C94_inexact_terminates.

(** ** the hypotheses of C94 are met, by a solver that is not exact: it reports every objective [e] too large *)

Example C94_hypotheses_met : forall eps, 0 < eps < 1 -> exists (conf : bool -> nat -> R) solve produce y inner (s : @soft bool) fuel tr f,
  is_valid_binary_instance y = Ok tt /\ 1 <= so_nu s < INR (length y) /\
  (forall p, soft_asks conf solve produce y inner s p -> nearly_solves eps p (solve p)) /\
  (forall hs p, soft_asks_final conf solve produce y inner s hs p -> nearly_solves eps p (solve p) /\ ~ solves p (solve p)) /\
  (1000000001 + INR (length y)) * 1000000000 + 1 < INR inner /\
  (forall h i, (i < length y)%nat -> -1 <= nth i y 0 * conf h i <= 1) /\
  run (softboost conf solve produce y inner) fuel s = Finished tr f /\ (1 <= length tr)%nat.
Proof. exact ex_C94. Qed.
