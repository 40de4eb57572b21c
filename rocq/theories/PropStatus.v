(** Property C82: an answer that the solver itself reports as failed is not used. *)
From Verif Require Import Base Spec LPSpec Utils WMajority WMajorityProofs Booster Reach AdaBoost AdaBoostProofs AdaBoostMain AdaBoostMore Csc ConicSpec StatusSpec CscProofs LPBoost EdgeLP ERLP ERLPProofs ERLPFacts SoftBoost MLP SolverFacts StatusFacts.
Open Scope R_scope.


(** ** ERLPBoost: if run() returns, no program was reported as failed, and every distribution shown to the weak learner
    as well as the weights of the returned vote come from answers reported as solved (the first distribution and those
    of rounds in which the solver made no progress are uniform or older ones) - for every solver, whatever it answers *)

Theorem C82_erlpboost_uses_only_solved :
  forall (H : Type) (conf : H -> nat -> R) solve produce y inner (s : @erlp H) fuel tr f,
  (forall p, erlp_asks conf solve produce y inner s p -> length (a_x (solve p)) = length (k_q p)) ->
  run (erlpboost conf solve produce y inner) fuel s = Finished tr f ->
  (forall p, erlp_asks conf solve produce y inner s p -> a_status (solve p) <> OtherStatus) /\
  (forall d, In d tr -> d = repeat (1 / INR (length y)) (length y) \/
     exists p, erlp_asks conf solve produce y inner s p /\ reported_solved (solve p) /\ d = cut_at_zero (skipn 1 (a_x (solve p)))) /\
  (exists p hs, erlp_asks conf solve produce y inner s p /\ reported_solved (solve p) /\
     from_slices (cut_at_zero (skipn (1 + 2 * length y) (a_z (solve p)))) hs = Ok f).
Proof. exact P_C82_erlpboost_uses_only_solved. Qed.
Print Assumptions C82_erlpboost_uses_only_solved.

Example C82_hypotheses_met : exists inner fuel tr f,
  (forall p, erlp_asks erx_conf erx_solve erx_produce y2 inner erx_state p -> length (a_x (erx_solve p)) = length (k_q p)) /\
  run (erlpboost erx_conf erx_solve erx_produce y2 inner) fuel erx_state = Finished tr f.
Proof.
  destruct C35_hypotheses_met as [inner [A [_ [_ [_ [_ [_ [fuel [tr [f [E _]]]]]]]]]]]. exists inner, fuel, tr, f. split; [|exact E].
  intros p Hp. apply A in Hp. destruct Hp as [K _]. apply K.
Qed.

(** ** LPBoost, SoftBoost (so TotalBoost) and MLPBoost never look at the status: with the same numbers reported as
    failures everything they do and return is unchanged, for every solver, sample, weak learner and configuration *)

Theorem C82_status_ignored_refuted :
  forall (H : Type) (conf : H -> nat -> R) solve produce y fuel,
  (forall s, run (lpboost_booster conf (reported_failed solve) produce y) fuel s = run (lpboost_booster conf solve produce y) fuel s) /\
  (forall inner s, run (softboost conf (reported_failed solve) produce y inner) fuel s = run (softboost conf solve produce y inner) fuel s) /\
  (forall eqH noise s, run (mlpboost conf eqH (reported_failed solve) noise produce y) fuel s = run (mlpboost conf eqH solve noise produce y) fuel s).
Proof. exact P_C82_status_ignored_refuted. Qed.
Print Assumptions C82_status_ignored_refuted.

(** so LPBoost returns a classifier although the solver reported a failure for every single program *)
Theorem C82_lpboost_returns_refuted :
  exists solve : conic -> answer, (forall p, a_status (solve p) = OtherStatus) /\
  forall (H : Type) (conf : H -> nat -> R) produce y (s : @lpboost H) (C : list H),
  is_valid_binary_instance y = Ok tt -> 1 <= lb_nu s <= INR (length y) -> 0 <= lb_tol s ->
  (forall h i, In h C -> (i < length y)%nat -> -1 <= nth i y 0 * conf h i <= 1) -> (forall t d, In (produce t d) C) ->
  (forall t d c, is_dist d -> In c C -> edge_of y d (conf c) <= edge_of y d (conf (produce t d))) ->
  exists tr f, run (lpboost_booster conf solve produce y) (length C + 1) s = Finished tr f.
Proof. exact P_C82_lpboost_returns_refuted. Qed.
Print Assumptions C82_lpboost_returns_refuted.
