(** Property C72: LPBoost with a solver of finite accuracy. *)
From Verif Require Import Base Spec RegSpec LPSpec NearSpec Utils UtilsProofs WMajority WMajorityProofs Booster Reach AdaBoost AdaBoostProofs AdaBoostMain AdaBoostMore FrankWolfeProofs CERLPProofs Csc ConicSpec CscProofs LPBoost LPBoostProofs LPBoostFacts Solvable SolverFacts NearFacts.
Open Scope R_scope.


(** ** C72: with a solver that answers up to [eps], the smallest margin of the vote that LPBoost returns is still within
    the tolerance plus [eps] (nu n + 2 T + 3) of the best smallest margin over the class, T being the number of rounds;
    the distributions shown to the weak learner are nonnegative and add up to 1 up to [eps] *)

Theorem C72_inexact_solver_margin :
  forall (H : Type) (conf : H -> nat -> R) solve produce y (s : @lpboost H) fuel tr f (cls : H -> Prop) eps,
  0 <= eps < 1 ->
  (forall p, lpb_asks conf solve produce y s p -> nearly_solves eps p (solve p)) ->
  (forall h i, cls h -> (i < length y)%nat -> -1 <= nth i y 0 * conf h i <= 1) -> (forall t d, cls (produce t d)) ->
  (forall t d c, length d = length y -> (forall x, In x d -> 0 <= x) -> cls c -> edge_of y d (conf c) <= edge_of y d (conf (produce t d))) ->
  run (lpboost_booster conf solve produce y) fuel s = Finished tr f ->
  (forall d, In d tr -> length d = length y /\ (forall x, In x d -> 0 <= x) /\ 1 - eps <= rsum d <= 1 + eps) /\
  forall ws hs v v', length ws = length hs -> is_dist ws -> (forall h, In h hs -> cls h) ->
  is_min_of (fun i => (i < length y)%nat) (fun i => nth i y 0 * vote conf (combine ws hs) i) v ->
  is_min_of (fun i => (i < length y)%nat) (fun i => nth i y 0 * wm_confidence conf f i) v' ->
  v - lb_tol s - eps * (lb_nu s * INR (length y) + 2 * INR (length tr) + 3) <= v'.
Proof. exact P_C72_inexact_solver_margin. Qed.
Print Assumptions C72_inexact_solver_margin.

(** ** C72: if moreover the tolerance is at least [eps] (nu n + 6 N + 15), N being the number of hypotheses that the weak
    learner chooses from, LPBoost still stops after at most N + 1 rounds and never panics *)

Theorem C72_inexact_solver_terminates :
  forall (H : Type) (conf : H -> nat -> R) solve produce y (s : @lpboost H) (C : list (nat -> R)) eps,
  0 <= eps < 1 ->
  (forall p, lpb_asks conf solve produce y s p -> nearly_solves eps p (solve p)) ->
  is_valid_binary_instance y = Ok tt -> 1 <= lb_nu s <= INR (length y) ->
  (forall t d i, (i < length y)%nat -> -1 <= nth i y 0 * conf (produce t d) i <= 1) ->
  (forall t d, exists c, In c C /\ forall i, (i < length y)%nat -> conf (produce t d) i = c i) ->
  eps * (lb_nu s * INR (length y) + 6 * INR (length C) + 15) <= lb_tol s -> eps * INR (length C) <= 1 ->
  forall fuel, (length C < fuel)%nat ->
  exists tr f, run (lpboost_booster conf solve produce y) fuel s = Finished tr f /\ (length tr <= length C + 1)%nat.
Proof. exact P_C72_inexact_solver_terminates. Qed.
Print Assumptions C72_inexact_solver_terminates.

(** ** the hypotheses of C72 are met by solvers that are exact and by solvers that are not *)

Theorem C72_inexact_solver_exists :
  forall eps, 0 < eps -> exists solve : conic -> answer, forall (H : Type) (conf : H -> nat -> R) produce y (s : @lpboost H) p,
  lpb_asks conf solve produce y s p -> nearly_solves eps p (solve p) /\ ~ solves p (solve p).
Proof. exact P_C72_inexact_solver_exists. Qed.
Print Assumptions C72_inexact_solver_exists.
