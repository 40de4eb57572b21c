(** Exact solvers exist: every program that LPBoost poses has an exact answer, so the hypothesis of C34, C63 and C66
    that the solver is exact can be met for every sample, every weak learner and every accepted nu. *)
From Verif Require Import Base Spec RegSpec LPSpec Utils UtilsProofs WMajority WMajorityProofs Booster Reach AdaBoost AdaBoostProofs AdaBoostMain AdaBoostMore FrankWolfeProofs CERLPProofs Csc ConicSpec CscProofs Num Duality Solvable LPBoost LPBoostProofs LPBoostFacts BadLearner BadLearnerFacts SolverFacts.
Open Scope R_scope.


(** ** C34: one solver is exact on every program that any run of LPBoost poses *)

Theorem C34_exact_solver_exists :
  exists solve : conic -> answer, forall (H : Type) (conf : H -> nat -> R) produce y (s : @lpboost H) p,
  lpb_asks conf solve produce y s p -> solves p (solve p).
Proof. exact P_C34_exact_solver_exists. Qed.
Print Assumptions C34_exact_solver_exists.

(** ** C34, C63 together, with the hypothesis on the solver discharged: for every sample, every nu in [1, n], every
    tolerance tol >= 0 and every weak learner that answers with the hypothesis of largest edge of a finite class with
    margins in [-1, 1], there is a solver with which LPBoost stops within N + 1 rounds with a vote whose smallest
    margin is within tol of the best possible *)

Theorem C34_end_to_end :
  exists solve : conic -> answer, forall (H : Type) (conf : H -> nat -> R) produce y (s : @lpboost H) (C : list H),
  is_valid_binary_instance y = Ok tt -> 1 <= lb_nu s <= INR (length y) -> 0 <= lb_tol s ->
  (forall h i, In h C -> (i < length y)%nat -> -1 <= nth i y 0 * conf h i <= 1) ->
  (forall t d, In (produce t d) C) -> (forall t d c, is_dist d -> In c C -> edge_of y d (conf c) <= edge_of y d (conf (produce t d))) ->
  exists tr f, run (lpboost_booster conf solve produce y) (length C + 1) s = Finished tr f /\ (length tr <= length C + 1)%nat /\
    forall ws hs v v', length ws = length hs -> is_dist ws -> (forall h, In h hs -> In h C) ->
    is_min_of (fun i => (i < length y)%nat) (fun i => nth i y 0 * vote conf (combine ws hs) i) v ->
    is_min_of (fun i => (i < length y)%nat) (fun i => nth i y 0 * wm_confidence conf f i) v' -> v - lb_tol s <= v'.
Proof. exact P_C34_end_to_end. Qed.
Print Assumptions C34_end_to_end.

(** ** C34 in the user's terms, with an exact solver: LPBoost as created, or with the tolerance and the capping set through
    the builder.  The default tolerance is one over the number of examples *)

Theorem C34_configured :
  exists solve : conic -> answer, forall (H : Type) (conf : H -> nat -> R) produce y (s : @lpboost H) (C : list H) tol,
  is_valid_binary_instance y = Ok tt ->
  (s = lpb_init y /\ tol = 1 / INR (length y) \/ s = lpb_tolerance (lpb_init y) tol \/ exists nu, lpb_nu y (lpb_tolerance (lpb_init y) tol) nu = Ok s) ->
  0 <= tol ->
  (forall h i, In h C -> (i < length y)%nat -> -1 <= nth i y 0 * conf h i <= 1) ->
  (forall t d, In (produce t d) C) -> (forall t d c, is_dist d -> In c C -> edge_of y d (conf c) <= edge_of y d (conf (produce t d))) ->
  exists tr f, run (lpboost_booster conf solve produce y) (length C + 1) s = Finished tr f /\ (length tr <= length C + 1)%nat /\
    forall ws hs v v', length ws = length hs -> is_dist ws -> (forall h, In h hs -> In h C) ->
    is_min_of (fun i => (i < length y)%nat) (fun i => nth i y 0 * vote conf (combine ws hs) i) v ->
    is_min_of (fun i => (i < length y)%nat) (fun i => nth i y 0 * wm_confidence conf f i) v' -> v - tol <= v'.
Proof. exact P_C34_configured. Qed.
Print Assumptions C34_configured.

(** ** C66 with the hypothesis on the solver discharged: for every number n >= 2 of examples there are a sample of that
    size, a weak learner and an exact solver for which LPBoost makes at least n/2 + 1 rounds *)

Theorem C66_lower_bound_attained :
  exists solve : conic -> answer, forall y tol nu, is_valid_binary_instance y = Ok tt -> (forall i, (i < length y)%nat -> pm1 (nth i y 0)) ->
  0 <= tol <= 1 / 2 -> 1 <= nu <= INR (length y) ->
  exists pool produce s, bb_build (bb_tolerance (bb_init y) (1 / 2)) = Ok pool /\ (forall t d, bad_produce y pool d = Ok (produce t d)) /\
    lb_tol s = tol /\ lb_nu s = nu /\
    (forall p, lpb_asks (bad_conf y) solve produce y s p -> solves p (solve p)) /\
    exists fuel tr f, run (lpboost_booster (bad_conf y) solve produce y) fuel s = Finished tr f /\ (Nat.div (length y) 2 + 1 <= length tr)%nat.
Proof. exact P_C66_lower_bound_attained. Qed.
Print Assumptions C66_lower_bound_attained.

Example C66_instances : forall k, let y := 1 :: repeat (-1) (S k) in is_valid_binary_instance y = Ok tt /\ length y = (k + 2)%nat /\ (forall i, (i < length y)%nat -> pm1 (nth i y 0)).
Proof.
  intros k y. split; [|split].
  - apply valid_pm1; unfold y; [|left; reflexivity|right; simpl; auto]. intros v [<-|Hv]; [auto|]. apply repeat_spec in Hv. auto.
  - unfold y. simpl. rewrite repeat_length. lia.
  - intros i Hi. unfold y in *. destruct i as [|i]; [left; reflexivity|]. right. cbn [nth]. simpl in Hi. rewrite repeat_length in Hi. change (nth i (repeat (-1) (S k)) 0 = -1). apply nth_repeat_lt. lia.
Qed.
