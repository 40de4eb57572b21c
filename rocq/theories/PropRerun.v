(** Property C84: a booster that has been run can be configured and run again as if it were new. *)
From Verif Require Import Base Utils WMajority Booster Reach AdaBoost AdaBoostV MadaBoost SmoothBoost GraphSep GBM FrankWolfe CERLP Csc LPBoost ERLP SoftBoost MLP Builders RerunSpec AdaBoostMore RerunFacts.
Open Scope R_scope.


(** ** after any run, with whatever weak learner, the booster behaves as before it: every chain of configuration calls
    followed by a run, with any weak learner, gives the same calls, panics and hypothesis as on the state before *)

Theorem C84_adaboost : forall (H : Type) (conf : H -> nat -> R) produce produce' y (s s' : @ada H) calls,
  left_behind (adaboost conf produce y) s s' -> run_alike adaboost_call calls (adaboost conf produce' y) s s'.
Proof. exact P_C84_adaboost. Qed.
Print Assumptions C84_adaboost.

Theorem C84_adaboostv : forall (H : Type) (conf : H -> nat -> R) produce produce' y (s s' : @adav H) calls,
  left_behind (adaboostv conf produce y) s s' -> run_alike adaboostv_call calls (adaboostv conf produce' y) s s'.
Proof. exact P_C84_adaboostv. Qed.
Print Assumptions C84_adaboostv.

Theorem C84_madaboost : forall (H : Type) (conf : H -> nat -> R) produce produce' y (s s' : @mada H) calls,
  left_behind (madaboost conf produce y) s s' -> run_alike madaboost_call calls (madaboost conf produce' y) s s'.
Proof. exact P_C84_madaboost. Qed.
Print Assumptions C84_madaboost.

Theorem C84_smoothboost : forall (H : Type) (conf : H -> nat -> R) produce produce' y umax (s s' : @sb H) calls,
  left_behind (smoothboost conf produce y umax) s s' -> run_alike smoothboost_call calls (smoothboost conf produce' y umax) s s'.
Proof. exact P_C84_smoothboost. Qed.
Print Assumptions C84_smoothboost.

Theorem C84_graph_separation : forall (H X : Type) (conf : H -> X -> R) row y produce produce' (s s' : @gs H) fuel,
  left_behind (graphsep conf row y produce) s s' -> run (graphsep conf row y produce') fuel s' = run (graphsep conf row y produce') fuel s.
Proof. exact P_C84_graph_separation. Qed.
Print Assumptions C84_graph_separation.

Theorem C84_gradient_boosting : forall (H : Type) (pred : H -> nat -> R) produce produce' y best best' (s s' : @gbm H) fuel,
  left_behind (gbm_booster pred produce y best) s s' -> run (gbm_booster pred produce' y best') fuel s' = run (gbm_booster pred produce' y best') fuel s.
Proof. exact P_C84_gradient_boosting. Qed.
Print Assumptions C84_gradient_boosting.

Theorem C84_lpboost : forall (H : Type) (conf : H -> nat -> R) solve solve' produce produce' y (s s' : @lpboost H) calls,
  left_behind (lpboost_booster conf solve produce y) s s' -> run_alike (lpboost_call y) calls (lpboost_booster conf solve' produce' y) s s'.
Proof. exact P_C84_lpboost. Qed.
Print Assumptions C84_lpboost.

Theorem C84_erlpboost : forall (H : Type) (conf : H -> nat -> R) solve solve' produce produce' y inner inner' (s s' : @erlp H) calls,
  left_behind (erlpboost conf solve produce y inner) s s' -> run_alike (erlpboost_call y) calls (erlpboost conf solve' produce' y inner') s s'.
Proof. exact P_C84_erlpboost. Qed.
Print Assumptions C84_erlpboost.

Theorem C84_softboost : forall (H : Type) (conf : H -> nat -> R) solve solve' produce produce' y inner inner' (s s' : @soft H) calls,
  left_behind (softboost conf solve produce y inner) s s' -> run_alike (softboost_call y) calls (softboost conf solve' produce' y inner') s s'.
Proof. exact P_C84_softboost. Qed.
Print Assumptions C84_softboost.

(** TotalBoost, whose only setter is tolerance *)
Theorem C84_totalboost : forall (H : Type) (conf : H -> nat -> R) solve solve' produce produce' y inner inner' (s s' : @soft H) calls,
  left_behind (softboost conf solve produce y inner) s s' -> run_alike totalboost_call calls (softboost conf solve' produce' y inner') s s'.
Proof. exact P_C84_totalboost. Qed.
Print Assumptions C84_totalboost.

Theorem C84_cerlpboost : forall (H : Type) (conf : H -> nat -> R) eqH produce produce' y (s s' : @cerlp H) calls,
  left_behind (cerlpboost conf eqH produce y) s s' -> run_alike (cerlpboost_call y) calls (cerlpboost conf eqH produce' y) s s'.
Proof. exact P_C84_cerlpboost. Qed.
Print Assumptions C84_cerlpboost.

Theorem C84_mlpboost : forall (H : Type) (conf : H -> nat -> R) eqH solve solve' noise noise' produce produce' y (s s' : @mlp H) calls,
  left_behind (mlpboost conf eqH solve noise produce y) s s' -> run_alike (mlpboost_call y) calls (mlpboost conf eqH solve' noise' produce' y) s s'.
Proof. exact P_C84_mlpboost. Qed.
Print Assumptions C84_mlpboost.

(** ** Example: AdaBoost on the labels [1; -1] with a weak learner that is always wrong ends in its first round and leaves weights behind *)

Example C84_hypotheses_met : exists s' : @ada (nat -> R),
  left_behind (adaboost fconf (fun _ _ => h_wrong) y2) (ada_init y2) s' /\ a_weights s' = [-1] /\ a_hyps s' = [h_wrong] /\ s' <> ada_init y2.
Proof.
  assert (Ed : repeat (1 / INR (length y2)) (length y2) = [1 / 2; 1 / 2]).
  { simpl. replace (1 + 1) with 2 by lra. reflexivity. }
  assert (Hp : b_pre (adaboost fconf (fun _ _ => h_wrong) y2) (ada_init y2) =
    Ok (mkAda [1 / 2; 1 / 2] (1 / (INR (length y2) + 1)) [] [] (ada_max_loop y2 (@ada_init (nat -> R) y2)) None)).
  { cbn [b_pre adaboost]. unfold ada_pre. rewrite y2_valid. cbn [bind]. rewrite Ed. reflexivity. }
  assert (HL : (1 <= ada_max_loop y2 (@ada_init (nat -> R) y2))%nat).
  { unfold ada_max_loop. simpl. apply as_usize_ge. simpl INR.
    replace (1 + 1) with 2 by lra. pose proof ln_lt_2.
    replace (ln 2 / (1 / (2 + 1) * (1 / (2 + 1) * 1))) with (9 * ln 2) by field. lra. }
  assert (Ee : inner_product (margins_of_hypothesis fconf y2 h_wrong) [1 / 2; 1 / 2] = -1).
  { unfold inner_product, dot, zipmul, margins_of_hypothesis, fconf, h_wrong. simpl. field. }
  eexists. split; [eapply left_at_end with (t := 1%nat); [apply reach_first, Hp|]|].
  - cbn [b_boost adaboost]. unfold ada_boost. cbn [a_max_iter a_force_quit a_tolerance a_dist].
    destruct (Nat.ltb_spec (ada_max_loop y2 (@ada_init (nat -> R) y2)) 1) as [L|L]; [lia|].
    rewrite Ee. rewrite Rleb_true by (rewrite Rabs_left; lra). unfold rsignum. rewrite Rltb_true by lra. reflexivity.
  - cbn. repeat split. intros E. apply (f_equal a_weights) in E. discriminate E.
Qed.
