(** Property C80: the soft margin of the vote that ERLPBoost returns. *)
From Verif Require Import Base Spec RegSpec LPSpec Utils UtilsProofs UtilsFacts WMajority WMajorityProofs Booster Reach AdaBoost AdaBoostProofs AdaBoostMain AdaBoostMore Num BinsProofs FrankWolfeProofs CERLPProofs Csc ConicSpec CscProofs LPBoost LPBoostProofs LPBoostFacts EdgeLP EdgeProofs ERLP ERLPProofs ERLPFacts Duality Solvable SolverFacts QPExist SolverQPFacts ERLPSoftFacts.
Open Scope R_scope.


(** ** C80: an exact solver and a weak learner that always returns a hypothesis of largest edge do not make ERLPBoost's answer
    good: it stops early, every edge it received is at least 0, the vote with weights 1/2, 1/2 has soft margin 0, and the
    vote it returns has soft margin -1/2 although the tolerance is 1/20 *)

Theorem C80_soft_margin_refuted :
  exists (conf : bool -> nat -> R) (produce : nat -> list R -> bool) (y : list R) (s : @erlp bool),
    is_valid_binary_instance y = Ok tt /\ er_nu s = 1 /\ 2 * er_half_tol s = 1 / 20 /\
    (forall h i, (i < length y)%nat -> -1 <= nth i y 0 * conf h i <= 1) /\
    (forall t d h, edge_of y d (conf h) <= edge_of y d (conf (produce t d))) /\
    soft_margin (er_nu s) y (vote conf [(1 / 2, true); (1 / 2, false)]) 0 /\
    (exists solve, forall inner p, erlp_asks conf solve produce y inner s p -> solves p (solve p)) /\
    forall solve inner fuel, (3 <= inner)%nat -> (3 <= fuel)%nat ->
      (forall p, erlp_asks conf solve produce y inner s p -> solves p (solve p)) ->
      exists tr f, run (erlpboost conf solve produce y inner) fuel s = Finished tr f /\
        (length tr < erlp_max_loop (er_half_tol s) (er_nu s) (length y))%nat /\
        (forall d, In d tr -> capped (er_nu s) y d) /\ (forall e, In e (edges conf produce y tr) -> 0 <= e) /\
        incl [true; false] (answers produce tr) /\
        soft_margin (er_nu s) y (wm_confidence conf f) (-1 / 2).
Proof. exact P_C80_soft_margin_refuted. Qed.
Print Assumptions C80_soft_margin_refuted.

(** ** C80, what holds: with nu = n (the soft margin is the mean margin) the returned vote does reach every level that all
    received edges reach, minus the tolerance; for smaller nu this is known at the last distribution only (C35) *)

Theorem C80_mean_margin : forall (H : Type) (conf : H -> nat -> R) solve produce y inner (s : @erlp H) fuel tr f g,
  (forall p, erlp_asks conf solve produce y inner s p -> solves p (solve p)) ->
  (forall h i, (i < length y)%nat -> -1 <= nth i y 0 * conf h i <= 1) ->
  (1001 + ln (INR (length y)) / erlp_eta (er_half_tol s) (er_nu s) (length y)) * 1000000000 + 1 < INR inner ->
  er_nu s = INR (length y) ->
  run (erlpboost conf solve produce y inner) fuel s = Finished tr f ->
  (length tr < erlp_max_loop (er_half_tol s) (er_nu s) (length y))%nat ->
  (forall e, In e (edges conf produce y tr) -> g <= e) ->
  exists v, soft_margin (er_nu s) y (wm_confidence conf f) v /\ g - 2 * er_half_tol s <= v.
Proof. exact P_C80_mean_margin. Qed.
Print Assumptions C80_mean_margin.

(** ** the hypotheses of [C80_mean_margin] are met: the run of [C35_hypotheses_met] *)

Example C80_hypotheses_met : exists inner, let y := y2 in let s := erx_state in
  (forall p, erlp_asks erx_conf erx_solve erx_produce y inner s p -> solves p (erx_solve p)) /\
  (forall h i, (i < length y)%nat -> -1 <= nth i y 0 * erx_conf h i <= 1) /\ er_nu s = INR (length y) /\
  (1001 + ln (INR (length y)) / erlp_eta (er_half_tol s) (er_nu s) (length y)) * 1000000000 + 1 < INR inner /\
  exists fuel tr f, run (erlpboost erx_conf erx_solve erx_produce y inner) fuel s = Finished tr f /\
    (length tr < erlp_max_loop (er_half_tol s) (er_nu s) (length y))%nat.
Proof.
  destruct C35_hypotheses_met as [inner [A [B [_ [_ [_ [C [fuel [tr [f [D _]]]]]]]]]]]. exists inner. cbv zeta. split; [exact A|]. split; [exact B|]. split; [cbn; lra|]. split; [exact C|]. exists fuel, tr, f. split; [exact D|].
  cbn [erx_state er_half_tol er_nu] in C |- *. rewrite erx_eta in C. pose proof (erx_short inner C fuel) as S. rewrite D in S.
  assert (3 <= erlp_max_loop (1 / 10) 2 (length y2))%nat; [|lia]. unfold erlp_max_loop. match goal with |- context [ceil_usize ?x] => pose proof (ceil_usize_ge x) as Cu end.
  match type of Cu with Rmax ?a ?c <= _ => pose proof (Rmax_l a c) as M; set (mx := Rmax a c) in *; clearbody mx end. apply INR_le. replace (INR 3) with 3 by (simpl; lra). lra.
Qed.
