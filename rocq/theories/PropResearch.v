(** Facts about what a logged run writes and returns: C69, and more about C23. *)
From Verif Require Import Base Spec Utils WMajority WMajorityProofs Booster Logger LoggerFacts AdaBoost AdaBoostV MadaBoost SmoothBoost GraphSep FrankWolfe FrankWolfeProofs CERLP CERLPProofs Csc LPSpec ConicSpec LPBoost LPBoostProofs LPBoostFacts ERLP SoftBoost MLP Research ResearchSpec RoundSpec Reach AdaBoostProofs AdaBoostMain AdaBoostMore AdaBoostVProofs MadaBoostFacts SmoothSpec SmoothBoostFacts Feature Sample Objective ObjectiveFacts BuilderSpec Builders BuildersFacts ResearchFacts.
From Coq Require Import NArith String.
From Verif Require Import Base ResearchFacts.
Open Scope R_scope.


(** ** C69: the log of each booster describes the hypotheses the run goes through and the one it returns *)

Theorem C69_adaboost_log :
  forall (H : Type) (conf : H -> nat -> R) produce y, log_truthful (adaboost conf produce y) ada_current.
Proof. exact P_C69_adaboost_log. Qed.
Print Assumptions C69_adaboost_log.

Theorem C69_adaboostv_log :
  forall (H : Type) (conf : H -> nat -> R) produce y, log_truthful (adaboostv conf produce y) adav_current.
Proof. exact P_C69_adaboostv_log. Qed.
Print Assumptions C69_adaboostv_log.

Theorem C69_madaboost_log :
  forall (H : Type) (conf : H -> nat -> R) produce y, log_truthful (madaboost conf produce y) mada_current.
Proof. exact P_C69_madaboost_log. Qed.
Print Assumptions C69_madaboost_log.

Theorem C69_smoothboost_log :
  forall (H : Type) (conf : H -> nat -> R) produce y umax, log_truthful (smoothboost conf produce y umax) (sb_current y).
Proof. exact P_C69_smoothboost_log. Qed.
Print Assumptions C69_smoothboost_log.

Theorem C69_graph_separation_log :
  forall (H X : Type) (conf : H -> X -> R) row y produce, log_truthful (graphsep conf row y produce) (gs_current conf row y).
Proof. exact P_C69_graph_separation_log. Qed.
Print Assumptions C69_graph_separation_log.

Theorem C69_lpboost_log :
  forall (H : Type) (conf : H -> nat -> R) solve produce y, log_truthful (lpboost_booster conf solve produce y) lpb_current.
Proof. exact P_C69_lpboost_log. Qed.
Print Assumptions C69_lpboost_log.

Theorem C69_erlpboost_log :
  forall (H : Type) (conf : H -> nat -> R) solve produce y inner, log_truthful (erlpboost conf solve produce y inner) erlp_current.
Proof. exact P_C69_erlpboost_log. Qed.
Print Assumptions C69_erlpboost_log.

(** also TotalBoost, which is SoftBoost with nu = 1 *)
Theorem C69_softboost_log :
  forall (H : Type) (conf : H -> nat -> R) solve produce y inner, log_truthful (softboost conf solve produce y inner) (soft_current solve).
Proof. exact P_C69_softboost_log. Qed.
Print Assumptions C69_softboost_log.

Theorem C69_cerlpboost_log :
  forall (H : Type) (conf : H -> nat -> R) eqH produce y, log_truthful (cerlpboost conf eqH produce y) cerlp_current.
Proof. exact P_C69_cerlpboost_log. Qed.
Print Assumptions C69_cerlpboost_log.

Theorem C69_mlpboost_log :
  forall (H : Type) (conf : H -> nat -> R) eqH solve noise produce y, log_truthful (mlpboost conf eqH solve noise produce y) mlp_current.
Proof. exact P_C69_mlpboost_log. Qed.
Print Assumptions C69_mlpboost_log.

(** ** C23: logging changes nothing, for the boosters whose measurements cannot fail.  The measurements of the last round
    need no assumption: if they panic, so does the plain run. *)

Theorem C23_graph_separation_logged :
  forall (H X : Type) (conf : H -> X -> R) row y produce (objective : naive_agg H -> res R) trl tel clock limit every s fuel,
  (forall f, exists v, objective f = Ok v) -> every <> 0%N -> (forall t, (t <= fuel)%nat -> (elapsed clock t <= limit)%N) ->
  fst (log_run (graphsep conf row y produce) (research_line (gs_current conf row y) objective trl tel) clock limit every fuel s) = run (graphsep conf row y produce) fuel s.
Proof. exact P_C23_graph_separation_logged. Qed.
Print Assumptions C23_graph_separation_logged.

(** AdaBoost, if the first answer of the weak learner has a positive edge on the uniform distribution (compare C23_logged_adaboost_refuted) *)
Theorem C23_adaboost_logged :
  forall (H : Type) (conf : H -> nat -> R) produce y (objective : wmajority H -> res R) trl tel clock limit every s fuel,
  (let u := repeat (1 / INR (length y)) (length y) in 0 < edge_of y u (conf (produce 1%nat u))) ->
  (forall f, exists v, objective f = Ok v) -> every <> 0%N -> (forall t, (t <= fuel)%nat -> (elapsed clock t <= limit)%N) ->
  fst (log_run (adaboost conf produce y) (research_line ada_current objective trl tel) clock limit every fuel s) = run (adaboost conf produce y) fuel s.
Proof. exact P_C23_adaboost_logged. Qed.
Print Assumptions C23_adaboost_logged.

(** AdaBoostV with a positive tolerance *)
Theorem C23_adaboostv_logged :
  forall (H : Type) (conf : H -> nat -> R) produce y (objective : wmajority H -> res R) trl tel clock limit every s fuel,
  0 < v_tolerance s ->
  (forall f, exists v, objective f = Ok v) -> every <> 0%N -> (forall t, (t <= fuel)%nat -> (elapsed clock t <= limit)%N) ->
  fst (log_run (adaboostv conf produce y) (research_line adav_current objective trl tel) clock limit every fuel s) = run (adaboostv conf produce y) fuel s.
Proof. exact P_C23_adaboostv_logged. Qed.
Print Assumptions C23_adaboostv_logged.

Theorem C23_madaboost_logged :
  forall (H : Type) (conf : H -> nat -> R) produce y (objective : wmajority H -> res R) trl tel clock limit every s fuel,
  (let u := repeat (1 / INR (length y)) (length y) in 0 < edge_of y u (conf (produce 1%nat u))) ->
  (forall f, exists v, objective f = Ok v) -> every <> 0%N -> (forall t, (t <= fuel)%nat -> (elapsed clock t <= limit)%N) ->
  fst (log_run (madaboost conf produce y) (research_line mada_current objective trl tel) clock limit every fuel s) = run (madaboost conf produce y) fuel s.
Proof. exact P_C23_madaboost_logged. Qed.
Print Assumptions C23_madaboost_logged.

Theorem C23_smoothboost_logged :
  forall (H : Type) (conf : H -> nat -> R) produce y umax (objective : wmajority H -> res R) trl tel clock limit every s fuel,
  0 <= sb_gamma s ->
  (forall f, exists v, objective f = Ok v) -> every <> 0%N -> (forall t, (t <= fuel)%nat -> (elapsed clock t <= limit)%N) ->
  fst (log_run (smoothboost conf produce y umax) (research_line (sb_current y) objective trl tel) clock limit every fuel s) = run (smoothboost conf produce y umax) fuel s.
Proof. exact P_C23_smoothboost_logged. Qed.
Print Assumptions C23_smoothboost_logged.

Theorem C23_lpboost_logged :
  forall (H : Type) (conf : H -> nat -> R) solve produce y (objective : wmajority H -> res R) trl tel clock limit every s fuel,
  (forall p, lpb_asks conf solve produce y s p -> solves p (solve p)) ->
  (forall f, exists v, objective f = Ok v) -> every <> 0%N -> (forall t, (t <= fuel)%nat -> (elapsed clock t <= limit)%N) ->
  fst (log_run (lpboost_booster conf solve produce y) (research_line lpb_current objective trl tel) clock limit every fuel s) = run (lpboost_booster conf solve produce y) fuel s.
Proof. exact P_C23_lpboost_logged. Qed.
Print Assumptions C23_lpboost_logged.

(** ** C70: the objective column of a log of LPBoost.  With the hard-margin objective, the value on line k is the largest
    smallest margin that any convex combination of the first k hypotheses attains; so it never decreases. *)

Theorem C70_lpboost_log_is_optimal :
  forall (H : Type) (conf : H -> nat -> R) solve produce (smp : sample) (trl tel : wmajority H -> R) clock limit every s fuel k v a c t,
  length (s_target smp) = fst (shape smp) -> (0 < snd (shape smp))%nat -> let y := s_target smp in
  (forall p, lpb_asks conf solve produce y s p -> solves p (solve p)) ->
  let logged := log_run (lpboost_booster conf solve produce y) (research_line lpb_current (fun f => hard_margin_eval smp (wm_confidence conf f)) trl tel) clock limit every fuel s in
  nth_error (snd logged) k = Some ((v, a, c), t) ->
  let received := answers produce (firstn (S k) (trace_of (fst logged))) in
  length received = S k /\
  is_max_of (fun m => exists ws, length ws = S k /\ is_dist ws /\ is_min_of (fun i => (i < length y)%nat) (fun i => nth i y 0 * vote conf (combine ws received) i) m) (fun m => m) v.
Proof. exact P_C70_lpboost_log_is_optimal. Qed.
Print Assumptions C70_lpboost_log_is_optimal.

Theorem C70_lpboost_log_never_decreases :
  forall (H : Type) (conf : H -> nat -> R) solve produce (smp : sample) (trl tel : wmajority H -> R) clock limit every s fuel j k v a c t v' a' c' t',
  length (s_target smp) = fst (shape smp) -> (0 < snd (shape smp))%nat -> let y := s_target smp in
  (forall p, lpb_asks conf solve produce y s p -> solves p (solve p)) ->
  let logged := log_run (lpboost_booster conf solve produce y) (research_line lpb_current (fun f => hard_margin_eval smp (wm_confidence conf f)) trl tel) clock limit every fuel s in
  (j <= k)%nat -> nth_error (snd logged) j = Some ((v, a, c), t) -> nth_error (snd logged) k = Some ((v', a', c'), t') -> v <= v'.
Proof. exact P_C70_lpboost_log_never_decreases. Qed.
Print Assumptions C70_lpboost_log_never_decreases.

Example C70_hypotheses_met : exists (clock : nat -> N) (limit every : N) fuel lines tr f,
  s_target ex_rows = y2 /\ length (s_target ex_rows) = fst (shape ex_rows) /\ (0 < snd (shape ex_rows))%nat /\
  (forall p, lpb_asks ex_conf ex_solve ex_produce y2 ex_state p -> solves p (ex_solve p)) /\
  log_run (lpboost_booster ex_conf ex_solve ex_produce y2) (research_line lpb_current (fun f => hard_margin_eval ex_rows (wm_confidence ex_conf f)) (fun _ => 0) (fun _ => 0)) clock limit every fuel ex_state = (Finished tr f, lines) /\
  length lines = 2%nat.
Proof.
  set (b := lpboost_booster ex_conf ex_solve ex_produce y2).
  set (ms := research_line lpb_current (fun f => hard_margin_eval ex_rows (wm_confidence ex_conf f)) (fun _ => 0) (fun _ => 0)).
  destruct ex_run as [f [Ef _]]. fold b in Ef.
  assert (E : fst (log_run b ms (fun _ => 1%N) 100 100 2 ex_state) = Finished [[1 / 2; 1 / 2]; [0; 1]] f).
  { rewrite <- Ef. apply P_C23_lpboost_logged; [exact ex_exact| |discriminate|].
    - intros g. destruct (P_C42_hard_margin ex_rows (wm_confidence ex_conf g) eq_refl ltac:(simpl; lia) ltac:(simpl; lia)) as [v [Ev _]]. exists v. exact Ev.
    - intros t Ht. destruct t as [|[|[|t]]]; cbn; lia. }
  exists (fun _ => 1%N), 100%N, 100%N, 2%nat, (snd (log_run b ms (fun _ => 1%N) 100 100 2 ex_state)), [[1 / 2; 1 / 2]; [0; 1]], f.
  split; [reflexivity|]. split; [reflexivity|]. split; [simpl; lia|]. split; [exact ex_exact|]. split; [rewrite <- E; apply surjective_pairing|].
  destruct (P_C23_one_line_per_round _ _ _ b ms (fun _ => 1%N) 100%N 100%N ex_state 2) as [_ L].
  destruct (L _ _ E) as [k [tr0 [s0 [q [s1 [flow [l [Hr [Eb [Ln [_ [_ [_ [Et _]]]]]]]]]]]]]]. rewrite Ln.
  destruct (lp_round ex_conf ex_solve ex_produce y2 ex_state k tr0 s0 q s1 flow ex_exact Hr Eb) as [g [ws [d [ga [_ [Lq _]]]]]]. rewrite <- Et in Lq. simpl in Lq. congruence.
Qed.
