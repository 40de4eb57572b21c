(** Property C82: an answer that the solver itself reports as failed is not used. *)
From Verif Require Import Base Spec LPSpec Utils WMajority WMajorityProofs Booster Reach AdaBoost AdaBoostProofs AdaBoostMain AdaBoostMore Csc ConicSpec StatusSpec
  CscProofs LPBoost EdgeLP ERLP ERLPProofs ERLPFacts SoftBoost MLP SolverFacts.
Open Scope R_scope.

(** a run that returns got through every round it entered *)
Lemma finished_round {St Out} (b : booster St Out) s0 fuel tr o t s :
  run b fuel s0 = Finished tr o -> reach b s0 t s ->
  (exists fuel' tr', run_from b fuel' t tr' s = Finished tr o) /\ exists q s' c, b_boost b t s = (q, Ok (s', c)).
Proof.
  intros E R. assert (F : exists fuel' tr', run_from b fuel' t tr' s = Finished tr o).
  { induction R as [s1 P|t s1 q s' R IH B].
    - unfold run in E. rewrite P in E. eauto.
    - destruct IH as [[|fuel'] [tr' F]]; cbn [run_from] in F; [discriminate|]. rewrite B in F. eauto. }
  split; [exact F|]. destruct F as [[|fuel'] [tr' F]]; cbn [run_from] in F; [discriminate|].
  destruct (b_boost b t s) as [q [[s' c]|p]]; [eauto|discriminate].
Qed.

Section ER.
  Context {H : Type}.
  Variables (conf : H -> nat -> R) (solve : conic -> answer) (produce : nat -> list R -> H) (y : list R) (inner : nat) (s0 : @erlp H).
  Let b := erlpboost conf solve produce y inner.

  Lemma loop_from_turn fuel m0 old0 m' m old : qm_loop solve fuel m0 old0 = Ok m' -> qm_turns solve m0 old0 m old ->
    exists fuel', qm_loop solve fuel' m old = Ok m'.
  Proof.
    intros E Tu. induction Tu as [|m old p m1 Tu IH Ep Es Et Ea]; [eauto|]. destruct IH as [[|f'] F]; cbn [qm_loop] in F; [discriminate|].
    rewrite Ep in F. cbn [bind] in F. rewrite Es in F. cbn [assert_ bind] in F. rewrite Et, Ea in F. cbn [bind] in F. eauto.
  Qed.

  (** a round that gets past the criterion ends well only if every program in it was accepted *)
  Lemma round_accepts t s q s' c m m1 old p : b_boost b t s = (q, Ok (s', c)) -> er_model s = Some m -> (t <= er_max_iter s)%nat ->
    er_stops conf y s (produce t (er_dist s)) = false ->
    qm_turns solve (qm_start conf y m (produce t (er_dist s))) 1000 m1 old -> qm_program m1 = Ok p -> a_status (solve p) <> OtherStatus.
  Proof.
    intros B Em Ht Es Tu Ep. change (b_boost b t s) with (erlp_boost conf solve produce y inner t s) in B. unfold erlp_boost in B.
    destruct (Nat.ltb_spec (er_max_iter s) t); [lia|]. rewrite Es, Em in B.
    destruct (qm_update conf solve y inner m (produce t (er_dist s))) as [m'|] eqn:Eu; cbn [bind] in B; [|discriminate].
    unfold qm_update in Eu. destruct (loop_from_turn _ _ _ _ _ _ Eu Tu) as [[|f'] F]; cbn [qm_loop] in F; [discriminate|]. rewrite Ep in F. cbn [bind] in F.
    intros St. rewrite St in F. cbn [status_accepted assert_ bind] in F. discriminate.
  Qed.

  (** where a distribution and the weights of the model come from *)
  Definition from_asked (d : list R) : Prop := exists p, erlp_asks conf solve produce y inner s0 p /\ reported_solved (solve p) /\ d = cut_at_zero (skipn 1 (a_x (solve p))).
  Definition w_asked (w : list R) : Prop := exists p, erlp_asks conf solve produce y inner s0 p /\ reported_solved (solve p) /\ w = cut_at_zero (skipn (1 + 2 * length y) (a_z (solve p))).

  Definition OInv (s : @erlp H) : Prop :=
    (er_dist s = repeat (1 / INR (length y)) (length y) \/ from_asked (er_dist s)) /\
    exists m, er_model s = Some m /\ qm_n m = length y /\ length (qm_dist m) = length y /\ (qm_weights m = [] \/ w_asked (qm_weights m)).

  Hypothesis Hlen : forall p, erlp_asks conf solve produce y inner s0 p -> length (a_x (solve p)) = length (k_q p).

  Lemma program_q m p : qm_program m = Ok p -> length (k_q p) = S (length (qm_dist m)).
  Proof.
    unfold qm_program, qm_linear, solver_new. destruct (gamma_matrix _ _ _ _) as [A|]; cbn [bind]; [|discriminate]. destruct (forallb _ (qm_dist m)); cbn [assert_ bind]; [|discriminate].
    destruct (qm_quad m) as [Q|]; cbn [bind]; [|discriminate]. intros E.
    repeat match type of E with context [assert_ ?c] => destruct c; cbn [assert_ bind] in E; [|discriminate] end. injection E as <-. cbn [k_q length]. rewrite map_length. reflexivity.
  Qed.

  Lemma oinv_reach t s : reach b s0 t s -> OInv s.
  Proof.
    intros R. pose proof R as R0. induction R as [s E|t s q s' R IH B].
    - pose proof (erlp_pre_ok y s0 s E) as [_ [_ [_ [_ ->]]]]. split; [left; reflexivity|]. eexists. split; [reflexivity|]. cbn. split; [reflexivity|]. split; [apply repeat_length|left; reflexivity].
    - specialize (IH R). destruct IH as [ID [m [Em [En [El IW]]]]]. pose proof B as B0. change (b_boost b t s) with (erlp_boost conf solve produce y inner t s) in B. unfold erlp_boost in B.
      destruct (Nat.ltb_spec (er_max_iter s) t) as [L|L]; [discriminate|]. destruct (er_stops conf y s (produce t (er_dist s))) eqn:Es; [discriminate|]. rewrite Em in B.
      destruct (qm_update conf solve y inner m (produce t (er_dist s))) as [m'|] eqn:Eu; cbn [bind] in B; [|discriminate].
      destruct (er_new_gamma_star _ _ _ _ _) as [gs|]; cbn [bind] in B; [|discriminate]. injection B as _ <-.
      unfold qm_update in Eu. destruct (loop_turns solve (qm_start conf y m (produce t (er_dist s))) 1000 _ _ _ _ (qm_first solve _ _) Eu) as [old' Tu].
      assert (G : forall m1 old1, qm_turns solve (qm_start conf y m (produce t (er_dist s))) 1000 m1 old1 ->
        (qm_dist m1 = repeat (1 / INR (length y)) (length y) \/ from_asked (qm_dist m1)) /\ qm_n m1 = length y /\ length (qm_dist m1) = length y /\ (qm_weights m1 = [] \/ w_asked (qm_weights m1))).
      { intros m1 old1 T1. induction T1 as [|m1 old1 p m2 T1 IH Ep Ea Et Ec].
        - cbn [qm_start qm_dist qm_n qm_weights]. rewrite En, El. split; [left; reflexivity|]. split; [reflexivity|]. split; [apply repeat_length|exact IW].
        - destruct IH as [_ [I2 [I3 _]]].
          assert (A : erlp_asks conf solve produce y inner s0 p) by (exists t, s, m, m1, old1; repeat (split; [assumption|]); exact Ep).
          assert (RS : reported_solved (solve p)).
          { unfold reported_solved. destruct (a_status (solve p)); auto; cbn in Ea, Et; rewrite ?orb_true_r in Et; discriminate. }
          unfold qm_accept, slice_from in Ec. destruct (Nat.leb 1 _) eqn:L1; cbn [bind] in Ec; [|discriminate]. destruct (Nat.leb _ _) eqn:L2 in Ec; cbn [bind] in Ec; [|discriminate].
          assert (X : forall a c : qpmodel, Ok a = Ok c -> a = c) by congruence. apply X in Ec. subst m2. cbn [qm_dist qm_n qm_weights].
          split; [right; exists p; auto|]. split; [exact I2|]. split.
          + unfold cut_at_zero. rewrite map_length, skipn_length, (Hlen _ A), (program_q _ _ Ep). lia.
          + right. exists p. rewrite <- I2. auto. }
      destruct (G _ _ Tu) as [G1 [G2 [G3 G4]]]. split; [exact G1|]. exists m'. auto.
  Qed.
End ER.

(** ** ERLPBoost: if run() returns, no program was reported as failed, and every distribution shown to the weak learner
    as well as the weights of the returned vote come from answers reported as solved (the first distribution and those
    of rounds in which the solver made no progress are uniform or older ones) - for every solver, whatever it answers *)
Lemma P_C82_erlpboost_uses_only_solved :
  forall (H : Type) (conf : H -> nat -> R) solve produce y inner (s : @erlp H) fuel tr f,
  (forall p, erlp_asks conf solve produce y inner s p -> length (a_x (solve p)) = length (k_q p)) ->
  run (erlpboost conf solve produce y inner) fuel s = Finished tr f ->
  (forall p, erlp_asks conf solve produce y inner s p -> a_status (solve p) <> OtherStatus) /\
  (forall d, In d tr -> d = repeat (1 / INR (length y)) (length y) \/
     exists p, erlp_asks conf solve produce y inner s p /\ reported_solved (solve p) /\ d = cut_at_zero (skipn 1 (a_x (solve p)))) /\
  (exists p hs, erlp_asks conf solve produce y inner s p /\ reported_solved (solve p) /\
     from_slices (cut_at_zero (skipn (1 + 2 * length y) (a_z (solve p)))) hs = Ok f).
Proof.
  intros H conf solve produce y inner s fuel tr f Hlen E. split; [|].
  - intros p [t [s1 [m [m1 [old [R [Em [Ht [Es [Tu Ep]]]]]]]]]]. destruct (finished_round _ _ _ _ _ _ _ E R) as [_ [q [s' [c B]]]].
    apply (round_accepts conf solve produce y inner t s1 q s' c m m1 old p B Em Ht Es Tu Ep).
  - pose proof (run_reach (erlpboost conf solve produce y inner) s
      (fun t s1 tr1 => forall d, In d tr1 -> d = repeat (1 / INR (length y)) (length y) \/ from_asked conf solve produce y inner s d)
      (fun o => match o with Finished tr1 f1 => (forall d, In d tr1 -> d = repeat (1 / INR (length y)) (length y) \/ from_asked conf solve produce y inner s d) /\
          exists p hs, erlp_asks conf solve produce y inner s p /\ reported_solved (solve p) /\ from_slices (cut_at_zero (skipn (1 + 2 * length y) (a_z (solve p)))) hs = Ok f1 | _ => True end)) as G.
    specialize (G ltac:(intros s1 _ d []) ).
    assert (St : forall (t : nat) (s1 : erlp) (tr1 : trace), reach (erlpboost conf solve produce y inner) s t s1 ->
      (forall d, In d tr1 -> d = repeat (1 / INR (length y)) (length y) \/ from_asked conf solve produce y inner s d) ->
      forall d, In d (tr1 ++ fst (b_boost (erlpboost conf solve produce y inner) t s1)) -> d = repeat (1 / INR (length y)) (length y) \/ from_asked conf solve produce y inner s d).
    { intros t s1 tr1 R I d Hd. apply in_app_or in Hd. destruct Hd as [Hd|Hd]; [apply I, Hd|]. pose proof (oinv_reach conf solve produce y inner s Hlen t s1 R) as [O _].
      cbn [b_boost erlpboost] in Hd. unfold erlp_boost in Hd. destruct (Nat.ltb _ _); [destruct Hd|]. cbn [fst] in Hd. destruct Hd as [<-|[]]. exact O. }
    assert (G2 := fun X => G X (fun _ _ _ _ _ => Logic.I) (fun _ _ => Logic.I) fuel). rewrite E in G2. apply G2. clear G G2.
    intros t s1 tr1 R I. specialize (St t s1 tr1 R I). destruct (b_boost (erlpboost conf solve produce y inner) t s1) as [q [[s2 [|it]]|p]] eqn:B; cbn [fst] in St; [exact St| |exact Logic.I].
    destruct (b_post (erlpboost conf solve produce y inner) s2) as [f1|] eqn:P; [|exact Logic.I]. split; [exact St|].
    pose proof (oinv_reach conf solve produce y inner s Hlen t s1 R) as [_ [m [Em [En [El W]]]]].
    assert (E2 : er_model s2 = Some m /\ er_hyps s2 = er_hyps s1).
    { cbn [b_boost erlpboost] in B. unfold erlp_boost in B. destruct (Nat.ltb _ _); [assert (s2 = s1) by congruence; subst; auto|]. destruct (er_stops _ _ _ _); [inversion B; subst; auto|].
      rewrite Em in B. destruct (qm_update _ _ _ _ _ _); cbn [bind] in B; [|discriminate]. destruct (er_new_gamma_star _ _ _ _ _); cbn [bind] in B; discriminate. }
    destruct E2 as [E2 E3]. cbn [b_post erlpboost] in P. unfold erlp_post in P. rewrite E2, E3 in P. destruct W as [W|[p [A [RS W]]]].
    + rewrite W in P. exfalso. unfold from_slices in P. assert (N : normalize (map fst (kept (H := H) [] (er_hyps s1))) = Panic AssertFailed).
      { unfold normalize. change (rsum (map Rabs (map fst (kept (H := H) [] (er_hyps s1))))) with 0. destruct (Reqb_spec 0 0) as [Z|Z]; [reflexivity|exfalso; apply Z; reflexivity]. }
      rewrite N in P. discriminate.
    + exists p, (er_hyps s1). rewrite <- W. auto.
Qed.

(** the hypotheses are met: the run of C35's example returns *)
Example C82_hypotheses_met : exists inner fuel tr f,
  (forall p, erlp_asks erx_conf erx_solve erx_produce y2 inner erx_state p -> length (a_x (erx_solve p)) = length (k_q p)) /\
  run (erlpboost erx_conf erx_solve erx_produce y2 inner) fuel erx_state = Finished tr f.
Proof.
  destruct C35_hypotheses_met as [inner [A [_ [_ [_ [_ [_ [fuel [tr [f [E _]]]]]]]]]]]. exists inner, fuel, tr, f. split; [|exact E].
  intros p Hp. apply A in Hp. destruct Hp as [K _]. apply K.
Qed.

(** ** LPBoost, SoftBoost (so TotalBoost) and MLPBoost never look at the status: with the same numbers reported as
    failures everything they do and return is unchanged, for every solver, sample, weak learner and configuration *)
Lemma P_C82_status_ignored_refuted :
  forall (H : Type) (conf : H -> nat -> R) solve produce y fuel,
  (forall s, run (lpboost_booster conf (reported_failed solve) produce y) fuel s = run (lpboost_booster conf solve produce y) fuel s) /\
  (forall inner s, run (softboost conf (reported_failed solve) produce y inner) fuel s = run (softboost conf solve produce y inner) fuel s) /\
  (forall eqH noise s, run (mlpboost conf eqH (reported_failed solve) noise produce y) fuel s = run (mlpboost conf eqH solve noise produce y) fuel s).
Proof. intros. split; [reflexivity|]. split; reflexivity. Qed.

(** so LPBoost returns a classifier although the solver reported a failure for every single program *)
Lemma P_C82_lpboost_returns_refuted :
  exists solve : conic -> answer, (forall p, a_status (solve p) = OtherStatus) /\
  forall (H : Type) (conf : H -> nat -> R) produce y (s : @lpboost H) (C : list H),
  is_valid_binary_instance y = Ok tt -> 1 <= lb_nu s <= INR (length y) -> 0 <= lb_tol s ->
  (forall h i, In h C -> (i < length y)%nat -> -1 <= nth i y 0 * conf h i <= 1) -> (forall t d, In (produce t d) C) ->
  (forall t d c, is_dist d -> In c C -> edge_of y d (conf c) <= edge_of y d (conf (produce t d))) ->
  exists tr f, run (lpboost_booster conf solve produce y) (length C + 1) s = Finished tr f.
Proof.
  destruct P_C34_end_to_end as [solve Hs]. exists (reported_failed solve). split; [reflexivity|]. intros H conf produce y s C H1 H2 H3 H4 H5 H6.
  destruct (Hs H conf produce y s C H1 H2 H3 H4 H5 H6) as [tr [f [E _]]]. exists tr, f. rewrite (proj1 (P_C82_status_ignored_refuted H conf solve produce y (length C + 1)%nat) s). exact E.
Qed.
