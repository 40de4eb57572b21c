(** Facts about what a logged run writes and returns: C69, and more about C23. *)
From Verif Require Import Base Spec Utils WMajority WMajorityProofs Booster Logger LoggerFacts AdaBoost AdaBoostV MadaBoost SmoothBoost GraphSep
  FrankWolfe FrankWolfeProofs CERLP CERLPProofs Csc LPSpec ConicSpec LPBoost LPBoostProofs LPBoostFacts ERLP SoftBoost MLP Research ResearchSpec RoundSpec Reach AdaBoostProofs AdaBoostMain AdaBoostMore
  AdaBoostVProofs MadaBoostFacts SmoothSpec SmoothBoostFacts Feature Sample Objective ObjectiveFacts BuilderSpec Builders BuildersFacts.
From Coq Require Import NArith String.
From Verif Require Import Base.
Open Scope R_scope.

Section Generic.
  Context {St Out : Type}.
  Variable b : booster St Out.
  Variable current : St -> res Out.
  Hypothesis Hcur : forall s, current s = b_post b s.

  Lemma post_truthful : log_truthful b current.
  Proof.
    intros objective trl tel clock limit every fuel s. cbv zeta.
    set (m := research_line current objective trl tel).
    assert (Hm : forall s1 l, m s1 = Ok l -> exists f obj, b_post b s1 = Ok f /\ objective f = Ok obj /\ l = (obj, trl f, tel f)).
    { intros s1 l. unfold m, research_line. rewrite Hcur. destruct (b_post b s1) as [f|]; cbn [bind]; [|discriminate].
      destruct (objective f) as [obj|] eqn:Eo; cbn [bind]; [|discriminate]. intros E. exists f, obj. injection E as <-. auto. }
    pose (P := fun k (l : (R * R * R) * N) => snd l = elapsed clock (S k) /\ exists q f,
        fst (log_run b m (stop_after (S k)) 0 every fuel s) = Finished q f /\
        objective f = Ok (fst (fst (fst l))) /\ snd (fst (fst l)) = trl f /\ snd (fst l) = tel f).
    pose (Q := fun r : logged (Out := Out) (Line := R * R * R) =>
        (forall k l, nth_error (snd r) k = Some l -> P k l) /\
        (forall q f, fst r = Finished q f -> exists lines obj t, snd r = lines ++ [((obj, trl f, tel f), t)] /\ objective f = Ok obj)).
    assert (HQ : Q (log_run b m clock limit every fuel s)).
    2:{ destruct HQ as [H1 H2]. split; [|exact H2]. intros k obj tr te t E. destruct (H1 k _ E) as [A [q [f [B [C [D F]]]]]]. cbn [fst snd] in *. split; [exact A|]. exists q, f. auto. }
    unfold log_run at 1. destruct (b_pre b s) as [s0|p] eqn:Ep.
    2:{ split; [intros [|k] l E; discriminate|intros; discriminate]. }
    assert (G : forall f k tr lines s0, length lines = k -> (forall i l, nth_error lines i = Some l -> P i l) ->
       (forall j, (k <= j)%nat -> exists lines', log_run b m (stop_after (S j)) 0 every fuel s = log_from b m (stop_after (S j)) 0 every f (S k) 0 tr lines' s0) ->
       Q (log_from b m clock limit every f (S k) (elapsed clock k) tr lines s0)).
    { clear s0 Ep. induction f as [|f IH]; intros k tr lines s0 Hl HP Hj.
      - split; [exact HP|intros; discriminate].
      - cbn [log_from]. destruct (b_boost b (S k) s0) as [q [[s1 flow]|p]] eqn:E; [|split; [exact HP|intros; discriminate]].
        destruct (m s1) as [l|p] eqn:El; [|split; [exact HP|intros; discriminate]]. cbv zeta. rewrite <- elapsed_S.
        destruct (Hm s1 l El) as [g [obj [Eg [Eo Elg]]]].
        assert (HP' : forall i l', nth_error (lines ++ [(l, elapsed clock (S k))]) i = Some l' -> P i l').
        { intros i l' Ei. destruct (Nat.lt_ge_cases i (length lines)) as [Hi|Hi].
          - rewrite nth_error_app1 in Ei by exact Hi. apply HP, Ei.
          - rewrite nth_error_app2 in Ei by exact Hi. destruct (i - length lines)%nat as [|d] eqn:Ed; [|destruct d; discriminate].
            injection Ei as <-. assert (i = k) by lia. subst i. split; [reflexivity|]. destruct (Hj k (Nat.le_refl k)) as [lines' ->].
            exists (tr ++ q), g. cbn [log_from]. rewrite E, El. cbv zeta. unfold stop_after at 1. rewrite Nat.ltb_irrefl. cbn [N.add N.ltb N.compare].
            unfold finish. rewrite Eg. subst l. cbn [fst snd]. auto. }
        assert (Hfin : Q (finish b (tr ++ q) (lines ++ [(l, elapsed clock (S k))]) s1)).
        { unfold finish. rewrite Eg. split; [exact HP'|]. intros q' f' X. injection X as <- <-. exists lines, obj, (elapsed clock (S k)). cbn [snd]. rewrite Elg. auto. }
        destruct (N.ltb limit (elapsed clock (S k))); [exact Hfin|].
        destruct (negb (every =? usize_max)%N && (every =? 0)%N) eqn:Ee; [split; [exact HP'|intros; discriminate]|].
        destruct flow as [|it]; [|exact Hfin].
        apply IH; [rewrite app_length, Hl; simpl; lia|exact HP'|].
        intros j Hjk. destruct (Hj j ltac:(lia)) as [lines' ->]. cbn [log_from]. rewrite E, El. cbv zeta.
        assert (Es : stop_after (S j) (S k) = 0%N) by (unfold stop_after; replace (S k <? S j)%nat with true by (symmetry; apply Nat.ltb_lt; lia); reflexivity).
        rewrite Es. cbn [N.add N.ltb N.compare]. rewrite Ee. eexists. reflexivity. }
    apply (G fuel 0%nat [] [] s0); [reflexivity|intros [|i] l X; discriminate|].
    intros j _. exists []. unfold log_run. rewrite Ep. reflexivity.
  Qed.

  (** the logged run is the plain run as long as the measurements that are made succeed *)
  Lemma logged_is_run {Line} (measure : St -> res Line) clock limit every s fuel :
    measurable b measure fuel s -> every <> 0%N -> (forall t, (t <= fuel)%nat -> (elapsed clock t <= limit)%N) ->
    fst (log_run b measure clock limit every fuel s) = run b fuel s.
  Proof.
    intros Hm Hev Hcl. unfold log_run, run. destruct (b_pre b s) as [s0|p] eqn:Ep; [|reflexivity].
    assert (G : forall f k tr lines s0, reaches b s k tr s0 -> (k + f <= fuel)%nat ->
       fst (log_from b measure clock limit every f (S k) (elapsed clock k) tr lines s0) = run_from b f (S k) tr s0).
    { clear s0 Ep. induction f as [|f IH]; intros k tr lines s0 Hr Hf; [reflexivity|].
      cbn [log_from run_from]. destruct (b_boost b (S k) s0) as [q [[s1 flow]|p]] eqn:E; [|reflexivity].
      destruct (Hm k tr s0 q s1 flow ltac:(lia) Hr E) as [l El]. rewrite El. cbv zeta. rewrite <- elapsed_S.
      replace (limit <? elapsed clock (S k))%N with false by (symmetry; apply N.ltb_ge; apply Hcl; lia).
      replace (every =? 0)%N with false by (symmetry; apply N.eqb_neq; exact Hev). rewrite andb_false_r. destruct flow as [|it].
      - apply IH; [eapply reach_S; eassumption|lia].
      - unfold finish. destruct (b_post b s1); reflexivity. }
    apply (G fuel 0%nat [] [] s0); [constructor; exact Ep|lia].
  Qed.

  (** every line was measured in a state that the run went through *)
  Lemma lines_reach {Line} (measure : St -> res Line) clock limit every s fuel k l t :
    nth_error (snd (log_run b measure clock limit every fuel s)) k = Some (l, t) ->
    exists tr0 s0 q s1 flow rest, (k < fuel)%nat /\ reaches b s k tr0 s0 /\ b_boost b (S k) s0 = (q, Ok (s1, flow)) /\ measure s1 = Ok l /\
      trace_of (fst (log_run b measure clock limit every fuel s)) = (tr0 ++ q) ++ rest.
  Proof.
    unfold log_run. destruct (b_pre b s) as [s0|p] eqn:Ep; [|destruct k; discriminate].
    pose (P := fun tr' i (lt : Line * N) => exists tr0 s0 q s1 flow rest, (i < fuel)%nat /\ reaches b s i tr0 s0 /\ b_boost b (S i) s0 = (q, Ok (s1, flow)) /\ measure s1 = Ok (fst lt) /\ tr' = (tr0 ++ q) ++ rest).
    assert (Pmono : forall tr' u i lt, P tr' i lt -> P (tr' ++ u) i lt).
    { intros tr' u i lt [tr0 [s1 [q [s2 [flow [rest [A [B [C [D E]]]]]]]]]]. exists tr0, s1, q, s2, flow, (rest ++ u). rewrite E, <- app_assoc. auto. }
    assert (G : forall f k tr lines s0, reaches b s k tr s0 -> length lines = k -> (k + f <= fuel)%nat ->
       (forall i lt, nth_error lines i = Some lt -> P tr i lt) ->
       let r := log_from b measure clock limit every f (S k) (elapsed clock k) tr lines s0 in
       forall i lt, nth_error (snd r) i = Some lt -> P (trace_of (fst r)) i lt).
    { clear s0 Ep. induction f as [|f IH]; intros k0 tr lines s0 Hr Hl Hf HP; [exact HP|].
      cbn [log_from]. destruct (b_boost b (S k0) s0) as [q [[s1 flow]|p]] eqn:E.
      2:{ cbn [fst snd trace_of]. intros i lt Hi. apply Pmono, HP, Hi. }
      destruct (measure s1) as [l0|p] eqn:El.
      2:{ cbn [fst snd trace_of]. intros i lt Hi. apply Pmono, HP, Hi. }
      cbv zeta. rewrite <- elapsed_S.
      assert (HP' : forall i lt, nth_error (lines ++ [(l0, elapsed clock (S k0))]) i = Some lt -> P (tr ++ q) i lt).
      { intros i lt Hi. destruct (Nat.lt_ge_cases i (length lines)) as [Hi'|Hi'].
        - rewrite nth_error_app1 in Hi by exact Hi'. apply Pmono, HP, Hi.
        - rewrite nth_error_app2 in Hi by exact Hi'. destruct (i - length lines)%nat as [|d] eqn:Ed; [|destruct d; discriminate].
          injection Hi as <-. assert (i = k0) by lia. subst i. exists tr, s0, q, s1, flow, []. rewrite app_nil_r. cbn [fst]. split; [lia|]. auto. }
      assert (Hfin : forall i lt, nth_error (snd (finish b (tr ++ q) (lines ++ [(l0, elapsed clock (S k0))]) s1)) i = Some lt -> P (trace_of (fst (finish b (tr ++ q) (lines ++ [(l0, elapsed clock (S k0))]) s1))) i lt).
      { unfold finish. destruct (b_post b s1); exact HP'. }
      destruct (limit <? elapsed clock (S k0))%N; [exact Hfin|].
      destruct (negb (every =? usize_max)%N && (every =? 0)%N); [exact HP'|].
      destruct flow as [|it]; [|exact Hfin].
      apply IH; [eapply reach_S; eassumption|rewrite app_length, Hl; simpl; lia|lia|exact HP']. }
    intros Hn. destruct (G fuel 0%nat [] [] s0 (reach_0 _ _ _ Ep) eq_refl (Nat.le_refl _) ltac:(intros [|i] lt X; discriminate) k (l, t) Hn) as [tr0 [s1 [q [s2 [flow [rest X]]]]]].
    exists tr0, s1, q, s2, flow, rest. exact X.
  Qed.
End Generic.

Lemma reaches_reach {St Out} (b : booster St Out) s k tr s0 : reaches b s k tr s0 -> reach b s (S k) s0.
Proof. induction 1 as [s0 E|k tr s1 q s2 Hr IH E]; [constructor; exact E|econstructor; eassumption]. Qed.

Lemma reaches_inv {St Out} (b : booster St Out) s (I : nat -> St -> trace -> Prop) :
  (forall s0, b_pre b s = Ok s0 -> I 1%nat s0 []) ->
  (forall t s1 tr q s2, reach b s t s1 -> I t s1 tr -> b_boost b t s1 = (q, Ok (s2, Continue)) -> I (S t) s2 (tr ++ q)) ->
  forall k tr s0, reaches b s k tr s0 -> I (S k) s0 tr.
Proof.
  intros H1 H2 k tr s0 Hr. induction Hr as [s0 E|k tr s1 q s2 Hr IH E]; [apply H1, E|]. eapply H2; [apply (reaches_reach _ _ _ _ _ Hr)|exact IH|exact E].
Qed.

(** ** C69: the log of each booster describes the hypotheses the run goes through and the one it returns *)
Lemma P_C69_adaboost_log :
  forall (H : Type) (conf : H -> nat -> R) produce y, log_truthful (adaboost conf produce y) ada_current.
Proof. intros H conf produce y. apply post_truthful. reflexivity. Qed.
Lemma P_C69_adaboostv_log :
  forall (H : Type) (conf : H -> nat -> R) produce y, log_truthful (adaboostv conf produce y) adav_current.
Proof. intros H conf produce y. apply post_truthful. reflexivity. Qed.
Lemma P_C69_madaboost_log :
  forall (H : Type) (conf : H -> nat -> R) produce y, log_truthful (madaboost conf produce y) mada_current.
Proof. intros H conf produce y. apply post_truthful. reflexivity. Qed.
Lemma P_C69_smoothboost_log :
  forall (H : Type) (conf : H -> nat -> R) produce y umax, log_truthful (smoothboost conf produce y umax) (sb_current y).
Proof. intros H conf produce y umax. apply post_truthful. reflexivity. Qed.
Lemma P_C69_graph_separation_log :
  forall (H X : Type) (conf : H -> X -> R) row y produce, log_truthful (graphsep conf row y produce) (gs_current conf row y).
Proof. intros H X conf row y produce. apply post_truthful. reflexivity. Qed.
Lemma P_C69_lpboost_log :
  forall (H : Type) (conf : H -> nat -> R) solve produce y, log_truthful (lpboost_booster conf solve produce y) lpb_current.
Proof. intros H conf solve produce y. apply post_truthful. reflexivity. Qed.
Lemma P_C69_erlpboost_log :
  forall (H : Type) (conf : H -> nat -> R) solve produce y inner, log_truthful (erlpboost conf solve produce y inner) erlp_current.
Proof. intros H conf solve produce y inner. apply post_truthful. reflexivity. Qed.
(** also TotalBoost, which is SoftBoost with nu = 1 *)
Lemma P_C69_softboost_log :
  forall (H : Type) (conf : H -> nat -> R) solve produce y inner, log_truthful (softboost conf solve produce y inner) (soft_current solve).
Proof. intros H conf solve produce y inner. apply post_truthful. reflexivity. Qed.
Lemma P_C69_cerlpboost_log :
  forall (H : Type) (conf : H -> nat -> R) eqH produce y, log_truthful (cerlpboost conf eqH produce y) cerlp_current.
Proof. intros H conf eqH produce y. apply post_truthful. reflexivity. Qed.
Lemma P_C69_mlpboost_log :
  forall (H : Type) (conf : H -> nat -> R) eqH solve noise produce y, log_truthful (mlpboost conf eqH solve noise produce y) mlp_current.
Proof. intros H conf eqH solve noise produce y. apply post_truthful. reflexivity. Qed.

(** ** C23: logging changes nothing, for the boosters whose measurements cannot fail.  The measurements of the last round
    need no assumption: if they panic, so does the plain run. *)
Lemma logged_is_run_post {St Out} (b : booster St Out) (current : St -> res Out) objective (trl tel : Out -> R) clock limit every s fuel :
  (forall s, current s = b_post b s) -> (forall f, exists v, objective f = Ok v) ->
  (forall k tr s0 q s1, (k < fuel)%nat -> reaches b s k tr s0 -> b_boost b (S k) s0 = (q, Ok (s1, Continue)) -> exists f, b_post b s1 = Ok f) ->
  every <> 0%N -> (forall t, (t <= fuel)%nat -> (elapsed clock t <= limit)%N) ->
  fst (log_run b (research_line current objective trl tel) clock limit every fuel s) = run b fuel s.
Proof.
  intros Hcur Ho Hm Hev Hcl. unfold log_run, run. destruct (b_pre b s) as [s0|p] eqn:Ep; [|reflexivity].
  set (m := research_line current objective trl tel).
  assert (G : forall f k tr lines s0, reaches b s k tr s0 -> (k + f <= fuel)%nat ->
     fst (log_from b m clock limit every f (S k) (elapsed clock k) tr lines s0) = run_from b f (S k) tr s0).
  { clear s0 Ep. induction f as [|f IH]; intros k tr lines s0 Hr Hf; [reflexivity|].
    cbn [log_from run_from]. destruct (b_boost b (S k) s0) as [q [[s1 flow]|p]] eqn:E; [|reflexivity].
    assert (Em : m s1 = match b_post b s1 with Ok f => match objective f with Ok v => Ok (v, trl f, tel f) | Panic p => Panic p end | Panic p => Panic p end).
    { unfold m, research_line. rewrite Hcur. destruct (b_post b s1) as [g|]; cbn [bind]; [|reflexivity]. destruct (objective g); reflexivity. }
    rewrite Em. destruct (b_post b s1) as [g|p] eqn:Eg.
    - destruct (Ho g) as [v ->]. cbv zeta. rewrite <- elapsed_S.
      replace (limit <? elapsed clock (S k))%N with false by (symmetry; apply N.ltb_ge; apply Hcl; lia).
      replace (every =? 0)%N with false by (symmetry; apply N.eqb_neq; exact Hev). rewrite andb_false_r. destruct flow as [|it].
      + apply IH; [eapply reach_S; eassumption|lia].
      + unfold finish. rewrite Eg. reflexivity.
    - destruct flow as [|it]; [|reflexivity]. destruct (Hm k tr s0 q s1 ltac:(lia) Hr E) as [g Eg']. congruence. }
  apply (G fuel 0%nat [] [] s0); [constructor; exact Ep|lia].
Qed.

Lemma from_slices_some {H} ws (hs : list H) w : In w (firstn (length hs) ws) -> 0 < w -> exists f, from_slices ws hs = Ok f.
Proof.
  intros Hin Hw. pose proof (from_slices_spec (fun _ _ => 0) ws hs) as S. destruct (from_slices ws hs) as [f|p]; [eauto|]. exfalso. destruct S as [_ S].
  revert hs Hin S. induction ws as [|w' ws IH]; intros [|h hs] Hin S; simpl in Hin; try (destruct Hin; fail).
  unfold kept in S. cbn [combine filter fst] in S. destruct Hin as [->|Hin]; [rewrite Rltb_true in S by exact Hw; discriminate|].
  destruct (Rltb 0 w'); [discriminate|]. apply (IH hs Hin S).
Qed.

Lemma P_C23_graph_separation_logged :
  forall (H X : Type) (conf : H -> X -> R) row y produce (objective : naive_agg H -> res R) trl tel clock limit every s fuel,
  (forall f, exists v, objective f = Ok v) -> every <> 0%N -> (forall t, (t <= fuel)%nat -> (elapsed clock t <= limit)%N) ->
  fst (log_run (graphsep conf row y produce) (research_line (gs_current conf row y) objective trl tel) clock limit every fuel s) = run (graphsep conf row y produce) fuel s.
Proof.
  intros H X conf row y produce objective trl tel clock limit every s fuel Ho Hev Hcl. apply logged_is_run_post; try assumption; [reflexivity|].
  intros k tr s0 q s1 _ _ _. eexists. reflexivity.
Qed.

(** AdaBoost, if the first answer of the weak learner has a positive edge on the uniform distribution (compare C23_logged_adaboost_refuted) *)
Lemma P_C23_adaboost_logged :
  forall (H : Type) (conf : H -> nat -> R) produce y (objective : wmajority H -> res R) trl tel clock limit every s fuel,
  (let u := repeat (1 / INR (length y)) (length y) in 0 < edge_of y u (conf (produce 1%nat u))) ->
  (forall f, exists v, objective f = Ok v) -> every <> 0%N -> (forall t, (t <= fuel)%nat -> (elapsed clock t <= limit)%N) ->
  fst (log_run (adaboost conf produce y) (research_line ada_current objective trl tel) clock limit every fuel s) = run (adaboost conf produce y) fuel s.
Proof.
  intros H conf produce y objective trl tel clock limit every s fuel Hpos Ho Hev Hcl. apply logged_is_run_post; try assumption; [reflexivity|].
  cbv zeta in Hpos. set (u := repeat (1 / INR (length y)) (length y)) in *.
  pose (I := fun t (s1 : @ada H) tr => AInv conf produce y (ada_limit y s) t s1 tr /\ (tr = [] -> a_dist s1 = u) /\ (tr <> [] -> nth 0 tr [] = u)).
  assert (Hst : forall t s1 tr q s2, I t s1 tr -> b_boost (adaboost conf produce y) t s1 = (q, Ok (s2, Continue)) -> I (S t) s2 (tr ++ q) /\ tr ++ q <> []).
  { intros t s1 tr q s2 [HI [U1 U2]] E. change (b_boost (adaboost conf produce y)) with (ada_boost conf produce y) in E.
    destruct (ada_boost_step conf produce y _ _ _ _ HI) as [[_ E1]|[[_ [_ [_ [s' [E1 _]]]]]|[_ [_ [s' [E1 HI']]]]]]; rewrite E in E1; try discriminate.
    injection E1 as -> <-. split; [split; [exact HI'|]; split|]; try (intros C; destruct tr; discriminate).
    intros _. destruct tr as [|d tr]; [apply U1; reflexivity|apply U2; discriminate]. }
  assert (Hr1 : forall k tr s0, reaches (adaboost conf produce y) s k tr s0 -> I (S k) s0 tr).
  { apply reaches_inv.
    - intros s0 E. change (b_pre (adaboost conf produce y)) with (@ada_pre H y) in E. split; [apply (ada_pre_inv conf produce y s s0 E)|]. split; [|congruence].
      intros _. unfold ada_pre in E. destruct (is_valid_binary_instance y); [|discriminate]. cbn [bind] in E. injection E as <-. reflexivity.
    - intros t s1 tr q s2 _ HI E. apply (Hst _ _ _ _ _ HI E). }
  intros k tr s0 q s1 _ Hr E. destruct (Hst _ _ _ _ _ (Hr1 _ _ _ Hr) E) as [[HI [_ U2]] Hne].
  specialize (U2 Hne). destruct HI as [_ [_ [_ [_ [Hl [_ [Hw [Hsm _]]]]]]]]. change (b_post (adaboost conf produce y)) with (@ada_post H). unfold ada_post.
  destruct (tr ++ q) as [|d0 tr']; [congruence|]. cbn [nth] in U2. subst d0.
  unfold edges in Hw, Hsm. cbn [length seq combine map fst snd] in Hw, Hsm. inversion Hsm as [|? ? He _]; subst.
  apply (from_slices_some _ _ (ada_weight (edge_of y u (conf (produce 1%nat u))))).
  - rewrite firstn_all2 by lia. rewrite Hw. left. reflexivity.
  - apply ada_weight_pos. unfold small in He. lra.
Qed.

(** AdaBoostV with a positive tolerance *)
Lemma P_C23_adaboostv_logged :
  forall (H : Type) (conf : H -> nat -> R) produce y (objective : wmajority H -> res R) trl tel clock limit every s fuel,
  0 < v_tolerance s ->
  (forall f, exists v, objective f = Ok v) -> every <> 0%N -> (forall t, (t <= fuel)%nat -> (elapsed clock t <= limit)%N) ->
  fst (log_run (adaboostv conf produce y) (research_line adav_current objective trl tel) clock limit every fuel s) = run (adaboostv conf produce y) fuel s.
Proof.
  intros H conf produce y objective trl tel clock limit every s fuel Htol Ho Hev Hcl. apply logged_is_run_post; try assumption; [reflexivity|].
  pose (I := VInv conf produce y (v_tolerance s) (adav_limit y s)).
  assert (Hst : forall t s1 tr q s2, I t s1 tr -> b_boost (adaboostv conf produce y) t s1 = (q, Ok (s2, Continue)) -> I (S t) s2 (tr ++ q) /\ tr ++ q <> []).
  { intros t s1 tr q s2 HI E. change (b_boost (adaboostv conf produce y)) with (adav_boost conf produce y) in E.
    destruct (adav_boost_step conf produce y _ _ _ _ _ HI) as [[_ E1]|[[_ [_ [_ [s' [E1 _]]]]]|[[_ [_ [_ E1]]]|[_ [_ [s' [E1 HI']]]]]]]; rewrite E in E1; try discriminate.
    injection E1 as -> <-. split; [exact HI'|]. destruct tr; discriminate. }
  assert (Hr1 : forall k tr s0, reaches (adaboostv conf produce y) s k tr s0 -> I (S k) s0 tr).
  { apply reaches_inv.
    - intros s0 E. apply (adav_pre_inv conf produce y s s0 E).
    - intros t s1 tr q s2 _ HI E. apply (Hst _ _ _ _ _ HI E). }
  intros k tr s0 q s1 _ Hr E. destruct (Hst _ _ _ _ _ (Hr1 _ _ _ Hr) E) as [HI Hne].
  destruct HI as [_ [_ [_ [_ [_ [_ [Hw [Hh [Hf _]]]]]]]]]. change (b_post (adaboostv conf produce y)) with (@adav_post H). unfold adav_post. rewrite Hw, Hh.
  assert (Ll : length (edges conf produce y (tr ++ q)) = length (tr ++ q)) by apply edges_length.
  destruct (adav_weights (v_tolerance s) (edges conf produce y (tr ++ q))) as [|w ws] eqn:Ew.
  - exfalso. pose proof (adav_weights_length (v_tolerance s) (edges conf produce y (tr ++ q))) as L. rewrite Ew, Ll in L. destruct (tr ++ q); [congruence|discriminate].
  - apply (from_slices_some _ _ w).
    + pose proof (answers_length produce (tr ++ q)) as La. destruct (answers produce (tr ++ q)) eqn:Ea; [destruct (tr ++ q); [congruence|discriminate]|]. left. reflexivity.
    + eapply (adav_weights_pos y); [exact Htol|exact Hf|]. rewrite Ew. left. reflexivity.
Qed.

Lemma mada_factor_lt e : 0 < e < 1 -> 0 < ln (1 / mada_factor e).
Proof.
  intros He. rewrite <- ln_1. assert (P : 0 < mada_factor e) by (apply mada_factor_pos; lra). apply ln_increasing; [lra|].
  apply Rlt_div_iff; [exact P|]. rewrite Rmult_1_l. unfold mada_factor in *. 
  assert (A : sqrt ((1 - e) / 4) < 1 / 2).
  { replace (1 / 2) with (sqrt ((1 / 2) * (1 / 2))) by (apply sqrt_square; lra). apply sqrt_lt_1; lra. }
  pose proof (sqrt_pos ((1 - e) / 4)) as B. apply Rlt_le_trans with (sqrt 1); [|rewrite sqrt_1; lra]. apply sqrt_lt_1; [|lra|].
  - apply Rmult_le_pos; [exact B|]. apply Rlt_le, Rinv_0_lt_compat. lra.
  - apply Rmult_lt_reg_r with (1 - sqrt ((1 - e) / 4)); [lra|]. unfold Rdiv. rewrite Rmult_assoc, Rinv_l by lra. lra.
Qed.

Lemma P_C23_madaboost_logged :
  forall (H : Type) (conf : H -> nat -> R) produce y (objective : wmajority H -> res R) trl tel clock limit every s fuel,
  (let u := repeat (1 / INR (length y)) (length y) in 0 < edge_of y u (conf (produce 1%nat u))) ->
  (forall f, exists v, objective f = Ok v) -> every <> 0%N -> (forall t, (t <= fuel)%nat -> (elapsed clock t <= limit)%N) ->
  fst (log_run (madaboost conf produce y) (research_line mada_current objective trl tel) clock limit every fuel s) = run (madaboost conf produce y) fuel s.
Proof.
  intros H conf produce y objective trl tel clock limit every s fuel Hpos Ho Hev Hcl. apply logged_is_run_post; try assumption; [reflexivity|].
  cbv zeta in Hpos. set (u := repeat (1 / INR (length y)) (length y)) in *.
  pose (I := MInv conf produce y (mada_limit y s)).
  assert (Hst : forall t s1 tr q s2, I t s1 tr -> b_boost (madaboost conf produce y) t s1 = (q, Ok (s2, Continue)) -> I (S t) s2 (tr ++ q) /\ tr ++ q <> []).
  { intros t s1 tr q s2 HI E. change (b_boost (madaboost conf produce y)) with (mada_boost conf produce y) in E.
    destruct (mada_boost_step conf produce y _ _ _ _ HI) as [[_ E1]|[d [_ [_ [[_ [s' [E1 _]]]|[_ [s' [E1 HI']]]]]]]]; rewrite E in E1; try discriminate.
    injection E1 as -> <-. split; [exact HI'|]. destruct tr; discriminate. }
  assert (Hr1 : forall k tr s0, reaches (madaboost conf produce y) s k tr s0 -> I (S k) s0 tr).
  { apply reaches_inv.
    - intros s0 E. apply (mada_pre_inv conf produce y s s0 E).
    - intros t s1 tr q s2 _ HI E. apply (Hst _ _ _ _ _ HI E). }
  intros k tr s0 q s1 _ Hr E. destruct (Hst _ _ _ _ _ (Hr1 _ _ _ Hr) E) as [HI Hne].
  destruct HI as [Hn [_ [_ [_ [_ [_ [Hw [Hh [Hsm Hg]]]]]]]]]. change (b_post (madaboost conf produce y)) with (@mada_post H). unfold mada_post. rewrite Hw, Hh.
  destruct (tr ++ q) as [|d0 tr'] eqn:Et; [congruence|].
  assert (Ed : d0 = u).
  { destruct (Hg 0%nat ltac:(simpl; lia)) as [Ld Hd]. cbn [nth firstn] in Ld, Hd. apply (nth_ext _ _ 0 0); [unfold u; rewrite repeat_length; exact Ld|].
    intros i Hi. rewrite Ld in Hi. rewrite Hd by exact Hi. unfold u. rewrite nth_repeat_lt by exact Hi.
    assert (Es : forall j, mada_score conf produce y [] j = 1 / INR (length y)) by (intros j; unfold mada_score, vote; simpl; lra).
    rewrite Es. rewrite (rsum_map_ext _ (fun _ => exp (Rmin (1 / INR (length y)) 1))) by (intros j _; rewrite Es; reflexivity).
    rewrite (rsum_map_const (exp (Rmin (1 / INR (length y)) 1))), seq_length. pose proof (exp_pos (Rmin (1 / INR (length y)) 1)). pose proof (lt_0_INR _ Hn). field. lra. }
  subst d0. unfold edges in Hsm |- *. cbn [length seq combine map fst snd] in Hsm |- *. inversion Hsm as [|? ? He _]; subst.
  apply (from_slices_some _ _ (ln (1 / mada_factor (edge_of y u (conf (produce 1%nat u)))))).
  - unfold answers. cbn [length seq combine map]. left. reflexivity.
  - apply mada_factor_lt. unfold small in He. lra.
Qed.

Lemma P_C23_smoothboost_logged :
  forall (H : Type) (conf : H -> nat -> R) produce y umax (objective : wmajority H -> res R) trl tel clock limit every s fuel,
  0 <= sb_gamma s ->
  (forall f, exists v, objective f = Ok v) -> every <> 0%N -> (forall t, (t <= fuel)%nat -> (elapsed clock t <= limit)%N) ->
  fst (log_run (smoothboost conf produce y umax) (research_line (sb_current y) objective trl tel) clock limit every fuel s) = run (smoothboost conf produce y umax) fuel s.
Proof.
  intros H conf produce y umax objective trl tel clock limit every s fuel Hg Ho Hev Hcl. apply logged_is_run_post; try assumption; [reflexivity|].
  pose (I := SInv conf produce y (sb_kappa s) (sb_gamma s) (sb_max_loop umax (sb_kappa s) (sb_gamma s))).
  assert (Hst : forall t s1 tr q s2, I t s1 tr -> b_boost (smoothboost conf produce y umax) t s1 = (q, Ok (s2, Continue)) -> I (S t) s2 (tr ++ q) /\ tr ++ q <> []).
  { intros t s1 tr q s2 HI E. change (b_boost (smoothboost conf produce y umax)) with (sb_boost conf produce y) in E.
    destruct (sb_boost_step conf produce y _ _ _ _ _ _ HI) as [[_ E1]|[[_ [_ [s' [E1 _]]]]|[_ [s' [E1 HI']]]]]; rewrite E in E1; try discriminate.
    injection E1 as -> <-. split; [exact HI'|]. destruct tr; discriminate. }
  assert (Hr1 : forall k tr s0, reaches (smoothboost conf produce y umax) s k tr s0 -> I (S k) s0 tr).
  { apply reaches_inv.
    - intros s0 E. apply (sb_pre_inv conf produce y umax _ _ s s0 eq_refl eq_refl Hg E).
    - intros t s1 tr q s2 _ HI E. apply (Hst _ _ _ _ _ HI E). }
  intros k tr s0 q s1 _ Hr E. destruct (Hst _ _ _ _ _ (Hr1 _ _ _ Hr) E) as [HI Hne].
  destruct HI as [Hn [_ [_ [_ [_ [_ [HT [_ [Hlim [Hh _]]]]]]]]]].
  assert (Hl : (0 < length (tr ++ q))%nat) by (destruct (tr ++ q); [congruence|simpl; lia]).
  change (b_post (smoothboost conf produce y umax)) with (@sb_post H y). unfold sb_post. rewrite HT. destruct (Nat.eqb_spec (sb_max_loop umax (sb_kappa s) (sb_gamma s)) 0) as [E0|E0]; [lia|].
  set (M := sb_max_loop umax (sb_kappa s) (sb_gamma s)) in *.
  apply (from_slices_some _ _ (1 / INR M)); [|apply Rdiv_lt_0_compat; [lra|apply lt_0_INR; lia]].
  rewrite Hh, answers_length. destruct (length (tr ++ q)) as [|a]; [lia|]. destruct (length y) as [|c]; [lia|]. left. reflexivity.
Qed.

(** LPBoost, with a solver that solves the linear programs it is given *)
Lemma lp_round {H} (conf : H -> nat -> R) solve produce y (s : @lpboost H) k tr s0 q s1 flow :
  (forall p, lpb_asks conf solve produce y s p -> solves p (solve p)) ->
  reaches (lpboost_booster conf solve produce y) s k tr s0 -> b_boost (lpboost_booster conf solve produce y) (S k) s0 = (q, Ok (s1, flow)) ->
  exists f ws d g, lpb_post s1 = Ok f /\ length (tr ++ q) = S k /\ length ws = S k /\ is_dist ws /\ length d = length y /\ is_dist d /\
    (forall h, In h (answers produce (tr ++ q)) -> edge_of y d (conf h) <= g) /\
    edge_of y d (vote conf (combine ws (answers produce (tr ++ q)))) = g /\
    (forall i, (i < length y)%nat -> g <= nth i y 0 * vote conf (combine ws (answers produce (tr ++ q))) i) /\
    (forall i, wm_confidence conf f i = vote conf (combine ws (answers produce (tr ++ q))) i).
Proof.
  intros Hex Hr E. set (b := lpboost_booster conf solve produce y) in *.
  assert (HI : LInv conf produce y s (S k) s0 tr).
  { revert Hr. apply (reaches_inv b s (LInv conf produce y s)).
    - intros s2 E2. apply (linv_first conf solve produce y s s2 E2).
    - intros t s2 tr2 q2 s3 Hr2 HI2 E2. pose proof (linv_step conf solve produce y s Hex t s2 tr2 Hr2 HI2) as X. fold b in X. rewrite E2 in X. exact X. }
  destruct (round_step conf solve produce y s Hex (S k) s0 tr (reaches_reach _ _ _ _ _ Hr) HI) as [m' [ws [d [g [Eb [_ [Ew [Ed [Lw [Dw [Ld [Dd [E1 [E2 E3]]]]]]]]]]]]]].
  cbn zeta in *. fold b in Eb. rewrite Eb in E. clear Eb. injection E as <- Es.
  destruct HI as [_ [_ [_ [Hl [_ [Hh _]]]]]].
  assert (Ea : answers produce (tr ++ [lb_dist s0]) = lb_hyps s0 ++ [produce (S k) (lb_dist s0)]).
  { rewrite answers_app, Hh. replace (length tr) with k by lia. reflexivity. }
  rewrite Ea. destruct (from_slices_dist conf ws (lb_hyps s0 ++ [produce (S k) (lb_dist s0)]) Lw Dw) as [f [Ef Cf]].
  exists f, ws, d, g. assert (Ll : length (tr ++ [lb_dist s0]) = S k) by (rewrite app_length; simpl; lia).
  split. { destruct (Rleb _ _); injection Es as <- _; unfold lpb_post; cbn [lb_model lb_hyps]; rewrite Ew; exact Ef. }
  split; [exact Ll|]. split. { rewrite Lw, <- Ea, answers_length. exact Ll. }
  auto 10.
Qed.

Lemma P_C23_lpboost_logged :
  forall (H : Type) (conf : H -> nat -> R) solve produce y (objective : wmajority H -> res R) trl tel clock limit every s fuel,
  (forall p, lpb_asks conf solve produce y s p -> solves p (solve p)) ->
  (forall f, exists v, objective f = Ok v) -> every <> 0%N -> (forall t, (t <= fuel)%nat -> (elapsed clock t <= limit)%N) ->
  fst (log_run (lpboost_booster conf solve produce y) (research_line lpb_current objective trl tel) clock limit every fuel s) = run (lpboost_booster conf solve produce y) fuel s.
Proof.
  intros H conf solve produce y objective trl tel clock limit every s fuel Hex Ho Hev Hcl. apply logged_is_run_post; try assumption; [reflexivity|].
  intros k tr s0 q s1 _ Hr E. destruct (lp_round conf solve produce y s k tr s0 q s1 Continue Hex Hr E) as [f [_ [_ [_ [Ef _]]]]]. exists f. exact Ef.
Qed.

(** ** C70: the objective column of a log of LPBoost.  With the hard-margin objective, the value on line k is the largest
    smallest margin that any convex combination of the first k hypotheses attains; so it never decreases. *)
Lemma P_C70_lpboost_log_is_optimal :
  forall (H : Type) (conf : H -> nat -> R) solve produce (smp : sample) (trl tel : wmajority H -> R) clock limit every s fuel k v a c t,
  length (s_target smp) = fst (shape smp) -> (0 < snd (shape smp))%nat -> let y := s_target smp in
  (forall p, lpb_asks conf solve produce y s p -> solves p (solve p)) ->
  let logged := log_run (lpboost_booster conf solve produce y) (research_line lpb_current (fun f => hard_margin_eval smp (wm_confidence conf f)) trl tel) clock limit every fuel s in
  nth_error (snd logged) k = Some ((v, a, c), t) ->
  let received := answers produce (firstn (S k) (trace_of (fst logged))) in
  length received = S k /\
  is_max_of (fun m => exists ws, length ws = S k /\ is_dist ws /\ is_min_of (fun i => (i < length y)%nat) (fun i => nth i y 0 * vote conf (combine ws received) i) m) (fun m => m) v.
Proof.
  intros H conf solve produce smp trl tel clock limit every s fuel k v a c t Hs Hf y Hex logged Hn received.
  unfold logged in *. clear logged.
  destruct (lines_reach _ _ _ _ _ _ _ _ _ _ Hn) as [tr0 [s0 [q [s1 [flow [rest [_ [Hr [E [Em Et]]]]]]]]]].
  destruct (lp_round conf solve produce y s k tr0 s0 q s1 flow Hex Hr E) as [f [ws [d [g [Ef [Lq [Lw [Dw [Ld [Dd [E1 [E2 [E3 E4]]]]]]]]]]]]].
  assert (Er : received = answers produce (tr0 ++ q)).
  { unfold received. rewrite Et. rewrite <- Lq. rewrite firstn_app, Nat.sub_diag, firstn_all, firstn_O, app_nil_r. reflexivity. }
  rewrite Er. clear received Er. set (hs := answers produce (tr0 ++ q)) in *.
  assert (Lh : length hs = S k) by (unfold hs; rewrite answers_length; exact Lq). split; [exact Lh|].
  unfold research_line in Em. change lpb_current with (@lpb_post H) in Em. rewrite Ef in Em. cbn [bind] in Em.
  destruct (hard_margin_eval smp (wm_confidence conf f)) as [v'|] eqn:Ev; cbn [bind] in Em; [|discriminate]. injection Em as -> _ _.
  assert (Hn0 : (0 < fst (shape smp))%nat).
  { unfold hard_margin_eval, soft_margin_eval, check_sample in Ev. destruct (Nat.ltb_spec 0 (fst (shape smp))); [assumption|discriminate]. }
  destruct (P_C42_hard_margin smp (wm_confidence conf f) Hs Hn0 Hf) as [v' [Ev' Hmin]]. rewrite Ev in Ev'. injection Ev' as <-. rewrite <- Hs in Hmin. fold y in Hmin.
  assert (Hmin' : is_min_of (fun i => (i < length y)%nat) (fun i => nth i y 0 * vote conf (combine ws hs) i) v).
  { destruct Hmin as [[i [Hi Ei]] Hm]. split; [exists i; split; [exact Hi|]; rewrite <- E4; exact Ei|]. intros j Hj. rewrite <- E4. apply Hm, Hj. }
  split.
  - exists v. split; [|reflexivity]. exists ws. auto.
  - intros m [ws' [Lw' [Dw' [[i [Hi Ei]] Hm]]]].
    assert (A : m <= g).
    { destruct (some_below y d (vote conf (combine ws' hs)) g Dd Ld) as [j [Hj Ej]]; [apply vote_edge_ub; try assumption; congruence|]. specialize (Hm j Hj). lra. }
    destruct Hmin' as [[j [Hj Ej]] _]. specialize (E3 j Hj). lra.
Qed.

Lemma P_C70_lpboost_log_never_decreases :
  forall (H : Type) (conf : H -> nat -> R) solve produce (smp : sample) (trl tel : wmajority H -> R) clock limit every s fuel j k v a c t v' a' c' t',
  length (s_target smp) = fst (shape smp) -> (0 < snd (shape smp))%nat -> let y := s_target smp in
  (forall p, lpb_asks conf solve produce y s p -> solves p (solve p)) ->
  let logged := log_run (lpboost_booster conf solve produce y) (research_line lpb_current (fun f => hard_margin_eval smp (wm_confidence conf f)) trl tel) clock limit every fuel s in
  (j <= k)%nat -> nth_error (snd logged) j = Some ((v, a, c), t) -> nth_error (snd logged) k = Some ((v', a', c'), t') -> v <= v'.
Proof.
  intros H conf solve produce smp trl tel clock limit every s fuel j k v a c t v' a' c' t' Hs Hf y Hex logged Hjk Ej Ek.
  destruct (P_C70_lpboost_log_is_optimal H conf solve produce smp trl tel clock limit every s fuel j v a c t Hs Hf Hex Ej) as [Lj [[m [[ws [Lw [Dw Hm]]] <-]] _]].
  destruct (P_C70_lpboost_log_is_optimal H conf solve produce smp trl tel clock limit every s fuel k v' a' c' t' Hs Hf Hex Ek) as [Lk [_ Hmax]].
  cbn zeta in *. fold y logged in Lj, Lk, Hm, Hmax. set (tr := trace_of (fst logged)) in *.
  apply Hmax. exists (ws ++ repeat 0 (k - j)). split; [rewrite app_length, repeat_length, Lw; lia|]. split.
  - destruct Dw as [D1 D2]. split; [|rewrite rsum_app, rsum_repeat, D2; ring]. intros x Hx. apply in_app_or in Hx. destruct Hx as [Hx|Hx]; [apply D1, Hx|apply repeat_spec in Hx; lra].
  - assert (Lt : (S k <= length tr)%nat) by (rewrite answers_length, firstn_length in Lk; lia).
    assert (Ea : answers produce (firstn (S k) tr) = answers produce (firstn (S j) tr) ++ skipn (S j) (answers produce (firstn (S k) tr))).
    { assert (F : firstn (S j) (answers produce (firstn (S k) tr)) = answers produce (firstn (S j) tr)); [|rewrite <- F; symmetry; apply firstn_skipn].
      replace (firstn (S j) tr) with (firstn (S j) (firstn (S k) tr)) by (rewrite firstn_firstn; f_equal; lia).
      unfold answers. rewrite firstn_map. f_equal. rewrite combine_firstn. f_equal. rewrite !firstn_length.
      replace (Nat.min (S k) (length tr)) with (S k) by lia. replace (Nat.min (S j) (S k)) with (S j) by lia.
      replace (S k) with (S j + (k - j))%nat by lia. rewrite seq_app, firstn_app, (seq_length (S j) 1), Nat.sub_diag, firstn_O, app_nil_r. apply firstn_all2. rewrite seq_length. lia. }
    assert (Ev : forall i, vote conf (combine (ws ++ repeat 0 (k - j)) (answers produce (firstn (S k) tr))) i = vote conf (combine ws (answers produce (firstn (S j) tr))) i).
    { intros i. rewrite Ea, combine_app_eq by congruence. unfold vote. rewrite map_app, rsum_app.
      assert (Z : forall n (l : list H), rsum (map (fun p => fst p * conf (snd p) i) (combine (repeat 0 n) l)) = 0).
      { induction n as [|n IH]; intros [|h l]; cbn [repeat combine map rsum fst snd]; try reflexivity. rewrite IH. ring. }
      rewrite Z. ring. }
    destruct Hm as [[i [Hi Ei]] Hm]. split; [exists i; split; [exact Hi|rewrite Ev; exact Ei]|]. intros i' Hi'. rewrite Ev. apply Hm, Hi'.
Qed.

(** the hypotheses of C69 and C70 are met: a run of LPBoost on two examples, with an exact solver, whose log has two lines *)
Definition ex_rows : sample := from_dataframe [("x"%string, [0; 1])] 2 y2.
Example C70_hypotheses_met : exists (clock : nat -> N) (limit every : N) fuel lines tr f,
  s_target ex_rows = y2 /\ length (s_target ex_rows) = fst (shape ex_rows) /\ (0 < snd (shape ex_rows))%nat /\
  (forall p, lpb_asks ex_conf ex_solve ex_produce y2 ex_state p -> solves p (ex_solve p)) /\
  log_run (lpboost_booster ex_conf ex_solve ex_produce y2) (research_line lpb_current (fun f => hard_margin_eval ex_rows (wm_confidence ex_conf f)) (fun _ => 0) (fun _ => 0)) clock limit every fuel ex_state = (Finished tr f, lines) /\
  length lines = 2%nat.
Proof.
  set (b := lpboost_booster ex_conf ex_solve ex_produce y2).
  set (ms := research_line lpb_current (fun f => hard_margin_eval ex_rows (wm_confidence ex_conf f)) (fun _ => 0) (fun _ => 0)).
  destruct ex_run as [f [Ef _]]. fold b in Ef.
  assert (E : fst (log_run b ms (fun _ => 1%N) 100 100 2 ex_state) = Finished [[1 / 2; 1 / 2]; [0; 1]] f).
  { rewrite <- Ef. apply P_C23_lpboost_logged; [exact ex_exact| |discriminate|].
    - intros g. destruct (P_C42_hard_margin ex_rows (wm_confidence ex_conf g) eq_refl ltac:(simpl; lia) ltac:(simpl; lia)) as [v [Ev _]]. exists v. exact Ev.
    - intros t Ht. destruct t as [|[|[|t]]]; cbn; lia. }
  exists (fun _ => 1%N), 100%N, 100%N, 2%nat, (snd (log_run b ms (fun _ => 1%N) 100 100 2 ex_state)), [[1 / 2; 1 / 2]; [0; 1]], f.
  split; [reflexivity|]. split; [reflexivity|]. split; [simpl; lia|]. split; [exact ex_exact|]. split; [rewrite <- E; apply surjective_pairing|].
  destruct (P_C23_one_line_per_round _ _ _ b ms (fun _ => 1%N) 100%N 100%N ex_state 2) as [_ L].
  destruct (L _ _ E) as [k [tr0 [s0 [q [s1 [flow [l [Hr [Eb [Ln [_ [_ [_ [Et _]]]]]]]]]]]]]]. rewrite Ln.
  destruct (lp_round ex_conf ex_solve ex_produce y2 ex_state k tr0 s0 q s1 flow ex_exact Hr Eb) as [g [ws [d [ga [_ [Lq _]]]]]]. rewrite <- Et in Lq. simpl in Lq. congruence.
Qed.
