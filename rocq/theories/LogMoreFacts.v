(** Properties C23 and C95: logged runs of the margin-maximising boosters. *)
From Verif Require Import Base Spec RegSpec LPSpec Utils UtilsProofs WMajority WMajorityProofs Booster Reach AdaBoost AdaBoostProofs AdaBoostMain AdaBoostMore
  Num FrankWolfe FrankWolfeProofs FrankWolfeFacts Csc ConicSpec CscProofs LPBoost LPBoostProofs LPBoostFacts EdgeLP EdgeProofs ERLP ERLPProofs ERLPFacts SoftBoost SoftProofs SoftBoostFacts CERLP CERLPProofs CERLPFacts
  MLP MLPSolveSpec MLPProofs MLPFacts Feature Sample Objective ObjectiveFacts Logger LoggerFacts Research ResearchSpec ResearchFacts LogMoreSpec.
From Coq Require Import NArith.
From Verif Require Import Base.
Open Scope R_scope.

(** ** C23: logging changes nothing, Corrective ERLPBoost with the classic or the short-step rule *)
Lemma P_C23_cerlpboost_logged :
  forall (H : Type) (conf : H -> nat -> R) eqH produce y (objective : wmajority H -> res R) trl tel clock limit every (s : @cerlp H) fuel,
  fw_type (ce_fw s) = Classic \/ fw_type (ce_fw s) = ShortStep ->
  1 <= fw_nu (ce_fw s) < INR (length y) -> 0 < ce_half_tol s ->
  (forall h i, (i < length y)%nat -> -1 <= nth i y 0 * conf h i <= 1) ->
  (forall f h, eqH f h = true -> forall i, (i < length y)%nat -> conf f i = conf h i) ->
  (forall f, exists v, objective f = Ok v) -> every <> 0%N -> (forall t, (t <= fuel)%nat -> (elapsed clock t <= limit)%N) ->
  fst (log_run (cerlpboost conf eqH produce y) (research_line cerlp_current objective trl tel) clock limit every fuel s) = run (cerlpboost conf eqH produce y) fuel s.
Proof.
  intros H conf eqH produce y objective trl tel clock limit every s fuel Hty Hnu Hht Hm Heq Ho Hev Hcl. apply logged_is_run_post; try assumption; [reflexivity|].
  set (b := cerlpboost conf eqH produce y). set (I := CERLPFacts.GInv conf produce y (ce_half_tol s) (fw_nu (ce_fw s)) (fw_type (ce_fw s))).
  intros k tr s0 q s1 _ Hr E.
  assert (Hn : (0 < length y)%nat) by (apply INR_lt; simpl; lra).
  assert (St : forall t s1 tr q s2, I t s1 tr -> b_boost b t s1 = (q, Ok (s2, Continue)) -> I (S t) s2 (tr ++ q)).
  { intros t s2 tr2 q2 s3 HI E2. pose proof (CERLPFacts.ginv_step conf eqH produce y _ _ _ Hn (conj (proj1 Hnu) (Rlt_le _ _ (proj2 Hnu))) Hty Hht (proj2 Hnu) Hm Heq t s2 tr2 HI) as X.
    change (cerlp_boost conf eqH produce y t s2) with (b_boost b t s2) in X. rewrite E2 in X. exact X. }
  assert (HI : I (S k) s0 tr).
  { revert Hr. apply (reaches_inv b s I).
    - intros s2 E2. change (cerlp_pre y s = Ok s2) in E2. unfold cerlp_pre in E2. destruct (is_valid_binary_instance y) as [[]|] eqn:Ev; cbn [bind] in E2; [|discriminate].
      destruct (Reqb_spec (ce_half_tol s) 0); [discriminate|]. injection E2 as <-.
      split; [|left; auto]. repeat split; simpl; try lia. constructor.
    - intros t s2 tr2 q2 s3 _ HI2 E2. apply (St _ _ _ _ _ HI2 E2). }
  destruct (St _ _ _ _ _ HI E) as [_ [[Ex _]|[_ [Lw [Dw _]]]]]; [lia|].
  destruct (from_slices_dist conf _ _ Lw Dw) as [f [Ef _]]. exists f. exact Ef.
Qed.

(** MLPBoost, whatever the LP solver answers as long as its hypothesis weights form a distribution *)
Lemma P_C23_mlpboost_logged :
  forall (H : Type) (conf : H -> nat -> R) eqH solve noise produce y (objective : wmajority H -> res R) trl tel clock limit every (s : @mlp H) fuel,
  fw_type (ml_fw s) = Classic \/ fw_type (ml_fw s) = ShortStep ->
  1 <= fw_nu (ml_fw s) < INR (length y) -> 0 < ml_half_tol s ->
  (forall h i, (i < length y)%nat -> -1 <= nth i y 0 * conf h i <= 1) ->
  (forall f h, eqH f h = true -> forall i, (i < length y)%nat -> conf f i = conf h i) ->
  (forall k, 0 < noise k < 1) ->
  (forall hs p, mlp_asks conf eqH solve noise produce y s hs p -> usable_answer (length y) (length hs) (solve p)) ->
  (forall f, exists v, objective f = Ok v) -> every <> 0%N -> (forall t, (t <= fuel)%nat -> (elapsed clock t <= limit)%N) ->
  fst (log_run (mlpboost conf eqH solve noise produce y) (research_line mlp_current objective trl tel) clock limit every fuel s) = run (mlpboost conf eqH solve noise produce y) fuel s.
Proof.
  intros H conf eqH solve noise produce y objective trl tel clock limit every s fuel Hty Hnu Hht Hm Heq Hno Hex Ho Hev Hcl. apply logged_is_run_post; try assumption; [reflexivity|].
  intros k tr s0 q s1 _ Hr E.
  pose proof (reach_S _ _ _ _ _ _ _ Hr E) as Hr1. apply reaches_reach in Hr1.
  destruct (reach_ginv conf eqH solve noise produce y s (conj (proj1 Hnu) (Rlt_le _ _ (proj2 Hnu))) Hty Hht (proj2 Hnu) Hm Heq Hno Hex _ _ Hr1) as [tr1 [_ HG]].
  destruct (HG ltac:(lia)) as [Lw [Dw _]]. destruct (from_slices_dist conf _ _ Lw Dw) as [f [Ef _]]. exists f. exact Ef.
Qed.

(** ERLPBoost, with a solver that solves the quadratic programs it is given *)
Lemma P_C23_erlpboost_logged :
  forall (H : Type) (conf : H -> nat -> R) solve produce y inner (objective : wmajority H -> res R) trl tel clock limit every (s : @erlp H) fuel,
  (forall p, erlp_asks conf solve produce y inner s p -> solves p (solve p)) ->
  (forall h i, (i < length y)%nat -> -1 <= nth i y 0 * conf h i <= 1) ->
  (1001 + ln (INR (length y)) / erlp_eta (er_half_tol s) (er_nu s) (length y)) * 1000000000 + 1 < INR inner ->
  (forall f, exists v, objective f = Ok v) -> every <> 0%N -> (forall t, (t <= fuel)%nat -> (elapsed clock t <= limit)%N) ->
  fst (log_run (erlpboost conf solve produce y inner) (research_line erlp_current objective trl tel) clock limit every fuel s) = run (erlpboost conf solve produce y inner) fuel s.
Proof.
  intros H conf solve produce y inner objective trl tel clock limit every s fuel Hex Hm Hin Ho Hev Hcl. apply logged_is_run_post; try assumption; [reflexivity|].
  set (b := erlpboost conf solve produce y inner).
  intros k tr s0 q s1 _ Hr E.
  assert (St : forall t s1 tr q s2, reach b s t s1 -> EInv conf produce y s t s1 tr -> b_boost b t s1 = (q, Ok (s2, Continue)) -> EInv conf produce y s (S t) s2 (tr ++ q)).
  { intros t s2 tr2 q2 s3 Hr2 HI E2. pose proof (einv_step conf solve produce y inner s Hex Hm Hin t s2 tr2 Hr2 HI) as X. fold b in X. rewrite E2 in X. apply X. }
  assert (HI : EInv conf produce y s (S k) s0 tr).
  { apply (reaches_inv b s (EInv conf produce y s)); [apply einv_first|exact St|exact Hr]. }
  pose proof (St _ _ _ _ _ (reaches_reach _ _ _ _ _ Hr) HI E) as HI1.
  destruct HI1 as [_ [_ [_ [_ [_ [_ [_ [_ [_ [_ [_ [_ [_ [_ [m [Em [_ Hm1]]]]]]]]]]]]]]]]].
  destruct Hm1 as [[Ex _]|[[_ [_ [Lw [Dw _]]]] _]]; [lia|].
  change (b_post b s1) with (erlp_post s1). unfold erlp_post. rewrite Em.
  destruct (from_slices_dist conf _ _ Lw Dw) as [f [Ef _]]. exists f. exact Ef.
Qed.

(** SoftBoost and TotalBoost, whatever the solver answers to the quadratic programs, as long as its answers to the linear
    programs of the measurements carry a distribution of hypothesis weights *)
Lemma P_C23_softboost_logged :
  forall (H : Type) (conf : H -> nat -> R) solve produce y inner (objective : wmajority H -> res R) trl tel clock limit every (s : @soft H) fuel,
  (forall hs p, soft_measures conf solve produce y inner s hs p -> usable_answer (length y) (length hs) (solve p)) ->
  (forall f, exists v, objective f = Ok v) -> every <> 0%N -> (forall t, (t <= fuel)%nat -> (elapsed clock t <= limit)%N) ->
  fst (log_run (softboost conf solve produce y inner) (research_line (soft_current solve) objective trl tel) clock limit every fuel s) = run (softboost conf solve produce y inner) fuel s.
Proof.
  intros H conf solve produce y inner objective trl tel clock limit every s fuel Hex Ho Hev Hcl. apply logged_is_run_post; try assumption; [reflexivity|].
  set (b := softboost conf solve produce y inner).
  intros k tr s0 q s1 _ Hr E. pose proof (reaches_reach _ _ _ _ _ Hr) as Hr0.
  pose proof (reach_S _ _ _ _ _ _ _ Hr E) as Hr1. apply reaches_reach in Hr1. destruct (reach_sinv conf solve produce y inner s _ _ Hr1) as [tr1 HI].
  destruct HI as [_ [_ [_ [_ [_ [_ [_ [_ [_ [_ [[m [Em Om]] _]]]]]]]]]]].
  assert (Ep := so_final_ok conf y (so_nu s) _ m Om).
  destruct (Hex (so_hyps s1) _ ltac:(exists (S k), s0, q, s1, Continue, m; split; [exact Hr0|]; split; [exact E|]; split; [reflexivity|]; split; [exact Em|exact Ep])) as [_ [Lz Dw]].
  change (b_post b s1) with (soft_post solve s1). unfold soft_post, sq_weights. rewrite Em, Ep. cbn [bind]. destruct Om as [E1 _]. rewrite E1. unfold slice_from.
  rewrite (proj2 (Nat.leb_le _ _)) by lia. cbn [bind]. replace (1 + 2 * length y)%nat with (2 * length y + 1)%nat by lia.
  destruct (from_slices_dist conf (skipn (2 * length y + 1) (a_z (solve (gamma_conic conf y 1 (1 / so_nu s) (repeat 0 (length y)) (so_hyps s1))))) (so_hyps s1)) as [f [Ef _]]; [rewrite skipn_length, Lz; lia|exact Dw|].
  exists f. exact Ef.
Qed.

(** ** C95: the objective column of a log of SoftBoost *)
Lemma soft_best {H} (conf : H -> nat -> R) solve produce y inner (s s' : @soft H) m :
  (0 < length y)%nat -> 1 <= so_nu s -> so_model s' = Some m -> sqm_ok conf y (so_nu s) (so_hyps s') m ->
  (forall p, sq_final m = Ok p -> solves p (solve p)) ->
  exists f ws v, b_post (softboost conf solve produce y inner) s' = Ok f /\
    length ws = length (so_hyps s') /\ is_dist ws /\ (forall i, wm_confidence conf f i = vote conf (combine ws (so_hyps s')) i) /\
    soft_margin (so_nu s) y (vote conf (combine ws (so_hyps s'))) v /\
    forall ws v', length ws = length (so_hyps s') -> is_dist ws -> soft_margin (so_nu s) y (vote conf (combine ws (so_hyps s'))) v' -> v' <= v.
Proof.
  intros Hn Hnu Em Om Hex. assert (Ep := so_final_ok conf y (so_nu s) _ m Om).
  change (b_post (softboost conf solve produce y inner) s') with (soft_post solve s'). unfold soft_post, sq_weights. rewrite Em, Ep. cbn [bind].
  set (p := gamma_conic conf y 1 (1 / so_nu s) (repeat 0 (length y)) (so_hyps s')) in *.
  assert (Sp : solves p (solve p)) by (apply Hex; exact Ep).
  destruct (gamma_solved conf y 1 (1 / so_nu s) (repeat 0 (length y)) (so_hyps s') (repeat_length _ _) (solve p) Sp) as [_ [Lz [Ld [Dd [Cd [Lw [Dw [Eg [Ev Hopt]]]]]]]]].
  set (d := skipn 1 (a_x (solve p))) in *. set (g := nth 0 (a_x (solve p)) 0) in *. destruct Om as [E1 _]. rewrite E1. unfold slice_from. rewrite Lz. rewrite (proj2 (Nat.leb_le _ _)) by lia. cbn [bind].
  set (ws := skipn (1 + 2 * length y) (a_z (solve p))) in *. destruct (from_slices_dist conf ws (so_hyps s') Lw Dw) as [f [Ef Cf]].
  assert (Z : forall q : list R, rsum (map (fun i => nth i (repeat 0 (length y)) 0 * nth i q 0) (seq 0 (length y))) = 0) by (intros q'; apply rsum_zero; intros i Hi; rewrite nth_repeat_lt by exact Hi; ring).
  assert (Cap : capped (so_nu s) y d). { split; [exact Ld|]. split; [|apply Dd]. intros v Hv. split; [apply Dd, Hv|]. specialize (Cd v Hv). lra. }
  exists f, ws, g. split; [exact Ef|]. split; [exact Lw|]. split; [exact Dw|]. split; [exact Cf|]. split; [split|].
  - exists d. split; [exact Cap|]. exact Ev.
  - intros d' [Ld' [C1 C2]]. specialize (Hopt d' Ld'). rewrite !Z in Hopt.
    assert (g + 0 <= edge_of y d' (vote conf (combine ws (so_hyps s'))) + 0); [|lra]. apply Hopt; [split; [intros v Hv; apply C1, Hv|exact C2]|]. intros v Hv. specialize (C1 v Hv). lra.
  - intros ws' v' Lw' Dw' [_ Hm]. eapply Rle_trans; [apply (Hm d Cap)|]. apply vote_edge_ub; assumption.
Qed.

Lemma soft_margin_is nu s conf v : length (s_target s) = fst (shape s) -> soft_margin_eval nu s conf = Ok v -> soft_margin nu (s_target s) conf v.
Proof.
  intros Hs E. pose proof (P_C42_soft_margin nu s conf Hs) as P. rewrite E in P. destruct P as [_ [_ [[d [[Ld Cd] Ed]] Hm]]]. split.
  - exists d. split; [|exact Ed]. split; [rewrite Hs; exact Ld|exact Cd].
  - intros d' [Ld' Cd']. apply Hm. split; [rewrite <- Hs; exact Ld'|exact Cd'].
Qed.

Lemma soft_margin_ext nu y f g v : (forall i, f i = g i) -> soft_margin nu y f v -> soft_margin nu y g v.
Proof.
  intros E [[d [Cd Ed]] Hm]. assert (X : forall d, edge_of y d f = edge_of y d g) by (intros d'; unfold edge_of; apply rsum_map_ext; intros i _; rewrite E; reflexivity).
  split; [exists d; rewrite <- X; auto|]. intros d' Cd'. rewrite <- X. apply Hm, Cd'.
Qed.

Lemma soft_margin_unique nu y f v v' : soft_margin nu y f v -> soft_margin nu y f v' -> v = v'.
Proof. intros [[d [Cd Ed]] Hm] [[d' [Cd' Ed']] Hm']. specialize (Hm d' Cd'). specialize (Hm' d Cd). lra. Qed.

(** every line was measured in a state that the run went through; a line of a breaking round is the last one *)
Lemma lines_reach2 {St Out Line} (b : booster St Out) (measure : St -> res Line) clock limit every s fuel k l t :
  nth_error (snd (log_run b measure clock limit every fuel s)) k = Some (l, t) ->
  exists tr0 s0 q s1 flow rest, (k < fuel)%nat /\ reaches b s k tr0 s0 /\ b_boost b (S k) s0 = (q, Ok (s1, flow)) /\ measure s1 = Ok l /\
    trace_of (fst (log_run b measure clock limit every fuel s)) = (tr0 ++ q) ++ rest /\ (flow = Continue \/ rest = []).
Proof.
  unfold log_run. destruct (b_pre b s) as [s0|p] eqn:Ep; [|destruct k; discriminate].
  pose (P := fun tr' i (lt : Line * N) => exists tr0 s0 q s1 flow rest, (i < fuel)%nat /\ reaches b s i tr0 s0 /\ b_boost b (S i) s0 = (q, Ok (s1, flow)) /\ measure s1 = Ok (fst lt) /\ tr' = (tr0 ++ q) ++ rest /\ flow = Continue).
  pose (Q := fun tr' i (lt : Line * N) => exists tr0 s0 q s1 flow rest, (i < fuel)%nat /\ reaches b s i tr0 s0 /\ b_boost b (S i) s0 = (q, Ok (s1, flow)) /\ measure s1 = Ok (fst lt) /\ tr' = (tr0 ++ q) ++ rest /\ (flow = Continue \/ rest = [])).
  assert (Pmono : forall tr' u i lt, P tr' i lt -> P (tr' ++ u) i lt).
  { intros tr' u i lt [tr0 [s1 [q [s2 [flow [rest [A [B [C [D [E F]]]]]]]]]]]. exists tr0, s1, q, s2, flow, (rest ++ u). rewrite E, <- app_assoc. auto 10. }
  assert (PQ : forall tr' i lt, P tr' i lt -> Q tr' i lt).
  { intros tr' i lt [tr0 [s1 [q [s2 [flow [rest [A [B [C [D [E F]]]]]]]]]]]. exists tr0, s1, q, s2, flow, rest. auto 10. }
  assert (G : forall f k tr lines s0, reaches b s k tr s0 -> length lines = k -> (k + f <= fuel)%nat ->
     (forall i lt, nth_error lines i = Some lt -> P tr i lt) ->
     let r := log_from b measure clock limit every f (S k) (elapsed clock k) tr lines s0 in
     forall i lt, nth_error (snd r) i = Some lt -> Q (trace_of (fst r)) i lt).
  { clear s0 Ep. induction f as [|f IH]; intros k0 tr lines s0 Hr Hl Hf HP; [intros r i lt Hi; apply PQ, HP, Hi|].
    cbn [log_from]. destruct (b_boost b (S k0) s0) as [q [[s1 flow]|p]] eqn:E.
    2:{ cbn [fst snd trace_of]. intros i lt Hi. apply PQ, Pmono, HP, Hi. }
    destruct (measure s1) as [l0|p] eqn:El.
    2:{ cbn [fst snd trace_of]. intros i lt Hi. apply PQ, Pmono, HP, Hi. }
    cbv zeta. rewrite <- elapsed_S.
    assert (HQ' : forall i lt, nth_error (lines ++ [(l0, elapsed clock (S k0))]) i = Some lt -> Q (tr ++ q) i lt /\ (flow = Continue -> P (tr ++ q) i lt)).
    { intros i lt Hi. destruct (Nat.lt_ge_cases i (length lines)) as [Hi'|Hi'].
      - rewrite nth_error_app1 in Hi by exact Hi'. split; [apply PQ|intros _]; apply Pmono, HP, Hi.
      - rewrite nth_error_app2 in Hi by exact Hi'. destruct (i - length lines)%nat as [|d] eqn:Ed; [|destruct d; discriminate].
        injection Hi as <-. assert (i = k0) by lia. subst i. split; [|intros Fl]; exists tr, s0, q, s1, flow, []; rewrite app_nil_r; cbn [fst]; (split; [lia|]); auto 10. }
    assert (Hfin : forall i lt, nth_error (snd (finish b (tr ++ q) (lines ++ [(l0, elapsed clock (S k0))]) s1)) i = Some lt -> Q (trace_of (fst (finish b (tr ++ q) (lines ++ [(l0, elapsed clock (S k0))]) s1))) i lt).
    { unfold finish. destruct (b_post b s1); intros i lt Hi; apply HQ', Hi. }
    destruct (limit <? elapsed clock (S k0))%N; [exact Hfin|].
    destruct (negb (every =? usize_max)%N && (every =? 0)%N); [intros i lt Hi; apply HQ', Hi|].
    destruct flow as [|it]; [|exact Hfin].
    apply IH; [eapply reach_S; eassumption|rewrite app_length, Hl; simpl; lia|lia|intros i lt Hi; apply (HQ' i lt Hi); reflexivity]. }
  intros Hn. destruct (G fuel 0%nat [] [] s0 (reach_0 _ _ _ Ep) eq_refl (Nat.le_refl _) ltac:(intros [|i] lt X; discriminate) k (l, t) Hn) as [tr0 [s1 [q [s2 [flow [rest X]]]]]].
  exists tr0, s1, q, s2, flow, rest. exact X.
Qed.

(** With the soft-margin objective of the same nu and exact answers to the linear programs of the measurements, the value on
    line k is the largest soft margin that any convex combination of the hypotheses received so far attains, whatever the
    solver answers to the quadratic programs. *)
Lemma P_C95_softboost_log_is_optimal :
  forall (H : Type) (conf : H -> nat -> R) solve produce inner (smp : sample) (trl tel : wmajority H -> R) clock limit every (s : @soft H) fuel k v a c t,
  length (s_target smp) = fst (shape smp) -> let y := s_target smp in
  (forall hs p, soft_measures conf solve produce y inner s hs p -> solves p (solve p)) ->
  let logged := log_run (softboost conf solve produce y inner) (research_line (soft_current solve) (fun f => soft_margin_eval (so_nu s) smp (wm_confidence conf f)) trl tel) clock limit every fuel s in
  nth_error (snd logged) k = Some ((v, a, c), t) ->
  let received := answers produce (firstn (S k) (trace_of (fst logged))) in
  is_max_of (fun m => exists ws, length ws = length received /\ is_dist ws /\ soft_margin (so_nu s) y (vote conf (combine ws received)) m) (fun m => m) v.
Proof.
  intros H conf solve produce inner smp trl tel clock limit every s fuel k v a c t Hs y Hex logged Hk received.
  unfold logged in *. clear logged. set (b := softboost conf solve produce y inner) in *.
  destruct (lines_reach2 _ _ _ _ _ _ _ _ _ _ Hk) as [tr0 [s0 [q [s1 [flow [rest [_ [Hr [E [Em [Et Fr]]]]]]]]]]].
  assert (HI : SInv conf produce y s (S k) s0 tr0).
  { apply (reaches_inv b s (SInv conf produce y s)); [apply sinv_first| |exact Hr]. intros t2 s2 tr2 q2 s3 _ HI2 E2. pose proof (sinv_step conf solve produce y inner s t2 s2 tr2 HI2) as X. fold b in X. rewrite E2 in X. exact X. }
  pose proof (sinv_step conf solve produce y inner s (S k) s0 tr0 HI) as X. fold b in X. rewrite E in X.
  destruct HI as [Hn [Hnu [_ [Hl _]]]].
  assert (A : sinv_after conf produce y s (S k) s0 (tr0 ++ q) s1 /\ (length (tr0 ++ q) = S k \/ length (tr0 ++ q) = k /\ flow <> Continue)).
  { destruct flow as [|it].
    - destruct X as [_ [_ [_ [L [_ Y]]]]]. split; [exact Y|]. left. lia.
    - destruct X as [_ [Y Z]]. split; [exact Y|]. destruct q as [|d0 q]; [right; rewrite app_nil_r; split; [lia|discriminate]|left].
      change (b_boost b (S k) s0) with (soft_boost conf solve produce y inner (S k) s0) in E. unfold soft_boost in E.
      destruct (Nat.ltb _ _); [injection E; intros; discriminate|]. injection E as _ <- _. rewrite app_length. simpl. lia. }
  destruct A as [[_ [_ [Eh [_ [_ [[m [Emo Om]] _]]]]]] Len].
  assert (Er : received = so_hyps s1).
  { rewrite Eh. unfold received. rewrite Et. destruct Len as [Len|[Len Fl]].
    - rewrite <- Len. rewrite firstn_app, Nat.sub_diag, firstn_all, firstn_O, app_nil_r. reflexivity.
    - destruct Fr as [Fr | ->]; [contradiction|]. rewrite app_nil_r, firstn_all2 by lia. reflexivity. }
  rewrite Er. clear received Er.
  destruct (soft_best conf solve produce y inner s s1 m Hn (proj1 Hnu) Emo Om) as [f [ws [v0 [Ef [Lw [Dw [Cf [Sv Hmax]]]]]]]].
  { intros p Ep. apply (Hex (so_hyps s1)). exists (S k), s0, q, s1, flow, m. split; [apply (reaches_reach _ _ _ _ _ Hr)|]. auto. }
  unfold research_line in Em. change (soft_current solve s1) with (b_post b s1) in Em. unfold b in Em. rewrite Ef in Em. cbn [bind] in Em.
  destruct (soft_margin_eval (so_nu s) smp (wm_confidence conf f)) as [v'|] eqn:Ev; cbn [bind] in Em; [|discriminate]. injection Em as -> _ _.
  apply soft_margin_is in Ev; [|exact Hs]. fold y in Ev. apply (soft_margin_ext _ _ _ _ _ Cf) in Ev. pose proof (soft_margin_unique _ _ _ _ _ Ev Sv) as ->.
  split; [exists v0; split; [exists ws; auto|reflexivity]|]. intros m' [ws' [Lw' [Dw' Sm]]]. apply (Hmax ws' m' Lw' Dw' Sm).
Qed.

Lemma answers_firstn {H} (produce : nat -> list R -> H) tr j : answers produce (firstn j tr) = firstn j (answers produce tr).
Proof.
  unfold answers. rewrite firstn_map. f_equal. rewrite combine_firstn. f_equal. rewrite firstn_length.
  destruct (Nat.le_gt_cases j (length tr)) as [L|L].
  - replace (length tr) with (j + (length tr - j))%nat by lia. replace (Nat.min j (j + (length tr - j))) with j by lia. rewrite seq_app, firstn_app, (seq_length j 1), Nat.sub_diag, firstn_O, app_nil_r. symmetry. apply firstn_all2. rewrite seq_length. lia.
  - rewrite Nat.min_r by lia. symmetry. apply firstn_all2. rewrite seq_length. lia.
Qed.

(** so the column never decreases *)
Lemma P_C95_softboost_log_never_decreases :
  forall (H : Type) (conf : H -> nat -> R) solve produce inner (smp : sample) (trl tel : wmajority H -> R) clock limit every (s : @soft H) fuel j k v a c t v' a' c' t',
  length (s_target smp) = fst (shape smp) -> let y := s_target smp in
  (forall hs p, soft_measures conf solve produce y inner s hs p -> solves p (solve p)) ->
  let logged := log_run (softboost conf solve produce y inner) (research_line (soft_current solve) (fun f => soft_margin_eval (so_nu s) smp (wm_confidence conf f)) trl tel) clock limit every fuel s in
  (j <= k)%nat -> nth_error (snd logged) j = Some ((v, a, c), t) -> nth_error (snd logged) k = Some ((v', a', c'), t') -> v <= v'.
Proof.
  intros H conf solve produce inner smp trl tel clock limit every s fuel j k v a c t v' a' c' t' Hs y Hex logged Hjk Ej Ek.
  destruct (P_C95_softboost_log_is_optimal H conf solve produce inner smp trl tel clock limit every s fuel j v a c t Hs Hex Ej) as [[m [[ws [Lw [Dw Hm]]] <-]] _].
  destruct (P_C95_softboost_log_is_optimal H conf solve produce inner smp trl tel clock limit every s fuel k v' a' c' t' Hs Hex Ek) as [_ Hmax].
  cbn zeta in *. fold y logged in Lw, Hm, Hmax. set (tr := trace_of (fst logged)) in *. rewrite answers_firstn in Lw, Hm, Hmax.
  set (rk := firstn (S k) (answers produce tr)) in *. assert (Ea : firstn (S j) (answers produce tr) = firstn (S j) rk) by (unfold rk; rewrite firstn_firstn; f_equal; lia).
  rewrite Ea in Lw, Hm. set (rj := firstn (S j) rk) in *. assert (Es : rk = rj ++ skipn (S j) rk) by (symmetry; apply firstn_skipn).
  apply Hmax. exists (ws ++ repeat 0 (length (skipn (S j) rk))). split; [rewrite Es at 2; rewrite !app_length, repeat_length, Lw; reflexivity|]. split.
  - destruct Dw as [D1 D2]. split; [|rewrite rsum_app, rsum_repeat, D2; ring]. intros x Hx. apply in_app_or in Hx. destruct Hx as [Hx|Hx]; [apply D1, Hx|apply repeat_spec in Hx; lra].
  - revert Hm. apply soft_margin_ext. intros i. rewrite Es at 2. rewrite combine_app_eq by exact Lw. unfold vote. rewrite map_app, rsum_app.
    assert (Z : forall n (l : list H), rsum (map (fun p => fst p * conf (snd p) i) (combine (repeat 0 n) l)) = 0).
    { induction n as [|n IH]; intros [|h l]; cbn [repeat combine map rsum fst snd]; try reflexivity. rewrite IH. ring. }
    rewrite Z. ring.
Qed.

(** ** the hypotheses of C95 (and of C23_softboost_logged) are met: the log of a run with an exact solver *)
Lemma sx_measures inner hs p : soft_measures sx_conf sx_solve sx_produce y2 inner sx_state hs p -> solves p (sx_solve p).
Proof.
  intros [t [s [q [s' [flow [m [Hr [Eb [Eh' [Em' Ep]]]]]]]]]]. apply sx_reach in Hr. destruct Hr as [Ht [Ed [Eh [Eg [Emx [m0 [Em0 Om]]]]]]].
  change (soft_boost sx_conf sx_solve sx_produce y2 inner t s = (q, Ok (s', flow))) in Eb. unfold soft_boost in Eb. rewrite Emx in Eb. destruct (Nat.ltb_spec (soft_max_loop (1 / 10) 1 2) t) as [Hlt|Hlt].
  - assert (Es : s' = s) by congruence. subst s'. rewrite Em0 in Em'. injection Em' as <-. rewrite (so_final_ok sx_conf y2 1 _ m0 Om) in Ep. injection Ep as <-. rewrite Eh. pose proof sx_rounds. replace (t - 1)%nat with (S (t - 2)) by lia. apply sx_lp.
  - rewrite Em0 in Eb. unfold soft_ghat in Eg. cbn zeta in Eg. rewrite Eg in Eb. rewrite Ed, sx_first in Eb. pose proof (sq_push_ok sx_conf y2 1 (so_hyps s) m0 true Om) as O'. rewrite Eh in O', Eb.
    assert (Er : repeat true (t - 1) ++ [true] = repeat true (S (t - 1))) by (rewrite <- repeat_cons; reflexivity). rewrite Er in O', Eb.
    destruct (sq_loop _ _ _ _ _ _) as [[d r]|] eqn:El; cbn [bind fst snd] in Eb; [|discriminate]. injection Eb as _ <- _. cbn [so_model] in Em'. injection Em' as <-.
    rewrite (so_final_ok sx_conf y2 1 _ _ O') in Ep. injection Ep as <-. apply sx_lp.
Qed.

Example C95_hypotheses_met : exists inner (clock : nat -> N) (limit every : N) fuel lines tr f,
  s_target ex_rows = y2 /\ length (s_target ex_rows) = fst (shape ex_rows) /\
  (forall hs p, soft_measures sx_conf sx_solve sx_produce y2 inner sx_state hs p -> solves p (sx_solve p)) /\
  log_run (softboost sx_conf sx_solve sx_produce y2 inner) (research_line (soft_current sx_solve) (fun f => soft_margin_eval (so_nu sx_state) ex_rows (wm_confidence sx_conf f)) (fun _ => 0) (fun _ => 0)) clock limit every fuel sx_state = (Finished tr f, lines) /\
  (1 <= length lines)%nat.
Proof.
  destruct sx_inner as [inner Hi]. set (N0 := soft_max_loop (1 / 10) 1 2).
  destruct (P_C64_terminates bool sx_conf sx_solve sx_produce y2 inner sx_state (sx_asks inner) (sx_asks_final inner) y2_valid ltac:(simpl; lra) ltac:(simpl; lra) Hi (S N0) ltac:(simpl; unfold N0; lia)) as [tr [f [Er [Ln _]]]].
  set (b := softboost sx_conf sx_solve sx_produce y2 inner) in *.
  set (ms := research_line (soft_current sx_solve) (fun f => soft_margin_eval (so_nu sx_state) ex_rows (wm_confidence sx_conf f)) (fun _ => 0) (fun _ => 0)).
  assert (Z : forall t, elapsed (fun _ => 0%N) t = 0%N) by (induction t as [|t IH]; [reflexivity|rewrite elapsed_S, IH; reflexivity]).
  assert (E : fst (log_run b ms (fun _ => 0%N) 100 100 (S N0) sx_state) = Finished tr f).
  { rewrite <- Er. apply P_C23_softboost_logged; [|  |discriminate|intros t _; rewrite Z; discriminate].
    - intros hs p Ha. pose proof (sx_measures inner hs p Ha) as Sp. destruct Ha as [t [s [q [s' [flow [m [Hr [Eb [Eh [Em Ep]]]]]]]]]].
      destruct (reach_sinv sx_conf sx_solve sx_produce y2 inner sx_state t s Hr) as [tr1 HI]. pose proof (sinv_step sx_conf sx_solve sx_produce y2 inner sx_state t s tr1 HI) as St. rewrite Eb in St.
      assert (Om : sqm_ok sx_conf y2 (so_nu sx_state) hs m).
      { destruct flow as [|it]; [destruct St as [_ [_ [_ [_ [_ [_ [_ [_ [_ [_ [[m' [Em' Om]] _]]]]]]]]]]]|destruct St as [_ [[_ [_ [_ [_ [_ [[m' [Em' Om]] _]]]]]] _]]]; rewrite Em in Em'; injection Em' as <-; rewrite Eh in Om; exact Om. }
      rewrite (so_final_ok sx_conf y2 _ hs m Om) in Ep. injection Ep as <-.
      destruct (gamma_solved sx_conf y2 1 (1 / so_nu sx_state) (repeat 0 (length y2)) hs (repeat_length _ _) _ Sp) as [Lx [Lz [Ld [_ [_ [Lw [Dw _]]]]]]].
      split; [rewrite skipn_length in Ld; simpl in Ld |- *; lia|]. split; [rewrite Lz; lia|]. replace (2 * length y2 + 1)%nat with (1 + 2 * length y2)%nat by lia. exact Dw.
    - intros g. pose proof (P_C42_soft_margin (so_nu sx_state) ex_rows (wm_confidence sx_conf g) eq_refl) as P. destruct (soft_margin_eval _ _ _) as [v|]; [exists v; reflexivity|].
      exfalso. simpl in P. destruct P as [P|[P|[P|P]]]; try discriminate; lra. }
  exists inner, (fun _ => 0%N), 100%N, 100%N, (S N0), (snd (log_run b ms (fun _ => 0%N) 100 100 (S N0) sx_state)), tr, f.
  split; [reflexivity|]. split; [reflexivity|]. split; [apply sx_measures|]. split; [rewrite <- E; apply surjective_pairing|].
  destruct (P_C23_one_line_per_round _ _ _ b ms (fun _ => 0%N) 100%N 100%N sx_state (S N0)) as [_ L].
  destruct (L _ _ E) as [k [tr0 [s0 [q [s1 [flow [l [Hr [Eb [Ll _]]]]]]]]]]. rewrite Ll. lia.
Qed.
