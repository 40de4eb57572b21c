(** Properties C08, C12, C50, C51, C52, C62, C35: the guarantees in terms of what the user configures (defaults and the
    builder methods), with the numbers of rounds written out. *)
From Verif Require Import Base Spec RoundSpec RegSpec SortLib Utils UtilsProofs WMajority WMajorityProofs Booster AdaBoost
  AdaBoostProofs AdaBoostMain AdaBoostMore AdaBoostFacts AdaBoostV AdaBoostVProofs AdaBoostVFacts Num MadaBoost MadaBoostFacts
  SmoothBoost SmoothSpec SmoothBoostFacts Hoeffding FrankWolfe FrankWolfeFacts CERLP CERLPFacts Csc ConicSpec EdgeLP ERLP ERLPFacts.
Open Scope R_scope.

Lemma as_usize_floor x : 0 <= x -> floor_of x (as_usize x).
Proof. intros Hx. split; [apply as_usize_le; exact Hx|apply as_usize_gt]. Qed.
Lemma ceil_usize_ceil x : 0 <= x -> ceil_of x (ceil_usize x).
Proof. intros Hx. split; [pose proof (ceil_usize_lt x Hx); lra|apply ceil_usize_ge]. Qed.
Lemma floor_unique x a b : floor_of x a -> floor_of x b -> a = b.
Proof.
  intros [A1 A2] [B1 B2]. assert (X : INR a < INR (S b)) by (rewrite S_INR; lra). assert (Y : INR b < INR (S a)) by (rewrite S_INR; lra).
  apply INR_lt in X. apply INR_lt in Y. lia.
Qed.
Lemma ceil_unique x a b : ceil_of x a -> ceil_of x b -> a = b.
Proof.
  intros [A1 A2] [B1 B2]. assert (X : INR a < INR (S b)) by (rewrite S_INR; lra). assert (Y : INR b < INR (S a)) by (rewrite S_INR; lra).
  apply INR_lt in X. apply INR_lt in Y. lia.
Qed.

Lemma ln_len_nonneg (y : list R) : is_valid_binary_instance y = Ok tt -> 0 <= ln (INR (length y)).
Proof.
  intros Hv. apply valid_instance_nonempty in Hv. rewrite <- ln_1.
  assert (1 <= INR (length y)) by (apply (le_INR 1) in Hv; simpl in Hv; exact Hv).
  destruct (Rle_lt_or_eq_dec _ _ H) as [L|E]; [left; apply ln_increasing; lra|right; rewrite <- E; reflexivity].
Qed.

Lemma finished_valid_ada {H} (conf : H -> nat -> R) produce y fuel s tr f :
  run (adaboost conf produce y) fuel s = Finished tr f -> is_valid_binary_instance y = Ok tt.
Proof.
  unfold run. simpl b_pre. unfold ada_pre. destruct (is_valid_binary_instance y) as [[]|p]; [reflexivity|discriminate].
Qed.
Lemma finished_valid_adav {H} (conf : H -> nat -> R) produce y fuel s tr f :
  run (adaboostv conf produce y) fuel s = Finished tr f -> is_valid_binary_instance y = Ok tt.
Proof.
  unfold run. simpl b_pre. unfold adav_pre. destruct (is_valid_binary_instance y) as [[]|p]; [reflexivity|discriminate].
Qed.
Lemma finished_valid_mada {H} (conf : H -> nat -> R) produce y fuel s tr f :
  run (madaboost conf produce y) fuel s = Finished tr f -> is_valid_binary_instance y = Ok tt.
Proof.
  unfold run. simpl b_pre. unfold mada_pre. destruct (is_valid_binary_instance y) as [[]|p]; [reflexivity|discriminate].
Qed.

Lemma edges_snoc_in {H} (conf : H -> nat -> R) produce y tr0 d :
  In (edge_of y d (conf (produce (S (length tr0)) d))) (edges conf produce y (tr0 ++ [d])).
Proof. rewrite edges_app. apply in_or_app. right. left. reflexivity. Qed.

(** ** C08: AdaBoost with tolerance [tol] (default 1/(n+1)) that meets no perfect hypothesis asks for exactly
    floor(ln n / tol^2) hypotheses; with force_quit_at(T), exactly T *)
Lemma P_C08_adaboost_exact_rounds :
  forall (H : Type) (conf : H -> nat -> R) (produce : nat -> list R -> H) (y : list R) (fuel : nat) tr f,
  Forall (fun e => e < 1) (edges conf produce y tr) ->
  (run (adaboost conf produce y) fuel (ada_init y) = Finished tr f ->
     floor_of (ln (INR (length y)) * (INR (length y) + 1) ^ 2) (length tr)) /\
  (forall tol, 0 < tol -> run (adaboost conf produce y) fuel (ada_tolerance (ada_init y) tol) = Finished tr f ->
     floor_of (ln (INR (length y)) / tol ^ 2) (length tr)) /\
  (forall s T, run (adaboost conf produce y) fuel (ada_force_quit_at s T) = Finished tr f -> length tr = T).
Proof.
  intros H conf produce y fuel tr f He.
  assert (G : forall s, run (adaboost conf produce y) fuel s = Finished tr f -> length tr = ada_limit y s).
  { intros s E. destruct (ada_run_spec conf produce y fuel s) as [_ X]. destruct (X tr f E) as [_ [[L _]|[tr0 [d [-> [_ [_ [L _]]]]]]]].
    - exact L.
    - exfalso. pose proof (edges_snoc_in conf produce y tr0 d) as I0. rewrite Forall_forall in He. specialize (He _ I0).
      rewrite app_length, Nat.add_comm in L. simpl in L. lra. }
  assert (Gt : forall s tol, a_tolerance s = tol -> a_force_quit s = None -> 0 < tol -> run (adaboost conf produce y) fuel s = Finished tr f ->
     floor_of (ln (INR (length y)) / tol ^ 2) (length tr)).
  { intros s tol <- Hq Ht E. rewrite (G s E). unfold ada_limit. rewrite Hq. apply as_usize_floor.
    apply Rmult_le_pos; [apply ln_len_nonneg; eapply finished_valid_ada; exact E|].
    left. apply Rinv_0_lt_compat. apply pow_lt. exact Ht. }
  split; [|split].
  - intros E. replace (ln (INR (length y)) * (INR (length y) + 1) ^ 2) with (ln (INR (length y)) / (1 / (INR (length y) + 1)) ^ 2).
    + apply (Gt (ada_init y)); try reflexivity; [|exact E]. pose proof (pos_INR (length y)). apply Rdiv_lt_0_compat; lra.
    + pose proof (pos_INR (length y)). field. lra.
  - intros tol Ht E. apply (Gt (ada_tolerance (ada_init y) tol)); auto.
  - intros s T E. rewrite (G _ E). reflexivity.
Qed.

(** ** C50: AdaBoostV likewise with floor(2 ln n / tol^2), default tolerance 1/n *)
Lemma adav_exact {H} (conf : H -> nat -> R) produce y fuel s tr f :
  Forall (fun e => e < 1) (edges conf produce y tr) ->
  run (adaboostv conf produce y) fuel s = Finished tr f -> length tr = adav_limit y s.
Proof.
  intros He E. destruct (adav_run_spec conf produce y fuel s) as [_ X]. destruct (X tr f E) as [_ [[L _]|[tr0 [d [-> [_ [_ [L _]]]]]]]].
  - exact L.
  - exfalso. pose proof (edges_snoc_in conf produce y tr0 d) as I0. rewrite Forall_forall in He. specialize (He _ I0).
    rewrite app_length, Nat.add_comm in L. simpl in L. lra.
Qed.

Lemma P_C50_adaboostv_exact_rounds :
  forall (H : Type) (conf : H -> nat -> R) (produce : nat -> list R -> H) (y : list R) (fuel : nat) tr f,
  Forall (fun e => e < 1) (edges conf produce y tr) ->
  (run (adaboostv conf produce y) fuel (adav_init y) = Finished tr f ->
     floor_of (2 * ln (INR (length y)) * INR (length y) ^ 2) (length tr)) /\
  (forall tol, 0 < tol -> run (adaboostv conf produce y) fuel (adav_tolerance (adav_init y) tol) = Finished tr f ->
     floor_of (2 * ln (INR (length y)) / tol ^ 2) (length tr)) /\
  (forall s T, run (adaboostv conf produce y) fuel (adav_force_quit_at s T) = Finished tr f -> length tr = T).
Proof.
  intros H conf produce y fuel tr f He.
  assert (Gt : forall s tol, v_tolerance s = tol -> v_force_quit s = None -> 0 < tol -> run (adaboostv conf produce y) fuel s = Finished tr f ->
     floor_of (2 * ln (INR (length y)) / tol ^ 2) (length tr)).
  { intros s tol <- Hq Ht E. rewrite (adav_exact conf produce y fuel s tr f He E). unfold adav_limit. rewrite Hq. apply as_usize_floor.
    apply Rmult_le_pos; [pose proof (ln_len_nonneg y (finished_valid_adav _ _ _ _ _ _ _ E)); lra|].
    left. apply Rinv_0_lt_compat. apply pow_lt. exact Ht. }
  split; [|split].
  - intros E. pose proof (valid_instance_nonempty y (finished_valid_adav _ _ _ _ _ _ _ E)) as Hn. apply lt_INR in Hn. simpl in Hn.
    replace (2 * ln (INR (length y)) * INR (length y) ^ 2) with (2 * ln (INR (length y)) / (1 / INR (length y)) ^ 2) by (field; lra).
    apply (Gt (adav_init y)); try reflexivity; [|exact E]. apply Rdiv_lt_0_compat; lra.
  - intros tol Ht E. apply (Gt (adav_tolerance (adav_init y) tol)); auto.
  - intros s T E. rewrite (adav_exact conf produce y fuel _ tr f He E). reflexivity.
Qed.

(** ** C12 in the user's terms: init(sample).tolerance(tol).run(..) with edges in [g, 1): every margin exceeds
    g - tol - tol / (2 T), T being the number of rounds *)
Lemma P_C12_adaboostv_configured_margin :
  forall (H : Type) (conf : H -> nat -> R) (produce : nat -> list R -> H) (y : list R) (fuel : nat) tol tr f g,
  (forall i, (i < length y)%nat -> pm1 (nth i y 0)) ->
  (forall h i, (i < length y)%nat -> -1 <= conf h i <= 1) ->
  0 < tol ->
  run (adaboostv conf produce y) fuel (adav_tolerance (adav_init y) tol) = Finished tr f ->
  Forall (fun e => g <= e < 1) (edges conf produce y tr) ->
  forall i, (i < length y)%nat -> g - tol * (1 + 1 / (2 * INR (length tr))) < nth i y 0 * wm_confidence conf f i.
Proof.
  intros H conf produce y fuel tol tr f g Hy Hc Ht E He i Hi.
  apply (P_C12_adaboostv_margin_at_max_loop H conf produce y (adav_tolerance (adav_init y) tol) fuel tr f g); auto.
  - eapply Forall_impl; [|exact He]. simpl. intros a Ha. lra.
  - rewrite (adav_exact conf produce y fuel (adav_tolerance (adav_init y) tol) tr f); [reflexivity| |exact E].
    eapply Forall_impl; [|exact He]. simpl. intros a Ha. lra.
Qed.

(** ** C51: MadaBoost: ceil((n-1) / tol^2) rounds *)
Lemma P_C51_madaboost_exact_rounds :
  forall (H : Type) (conf : H -> nat -> R) (produce : nat -> list R -> H) (y : list R) (fuel : nat) tr f,
  Forall (fun e => e < 1) (edges conf produce y tr) ->
  (run (madaboost conf produce y) fuel (mada_init y) = Finished tr f ->
     ceil_of ((INR (length y) - 1) * (INR (length y) + 1) ^ 2) (length tr)) /\
  (forall tol, 0 < tol -> run (madaboost conf produce y) fuel (mada_tolerance (mada_init y) tol) = Finished tr f ->
     ceil_of ((INR (length y) - 1) / tol ^ 2) (length tr)) /\
  (forall s T, run (madaboost conf produce y) fuel (mada_force_quit_at s T) = Finished tr f -> length tr = T).
Proof.
  intros H conf produce y fuel tr f He.
  assert (G : forall s, run (madaboost conf produce y) fuel s = Finished tr f -> length tr = mada_limit y s).
  { intros s E. destruct (mada_run_spec conf produce y fuel s) as [_ X]. destruct (X tr f E) as [[L _]|[tr0 [d [-> [L _]]]]].
    - exact L.
    - exfalso. pose proof (edges_snoc_in conf produce y tr0 d) as I0. rewrite Forall_forall in He. specialize (He _ I0).
      rewrite app_length, Nat.add_comm in L. simpl in L. lra. }
  assert (Gt : forall s tol, m_tolerance s = tol -> m_force_quit s = None -> 0 < tol -> run (madaboost conf produce y) fuel s = Finished tr f ->
     ceil_of ((INR (length y) - 1) / tol ^ 2) (length tr)).
  { intros s tol <- Hq Ht E. rewrite (G s E). unfold mada_limit. rewrite Hq. apply ceil_usize_ceil.
    pose proof (valid_instance_nonempty y (finished_valid_mada _ _ _ _ _ _ _ E)) as Hn. apply (le_INR 1) in Hn. simpl in Hn.
    apply Rmult_le_pos; [lra|]. left. apply Rinv_0_lt_compat. apply pow_lt. exact Ht. }
  split; [|split].
  - intros E. pose proof (pos_INR (length y)).
    replace ((INR (length y) - 1) * (INR (length y) + 1) ^ 2) with ((INR (length y) - 1) / (1 / (INR (length y) + 1)) ^ 2) by (field; lra).
    apply (Gt (mada_init y)); try reflexivity; [|exact E]. apply Rdiv_lt_0_compat; lra.
  - intros tol Ht E. apply (Gt (mada_tolerance (mada_init y) tol)); auto.
  - intros s T E. rewrite (G _ E). reflexivity.
Qed.

(** ** C52: SmoothBoost configured with tolerance kappa and gamma > 0: fewer than 1 + 2 / (kappa gamma^2 sqrt(1-gamma)) rounds *)
Lemma P_C52_smoothboost_configured_rounds :
  forall (H : Type) (conf : H -> nat -> R) (produce : nat -> list R -> H) (y : list R) (umax : nat) (fuel : nat) kappa gamma s,
  0 < kappa -> 0 < gamma ->
  sb_set_gamma (sb_tolerance (sb_init umax) kappa) gamma = Ok s ->
  INR (length (trace_of (run (smoothboost conf produce y umax) fuel s))) < 2 / (kappa * gamma ^ 2 * sqrt (1 - gamma)) + 1.
Proof.
  intros H conf produce y umax fuel kappa gamma s Hk Hg E. unfold sb_set_gamma in E.
  destruct (Rleb_spec 0 gamma) as [A|A]; [|discriminate]. destruct (Rltb_spec gamma (1 / 2)) as [B|B]; [|discriminate]. simpl in E.
  injection E as <-.
  set (s := mkSb _ _ _ _ _ _ _ _).
  assert (Hs : 0 < kappa * gamma ^ 2 * sqrt (1 - gamma)).
  { apply Rmult_lt_0_compat; [apply Rmult_lt_0_compat; [exact Hk|apply pow_lt; exact Hg]|apply sqrt_lt_R0; lra]. }
  destruct (P_C52_smoothboost_terminates H conf produce y umax s fuel) as [L _]; [simpl; lra|].
  apply le_INR in L. eapply Rle_lt_trans; [exact L|].
  assert (Em : sb_max_loop umax (sb_kappa s) (sb_gamma s) = ceil_usize (2 / (kappa * gamma ^ 2 * sqrt (1 - gamma)))).
  { unfold sb_max_loop. change (sb_kappa s) with kappa. change (sb_gamma s) with gamma. cbv zeta.
    destruct (Reqb_spec (kappa * gamma ^ 2 * sqrt (1 - gamma)) 0) as [Z|Z]; [lra|reflexivity]. }
  rewrite Em. apply ceil_usize_lt. left. apply Rdiv_lt_0_compat; lra.
Qed.

(** ** C62 in the user's terms: tolerance [tol] and capping [nu] set through the builder, default short-step rule: fewer
    than 1 + 32 ln(n/nu) / tol^2 rounds, and a soft margin of at least g - tol *)
Lemma P_C62_cerlp_configured :
  forall (H : Type) (conf : H -> nat -> R) (eqH : H -> H -> bool) (produce : nat -> list R -> H) (y : list R) (fuel : nat) tol nu s tr f g,
  0 < tol -> cerlp_nu y (cerlp_tolerance (cerlp_init y) tol) nu = Ok s ->
  (forall h i, (i < length y)%nat -> -1 <= nth i y 0 * conf h i <= 1) ->
  (forall f h, eqH f h = true -> forall i, (i < length y)%nat -> conf f i = conf h i) ->
  run (cerlpboost conf eqH produce y) fuel s = Finished tr f ->
  Forall (fun e => g <= e) (edges conf produce y tr) ->
  INR (length tr) < 32 * ln (INR (length y) / nu) / tol ^ 2 + 1 /\
  forall v, soft_margin nu y (wm_confidence conf f) v -> g - tol <= v.
Proof.
  intros H conf eqH produce y fuel tol nu s tr f g Ht E Hc Heq Hr He.
  assert (Hnu : 1 <= nu <= INR (length y)).
  { unfold cerlp_nu in E. unfold check_nu in E. destruct (Rleb_spec 1 nu); [|discriminate]. destruct (Rleb_spec nu (INR (length y))); [|discriminate]. lra. }
  assert (Es : s = mkCerlp (ce_dist (cerlp_init (H := H) y)) (tol / 2) (mkFw (fw_eta (ce_fw (cerlp_init (H := H) y))) nu ShortStep) [] [] 0).
  { unfold cerlp_nu in E. destruct (check_nu nu (length y)); [|discriminate]. cbn [bind] in E.
    assert (X : forall (a b : @cerlp H), Ok a = Ok b -> a = b) by congruence. apply X in E. rewrite <- E. reflexivity. }
  assert (Hn : fw_nu (ce_fw s) = nu) by (rewrite Es; reflexivity). assert (Hh : ce_half_tol s = tol / 2) by (rewrite Es; reflexivity).
  assert (Hty : fw_type (ce_fw s) = ShortStep) by (rewrite Es; reflexivity).
  split.
  - pose proof (P_C62_cerlp_round_limit H conf eqH produce y s fuel) as L. rewrite Hn in L. specialize (L Hnu). destruct L as [L _].
    rewrite Hr in L. simpl in L. rewrite Hh in L. apply le_INR in L. eapply Rle_lt_trans; [exact L|].
    replace (32 * ln (INR (length y) / nu) / tol ^ 2) with (8 * ln (INR (length y) / nu) / (tol / 2) ^ 2) by (field; lra).
    apply ceil_usize_lt. apply Rmult_le_pos; [|left; apply Rinv_0_lt_compat; apply pow_lt; lra].
    assert (0 <= ln (INR (length y) / nu)); [|lra]. rewrite <- ln_1.
    assert (1 <= INR (length y) / nu).
    { apply (Rmult_le_reg_r nu); [lra|]. unfold Rdiv. rewrite Rmult_assoc, Rinv_l by lra. lra. }
    destruct (Rle_lt_or_eq_dec _ _ H0) as [LL|EE]; [left; apply ln_increasing; lra|right; rewrite <- EE; reflexivity].
  - intros v Hv. replace (g - tol) with (g - 2 * ce_half_tol s) by (rewrite Hh; field).
    eapply (P_C62_cerlp_guarantee H conf eqH produce y s fuel tr f g); eauto; try (rewrite Hn; assumption); rewrite ?Hh; try lra.
Qed.

(** ** C35 in the user's terms: tolerance [tol] and capping [nu] set through the builder *)
Lemma P_C35_configured_rounds : forall (H : Type) (conf : H -> nat -> R) solve produce y inner fuel tol nu (s : @erlp H),
  0 < tol -> erlp_nu y (erlp_tolerance (erlp_init y) tol) nu = Ok s ->
  INR (length (trace_of (run (erlpboost conf solve produce y inner) fuel s))) < Rmax (8 / tol) (32 * ln (INR (length y) / nu) / tol ^ 2) + 1.
Proof.
  intros H conf solve produce y inner fuel tol nu s Ht E.
  assert (Hs : er_half_tol s = tol / 2 /\ er_nu s = nu).
  { unfold erlp_nu in E. destruct (check_nu nu (length y)); [|discriminate]. cbn [bind] in E.
    assert (X : forall (a b : @erlp H), Ok a = Ok b -> a = b) by congruence. apply X in E. rewrite <- E. split; reflexivity. }
  destruct Hs as [Hh Hn]. pose proof (P_C35_rounds H conf solve produce y inner s fuel) as L. rewrite Hh, Hn in L.
  apply le_INR in L. eapply Rle_lt_trans; [exact L|]. unfold erlp_max_loop.
  replace (8 / tol) with (4 / (tol / 2)) by (field; lra).
  replace (32 * ln (INR (length y) / nu) / tol ^ 2) with (8 * ln (INR (length y) / nu) / (tol / 2) ^ 2) by (field; lra).
  apply ceil_usize_lt. eapply Rle_trans; [|apply Rmax_l]. left. apply Rdiv_lt_0_compat; lra.
Qed.
