(** Property C84: a booster that has been run can be configured and run again as if it were new. *)
From Verif Require Import Base Utils WMajority Booster Reach AdaBoost AdaBoostV MadaBoost SmoothBoost GraphSep GBM FrankWolfe CERLP Csc LPBoost ERLP SoftBoost MLP Builders RerunSpec AdaBoostMore.
Open Scope R_scope.

Section Generic.
  Context {St Out A : Type}.
  Variables (b b' : booster St Out) (same : St -> St -> Prop) (call : St -> A -> res St).
  Hypothesis tran : forall s1 s2 s3, same s1 s2 -> same s2 s3 -> same s1 s3.
  Hypothesis pre_same : forall s s', b_pre b s = Ok s' -> same s s'.
  Hypothesis boost_same : forall t s q s' c, b_boost b t s = (q, Ok (s', c)) -> same s s'.
  Hypothesis pre_only : forall s s', same s s' -> b_pre b' s' = b_pre b' s.
  Hypothesis call_same : forall c s s', same s s' -> match call s c, call s' c with Ok a, Ok a' => same a a' | Panic p, Panic p' => p' = p | _, _ => False end.

  Lemma left_same s s' : left_behind b s s' -> same s s'.
  Proof.
    assert (R : forall t s1, reach b s t s1 -> same s s1).
    { induction 1 as [s1 E|t s1 q s2 R IH E]; [apply pre_same, E|]. eapply tran; [exact IH|]. eapply boost_same, E. }
    intros [t H|t s1 q it H E]; [apply (R t), H|]. eapply tran; [apply (R t s1 H)|]. eapply boost_same, E.
  Qed.

  Lemma calls_same calls : forall s s', same s s' -> run_alike call calls b' s s'.
  Proof.
    unfold run_alike. induction calls as [|c calls IH]; intros s s' H; cbn [apply_calls].
    - intros fuel. unfold run. rewrite (pre_only s s' H). reflexivity.
    - pose proof (call_same c s s' H) as C. destruct (call s c) as [a|p], (call s' c) as [a'|p']; cbn [bind]; try contradiction; [apply IH, C|exact C].
  Qed.

  Lemma rerun s s' calls : left_behind b s s' -> run_alike call calls b' s s'.
  Proof. intros H. apply calls_same, left_same, H. Qed.
End Generic.

(** inverts a chain of binds and matches that ended in Ok *)
Ltac inv E := repeat first
  [ discriminate E
  | match type of E with
    | context [match ?x with _ => _ end] => let Q := fresh in destruct x eqn:Q; cbn [bind] in E; try discriminate E
    | context [bind ?x _] => let Q := fresh in destruct x eqn:Q; cbn [bind] in E; try discriminate E
    end ].

Ltac finish E := inversion E; subst; clear E; cbn; repeat split; try congruence; auto.

(** ** after any run, with whatever weak learner, the booster behaves as before it: every chain of configuration calls
    followed by a run, with any weak learner, gives the same calls, panics and hypothesis as on the state before *)
Lemma P_C84_adaboost : forall (H : Type) (conf : H -> nat -> R) produce produce' y (s s' : @ada H) calls,
  left_behind (adaboost conf produce y) s s' -> run_alike adaboost_call calls (adaboost conf produce' y) s s'.
Proof.
  intros H conf produce produce' y s s' calls. apply (rerun _ _ (fun a a' => a_tolerance a' = a_tolerance a /\ a_force_quit a' = a_force_quit a)).
  - intros a1 a2 a3 [<- <-] [<- <-]. auto.
  - intros a a' E. cbn in E. unfold ada_pre in E. inv E; finish E.
  - intros t a q a' c E. cbn in E. unfold ada_boost in E. inv E; finish E.
  - intros a a' [E1 E2]. cbn. unfold ada_pre, ada_max_loop. rewrite E1, E2. reflexivity.
  - intros [it|tol] a a' [E1 E2]; cbn; auto.
Qed.

Lemma P_C84_adaboostv : forall (H : Type) (conf : H -> nat -> R) produce produce' y (s s' : @adav H) calls,
  left_behind (adaboostv conf produce y) s s' -> run_alike adaboostv_call calls (adaboostv conf produce' y) s s'.
Proof.
  intros H conf produce produce' y s s' calls. apply (rerun _ _ (fun a a' => v_tolerance a' = v_tolerance a /\ v_force_quit a' = v_force_quit a)).
  - intros a1 a2 a3 [<- <-] [<- <-]. auto.
  - intros a a' E. cbn in E. unfold adav_pre in E. inv E; finish E.
  - intros t a q a' c E. cbn in E. unfold adav_boost in E. destruct (Nat.ltb _ _); [finish E|]. destruct (Rleb _ _); [finish E|]. unfold adav_update in E. destruct (_ || _); cbn [bind] in E; [discriminate|].
    destruct (exp_update _ _ _) as [d|]; cbn [bind] in E; [|discriminate]. finish E.
  - intros a a' [E1 E2]. cbn. unfold adav_pre, adav_max_loop. rewrite E1, E2. reflexivity.
  - intros [it|tol] a a' [E1 E2]; cbn; auto.
Qed.

Lemma P_C84_madaboost : forall (H : Type) (conf : H -> nat -> R) produce produce' y (s s' : @mada H) calls,
  left_behind (madaboost conf produce y) s s' -> run_alike madaboost_call calls (madaboost conf produce' y) s s'.
Proof.
  intros H conf produce produce' y s s' calls. apply (rerun _ _ (fun a a' => m_tolerance a' = m_tolerance a /\ m_force_quit a' = m_force_quit a)).
  - intros a1 a2 a3 [<- <-] [<- <-]. auto.
  - intros a a' E. cbn in E. unfold mada_pre in E. inv E; finish E.
  - intros t a q a' c E. cbn in E. unfold mada_boost in E. destruct (Nat.ltb _ _); [finish E|]. destruct (beta2distribution _ _) as [d|]; [|discriminate]. destruct (Rleb _ _); [finish E|]. unfold mada_update in E.
    destruct (negb _); cbn [bind] in E; [discriminate|]. finish E.
  - intros a a' [E1 E2]. cbn. unfold mada_pre, mada_max_loop. rewrite E1, E2. reflexivity.
  - intros [it|tol] a a' [E1 E2]; cbn; auto.
Qed.

Lemma P_C84_smoothboost : forall (H : Type) (conf : H -> nat -> R) produce produce' y umax (s s' : @sb H) calls,
  left_behind (smoothboost conf produce y umax) s s' -> run_alike smoothboost_call calls (smoothboost conf produce' y umax) s s'.
Proof.
  intros H conf produce produce' y umax s s' calls. apply (rerun _ _ (fun a a' => sb_kappa a' = sb_kappa a /\ sb_gamma a' = sb_gamma a)).
  - intros a1 a2 a3 [<- <-] [<- <-]. auto.
  - intros a a' E. cbn in E. unfold sb_pre in E. inv E; finish E.
  - intros t a q a' c E. cbn in E. unfold sb_boost in E. inv E; finish E.
  - intros a a' [E1 E2]. cbn. unfold sb_pre. rewrite E1, E2. reflexivity.
  - intros [k|g] a a' [E1 E2]; cbn; auto. unfold sb_set_gamma. destruct (Rleb 0 g && Rltb g (1 / 2)); cbn; auto.
Qed.

Lemma P_C84_graph_separation : forall (H X : Type) (conf : H -> X -> R) row y produce produce' (s s' : @gs H) fuel,
  left_behind (graphsep conf row y produce) s s' -> run (graphsep conf row y produce') fuel s' = run (graphsep conf row y produce') fuel s.
Proof. intros. reflexivity. Qed.

Lemma P_C84_gradient_boosting : forall (H : Type) (pred : H -> nat -> R) produce produce' y best best' (s s' : @gbm H) fuel,
  left_behind (gbm_booster pred produce y best) s s' -> run (gbm_booster pred produce' y best') fuel s' = run (gbm_booster pred produce' y best') fuel s.
Proof.
  intros H pred produce produce' y best best' s s' fuel L.
  assert (S : gbm_max_iter s' = gbm_max_iter s).
  { apply (left_same (gbm_booster pred produce y best) (fun a a' => gbm_max_iter a' = gbm_max_iter a)); [intros; congruence| | |exact L].
    - intros a a' E. cbn in E. unfold gbm_pre in E. finish E.
    - intros t a q a' c E. cbn in E. unfold gbm_boost in E. inv E; finish E. }
  unfold run. cbn [b_pre gbm_booster]. unfold gbm_pre. rewrite S. reflexivity.
Qed.

Lemma P_C84_lpboost : forall (H : Type) (conf : H -> nat -> R) solve solve' produce produce' y (s s' : @lpboost H) calls,
  left_behind (lpboost_booster conf solve produce y) s s' -> run_alike (lpboost_call y) calls (lpboost_booster conf solve' produce' y) s s'.
Proof.
  intros H conf solve solve' produce produce' y s s' calls. apply (rerun _ _ (fun a a' => lb_tol a' = lb_tol a /\ lb_nu a' = lb_nu a)).
  - intros a1 a2 a3 [<- <-] [<- <-]. auto.
  - intros a a' E. cbn in E. unfold lpb_pre in E. inv E; finish E.
  - intros t a q a' c E. cbn in E. unfold lpb_boost in E. inv E; finish E.
  - intros a a' [E1 E2]. cbn. unfold lpb_pre. rewrite E1, E2. reflexivity.
  - intros [nu|tol] a a' [E1 E2]; cbn; auto. unfold lpb_nu. destruct (check_nu nu (length y)); cbn; auto.
Qed.

Lemma P_C84_erlpboost : forall (H : Type) (conf : H -> nat -> R) solve solve' produce produce' y inner inner' (s s' : @erlp H) calls,
  left_behind (erlpboost conf solve produce y inner) s s' -> run_alike (erlpboost_call y) calls (erlpboost conf solve' produce' y inner') s s'.
Proof.
  intros H conf solve solve' produce produce' y inner inner' s s' calls. apply (rerun _ _ (fun a a' => er_half_tol a' = er_half_tol a /\ er_nu a' = er_nu a)).
  - intros a1 a2 a3 [<- <-] [<- <-]. auto.
  - intros a a' E. cbn in E. unfold erlp_pre in E. inv E; finish E.
  - intros t a q a' c E. cbn in E. unfold erlp_boost in E. inv E; finish E.
  - intros a a' [E1 E2]. cbn. unfold erlp_pre. rewrite E1, E2. reflexivity.
  - intros [nu|tol] a a' [E1 E2]; cbn; auto. unfold erlp_nu. destruct (check_nu nu (length y)); cbn; auto.
Qed.

Lemma P_C84_softboost : forall (H : Type) (conf : H -> nat -> R) solve solve' produce produce' y inner inner' (s s' : @soft H) calls,
  left_behind (softboost conf solve produce y inner) s s' -> run_alike (softboost_call y) calls (softboost conf solve' produce' y inner') s s'.
Proof.
  intros H conf solve solve' produce produce' y inner inner' s s' calls. apply (rerun _ _ (fun a a' => so_tol a' = so_tol a /\ so_nu a' = so_nu a)).
  - intros a1 a2 a3 [<- <-] [<- <-]. auto.
  - intros a a' E. cbn in E. unfold soft_pre in E. inv E; finish E.
  - intros t a q a' c E. cbn in E. unfold soft_boost in E. destruct (Nat.ltb _ _); [finish E|]. destruct (so_model a); [|discriminate]. destruct (sq_loop _ _ _ _ _ _) as [r|]; cbn [bind] in E; [|discriminate]. finish E.
  - intros a a' [E1 E2]. cbn. unfold soft_pre. rewrite E1, E2. reflexivity.
  - intros [nu|tol] a a' [E1 E2]; cbn; auto. unfold soft_nu. destruct (check_nu nu (length y)); cbn; auto.
Qed.

(** TotalBoost, whose only setter is tolerance *)
Lemma P_C84_totalboost : forall (H : Type) (conf : H -> nat -> R) solve solve' produce produce' y inner inner' (s s' : @soft H) calls,
  left_behind (softboost conf solve produce y inner) s s' -> run_alike totalboost_call calls (softboost conf solve' produce' y inner') s s'.
Proof.
  intros H conf solve solve' produce produce' y inner inner' s s' calls L. pose proof (P_C84_softboost H conf solve solve' produce produce' y inner inner' s s' (map LTolerance calls) L) as P.
  assert (A : forall a : @soft H, apply_calls (softboost_call y) a (map LTolerance calls) = apply_calls totalboost_call a calls).
  { clear. induction calls as [|c calls IH]; intros a; [reflexivity|]. cbn. apply IH. }
  unfold run_alike in *. rewrite !A in P. exact P.
Qed.

Lemma P_C84_cerlpboost : forall (H : Type) (conf : H -> nat -> R) eqH produce produce' y (s s' : @cerlp H) calls,
  left_behind (cerlpboost conf eqH produce y) s s' -> run_alike (cerlpboost_call y) calls (cerlpboost conf eqH produce' y) s s'.
Proof.
  intros H conf eqH produce produce' y s s' calls. apply (rerun _ _ (fun a a' => ce_half_tol a' = ce_half_tol a /\ fw_nu (ce_fw a') = fw_nu (ce_fw a) /\ fw_type (ce_fw a') = fw_type (ce_fw a))).
  - intros a1 a2 a3 [<- [<- <-]] [<- [<- <-]]. auto.
  - intros a a' E. cbn in E. unfold cerlp_pre in E. inv E; finish E.
  - intros t a q a' c E. cbn in E. unfold cerlp_boost in E. destruct (Nat.ltb _ _); [finish E|]. destruct (exp_distribution _ _ _ _ _ _) as [d|]; [|discriminate]. destruct (Rleb _ _); [finish E|].
    destruct (position _ _); destruct (next_iterate _ _ _ _ _ _ _ _); cbn [bind] in E; try discriminate; finish E.
  - intros a a' [E1 [E2 E3]]. cbn. unfold cerlp_pre. rewrite E1, E2, E3. reflexivity.
  - intros [nu|tol|ty] a a' [E1 [E2 E3]]; cbn; auto. unfold cerlp_nu. destruct (check_nu nu (length y)); cbn; auto.
Qed.

Lemma P_C84_mlpboost : forall (H : Type) (conf : H -> nat -> R) eqH solve solve' noise noise' produce produce' y (s s' : @mlp H) calls,
  left_behind (mlpboost conf eqH solve noise produce y) s s' -> run_alike (mlpboost_call y) calls (mlpboost conf eqH solve' noise' produce' y) s s'.
Proof.
  intros H conf eqH solve solve' noise noise' produce produce' y s s' calls. apply (rerun _ _ (fun a a' => ml_half_tol a' = ml_half_tol a /\ fw_nu (ml_fw a') = fw_nu (ml_fw a) /\ fw_type (ml_fw a') = fw_type (ml_fw a))).
  - intros a1 a2 a3 [<- [<- <-]] [<- [<- <-]]. auto.
  - intros a a' E. cbn in E. unfold mlp_pre in E. inv E; finish E.
  - intros t a q a' c E. cbn in E. unfold mlp_boost in E. destruct (Nat.ltb _ _); [finish E|]. destruct (exp_distribution _ _ _ _ _ _) as [d|]; [|discriminate].
    destruct (Nat.eqb t 1).
    + destruct (secondary_update _ _ _ _ _ _) as [r|]; cbn [bind] in E; [|discriminate]. finish E.
    + destruct (objval _ _ _ _ _) as [v|]; cbn [bind] in E; [|discriminate]. destruct (Rleb _ _); [finish E|].
      destruct (position _ _); destruct (next_iterate _ _ _ _ _ _ _ _); cbn [bind] in E; try discriminate;
      (destruct (secondary_update _ _ _ _ _ _) as [r|]; cbn [bind] in E; [|discriminate]); (destruct (better_weight _ _ _ _ _ _) as [w|]; cbn [bind] in E; [|discriminate]);
      (destruct (check_capped_simplex_condition _ _); cbn [bind] in E; [|discriminate]); finish E.
  - intros a a' [E1 [E2 E3]]. cbn. unfold mlp_pre. rewrite E1, E2, E3. reflexivity.
  - intros [nu|tol|ty] a a' [E1 [E2 E3]]; cbn; auto. unfold mlp_nu. destruct (check_nu nu (length y)); cbn; auto.
Qed.

(** ** Example: AdaBoost on the labels [1; -1] with a weak learner that is always wrong ends in its first round and leaves weights behind *)
Example C84_hypotheses_met : exists s' : @ada (nat -> R),
  left_behind (adaboost fconf (fun _ _ => h_wrong) y2) (ada_init y2) s' /\ a_weights s' = [-1] /\ a_hyps s' = [h_wrong] /\ s' <> ada_init y2.
Proof.
  assert (Ed : repeat (1 / INR (length y2)) (length y2) = [1 / 2; 1 / 2]).
  { simpl. replace (1 + 1) with 2 by lra. reflexivity. }
  assert (Hp : b_pre (adaboost fconf (fun _ _ => h_wrong) y2) (ada_init y2) =
    Ok (mkAda [1 / 2; 1 / 2] (1 / (INR (length y2) + 1)) [] [] (ada_max_loop y2 (@ada_init (nat -> R) y2)) None)).
  { cbn [b_pre adaboost]. unfold ada_pre. rewrite y2_valid. cbn [bind]. rewrite Ed. reflexivity. }
  assert (HL : (1 <= ada_max_loop y2 (@ada_init (nat -> R) y2))%nat).
  { unfold ada_max_loop. simpl. apply as_usize_ge. simpl INR.
    replace (1 + 1) with 2 by lra. pose proof ln_lt_2.
    replace (ln 2 / (1 / (2 + 1) * (1 / (2 + 1) * 1))) with (9 * ln 2) by field. lra. }
  assert (Ee : inner_product (margins_of_hypothesis fconf y2 h_wrong) [1 / 2; 1 / 2] = -1).
  { unfold inner_product, dot, zipmul, margins_of_hypothesis, fconf, h_wrong. simpl. field. }
  eexists. split; [eapply left_at_end with (t := 1%nat); [apply reach_first, Hp|]|].
  - cbn [b_boost adaboost]. unfold ada_boost. cbn [a_max_iter a_force_quit a_tolerance a_dist].
    destruct (Nat.ltb_spec (ada_max_loop y2 (@ada_init (nat -> R) y2)) 1) as [L|L]; [lia|].
    rewrite Ee. rewrite Rleb_true by (rewrite Rabs_left; lra). unfold rsignum. rewrite Rltb_true by lra. reflexivity.
  - cbn. repeat split. intros E. apply (f_equal a_weights) in E. discriminate E.
Qed.
