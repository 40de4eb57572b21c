(** Property C85: the settings of gradient boosting. *)
From Verif Require Import Base Spec Utils WMajority Booster Losses LossSpec LossFacts GBM GBMFacts AdaBoost AdaBoostMore BuilderSpec Builders GBMSet.
Open Scope R_scope.

Lemma gbm_calls (H : Type) calls : forall b : @gbm_full H,
  apply_calls gbm_config_call b calls = Ok (mkGbmFull H (last_set gbm_pick_tol (gf_tol b) calls) (last_set gbm_pick_loss (gf_loss b) calls) (gf_state b)).
Proof.
  induction calls as [|c calls IH]; intros b; [destruct b; reflexivity|]. cbn [apply_calls]. unfold gbm_config_call at 1. cbn [bind].
  rewrite IH. destruct c; reflexivity.
Qed.

(** ** every chain of settings succeeds and the last loss counts, in the run too: the coefficients are that loss's;
    the number of rounds is at most 100 whatever was set, and the run is the same for every tolerance *)
Lemma P_C85_settings_partial :
  forall (H : Type) (pred : H -> nat -> R) (produce : nat -> list R -> H) (y : list R) (loss : gbm_loss) (calls : list gbm_call),
  exists b, apply_calls gbm_config_call (gbm_new y loss) calls = Ok b /\
    gf_loss b = last_set gbm_pick_loss loss calls /\ gf_tol b = last_set gbm_pick_tol 0 calls /\
    forall fuel, let o := gbm_run pred produce y b fuel in
      (length (trace_of o) <= 100)%nat /\
      (exists cs, chosen (fun y p c => best_coefficient (last_set gbm_pick_loss loss calls) y p = Ok c) pred y cs (firstn (length cs) (answers produce (trace_of o))) /\
         (length (trace_of o) <= S (length cs))%nat) /\
      (forall calls' b', apply_calls gbm_config_call (gbm_new y loss) calls' = Ok b' ->
         last_set gbm_pick_loss loss calls' = last_set gbm_pick_loss loss calls -> gbm_run pred produce y b' fuel = o).
Proof.
  intros H pred produce y loss calls. rewrite gbm_calls. eexists. split; [reflexivity|]. split; [reflexivity|]. split; [reflexivity|]. intros fuel o.
  pose proof (P_C54_gbm_protocol H pred produce y (best_coefficient (last_set gbm_pick_loss loss calls)) fuel) as P. cbv zeta in P.
  destruct P as [P1 [cs [P2 [P3 _]]]]. split; [exact P1|]. split; [exists cs; split; [exact P2|exact P3]|].
  intros calls' b' E El. rewrite gbm_calls in E. inversion E; subst b'. unfold gbm_run in *. cbn [gf_loss gf_state gbm_new] in *. unfold o. cbn. rewrite El. reflexivity.
Qed.

(** ** the documentation says that max_loop() is the number of rounds that reaches the tolerance, 100 by default, and that tolerance sets it.
    For every training set of at least four rows whose targets do not sum to zero: without settings max_loop() is usize::MAX, not 100;
    a tolerance of ln(n) asks for no round (max_loop() = 0) (n is at least 4), a small one for more than 100, and in all cases
    the run with the squared loss makes exactly 100 rounds with some weak learner *)
Lemma P_C85_tolerance_refuted :
  forall (umax : nat) (y : list R), (100 < umax)%nat -> (4 <= length y)%nat -> rsum y <> 0 ->
  let pred := fun (h : nat -> R) i => h i in
  exists produce : nat -> list R -> nat -> R,
    gbm_max_loop umax y (@gbm_new (nat -> R) y L2) = umax /\
    (exists b, apply_calls gbm_config_call (gbm_new y L2) [GTolerance (ln (INR (length y)))] = Ok b /\ gbm_max_loop umax y b = 0%nat /\
       exists tr f, gbm_run pred produce y b 101 = Finished tr f /\ length tr = 100%nat) /\
    (exists b, apply_calls gbm_config_call (gbm_new y L2) [GTolerance (1 / 11)] = Ok b /\ (100 < gbm_max_loop umax y b)%nat /\
       exists tr f, gbm_run pred produce y b 101 = Finished tr f /\ length tr = 100%nat).
Proof.
  intros umax y Hu Hn Hy pred.
  assert (L1 : 1 < ln (INR (length y))).
  { assert (H4 : INR 4 <= INR (length y)) by (apply le_INR; exact Hn).
    assert (E4 : ln (INR 4) = ln 2 + ln 2) by (rewrite <- ln_mult by lra; f_equal; simpl; lra). pose proof ln_lt_2.
    assert (ln (INR 4) <= ln (INR (length y))) by (destruct H4 as [H4|<-]; [left; apply ln_increasing; [simpl; lra|exact H4]|lra]). lra. }
  assert (Run : exists tr f, run (gbm_booster pred (fun _ _ i => nth i y 0 / 2) y (best_coefficient L2)) 101 (gbm_init y) = Finished tr f /\ length tr = 100%nat).
  { unfold run. cbn [b_pre gbm_booster gbm_pre].
    assert (E0 : repeat 0 (length y) = map (fun v => INR 0 * v) y).
    { apply (list_eq_nth 0); [rewrite repeat_length, map_length; reflexivity|]. intros i Hi. rewrite repeat_length in Hi.
      rewrite nth_repeat_lt by exact Hi. rewrite (nth_map_in _ y i 0) by exact Hi. simpl. lra. }
    rewrite E0. cbn [gbm_max_iter gbm_init].
    destruct (gbm_half y Hy 101 1 [] 0) as [tr [E [Hl Ht]]]; try lia; [reflexivity|]. eexists; eexists. split; [exact E|exact Hl]. }
  exists (fun _ _ i => nth i y 0 / 2).
  assert (Hl : Nat.leb (length y) 1 = false) by (apply Nat.leb_gt; lia).
  split; [unfold gbm_max_loop; rewrite Hl; cbn; rewrite Reqb_true by reflexivity; reflexivity|].
  split; (eexists; split; [reflexivity|split; [|exact Run]]); unfold gbm_max_loop; rewrite Hl; cbn [gf_tol]; rewrite Reqb_false by lra.
  - rewrite as_usize_small; [apply Nat.min_0_r|].
    set (l := ln (INR (length y))) in *. replace (l / (l * l)) with (/ l) by (field; lra). rewrite <- Rinv_1. apply Rinv_lt_contravar; lra.
  - apply Nat.min_glb_lt; [exact Hu|]. apply as_usize_ge. replace (ln (INR (length y)) / (1 / 11 * (1 / 11))) with (121 * ln (INR (length y))) by field. rewrite S_INR. replace (INR 100) with 100 by (simpl; lra). lra.
Qed.

(** ** Example: the hypotheses of the refutation hold for four targets *)
Example C85_hypotheses_met : (4 <= length [1; 2; 3; 4])%nat /\ rsum [1; 2; 3; 4] <> 0.
Proof. split; [simpl; lia|simpl; lra]. Qed.
