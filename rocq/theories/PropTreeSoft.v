(** Property C74: the margin boosters with the decision trees of the crate as weak learner. *)
From Coq Require Import String.
From Verif Require Import Base Spec RegSpec SortLib Num Utils UtilsProofs WMajority WMajorityProofs Booster AdaBoost AdaBoostProofs AdaBoostMain AdaBoostMore FrankWolfe FrankWolfeProofs FrankWolfeFacts CERLP CERLPProofs CERLPFacts ConicSpec Csc LPSpec LPBoost LPBoostProofs LPBoostFacts MLP MLPProofs MLPFacts Objective ObjectiveFacts ERLP ERLPProofs ERLPFacts BinSearch Feature Sample SampleSpec FeatureFacts SampleFacts Bins BinsSpec BinsProofs BinsFacts TreeSpec DTree TreeShape DTreeProofs DTreeSplit DTreeBest DTreeGrow DTreeOut DTreeFacts TreeBoostFacts TreeSoftFacts.
Open Scope R_scope.


(** ** C74: CERLPBoost with trees grown by the edge criterion.  If some vote of signed stumps on offer has soft margin r, as
    SoftMarginObjective reports it, and r^2 is more than half the tolerance, the run ends within the round limit with a vote
    whose reported soft margin is at least r^2 - tolerance *)

Theorem C74_cerlpboost_with_trees :
  forall order s b t produce eqH (c : @cerlp (btree s)) fuel, trainable s -> dt_made s b -> tb_build b s = Ok t -> listing order -> pm_labels s ->
  is_valid_binary_instance (s_target s) = Ok tt -> tb_criterion b = Edge -> answers_with_trees order t s produce -> (forall f h, eqH f h = true -> f = h) ->
  let nu := fw_nu (ce_fw c) in let tol := 2 * ce_half_tol c in
  fw_type (ce_fw c) = Classic \/ fw_type (ce_fw c) = ShortStep -> nu < INR (length (s_target s)) -> 0 < tol ->
  (ceil_usize (32 * ln (INR (length (s_target s)) / nu) / tol ^ 2) < fuel)%nat ->
  forall ws hs r, length ws = length hs -> is_dist ws -> (forall h, In h hs -> on_offer s t h) ->
  soft_margin_eval nu s (vote sstump_conf (combine ws hs)) = Ok r -> 0 <= r -> tol / 2 < r ^ 2 ->
  exists tr f v, run (cerlpboost (btree_conf s) eqH produce (s_target s)) fuel c = Finished tr f /\
    soft_margin_eval nu s (wm_confidence (btree_conf s) f) = Ok v /\ r ^ 2 - tol <= v.
Proof. exact P_C74_cerlpboost_with_trees. Qed.
Print Assumptions C74_cerlpboost_with_trees.

(** ** C74: MLPBoost with trees, with an exact solver: the same guarantee, and no condition on r *)

Theorem C74_mlpboost_with_trees :
  forall order s b t produce eqH solve noise (c : @mlp (btree s)) fuel, trainable s -> dt_made s b -> tb_build b s = Ok t -> listing order -> pm_labels s ->
  is_valid_binary_instance (s_target s) = Ok tt -> tb_criterion b = Edge -> answers_with_trees order t s produce -> (forall f h, eqH f h = true -> f = h) ->
  let nu := fw_nu (ml_fw c) in let tol := 2 * ml_half_tol c in
  fw_type (ml_fw c) = Classic \/ fw_type (ml_fw c) = ShortStep -> nu < INR (length (s_target s)) -> 0 < tol ->
  (forall k, 0 < noise k < 1) -> (forall hs p, mlp_asks (btree_conf s) eqH solve noise produce (s_target s) c hs p -> solves p (solve p)) ->
  32 * ln (INR (length (s_target s)) / nu) / tol ^ 2 < INR fuel ->
  forall ws hs r, length ws = length hs -> is_dist ws -> (forall h, In h hs -> on_offer s t h) ->
  soft_margin_eval nu s (vote sstump_conf (combine ws hs)) = Ok r -> 0 <= r ->
  exists tr f v, run (mlpboost (btree_conf s) eqH solve noise produce (s_target s)) (S fuel) c = Finished tr f /\
    soft_margin_eval nu s (wm_confidence (btree_conf s) f) = Ok v /\ r ^ 2 - tol <= v.
Proof. exact P_C74_mlpboost_with_trees. Qed.
Print Assumptions C74_mlpboost_with_trees.

(** ** C74: LPBoost with trees, with an exact solver: if it returns a vote, its smallest margin is at least r^2 - tolerance,
    r >= 0 being the smallest margin of any vote of signed stumps on offer *)

Theorem C74_lpboost_with_trees :
  forall order s b t produce solve (c : @lpboost (btree s)) fuel tr f, trainable s -> dt_made s b -> tb_build b s = Ok t -> listing order -> pm_labels s ->
  tb_criterion b = Edge -> answers_with_trees order t s produce ->
  (forall p, lpb_asks (btree_conf s) solve produce (s_target s) c p -> solves p (solve p)) ->
  run (lpboost_booster (btree_conf s) solve produce (s_target s)) fuel c = Finished tr f ->
  forall ws hs r v, length ws = length hs -> is_dist ws -> (forall h, In h hs -> on_offer s t h) ->
  hard_margin_eval s (vote sstump_conf (combine ws hs)) = Ok r -> 0 <= r -> hard_margin_eval s (wm_confidence (btree_conf s) f) = Ok v -> r ^ 2 - lb_tol c <= v.
Proof. exact P_C74_lpboost_with_trees. Qed.
Print Assumptions C74_lpboost_with_trees.

(** ** C74: ERLPBoost with trees (any criterion), with an exact solver: it returns a vote within max_loop() rounds, it
    never panics; with the edge criterion and a stop before the limit, the edge of the vote under the last distribution is
    at least r^2 - tolerance, r >= 0 being the soft margin of any vote of signed stumps on offer *)

Theorem C74_erlpboost_with_trees :
  forall order s b t produce solve inner (c : @erlp (btree s)) fuel, trainable s -> dt_made s b -> tb_build b s = Ok t -> listing order -> pm_labels s ->
  is_valid_binary_instance (s_target s) = Ok tt -> answers_with_trees order t s produce ->
  (forall p, erlp_asks (btree_conf s) solve produce (s_target s) inner c p -> solves p (solve p)) ->
  let nu := er_nu c in let n := length (s_target s) in let limit := erlp_max_loop (er_half_tol c) nu n in
  1 <= nu <= INR n -> 0 < er_half_tol c < 1 ->
  (1001 + ln (INR n) / erlp_eta (er_half_tol c) nu n) * 1000000000 + 1 < INR inner -> (limit < fuel)%nat ->
  exists tr f, run (erlpboost (btree_conf s) solve produce (s_target s) inner) fuel c = Finished tr f /\ (length tr <= limit)%nat /\
  (tb_criterion b = Edge -> (length tr < limit)%nat -> forall ws hs r, length ws = length hs -> is_dist ws -> (forall h, In h hs -> on_offer s t h) ->
     soft_margin_eval nu s (vote sstump_conf (combine ws hs)) = Ok r -> 0 <= r ->
     exists tr' d, tr = tr' ++ [d] /\ r ^ 2 - 2 * er_half_tol c <= edge_of (s_target s) d (wm_confidence (btree_conf s) f)).
Proof. exact P_C74_erlpboost_with_trees. Qed.
Print Assumptions C74_erlpboost_with_trees.

(** ** hypotheses met *)

Example C74_case : exists t, tb_build (ex_builder Edge 2) sep_sample = Ok t /\ answers_with_trees (fun m => rev m) t sep_sample (btree_learner (fun m => rev m) t sep_sample) /\
  on_offer sep_sample t sep_stump /\ (forall nu, 1 <= nu <= 4 -> soft_margin_eval nu sep_sample (vote sstump_conf (combine [1] [sep_stump])) = Ok 1) /\
  exists fuel tr f v, run (cerlpboost (btree_conf sep_sample) (fun _ _ => false) (btree_learner (fun m => rev m) t sep_sample) (s_target sep_sample)) fuel (cerlp_init (s_target sep_sample)) = Finished tr f /\
    soft_margin_eval 1 sep_sample (wm_confidence (btree_conf sep_sample) f) = Ok v /\ 98 / 100 <= v.
Proof.
  destruct (sep_built Edge 2 ltac:(lia)) as [t [E O]]. exists t. split; [exact E|].
  assert (Ho : listing (fun m => rev m)) by (intros m; apply Permutation_sym, Permutation_rev).
  assert (Hw : answers_with_trees (fun m => rev m) t sep_sample (btree_learner (fun m => rev m) t sep_sample)).
  { apply (learner_answers (fun m => rev m) sep_sample (ex_builder Edge 2) t sep_trainable (sep_made Edge 2 ltac:(lia)) E Ho sep_pm). }
  split; [exact Hw|]. assert (Hof : on_offer sep_sample t sep_stump) by (split; [left; reflexivity|exact O]). split; [exact Hof|].
  assert (Hm : forall nu, 1 <= nu <= 4 -> soft_margin_eval nu sep_sample (vote sstump_conf (combine [1] [sep_stump])) = Ok 1).
  { intros nu Hnu. assert (Hnu' : 1 <= nu <= INR (length (s_target sep_sample))) by (simpl; lra). destruct (eval_total sep_sample nu (vote sstump_conf (combine [1] [sep_stump])) sep_trainable Hnu') as [v [Ev [[d [Cd Ed]] _]]].
    rewrite Ev. f_equal. rewrite <- Ed. destruct (capped_dist _ _ _ Cd) as [Ld [_ Sd]]. destruct d as [|d0 [|d1 [|d2 [|d3 [|d4 d]]]]]; try discriminate Ld.
    unfold edge_of, vote, sstump_conf, stump, column. simpl. simpl in Sd. repeat (destruct Rlt_dec; try lra). }
  split; [exact Hm|].
  set (N := ceil_usize (32 * ln (INR (length (s_target sep_sample)) / 1) / (2 * ce_half_tol (@cerlp_init (btree sep_sample) (s_target sep_sample))) ^ 2)).
  exists (S N).
  destruct (P_C74_cerlpboost_with_trees (fun m => rev m) sep_sample (ex_builder Edge 2) t (btree_learner (fun m => rev m) t sep_sample) (fun _ _ => false) (cerlp_init (s_target sep_sample)) (S N)
    sep_trainable (sep_made Edge 2 ltac:(lia)) E Ho sep_pm sep_valid eq_refl Hw ltac:(discriminate) ltac:(right; reflexivity) ltac:(simpl; lra) ltac:(simpl; lra) ltac:(unfold N; simpl fw_nu; lia) [1] [sep_stump] 1 eq_refl)
    as [tr [f [v [R1 [R2 R3]]]]].
  - split; [intros x [<-|[]]; lra|simpl; lra].
  - intros h [<-|[]]. exact Hof.
  - apply Hm. simpl. lra.
  - lra.
  - simpl. lra.
  - exists tr, f, v. split; [exact R1|]. split; [exact R2|]. simpl in R3. lra.
Qed.
