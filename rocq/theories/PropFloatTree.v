(** C90: the decision tree learner on binary64 weights *)
From Coq Require Import ZArith List Bool Reals Lia Lra Psatz Permutation String.
From Verif Require Import Base Feature FeatureFacts Sample SampleSpec SampleFacts Bins BinsSpec BinsProofs BinsFacts TreeSpec DTree DTreeGrow TreeShape DTreeFacts Float FloatSpec FloatProofs FloatFacts FloatCheckFacts FloatMedianFacts FloatTree FloatTreeSpec FloatTreeProofs FloatPackProofs FloatTwoingProofs FloatGrowProofs FloatGrowthProofs FloatTreeFacts.
Open Scope R_scope.


Theorem C90_tree_grows :
  forall sched order fln s b t dist, summing sched -> some_order order -> sane_ln fln ->
  trainable s -> dt_made s b -> tb_build b s = Ok t ->
  length dist = fst (shape s) -> (forall x, In x dist -> finite_num x /\ 0 <= val x) -> (exists x, In x dist /\ 0 < val x) -> total dist < 2 ^ 1000 ->
  (forall f bins, In f (s_features s) -> sm_get (dt_bins t) (feat_name f) = Ok bins -> INR (2 * fst (shape s) + length bins) <= 2 ^ 32) ->
  (dt_criterion t = Gini -> forall x, In x dist -> 0 < val x -> INR (length dist) * total dist <= 2 ^ 49 * val x) ->
  exists h, f_dt_produce sched order fln t s dist = Ok h /\ (forall c, In c (f_leaves h) -> confidence_value c) /\
    (forall i, (i < fst (shape s))%nat -> exists c, f_node_confidence h s i = Ok c /\ In c (f_leaves h)).
Proof. exact P_C90_tree_grows. Qed.
Print Assumptions C90_tree_grows.

(** ** the Gini criterion removes a label too early *)

Theorem C90_gini_absorbed_label_refuted :
  exists s b t dist, trainable s /\ pm_labels s /\ dt_made s b /\ tb_build b s = Ok t /\ dt_criterion t = Gini /\ length dist = fst (shape s) /\
  (forall x, In x dist -> finite_num x /\ 0 < val x) /\ total dist = 1 /\
  exists sched order, summing sched /\ some_order order /\ forall fln, f_dt_produce sched order fln t s dist = Panic UnwrapNone.
Proof. exact P_C90_gini_absorbed_label_refuted. Qed.
Print Assumptions C90_gini_absorbed_label_refuted.

(** ** a case that meets the hypotheses of C90_tree_grows, for every criterion *)

Example C90_tree_grows_applies : forall sched order fln c, summing sched -> some_order order -> sane_ln fln ->
  exists h, f_dt_produce sched order fln (gx_tree c) gx_sample gx_even = Ok h.
Proof.
  intros sched order fln c Hs Ho Hl. assert (V : val (dyad 1 (-2)) = / 4 /\ fin (dyad 1 (-2)) /\ val (dyad 1 (-1)) = / 2 /\ fin (dyad 1 (-1))).
  { unfold dyad. destruct (normalize_exact 1 (-2)) as [F1 V1]; [reflexivity|lia|]. destruct (normalize_exact 1 (-1)) as [F2 V2]; [reflexivity|lia|]. rewrite V1, V2. split; [simpl; lra|]. split; [exact F1|]. split; [simpl; lra|exact F2]. }
  destruct V as [V1 [F1 [V2 F2]]]. assert (T : total gx_even = 1) by (unfold gx_even; rewrite !total_cons, V1, V2; unfold total; simpl; lra).
  assert (W : forall x, In x gx_even -> finite_num x /\ / 4 <= val x) by (intros x [<- |[<- |[<- |[]]]]; split; try assumption; lra).
  destruct (P_C90_tree_grows sched order fln gx_sample (gx_builder c) (gx_tree c) gx_even Hs Ho Hl gx_trainable (gx_made c) (gx_built c)) as [h [E _]].
  - reflexivity.
  - intros x Hx. destruct (W x Hx). split; [assumption|lra].
  - exists (dyad 1 (-1)). split; [right; right; left; reflexivity|lra].
  - rewrite T. apply Rlt_pow_R1; [lra|lia].
  - intros f bins [<- |[]] E. change (sm_get (dt_bins (gx_tree c)) _) with (Ok gx_bins : res (list bin)) in E. inversion E; subst bins. simpl. lra.
  - intros _ x Hx _. destruct (W x Hx) as [_ Wx]. rewrite T. simpl. lra.
  - exists h. exact E.
Qed.
