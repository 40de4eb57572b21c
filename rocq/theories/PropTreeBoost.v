(** Property C73: AdaBoost with the decision trees of the crate as weak learner. *)
From Coq Require Import String.
From Verif Require Import Base Spec SortLib Utils UtilsProofs WMajority WMajorityProofs Booster AdaBoost AdaBoostProofs AdaBoostMain AdaBoostMore AdaBoostFacts BinSearch Feature Sample SampleSpec FeatureFacts SampleFacts Bins BinsSpec BinsProofs BinsFacts TreeSpec DTree TreeShape DTreeProofs DTreeSplit DTreeBest DTreeGrow DTreeOut DTreeFacts TreeBoostFacts.
Open Scope R_scope.


(** ** C73: on every trainable sample with labels +1 and -1, AdaBoost with the decision tree learner never makes the
    learner panic; it returns a vote whose training error is at most the product of sqrt(1 - edge^2), or it panics in the
    final step because every tree had edge zero *)

Theorem C73_adaboost_with_trees :
  forall order s b t (a : ada) fuel, trainable s -> dt_made s b -> tb_build b s = Ok t -> listing order -> pm_labels s ->
  is_valid_binary_instance (s_target s) = Ok tt ->
  let y := s_target s in let conf := fun h i => answer h s i in let produce := tree_learner order t s in
  let limit := match a_force_quit a with Some it => it | None => ada_max_loop y a end in
  (0 < limit < fuel)%nat ->
  let out := run (adaboost conf produce y) fuel a in
  (forall d, In d (trace_of out) -> exists h, dt_produce order t s d = Ok h /\ (depth h <= tb_depth b)%nat /\
     forall i, (i < length y)%nat -> exists v, node_confidence h s i = Ok v /\ -1 <= v <= 1) /\
  Forall (fun e => 0 <= e <= 1) (edges conf produce y (trace_of out)) /\
  match out with
  | Finished tr f => INR (n_errors y (wm_predict conf f)) / INR (length y) <= rprod (map (fun g => sqrt (1 - g ^ 2)) (edges conf produce y tr))
  | Crashed tr p => p = AssertFailed /\ tr <> [] /\ Forall (fun e => e = 0) (edges conf produce y tr)
  | Unfinished _ => False
  end.
Proof. exact P_C73_adaboost_with_trees. Qed.
Print Assumptions C73_adaboost_with_trees.

(** ** C73: if under every distribution some offered stump has edge at least g in absolute value, then with the edge
    criterion the returned vote is right on every training example once g^4 * (number of rounds) > 2 ln n *)

Theorem C73_trees_zero_training_error :
  forall order s b t (a : ada) fuel g, trainable s -> dt_made s b -> tb_build b s = Ok t -> listing order -> pm_labels s ->
  is_valid_binary_instance (s_target s) = Ok tt -> tb_criterion b = Edge ->
  let y := s_target s in let conf := fun h i => answer h s i in let produce := tree_learner order t s in
  let limit := match a_force_quit a with Some it => it | None => ada_max_loop y a end in
  (0 < limit < fuel)%nat -> 0 < g ->
  (forall d, length d = length y -> is_pos_dist d -> exists f th, In f (s_features s) /\ offered (dt_bins t) f th /\ g <= Rabs (stump_edge (column f) (label s) (weight d) th (all_rows s))) ->
  2 * ln (INR (length y)) < g ^ 4 * INR limit ->
  exists tr f, run (adaboost conf produce y) fuel a = Finished tr f /\ forall i, (i < length y)%nat -> wm_predict conf f i = nth i y 0.
Proof. exact P_C73_trees_zero_training_error. Qed.
Print Assumptions C73_trees_zero_training_error.

(** ** a separable sample, on which the theorems apply *)

Example C73_case : forall c, trainable sep_sample /\ dt_made sep_sample (ex_builder c 2) /\ pm_labels sep_sample /\ is_valid_binary_instance (s_target sep_sample) = Ok tt /\ listing (fun m => rev m) /\
  exists t, tb_build (ex_builder c 2) sep_sample = Ok t /\
    (forall d, length d = length (s_target sep_sample) -> is_pos_dist d -> exists f th, In f (s_features sep_sample) /\ offered (dt_bins t) f th /\
       1 <= Rabs (stump_edge (column f) (label sep_sample) (weight d) th (all_rows sep_sample))) /\
    2 * ln (INR (length (s_target sep_sample))) < 1 ^ 4 * INR 7.
Proof.
  intros c. split; [exact sep_trainable|]. split; [apply sep_made; lia|]. split; [exact sep_pm|]. split; [exact sep_valid|].
  split; [intros m; apply Permutation_sym, Permutation_rev|]. destruct (sep_built c 2 ltac:(lia)) as [t [E O]]. exists t. split; [exact E|]. split.
  - intros d Ld [Hp Hs]. exists ex_feature, (/ 2). split; [left; reflexivity|]. split; [exact O|].
    assert (S : stump_edge (column ex_feature) (label sep_sample) (weight d) (/ 2) (all_rows sep_sample) = - rsum d).
    { destruct d as [|d0 [|d1 [|d2 [|d3 [|d4 d]]]]]; try discriminate Ld. unfold stump_edge, all_rows, label, weight, column, stump. simpl.
      repeat (destruct Rlt_dec; try lra). }
    rewrite S, Hs, Rabs_Ropp, Rabs_R1. lra.
  - change (length (s_target sep_sample)) with 4%nat. replace (INR 4) with 4 by (simpl; lra). replace (INR 7) with 7 by (simpl; lra). pose proof ln4_bound. lra.
Qed.

(** ** C73, the limit: on a sample where two rows with the same features have different labels in equal numbers, every
    tree has edge zero and AdaBoost panics, whatever the criterion, the depth, the number of rounds and the order of the hash map *)

Theorem C73_uninformative_sample_refuted :
  exists s, trainable s /\ pm_labels s /\ is_valid_binary_instance (s_target s) = Ok tt /\
  forall c dep, (0 < dep)%nat -> exists b t, dt_made s b /\ tb_criterion b = c /\ tb_depth b = dep /\ tb_build b s = Ok t /\
  forall order (a : ada) fuel, listing order ->
  let conf := fun h i => answer h s i in
  (match a_force_quit a with Some it => it | None => ada_max_loop (s_target s) a end < fuel)%nat ->
  exists tr, run (adaboost conf (tree_learner order t s) (s_target s)) fuel a = Crashed tr AssertFailed.
Proof. exact P_C73_uninformative_sample_refuted. Qed.
Print Assumptions C73_uninformative_sample_refuted.
