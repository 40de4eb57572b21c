(** Property C83: the exported drawing of a tree reads like the tree. *)
From Coq Require Import String Permutation.
From Verif Require Import Base Spec BinSearch Feature Sample SampleSpec FeatureFacts SampleFacts Bins BinsSpec BinsProofs BinsFacts TreeSpec DTree TreeShape DTreeProofs DTreeSplit DTreeBest DTreeGrow DTreeOut DTreeFacts DotSpec Dot DotFacts.
Open Scope R_scope.


(** ** the drawing is a tree rooted at node 0: its nodes are numbered without gaps or repetitions, every node but node 0 is
    the end of exactly one link, and every question has exactly one Yes- and one No-link (boxes have none) - for every
    tree, whatever its thresholds are printed as *)

Theorem C83_drawing_is_a_tree : forall sh t g, g = dt_dot_file sh t \/ g = rt_dot_file sh t ->
  Permutation (node_ids g) (seq 0 (length (node_ids g))) /\ In 0%nat (node_ids g) /\
  Permutation (link_targets g) (seq 1 (length (node_ids g) - 1)) /\
  Permutation (link_sources true g) (question_ids g) /\ Permutation (link_sources false g) (question_ids g).
Proof. exact P_C83_drawing_is_a_tree. Qed.
Print Assumptions C83_drawing_is_a_tree.

(** ** read for a row, the drawing gives exactly the tree's answer, provided no feature value of the row is within half a
    hundredth of a threshold asked about it (or the threshold is printed exactly); a regression tree's answer is rounded *)

Theorem C83_reads_like_the_tree : forall sh t s row v, two_decimals sh ->
  node_confidence t s row = Ok v ->
  (forall rule x, In rule (rules t) -> cell s row (sp_feature rule) x -> / 200 < Rabs (x - sp_threshold rule) \/ sh (sp_threshold rule) = sp_threshold rule) ->
  (forall p, reads (dt_dot_file sh t) s row 0 p <-> p = v) /\
  (forall p, reads (rt_dot_file sh t) s row 0 p <-> p = sh v) /\ Rabs (sh v - v) <= / 200.
Proof. exact P_C83_reads_like_the_tree. Qed.
Print Assumptions C83_reads_like_the_tree.

(** ** two decimals are not enough: here the learner sees values 0 and 0.008, separates them without error, and the
    drawing of the tree it returns gives one of the two training rows the answer of the other - however it is rounded *)

Theorem C83_two_decimals_refuted :
  exists s b t dist, trainable s /\ dt_made s b /\ tb_build b s = Ok t /\ is_dist dist /\ length dist = fst (shape s) /\ pm_labels s /\
  forall order, listing order -> exists h, dt_produce order t s dist = Ok h /\
    (forall i, (i < fst (shape s))%nat -> answer h s i = label s i) /\
    forall sh, two_decimals sh -> exists i p, (i < fst (shape s))%nat /\ reads (dt_dot_file sh h) s i 0 p /\ p = - label s i.
Proof. exact P_C83_two_decimals_refuted. Qed.
Print Assumptions C83_two_decimals_refuted.

Example C83_case : exists sh t s row v, two_decimals sh /\ node_confidence t s row = Ok v /\ rules t <> [] /\
  (forall rule x, In rule (rules t) -> cell s row (sp_feature rule) x -> / 200 < Rabs (x - sp_threshold rule) \/ sh (sp_threshold rule) = sp_threshold rule) /\
  exists rule, In rule (rules t) /\ sh (sp_threshold rule) <> sp_threshold rule.
Proof.
  set (sh := fun x => IZR (Int_part (100 * x + / 2)) / 100).
  exists sh, (Branch (mkSplitter "a" (/ 3)) (Leaf 1) (Leaf (-1))), fine_sample, 0%nat, 1.
  split; [|split; [|split; [|split]]].
  - intros x. split; [eexists; reflexivity|]. unfold sh. destruct (base_Int_part (100 * x + / 2)) as [A B]. apply Rabs_le. split; apply (Rmult_le_reg_l 100); lra.
  - cbn. rewrite Rltb_true by lra. reflexivity.
  - discriminate.
  - intros rule x [<-|[]] Hc. left. apply fine_cell in Hc; [|lia]. subst x. cbn. rewrite Rabs_left; lra.
  - eexists. split; [left; reflexivity|]. cbn [sp_threshold]. unfold sh. intros E. apply (f_equal (fun z => 300 * z)) in E. assert (E2 : IZR (3 * Int_part (100 * / 3 + / 2)) = IZR 100) by (rewrite mult_IZR; lra). apply eq_IZR in E2. lia.
Qed.
