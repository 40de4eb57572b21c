(** Facts about the decision tree learner: C25, C26, C27, C28, C61. *)
From Coq Require Import String.
From Verif Require Import Base Spec BinSearch Feature Sample SampleSpec FeatureFacts SampleFacts Bins BinsSpec BinsProofs BinsFacts TreeSpec DTree TreeShape DTreeProofs DTreeSplit DTreeBest DTreeGrow DTreeOut DTreeFacts.
Open Scope R_scope.


(** ** C25: what packing keeps *)

Theorem C25_pack :
  forall bins f y dist idx x lab, chain F64MIN F64MAX bins -> idx <> [] ->
  (forall i, In i idx -> feat_index f i = Ok (x i) /\ F64MIN <= x i < F64MAX) ->
  (forall i, In i idx -> (i < length y)%nat /\ nth i y 0 = IZR (lab i) /\ (- 2 ^ 31 <= lab i < 2 ^ 31)%Z) ->
  (forall i, In i idx -> (i < length dist)%nat /\ 0 < weight dist i) ->
  exists out e, dt_pack bins idx f y dist = Ok out /\
    chain F64MIN e (map fst out) /\ e <= F64MAX /\
    (forall i, In i idx -> one_bin (map fst out) (x i)) /\
    (forall b m, In (b, m) out -> exists i, In i idx /\ in_bin b (x i)) /\
    (forall b m z, In (b, m) out -> (match lw_get m z with Some w => w | None => 0 end) =
       sum_where (weight dist) (fun i => andb (bin_contains b (x i)) (Z.eqb (lab i) z)) idx / total (weight dist) idx) /\
    (forall b, In b bins -> exists t, In t (F64MIN :: map (fun o => b_end (fst o)) out) /\ forall i, In i idx -> (x i < b_end b <-> x i < t)) /\
    (forall b m, In (b, m) out -> exists b', In b' bins /\ forall i, In i idx -> (x i < b_end b <-> x i < b_end b')).
Proof. exact P_C25_pack. Qed.
Print Assumptions C25_pack.

(** trailing empty bins are dropped: the last remaining bin need not reach the largest f64 *)
Theorem C25_trailing_bins_dropped :
  exists bins f y dist idx out, chain F64MIN F64MAX bins /\ dt_pack bins idx f y dist = Ok out /\
    forall e, chain F64MIN e (map fst out) -> e < F64MAX.
Proof. exact P_C25_trailing_bins_dropped. Qed.
Print Assumptions C25_trailing_bins_dropped.

(** ** C61: the split of every criterion is best among the offered ones *)

Theorem C61_best_split :
  forall s b t dist idx lab labels, trainable s -> dt_made s b -> tb_build b s = Ok t ->
  length dist = fst (shape s) -> idx <> [] -> (forall i, In i idx -> (i < fst (shape s))%nat /\ 0 < weight dist i) ->
  int_labels s lab -> NoDup labels -> (forall i, (i < fst (shape s))%nat -> In (lab i) labels) ->
  exists f thr, best_split (dt_criterion t) (dt_bins t) s dist idx = Ok (feat_name f, thr) /\ In f (s_features s) /\
    (exists t0, offered (dt_bins t) f t0 /\ forall i, In i idx -> (column f i < thr <-> column f i < t0)) /\
    forall f' t', In f' (s_features s) -> offered (dt_bins t) f' t' ->
      match tb_criterion b with
      | Entropy => split_impurity (entropy_of labels lab (weight dist)) (column f) (weight dist) thr idx <= split_impurity (entropy_of labels lab (weight dist)) (column f') (weight dist) t' idx
      | Gini => split_impurity (gini_of labels lab (weight dist)) (column f) (weight dist) thr idx <= split_impurity (gini_of labels lab (weight dist)) (column f') (weight dist) t' idx
      | Twoing => twoing_of labels lab (column f') (weight dist) t' idx <= twoing_of labels lab (column f) (weight dist) thr idx
      | Edge => Rabs (stump_edge (column f') (fun i => IZR (lab i)) (weight dist) t' idx) <= Rabs (stump_edge (column f) (fun i => IZR (lab i)) (weight dist) thr idx)
      end.
Proof. exact P_C61_best_split. Qed.
Print Assumptions C61_best_split.

(** ** C26: the edge criterion *)

Theorem C26_edge_split :
  forall s b t dist idx, trainable s -> dt_made s b -> tb_build b s = Ok t -> tb_criterion b = Edge ->
  length dist = fst (shape s) -> idx <> [] -> (forall i, In i idx -> (i < fst (shape s))%nat /\ 0 < weight dist i) -> pm_labels s ->
  exists f thr, best_split (dt_criterion t) (dt_bins t) s dist idx = Ok (feat_name f, thr) /\ In f (s_features s) /\
    (exists t0, offered (dt_bins t) f t0 /\ forall i, In i idx -> (column f i < thr <-> column f i < t0)) /\
    forall f' t', In f' (s_features s) -> offered (dt_bins t) f' t' ->
      Rabs (stump_edge (column f') (label s) (weight dist) t' idx) <= Rabs (stump_edge (column f) (label s) (weight dist) thr idx).
Proof. exact P_C26_edge_split. Qed.
Print Assumptions C26_edge_split.

(** what can be offered: the ends of equally wide bins *)
Theorem C26_offered :
  forall s b t, trainable s -> dt_made s b -> tb_build b s = Ok t -> forall f mn mx, In f (s_features s) -> spans f mn mx ->
  exists nb, In (feat_name f, nb) (tb_nbins b) /\ (0 < nb)%nat /\
    forall th, offered (dt_bins t) f th <-> th = F64MIN \/ th = F64MAX \/ exists k, (0 < k < nb)%nat /\ th = (if Req_EM_T mn mx then mn - / 1000 else mn) + INR k * bin_width mn mx nb.
Proof. exact P_C26_offered. Qed.
Print Assumptions C26_offered.

(** ** the whole learner *)

(** ** C61 for the returned tree: every split in it is best for the rows that reach it *)

Theorem C61_every_split :
  forall order s b t dist lab, trainable s -> dt_made s b -> tb_build b s = Ok t ->
  length dist = fst (shape s) -> (exists i, (i < fst (shape s))%nat /\ 0 < weight dist i) -> int_labels s lab -> listing order ->
  exists h, dt_produce order t s dist = Ok h /\
    greedy (tb_criterion b) (nodup Z.eq_dec (map lab (all_rows s))) lab (s_features s) (dt_bins t) (weight dist) h (tb_depth b) (filter (has_weight dist) (all_rows s)).
Proof. exact P_C61_every_split. Qed.
Print Assumptions C61_every_split.

(** ** C27: depth, confidences, leaves *)

Theorem C27_tree :
  forall order s b t dist lab, trainable s -> dt_made s b -> tb_build b s = Ok t ->
  length dist = fst (shape s) -> (exists i, (i < fst (shape s))%nat /\ 0 < weight dist i) -> int_labels s lab -> listing order ->
  exists h, dt_produce order t s dist = Ok h /\ (depth h <= tb_depth b)%nat /\
    (forall i, (i < fst (shape s))%nat -> exists v, node_confidence h s i = Ok v) /\
    (forall s' row v, node_confidence h s' row = Ok v -> -1 <= v <= 1) /\
    (forall i, (i < fst (shape s))%nat -> 0 < weight dist i ->
       let I := filter (fun j => andb (has_weight dist j) (same_leaf h s i j)) (all_rows s) in
       In i I /\ exists z, (exists j, In j I /\ lab j = z) /\
         (forall z', label_weight lab (weight dist) z' I <= label_weight lab (weight dist) z I) /\
         answer h s i = rclamp (-1) 1 (IZR z * (2 * share lab (weight dist) z I - 1))).
Proof. exact P_C27_tree. Qed.
Print Assumptions C27_tree.

(** for labels +1 and -1 the answer is the mean label of the leaf, and the tree has an edge *)
Theorem C27_mean :
  forall order s b t dist, trainable s -> dt_made s b -> tb_build b s = Ok t ->
  length dist = fst (shape s) -> (exists i, (i < fst (shape s))%nat /\ 0 < weight dist i) -> pm_labels s -> listing order ->
  exists h, dt_produce order t s dist = Ok h /\
    forall i, (i < fst (shape s))%nat -> 0 < weight dist i ->
       let I := filter (fun j => andb (has_weight dist j) (same_leaf h s i j)) (all_rows s) in
       answer h s i = rsum (map (fun j => weight dist j * label s j) I) / rsum (map (weight dist) I).
Proof. exact P_C27_mean. Qed.
Print Assumptions C27_mean.

Theorem C27_edge :
  forall order s b t dist, trainable s -> dt_made s b -> tb_build b s = Ok t ->
  length dist = fst (shape s) -> (forall i, 0 <= weight dist i) -> (exists i, (i < fst (shape s))%nat /\ 0 < weight dist i) -> pm_labels s -> listing order ->
  exists h, dt_produce order t s dist = Ok h /\
    tree_edge_of h s dist >= (rsum (map (fun i => weight dist i * label s i) (all_rows s))) ^ 2 / rsum (map (weight dist) (all_rows s)) /\
    tree_edge_of h s dist >= 0 /\
    (tb_criterion b = Edge -> forall f th, In f (s_features s) -> offered (dt_bins t) f th ->
       tree_edge_of h s dist >= (stump_edge (column f) (label s) (weight dist) th (all_rows s)) ^ 2 / rsum (map (weight dist) (all_rows s))).
Proof. exact P_C27_edge. Qed.
Print Assumptions C27_edge.

(** ** C28: conversion and pruning *)

Theorem C28_conversion : forall t s row, node_confidence (to_node t) s row = train_confidence t s row.
Proof. exact P_C28_conversion. Qed.
Print Assumptions C28_conversion.

Theorem C28_pruning :
  forall order s b t dist lab, trainable s -> dt_made s b -> tb_build b s = Ok t ->
  length dist = fst (shape s) -> (exists i, (i < fst (shape s))%nat /\ 0 < weight dist i) -> int_labels s lab -> listing order ->
  exists h full, dt_produce order t s dist = Ok h /\
    full_tree order (dt_criterion t) (dt_bins t) s dist (dt_depth t) (filter (has_weight dist) (all_rows s)) = Ok full /\
    forall s' row, node_confidence h s' row = train_confidence full s' row.
Proof. exact P_C28_pruning. Qed.
Print Assumptions C28_pruning.

(** ** a sample that meets the hypotheses *)

(** ** C28: redundant leaves are not removed *)

Theorem C28_redundant_leaves_refuted :
  exists s b t dist, trainable s /\ dt_made s b /\ tb_build b s = Ok t /\ length dist = fst (shape s) /\ (forall i, 0 <= weight dist i) /\ pm_labels s /\
  forall order, listing order -> exists rule u v, dt_produce order t s dist = Ok (Branch rule (Leaf u) (Leaf v)) /\ 0 < u /\ 0 < v.
Proof. exact P_C28_redundant_leaves_refuted. Qed.
Print Assumptions C28_redundant_leaves_refuted.

(** ** hypotheses met *)

Example C27_case : forall c, trainable ex_sample /\ dt_made ex_sample (ex_builder c 2) /\ (exists t, tb_build (ex_builder c 2) ex_sample = Ok t) /\
  length ex_dist = fst (shape ex_sample) /\ (forall i, 0 <= weight ex_dist i) /\ (exists i, (i < fst (shape ex_sample))%nat /\ 0 < weight ex_dist i) /\ pm_labels ex_sample /\ listing (fun m => rev m).
Proof.
  intros c. destruct ex_weight as [A [B C]]. split; [exact ex_trainable|]. split; [apply ex_made; lia|]. split; [apply ex_built; lia|]. split; [exact A|]. split; [exact B|]. split; [exact C|]. split; [exact ex_pm|].
  intros m. apply Permutation_sym, Permutation_rev.
Qed.

Example C61_case : int_labels ex_sample (fun i => if Nat.even i then 1%Z else (-1)%Z) /\ forall i, In i [1; 2]%nat -> (i < fst (shape ex_sample))%nat /\ 0 < weight ex_dist i.
Proof.
  split.
  - intros i Hi. simpl in Hi. destruct i as [|[|[|[|i]]]]; simpl; try lia; split; try lra; lia.
  - intros i [<-|[<-|[]]]; simpl; unfold weight; simpl; split; try lia; lra.
Qed.
