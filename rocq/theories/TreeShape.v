(** Specification vocabulary for the returned trees (C26-C29, C61): depth, leaves, criteria and offered thresholds. *)
From Coq Require Import String.
From Verif Require Import Base Spec Feature Sample Bins BinsSpec TreeSpec DTree.
Open Scope R_scope.

Fixpoint depth (t : node) : nat := match t with Leaf _ => 0 | Branch _ l r => S (Nat.max (depth l) (depth r)) end.
(** the leaf a row falls into, as the path to it (true = left) *)
Fixpoint leaf_of (t : node) (s : sample) (row : nat) : res (list bool) :=
  match t with
  | Leaf _ => Ok []
  | Branch rule l r =>
      let* b := split_left rule s row in
      let* p := (if b then leaf_of l s row else leaf_of r s row) in
      Ok (b :: p)
  end.
Definition same_leaf (t : node) (s : sample) (i j : nat) : bool :=
  match leaf_of t s i, leaf_of t s j with
  | Ok p, Ok q => if list_eq_dec Bool.bool_dec p q then true else false
  | _, _ => false
  end.

(** what a criterion looks at: the value of the split at t *)
Definition crit_value (c : criterion) (labels : list Z) (lab : nat -> Z) (x d : nat -> R) (t : R) (idx : list nat) : R :=
  match c with
  | Edge => Rabs (stump_edge x (fun i => IZR (lab i)) d t idx) / total d idx
  | Entropy => split_impurity (entropy_of labels lab d) x d t idx
  | Gini => split_impurity (gini_of labels lab d) x d t idx
  | Twoing => twoing_of labels lab x d t idx
  end.
Definition not_worse (c : criterion) (a b : R) : Prop := match c with Edge | Twoing => b <= a | Entropy | Gini => a <= b end.


(** thresholds offered for a feature: the ends of its bins, and f64::MIN *)
Definition offered (bm : list (string * list bin)) (f : feature) (t : R) : Prop :=
  exists bins, sm_get bm (feat_name f) = Ok bins /\ In t (F64MIN :: map b_end bins).

(** the value of a feature at a row, and the answer of a tree, when they are defined *)
Definition column (f : feature) (i : nat) : R := match feat_index f i with Ok x => x | Panic _ => 0 end.
Definition answer (t : node) (s : sample) (i : nat) : R := match node_confidence t s i with Ok v => v | Panic _ => 0 end.

(** the split of the rows idx by feature f at thr is best: it is one of the offered ones and no offered one is better *)
Definition optimal_rule (c : criterion) (labels : list Z) (lab : nat -> Z) (fs : list feature) (bm : list (string * list bin)) (d : nat -> R)
    (f : feature) (thr : R) (idx : list nat) : Prop :=
  In f fs /\ (exists t0, offered bm f t0 /\ forall i, In i idx -> (column f i < thr <-> column f i < t0)) /\
  forall f' t', In f' fs -> offered bm f' t' ->
    not_worse c (crit_value c labels lab (column f) d thr idx) (crit_value c labels lab (column f') d t' idx).
(** a tree of at most [dep] levels over the rows idx in which every split is best for the rows that reach it, sends rows
    to both sides, and a leaf above the last level is pure or cannot be divided by a best split *)
Fixpoint greedy (c : criterion) (labels : list Z) (lab : nat -> Z) (fs : list feature) (bm : list (string * list bin)) (d : nat -> R)
    (h : node) (dep : nat) (idx : list nat) : Prop :=
  match h with
  | Leaf _ => dep = 0%nat \/ (exists z, forall i, In i idx -> lab i = z) \/
      exists f thr, optimal_rule c labels lab fs bm d f thr idx /\ ((forall i, In i idx -> column f i < thr) \/ (forall i, In i idx -> thr <= column f i))
  | Branch rule l r => exists dep' f, dep = S dep' /\ sp_feature rule = feat_name f /\ optimal_rule c labels lab fs bm d f (sp_threshold rule) idx /\
      filter (below (column f) (sp_threshold rule)) idx <> [] /\ filter (not_below (column f) (sp_threshold rule)) idx <> [] /\
      greedy c labels lab fs bm d l dep' (filter (below (column f) (sp_threshold rule)) idx) /\
      greedy c labels lab fs bm d r dep' (filter (not_below (column f) (sp_threshold rule)) idx)
  end.

(** a sample to train a tree on: read by the library, with rows, with named features, a target, and values away from
    the ends of the f64 range *)
Definition trainable (s : sample) : Prop :=
  made s /\ (0 < fst (shape s))%nat /\ s_features s <> [] /\ NoDup (map feat_name (s_features s)) /\
  length (s_target s) = fst (shape s) /\ (forall f x, In f (s_features s) -> In x (stored f) -> moderate x).
(** labels are integers in the range of i32 *)
Definition int_labels (s : sample) (lab : nat -> Z) : Prop :=
  forall i, (i < fst (shape s))%nat -> nth i (s_target s) 0 = IZR (lab i) /\ (- 2 ^ 31 <= lab i < 2 ^ 31)%Z.
Definition pm_labels (s : sample) : Prop := forall i, (i < fst (shape s))%nat -> nth i (s_target s) 0 = 1 \/ nth i (s_target s) 0 = -1.
Definition weight (dist : list R) (i : nat) : R := nth i dist 0.
Definition label (s : sample) (i : nat) : R := nth i (s_target s) 0.
Definition all_rows (s : sample) : list nat := seq 0 (fst (shape s)).
Definition has_weight (dist : list R) (i : nat) : bool := if Rlt_dec 0 (weight dist i) then true else false.
(** edge of a tree on the weighted sample *)
Definition tree_edge_of (h : node) (s : sample) (dist : list R) : R :=
  rsum (map (fun i => weight dist i * label s i * answer h s i) (all_rows s)).
(** the order in which a hash map lists its entries *)
Definition listing (order : lw -> lw) : Prop := forall m, Permutation (order m) m.
