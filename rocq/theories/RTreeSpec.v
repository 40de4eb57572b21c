(** Specification vocabulary for regression trees (C29): the regularised second-order objective of a tree, and the score
    of a split, for gradients g and hessians h of the rows. *)
From Coq Require Import String.
From Verif Require Import Base Spec Feature Sample Bins TreeSpec DTree TreeShape.
Open Scope R_scope.

(** the score of one side and of a split at t; a side without a row contributes 0 *)
Definition side_score (g h : nat -> R) (lambda : R) (I : list nat) : R := match I with [] => 0 | _ => (total g I) ^ 2 / (total h I + lambda) end.
Definition split_score (g h : nat -> R) (lambda : R) (x : nat -> R) (t : R) (idx : list nat) : R :=
  side_score g h lambda (filter (below x t) idx) + side_score g h lambda (filter (not_below x t) idx).

(** the second-order objective of giving the value w to all the rows of I *)
Definition leaf_objective (g h : nat -> R) (lambda : R) (I : list nat) (w : R) : R := total g I * w + (1 / 2) * (total h I + lambda) * w ^ 2.

(** the values at the leaves of a tree, and the objective of the tree on the rows idx:
    sum_i (g_i f(x_i) + h_i f(x_i)^2 / 2) + lambda/2 (sum of the squares of the leaf values) *)
Fixpoint leaf_values (t : node) : list R := match t with Leaf w => [w] | Branch _ l r => leaf_values l ++ leaf_values r end.
Definition tree_objective (g h : nat -> R) (lambda : R) (t : node) (s : sample) (idx : list nat) : R :=
  rsum (map (fun i => g i * answer t s i + (1 / 2) * h i * (answer t s i) ^ 2) idx) + (1 / 2) * lambda * rsum (map (fun w => w ^ 2) (leaf_values t)).

(** two trees that ask the same questions *)
Fixpoint same_questions (t t' : node) : Prop :=
  match t, t' with
  | Leaf _, Leaf _ => True
  | Branch q l r, Branch q' l' r' => q = q' /\ same_questions l l' /\ same_questions r r'
  | _, _ => False
  end.

(** a question about f at thr that, for the rows idx, divides them like an offered threshold and scores at least as much
    as every offered question about any feature *)
Definition best_score_rule (g h : nat -> R) (lambda : R) (fs : list feature) (bm : list (string * list bin)) (f : feature) (thr : R) (idx : list nat) : Prop :=
  In f fs /\ (exists t0, offered bm f t0 /\ forall i, In i idx -> (column f i < thr <-> column f i < t0)) /\
  forall f' t', In f' fs -> offered bm f' t' -> split_score g h lambda (column f') t' idx <= split_score g h lambda (column f) thr idx.
(** a tree of at most [lev] levels, leaves included, over the rows idx, in which every leaf holds the minimiser of its
    objective, every split is best for the rows that reach it and sends rows to both sides, and a leaf above the last level
    has gradients that sum to zero or cannot be divided by a best question *)
Fixpoint greedy_reg (g h : nat -> R) (lambda : R) (fs : list feature) (bm : list (string * list bin)) (t : node) (lev : nat) (idx : list nat) : Prop :=
  match t with
  | Leaf w => w = - total g idx / (total h idx + lambda) /\
      ((lev <= 1)%nat \/ total g idx = 0 \/
       exists f thr, best_score_rule g h lambda fs bm f thr idx /\ ((forall i, In i idx -> column f i < thr) \/ (forall i, In i idx -> thr <= column f i)))
  | Branch rule l r => exists lev' f, lev = S lev' /\ sp_feature rule = feat_name f /\ best_score_rule g h lambda fs bm f (sp_threshold rule) idx /\
      filter (below (column f) (sp_threshold rule)) idx <> [] /\ filter (not_below (column f) (sp_threshold rule)) idx <> [] /\
      greedy_reg g h lambda fs bm l lev' (filter (below (column f) (sp_threshold rule)) idx) /\
      greedy_reg g h lambda fs bm r lev' (filter (not_below (column f) (sp_threshold rule)) idx)
  end.
