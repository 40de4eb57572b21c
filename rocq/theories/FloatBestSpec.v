(** Vocabulary for C96: splits and leaves that are right up to rounding *)
From Coq Require Import ZArith List Bool Reals String.
From Flocq Require Import Core.Core IEEE754.BinarySingleNaN.
From Verif Require Import Base Feature Sample Bins DTree TreeSpec TreeShape Float FloatSpec FloatTree.
Import ListNotations.
Open Scope R_scope.

(** the weight of an example, as a real number *)
Definition weight64 (dist : list f64) (i : nat) : R := val (nth i dist f0).
(** the weighted mean of the labels of the rows *)
Definition mean_label (y d : nat -> R) (idx : list nat) : R := rsum (map (fun i => d i * y i) idx) / TreeSpec.total d idx.

(** (f, thr) asks the question of an offered threshold, and no offered question on any feature has an edge that is
    larger by more than [tol] times the weight of the rows *)
Definition nearly_best (tol : R) (fs : list feature) (bm : list (string * list bin)) (y d : nat -> R) (f : feature) (thr : R) (idx : list nat) : Prop :=
  In f fs /\ (exists t0, offered bm f t0 /\ forall i, In i idx -> (column f i < thr <-> column f i < t0)) /\
  forall f' t', In f' fs -> offered bm f' t' ->
    Rabs (stump_edge (column f') y d t' idx) <= Rabs (stump_edge (column f) y d thr idx) + tol * TreeSpec.total d idx.

(** a tree of at most [dep] levels over the rows idx in which every split is nearly best for the rows that reach it and
    sends rows to both sides, and every leaf answers the weighted mean label of its rows up to [tol] *)
Fixpoint nearly_greedy (tol : R) (fs : list feature) (bm : list (string * list bin)) (y d : nat -> R) (h : f_node) (dep : nat) (idx : list nat) : Prop :=
  match h with
  | FLf c => finite_num c /\ -1 <= val c <= 1 /\ Rabs (val c - mean_label y d idx) <= tol
  | FBr rule l r => exists dep' f, dep = S dep' /\ sp_feature rule = feat_name f /\ nearly_best tol fs bm y d f (sp_threshold rule) idx /\
      filter (below (column f) (sp_threshold rule)) idx <> [] /\ filter (not_below (column f) (sp_threshold rule)) idx <> [] /\
      nearly_greedy tol fs bm y d l dep' (filter (below (column f) (sp_threshold rule)) idx) /\
      nearly_greedy tol fs bm y d r dep' (filter (not_below (column f) (sp_threshold rule)) idx)
  end.

(** the rows with positive weight *)
Definition weighted_rows (dist : list f64) (n : nat) : list nat := filter (fun i => if Rlt_dec 0 (weight64 dist i) then true else false) (seq 0 n).
(** the answer of the tree at a row *)
Definition answer64 (h : f_node) (s : sample) (i : nat) : R := match f_node_confidence h s i with Ok c => val c | Panic _ => 0 end.
(** the edge of the tree's answers over the rows, in exact arithmetic *)
Definition answer_edge (h : f_node) (s : sample) (dist : list f64) (idx : list nat) : R := rsum (map (fun i => weight64 dist i * label s i * answer64 h s i) idx).
