(** Specification vocabulary for decision trees (C25-C29, C61), independent of the model of the learner. *)
From Coq Require Import String.
From Verif Require Import Base Spec Feature Sample.
Open Scope R_scope.

(** total of g over the rows of [idx] that satisfy p *)
Definition sum_where (g : nat -> R) (p : nat -> bool) (idx : list nat) : R := rsum (map g (filter p idx)).
Definition below (x : nat -> R) (t : R) (i : nat) : bool := if Rlt_dec (x i) t then true else false.
Definition not_below (x : nat -> R) (t : R) (i : nat) : bool := if Rlt_dec (x i) t then false else true.
Definition total (d : nat -> R) (idx : list nat) : R := rsum (map d idx).

(** the decision stump: -1 below the threshold, +1 from it on; its edge over the rows idx weighted by d *)
Definition stump (t : R) (v : R) : R := if Rlt_dec v t then -1 else 1.
Definition stump_edge (x : nat -> R) (y d : nat -> R) (t : R) (idx : list nat) : R :=
  rsum (map (fun i => d i * (y i * stump t (x i))) idx).

(** share of label z in the rows idx *)
Definition label_weight (lab : nat -> Z) (d : nat -> R) (z : Z) (idx : list nat) : R := sum_where d (fun i => Z.eqb (lab i) z) idx.
Definition share (lab : nat -> Z) (d : nat -> R) (z : Z) (idx : list nat) : R := label_weight lab d z idx / total d idx.
(** entropy and Gini index of the labels in idx; [labels] is a list of all labels, each once *)
Definition entropy_of (labels : list Z) (lab : nat -> Z) (d : nat -> R) (idx : list nat) : R :=
  rsum (map (fun z => - xlnx (share lab d z idx)) labels).
Definition gini_of (labels : list Z) (lab : nat -> Z) (d : nat -> R) (idx : list nat) : R :=
  1 - rsum (map (fun z => (share lab d z idx) ^ 2) labels).
(** the impurity after a split at t: the impurities of the two sides weighted by their share of the weight; a side
    without a row does not count *)
Definition side (imp : list nat -> R) (d : nat -> R) (I : list nat) : R := match I with [] => 0 | _ => total d I * imp I end.
Definition split_impurity (imp : list nat -> R) (x : nat -> R) (d : nat -> R) (t : R) (idx : list nat) : R :=
  (side imp d (filter (below x t) idx) + side imp d (filter (not_below x t) idx)) / total d idx.
(** the twoing value of a split: (p_l p_r / 4) (sum_z |share of z on the left - share of z on the right|)^2, 0 if a side
    has no row *)
Definition twoing_of (labels : list Z) (lab : nat -> Z) (x : nat -> R) (d : nat -> R) (t : R) (idx : list nat) : R :=
  match filter (below x t) idx, filter (not_below x t) idx with
  | [], _ => 0
  | _, [] => 0
  | l, r => total d l / total d idx * (total d r / total d idx) / 4 * (rsum (map (fun z => Rabs (share lab d z l - share lab d z r)) labels)) ^ 2
  end.
