(** Vocabulary for C90: the freedom the platform has, and what the weights of the examples are *)
From Coq Require Import ZArith List Bool Reals Permutation String.
From Flocq Require Import Core.Core IEEE754.BinarySingleNaN.
From Verif Require Import Base DTree Float FloatSpec FloatTree.
Import ListNotations.
Open Scope R_scope.

(** [sched] computes sums by additions in some order and some association (of its own for every list) *)
Definition summing (sched : list f64 -> f64) : Prop := forall l, exists t, Permutation (ftree_items t) l /\ sched l = ftree_sum t.
(** [order] lists the entries of a hash map in some order (of its own for every map) *)
Definition some_order (order : flw -> flw) : Prop := forall m, Permutation (order m) m.
(** the logarithm of a positive number is a number of moderate size (|ln x| < 745 for binary64) *)
Definition sane_ln (fln : f64 -> f64) : Prop := forall x, finite_num x -> 0 < val x -> finite_num (fln x) /\ Rabs (val (fln x)) <= 2 ^ 10.

(** the confidences at the leaves of a tree *)
Fixpoint f_leaves (h : f_node) : list f64 := match h with FLf c => [c] | FBr _ l r => f_leaves l ++ f_leaves r end.
(** a number in [-1, 1] *)
Definition confidence_value (c : f64) : Prop := finite_num c /\ -1 <= val c <= 1.
