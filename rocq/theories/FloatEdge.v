(** The edge of a weak hypothesis and the "perfect hypothesis" test of the boosters in binary64 arithmetic. *)
From Coq Require Import ZArith List Bool Reals.
From Flocq Require Import Core.Core IEEE754.BinarySingleNaN.
From Verif Require Import Base Float.
Open Scope R_scope.

(** adaboost_algorithm.rs:282-285: the distribution shown in the first round *)
Definition f_uniform (n : nat) : list f64 := repeat (fdiv f1 (f_of_usize n)) n.

(** common/utils.rs:35-45 [margins_of_hypothesis]: target times confidence, row by row *)
Definition f_margins (y conf : list f64) : list f64 := f_products y conf.

(** common/utils.rs:275-282 [inner_product] of the margins and the distribution, as rayon may compute it: [e] is one of the possible values *)
Definition f_edge (y conf dist : list f64) (e : f64) : Prop :=
  exists t, ftree_items t = f_products (f_margins y conf) dist /\ e = ftree_sum t.

(** adaboost_algorithm.rs:325, adaboostv_algorithm.rs:359, madaboost_algorithm.rs:341: [edge.abs() >= 1.0], on which the booster
    returns this hypothesis alone at once *)
Definition f_perfect (e : f64) : bool := fle f1 (fabs e).
