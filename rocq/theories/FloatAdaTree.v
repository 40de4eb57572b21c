(** AdaBoost (src/booster/adaboost/adaboost_algorithm.rs) run with the decision tree learner
    (src/weak_learner/decision_tree/), all the weights, sums, edges and confidences being binary64 numbers. *)
From Coq Require Import ZArith List Bool Reals.
From Flocq Require Import Core.Core IEEE754.BinarySingleNaN.
From Verif Require Import Base Sample DTree Float FloatEdge FloatTree FloatTreeSpec FloatAda.
Import ListNotations.

(** common/utils.rs:35-45 [margins_of_hypothesis], hypothesis/hypothesis_traits.rs:21-26 [confidence_all]: the confidences of a tree on the given rows *)
Fixpoint f_tree_answers (h : f_node) (s : sample) (rows : list nat) : res (list f64) :=
  match rows with
  | [] => Ok []
  | i :: rest => let* c := f_node_confidence h s i in let* cs := f_tree_answers h s rest in Ok (c :: cs)
  end.

(** adaboost_algorithm.rs:281-345: the rounds of a run in which the hypotheses are produced by the tree learner [t].  [y] are the targets
    of the sample as binary64 numbers.  Each round may use another summation schedule, hash order and outcome of the sort; [ok]
    restricts the edges that are considered *)
Inductive f_ada_tree_run (fexp fln : f64 -> f64) (ok : f64 -> Prop) (t : dtree) (s : sample) (y : list f64) : list (f64 * f_node) -> list f64 -> Prop :=
| fat_start : f_ada_tree_run fexp fln ok t s y [] (f_uniform (length y))
| fat_round hist dist sched order h conf edge ix dist' :
    f_ada_tree_run fexp fln ok t s y hist dist -> summing sched -> some_order order ->
    f_dt_produce sched order fln t s dist = Ok h -> f_tree_answers h s (seq 0 (fst (shape s))) = Ok conf ->
    f_edge y conf dist edge -> f_perfect edge = false -> ok edge ->
    f_ascending (f_ada_logs fln (f_ada_weight fln edge) (f_margins y conf) dist) ix ->
    f_ada_update fexp fln ix (f_ada_weight fln edge) (f_margins y conf) dist = Ok dist' ->
    f_ada_tree_run fexp fln ok t s y (hist ++ [(f_ada_weight fln edge, h)]) dist'.
