(** Model of the rounds of src/booster/gradient_boost/gbm.rs with the squared loss in binary64, over any weak learner and over the
    crate's regression trees. *)
From Coq Require Import ZArith List Bool Reals.
From Flocq Require Import Core.Core IEEE754.BinarySingleNaN.
From Verif Require Import Base Feature Sample Bins Losses RTree Float FloatTree FloatTreeSpec FloatAdaTree FloatRTree.
Import ListNotations.

(** common/loss_functions.rs:178-186 [best_coefficient], squared loss; [assert_ne!(p_sum, 0.0)] passes on NaN *)
Definition f_best_l2 (targets predictions : list f64) : res f64 :=
  let y_sum := fsum targets in
  let p_sum := fsum predictions in
  let* _ := assert_ (negb (feq p_sum f0)) in
  Ok (fdiv y_sum p_sum).
(** gradient_boost/gbm.rs:254-257: [*p += coef * q] in every row *)
Definition f_gbm_update (coef : f64) (p q : list f64) : list f64 := map (fun z => fadd (fst z) (fmul coef (snd z))) (combine p q).

(** gradient_boost/gbm.rs:204-260: the rounds after which the booster goes on, whatever the weak learner answers; the history lists the
    coefficients and the answers, the last argument is [self.predictions]; a round with coefficient zero ends the run *)
Inductive f_gbm_run (y : list f64) : list (f64 * list f64) -> list f64 -> Prop :=
| fg_start : f_gbm_run y [] (repeat f0 (length y))
| fg_round hist p q coef :
    f_gbm_run y hist p -> length q = length y -> f_best_l2 y q = Ok coef -> feq coef f0 = false ->
    f_gbm_run y (hist ++ [(coef, q)]) (f_gbm_update coef p q).

(** the same rounds with the regression tree learner [t] (squared loss, penalty [lambda]) as weak learner; every round may use another
    summation schedule *)
Inductive f_gbm_tree_run (t : rtree) (lambda : f64) (s : sample) (y : list f64) : list (f64 * list f64) -> list f64 -> Prop :=
| fgt_start : f_gbm_tree_run t lambda s y [] (repeat f0 (length y))
| fgt_round hist p sched h q coef :
    f_gbm_tree_run t lambda s y hist p -> summing sched ->
    f_rt_produce sched (rt_bins t) (rt_n t) (rt_depth t) lambda (rt_loss t) s y p = Ok h -> f_tree_answers h s (seq 0 (fst (shape s))) = Ok q ->
    f_best_l2 y q = Ok coef -> feq coef f0 = false ->
    f_gbm_tree_run t lambda s y (hist ++ [(coef, q)]) (f_gbm_update coef p q).
