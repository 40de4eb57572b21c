(** AdaBoostV (src/booster/adaboostv/adaboostv_algorithm.rs) in binary64 arithmetic.  [fexp] and [fln] are f64::exp and f64::ln of the
    platform. *)
From Coq Require Import ZArith List Bool Reals.
From Flocq Require Import Core.Core IEEE754.BinarySingleNaN.
From Verif Require Import Base Float FloatProject FloatEdge FloatAda.
Import ListNotations.

(** adaboostv_algorithm.rs:235: the margin estimate *)
Definition f_adav_rho (gamma tol : f64) : f64 := fsub gamma tol.

(** adaboostv_algorithm.rs:238-243: the weight of the new hypothesis; both logarithms are computed as in AdaBoost *)
Definition f_adav_weight (fln : f64 -> f64) (edge rho : f64) : f64 := fsub (f_ada_weight fln edge) (f_ada_weight fln rho).

(** adaboostv_algorithm.rs:300-371: the rounds of a run (preprocess, then boost as long as it continues); lines 247-272 are the update of
    AdaBoost (adaboost_algorithm.rs:210-239).  [hist] is the list of the weights with the confidences of their hypotheses on the
    training rows, [edges] the list of the edges, [gamma] the smallest edge so far; [ok] restricts the rounds that are considered.
    The weak learner may answer anything; every order of summation of the edge and every outcome of the sort is possible *)
Inductive f_adav_run (fexp fln : f64 -> f64) (ok : list f64 -> f64 -> Prop) (tol : f64) (y : list f64) : list f64 -> list (f64 * list f64) -> f64 -> list f64 -> Prop :=
| favr_start : f_adav_run fexp fln ok tol y [] [] f1 (f_uniform (length y))
| favr_round edges hist gamma dist conf edge ix dist' :
    f_adav_run fexp fln ok tol y edges hist gamma dist -> length conf = length y -> f_edge y conf dist edge -> f_perfect edge = false -> ok conf edge ->
    f_ascending (f_ada_logs fln (f_adav_weight fln edge (f_adav_rho (f_min2 edge gamma) tol)) (f_margins y conf) dist) ix ->
    f_ada_update fexp fln ix (f_adav_weight fln edge (f_adav_rho (f_min2 edge gamma) tol)) (f_margins y conf) dist = Ok dist' ->
    f_adav_run fexp fln ok tol y (edges ++ [edge]) (hist ++ [(f_adav_weight fln edge (f_adav_rho (f_min2 edge gamma) tol), conf)]) (f_min2 edge gamma) dist'.
