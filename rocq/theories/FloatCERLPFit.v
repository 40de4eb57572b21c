(** CERLPBoost in binary64 arithmetic with the settings it computes itself from the tolerance (src/booster/cerlpboost/cerlpboost_algorithm.rs). *)
From Coq Require Import ZArith List Bool Reals.
From Flocq Require Import Core.Core IEEE754.BinarySingleNaN.
From Verif Require Import Base Float FloatRounds FloatCERLP.
Import ListNotations.

(** cerlpboost_algorithm.rs:212-218 [regularization_param] *)
Definition f_cerlp_eta (fln : f64 -> f64) (tol nu : f64) (n : nat) : f64 := fdiv (fln (fdiv (f_of_usize n) nu)) (f_half_tol tol).

(** cerlpboost_algorithm.rs:287-307 [preprocess] and the run of [boost] that follows it; [umax] is usize::MAX.
    Simplification: the initial uniform distribution is left out, since [boost] overwrites it before it is read; the check of the
    sample is C45's *)
Definition f_cerlp_fit {H} (conf : H -> nat -> f64) (eqH : H -> H -> bool) (produce : nat -> list f64 -> H) (fexp fln : f64 -> f64)
    (umax : nat) (tol nu : f64) (ys : list f64) : f_cerlp_end :=
  f_cerlp_run conf eqH produce fexp fln (f_cerlp_eta fln tol nu (length ys)) nu (f_half_tol tol) ys
    (f_cerlp_rounds fln umax tol nu (length ys)) 1 [] [].
