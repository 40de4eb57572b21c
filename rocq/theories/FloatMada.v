(** MadaBoost (src/booster/madaboost/madaboost_algorithm.rs) in binary64 arithmetic.  [fexp] and [fln] are f64::exp and f64::ln of the
    platform; f64::sqrt is correctly rounded. *)
From Coq Require Import ZArith List Bool Reals.
From Flocq Require Import Core.Core IEEE754.BinarySingleNaN.
From Verif Require Import Base Float FloatEdge FloatMedian FloatAda.
Import ListNotations.

(** f64::sqrt *)
Definition fsqrt (x : f64) : f64 := Bsqrt mode_NE x.

(** madaboost_algorithm.rs:201: epsilon *)
Definition f_mada_eps (edge : f64) : f64 := fmul f_half (fsub f1 edge).

(** madaboost_algorithm.rs:203-204: eps2 and beta *)
Definition f_mada_beta (edge : f64) : f64 :=
  let eps2 := fsqrt (fmul f_half (f_mada_eps edge)) in fsqrt (fdiv eps2 (fsub f1 eps2)).

(** madaboost_algorithm.rs:208: the weight of the hypothesis *)
Definition f_mada_alpha (fln : f64 -> f64) (edge : f64) : f64 := fln (fdiv f1 (f_mada_beta edge)).

(** madaboost_algorithm.rs:193-218 [update_params]: the assertion, then the exponents, element by element *)
Definition f_mada_update (betas margins : list f64) (edge : f64) : res (list f64) :=
  let* _ := assert_ (andb (fle f0 (f_mada_eps edge)) (flt (f_mada_eps edge) f1)) in
  Ok (map (fun q => fadd (fst q) (fmul (snd q) (f_mada_beta edge))) (combine betas margins)).

(** madaboost_algorithm.rs:227: [b.min(1f64)]; f64::min returns the other argument when one is NaN *)
Definition f_min1 (b : f64) : f64 := if is_nan b then f1 else if flt f1 b then f1 else b.

(** madaboost_algorithm.rs:221-256 [beta2distribution]; the normaliser loop is the one of AdaBoost; [ix] is the outcome of the sort
    (no entry is NaN, so the comparison never panics) *)
Definition f_mada_query (fexp fln : f64 -> f64) (ix : list nat) (betas : list f64) : res (list f64) :=
  let weights := map f_min1 betas in
  let* z := f_ada_norm fexp fln weights ix in
  Ok (map (fun b => fexp (fsub b z)) weights).

(** madaboost_algorithm.rs:290-355: the rounds of a run (preprocess, then boost as long as it continues).  [hist] is the list of the edges
    with the confidences of the hypotheses on the training rows; [ok] restricts the weak learner's answers *)
Inductive f_mada_run (fexp fln : f64 -> f64) (ok : list f64 -> Prop) (y : list f64) : list (f64 * list f64) -> list f64 -> Prop :=
| fmr_start : f_mada_run fexp fln ok y [] (f_uniform (length y))
| fmr_round hist betas ix dist conf edge betas' :
    f_mada_run fexp fln ok y hist betas -> f_ascending (map f_min1 betas) ix -> f_mada_query fexp fln ix betas = Ok dist ->
    length conf = length y -> ok conf -> f_edge y conf dist edge -> f_perfect edge = false ->
    f_mada_update betas (f_margins y conf) edge = Ok betas' ->
    f_mada_run fexp fln ok y (hist ++ [(edge, conf)]) betas'.
