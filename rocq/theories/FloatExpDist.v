(** The exponential distribution of the corrective boosters in binary64 arithmetic (src/common/utils.rs). *)
From Coq Require Import ZArith List Bool Reals.
From Flocq Require Import Core.Core IEEE754.BinarySingleNaN.
From Verif Require Import Base Float FloatTree FloatMada FloatRounds FloatProject.
Import ListNotations.

(** utils.rs:82-105 [margins_of_weighted_hypothesis]: one example, with label [y] and the confidences [conf] of the hypotheses.
    Labels and confidences are given. *)
Definition f_vote_margin (ws : list f64) (y : f64) (conf : list f64) : f64 := fmul y (fsum (f_products ws conf)).
Definition f_vote_margins (ws : list f64) (ys : list f64) (confs : list (list f64)) : list f64 :=
  map (fun p => f_vote_margin ws (fst p) (snd p)) (combine ys confs).

(** utils.rs:112-127 [log_exp_distribution] and 138-151 [exp_distribution]; also 159-171 [exp_distribution_from_margins] *)
Definition f_exp_from_margins (fexp fln : f64 -> f64) (eta nu : f64) (margins : list f64) : res (list f64) :=
  f_project fexp fln nu (map (fun yf => fmul (fopp eta) yf) margins).
Definition f_exp_distribution (fexp fln : f64 -> f64) (eta nu : f64) (ys : list f64) (confs : list (list f64)) (ws : list f64) : res (list f64) :=
  f_exp_from_margins fexp fln eta nu (f_vote_margins ws ys confs).
