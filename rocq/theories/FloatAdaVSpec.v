(** Vocabulary for C100: AdaBoostV in binary64 *)
From Coq Require Import ZArith List Bool Reals.
From Flocq Require Import Core.Core IEEE754.BinarySingleNaN.
From Verif Require Import Base Float FloatSpec FloatAdaSpec.
Import ListNotations.
Open Scope R_scope.

(** confidences in [-1, 1], an edge between lo and hi *)
Definition edge_within (lo hi : R) (conf : list f64) (edge : f64) : Prop := bounded_conf conf /\ lo <= val edge <= hi.
(** the weights given to the hypotheses so far *)
Definition weight_sum (hist : list (f64 * list f64)) : R := rsum (map (fun h => val (fst h)) hist).
(** the weight of AdaBoostV in exact arithmetic, for the margin estimate rho *)
Definition adav_exact (edge rho : R) : R := ln ((1 + edge) / (1 - edge)) / 2 - ln ((1 + rho) / (1 - rho)) / 2.
(** what rounding costs per round when no edge exceeds hi *)
Definition round_loss (hi : R) : R := / 2 ^ 20 / (1 - hi).
(** the literal 0.875 *)
Definition f_7_8 : f64 := BinarySingleNaN.binary_normalize 53 1024 eq_refl eq_refl BinarySingleNaN.mode_NE 7 (-3) false.
