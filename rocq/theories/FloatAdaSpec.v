(** Vocabulary for C92: what is assumed of the exponential and the logarithm of the platform, and of the weak learner *)
From Coq Require Import ZArith List Bool Reals.
From Flocq Require Import Core.Core IEEE754.BinarySingleNaN.
From Verif Require Import Base Float FloatSpec.
Import ListNotations.
Open Scope R_scope.

(** a relative error of at most 2^-52, plus half of the smallest positive number *)
Definition precise_exp (fexp : f64 -> f64) : Prop := forall x, finite_num x -> val x <= 0 ->
  finite_num (fexp x) /\ 0 <= val (fexp x) <= 1 /\ Rabs (val (fexp x) - exp (val x)) <= / 2 ^ 52 * exp (val x) + / 2 ^ 1075.
Definition precise_ln (fln : f64 -> f64) : Prop := forall x, finite_num x -> 0 < val x ->
  finite_num (fln x) /\ (1 <= val x -> 0 <= val (fln x)) /\ Rabs (val (fln x) - ln (val x)) <= / 2 ^ 52 * Rabs (ln (val x)) + / 2 ^ 1075.

(** confidences in [-1, 1]; an edge that is not within 2^-10 of 1 or -1 *)
Definition bounded_conf (conf : list f64) : Prop := forall c, In c conf -> finite_num c /\ Rabs (val c) <= 1.
Definition mild_round (conf : list f64) (edge : f64) : Prop := bounded_conf conf /\ Rabs (val edge) <= 1 - / 2 ^ 10.

(** the margin of row i of the weighted sum of hypotheses, in exact arithmetic *)
Definition exact_margin (y : list f64) (hist : list (f64 * list f64)) (i : nat) : R :=
  rsum (map (fun h => val (fst h) * (val (nth i y f0) * val (nth i (snd h) f0))) hist).
(** the exponential distribution of these margins *)
Definition exact_weight (y : list f64) (hist : list (f64 * list f64)) (i : nat) : R :=
  exp (- exact_margin y hist i) / rsum (map (fun j => exp (- exact_margin y hist j)) (seq 0 (length y))).

(** the IEEE special cases of ln and exp used below *)
Definition special_cases (fexp fln : f64 -> f64) : Prop :=
  fexp B754_nan = B754_nan /\ fln B754_nan = B754_nan /\ (forall s, fln (B754_zero s) = B754_infinity true).
(** a zero of either sign; not a number *)
Definition zero_num (d : f64) : Prop := exists s, d = B754_zero s.
Definition nan_num : f64 := B754_nan.
