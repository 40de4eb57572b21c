(** Vocabulary for C99: MadaBoost in binary64 *)
From Coq Require Import ZArith List Bool Reals.
From Flocq Require Import Core.Core IEEE754.BinarySingleNaN.
From Verif Require Import Base Float FloatSpec.
Import ListNotations.
Open Scope R_scope.

(** the factor MadaBoost derives from an edge, in exact arithmetic *)
Definition factor_of (e : R) : R := let eps2 := sqrt ((1 - e) / 4) in sqrt (eps2 / (1 - eps2)).
(** the exponent of row i after the rounds [hist] (edges and confidences), in exact arithmetic *)
Definition exponent_of (y : list f64) (hist : list (f64 * list f64)) (i : nat) : R :=
  1 / INR (length y) + rsum (map (fun h => val (nth i y f0) * val (nth i (snd h) f0) * factor_of (val (fst h))) hist).
(** softmax of the exponents v 0, ..., v (n-1), each capped at 1 *)
Definition capped_soft (n : nat) (v : nat -> R) (i : nat) : R := exp (Rmin (v i) 1) / rsum (map (fun j => exp (Rmin (v j) 1)) (seq 0 n)).
(** the accuracy of the exponents after T rounds *)
Definition exponent_slack (T : nat) : R := INR (T * T + 60 * T + 2) * uu.
(** the largest number below 1, negated: -1 + 2^-53 *)
Definition f_nearly_minus1 : f64 := binary_normalize 53 1024 eq_refl eq_refl mode_NE (-9007199254740991) (-53) false.
