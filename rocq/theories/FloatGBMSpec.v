(** Vocabulary for C102 *)
From Coq Require Import ZArith List Bool Reals.
From Flocq Require Import Core.Core IEEE754.BinarySingleNaN.
From Verif Require Import Base Float FloatSpec.
Import ListNotations.
Open Scope R_scope.

(** answers whose sum is not lost to cancellation: it is at least 2^-16 of the sum of their absolute values, and of a moderate magnitude *)
Definition steady (q : list f64) : Prop := finite_all q /\ size q <= 2 ^ 16 * Rabs (total q) /\ / 2 ^ 400 <= Rabs (total q) <= 2 ^ 400.
(** the sum of the squared errors of the predictions p *)
Definition squared_error (p y : list f64) : R := rsum (map (fun z => (val (fst z) - val (snd z)) ^ 2) (combine p y)).
(** the binary64 number nearest to 0.01, the default penalty of the tree learner *)
Definition f_001 : f64 := binary_normalize 53 1024 eq_refl eq_refl mode_NE 5764607523034235 (-59) false.
