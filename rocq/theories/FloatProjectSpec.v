(** Vocabulary for C91: what is assumed of the exponential and the logarithm of the platform *)
From Coq Require Import ZArith List Bool Reals.
From Flocq Require Import Core.Core IEEE754.BinarySingleNaN.
From Verif Require Import Base Float FloatSpec.
Import ListNotations.
Open Scope R_scope.

(** correctly rounded: the number nearest to the exact value (ties to even) *)
Definition nearest64 (r : R) : R := round radix2 (FLT_exp (-1074) 53) ZnearestE r.
Definition correct_exp (fexp : f64 -> f64) : Prop := forall x, finite_num x -> val x <= 700 -> finite_num (fexp x) /\ val (fexp x) = nearest64 (exp (val x)).
Definition correct_ln (fln : f64 -> f64) : Prop := forall x, finite_num x -> 0 < val x -> finite_num (fln x) /\ val (fln x) = nearest64 (ln (val x)).

(** accurate: within 2^-50 of the exact value where the projection without a cap uses them, exact at 1, and within the
    range of the exact function *)
Definition accurate_exp (fexp : f64 -> f64) : Prop := forall x, finite_num x -> val x <= 0 ->
  finite_num (fexp x) /\ 0 <= val (fexp x) <= 1 /\ Rabs (val (fexp x) - exp (val x)) <= / 2 ^ 50.
Definition accurate_ln (fln : f64 -> f64) : Prop := (forall x, finite_num x -> 1 <= val x <= 2 ->
  finite_num (fln x) /\ 0 <= val (fln x) <= 1 /\ Rabs (val (fln x) - ln (val x)) <= / 2 ^ 50) /\ (forall x, finite_num x -> val x = 1 -> finite_num (fln x) /\ val (fln x) = 0).

(** the exponential distribution of a list of logarithms *)
Definition softmax (x : list f64) (i : nat) : R := exp (val (nth i x f0)) / rsum (map (fun d => exp (val d)) x).
(** the binary64 number 2^53 *)
Definition two53 : f64 := binary_normalize 53 1024 eq_refl eq_refl mode_NE 1 53 false.
(** the binary64 number 107/64 *)
Definition nu107 : f64 := binary_normalize 53 1024 eq_refl eq_refl mode_NE 107 (-6) false.
(** the binary64 number -3582009729985367/2^53 *)
Definition log43 : f64 := binary_normalize 53 1024 eq_refl eq_refl mode_NE (-3582009729985367) (-53) false.
