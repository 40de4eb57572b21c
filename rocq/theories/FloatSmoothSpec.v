(** Vocabulary for C98: SmoothBoost in binary64 *)
From Coq Require Import ZArith List Bool Reals.
From Flocq Require Import Core.Core IEEE754.BinarySingleNaN.
From Verif Require Import Base Float FloatSpec FloatSmooth.
Import ListNotations.
Open Scope R_scope.

(** all that is assumed of powf: a base in [1/2, 1] raised to a (moderate) non-negative power lies in [0, 1] *)
Definition proper_pow (fpow : f64 -> f64 -> f64) : Prop := forall b x, finite_num b -> finite_num x -> / 2 <= val b <= 1 -> 0 <= val x <= 2 ^ 60 ->
  finite_num (fpow b x) /\ 0 <= val (fpow b x) <= 1.
(** the parameters pass the setter and the check *)
Definition accepted (kappa gamma : f64) : Prop := f_sb_set_gamma gamma = Ok gamma /\ f_sb_check kappa (f_sb_theta gamma) gamma = Ok tt.
(** the sum of the margins of row j over the rounds, in exact arithmetic *)
Definition margin_total (y : list f64) (hist : list (list f64)) (j : nat) : R := rsum (map (fun conf => val (nth j y f0) * val (nth j conf f0)) hist).
(** theta = gamma / (2 + gamma), and the accuracy of the book-keeping after T rounds *)
Definition theta_of (gamma : f64) : R := val gamma / (2 + val gamma).
Definition slack (T : nat) : R := INR (2 * T * T + 9 * T) * uu.
(** the number of rows below n for which P holds *)
Definition rows_with (n : nat) (v : nat -> R) (c : R) : nat := length (filter (fun j => if Rle_dec (v j) c then true else false) (seq 0 n)).
(** a correctly rounded powf *)
Definition correct_pow (fpow : f64 -> f64 -> f64) : Prop := forall b x, finite_num b -> finite_num x -> / 2 <= val b <= 1 -> 0 <= val x <= 2 ^ 60 ->
  finite_num (fpow b x) /\ val (fpow b x) = round radix2 (FLT_exp (-1074) 53) ZnearestE (Rpower (val b) (val x)).
(** the example of C98: gamma = 1/2 - 2^-20, kappa = 29/1024, twelve rows with label +1 that every hypothesis gets right *)
Definition sb_gamma : f64 := binary_normalize 53 1024 eq_refl eq_refl mode_NE 524287 (-20) false.
Definition sb_kappa : f64 := binary_normalize 53 1024 eq_refl eq_refl mode_NE 29 (-10) false.
