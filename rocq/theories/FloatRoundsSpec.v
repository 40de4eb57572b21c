(** Vocabulary for C103: a computed round limit against the formula it stands for, in exact arithmetic *)
From Coq Require Import ZArith List Bool Reals.
From Flocq Require Import Core.Core IEEE754.BinarySingleNaN.
From Verif Require Import Base Float FloatSpec FloatAdaSpec.
Open Scope R_scope.

(** [m] is the formula [X] cut off at usize::MAX and then rounded down (up) to a whole number, but for an error of [err] *)
Definition rounded_down (umax m : nat) (X err : R) : Prop := Rmin X (INR umax) - 1 - err < INR m <= Rmin X (INR umax) + err.
Definition rounded_up (umax m : nat) (X err : R) : Prop := Rmin X (INR umax) - err <= INR m < Rmin X (INR umax) + 1 + err.
(** a tolerance between 2^-100 and 2^100 *)
Definition usual_tolerance (tol : f64) : Prop := finite_num tol /\ / 2 ^ 100 <= val tol <= 2 ^ 100.
(** the numbers of examples and the capping parameters that the boosters accept *)
Definition some_examples (n : nat) : Prop := (1 <= n)%nat /\ INR n < 2 ^ 53.
Definition capping (nu : f64) (n : nat) : Prop := finite_num nu /\ 1 <= val nu <= INR n.
(** tolerances whose square is zero in binary64, zero among them *)
Definition vanishing (tol : f64) : Prop := finite_num tol /\ Rabs (val tol) <= / 2 ^ 540.
