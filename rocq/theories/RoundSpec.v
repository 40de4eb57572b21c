(** Specification: a number of rounds [k] that is the real number [x] rounded down / rounded up. *)
From Verif Require Import Base.
Open Scope R_scope.
Definition floor_of (x : R) (k : nat) : Prop := INR k <= x < INR k + 1.
Definition ceil_of (x : R) (k : nat) : Prop := INR k - 1 < x <= INR k.
