(** The training-set size of src/research/cross_validation.rs in binary64 arithmetic (CrossVal.v uses exact reals). *)
From Coq Require Import ZArith List Bool Reals.
From Flocq Require Import Core.Core IEEE754.BinarySingleNaN.
From Verif Require Import Base Float.
Open Scope R_scope.

(** [x as usize] for finite x: truncation towards zero, negative numbers give 0.
    Simplification: infinities and NaN also give 0 here (+inf would saturate); no product below is infinite. *)
Definition f_as_usize (x : f64) : nat := Z.to_nat (Btrunc x).

(** the literal 0.8 rounded to binary64: 7205759403792794 * 2^-53 *)
Definition f_eight_tenths : f64 := binary_normalize 53 1024 eq_refl eq_refl mode_NE 7205759403792794 (-53) false.
(** the literal 0.29 rounded to binary64: 5224175567749775 * 2^-54 (a ratio a user may write) *)
Definition f_29_percent : f64 := binary_normalize 53 1024 eq_refl eq_refl mode_NE 5224175567749775 (-54) false.

(** cross_validation.rs:74-76 [new]: train_size for n rows *)
Definition f_default_train_size (n : nat) : nat := f_as_usize (fmul (f_of_usize n) f_eight_tenths).

(** cross_validation.rs:93-101 [train_ratio] *)
Definition f_train_ratio (n : nat) (ratio : f64) : res nat :=
  let* _ := assert_ (flt f0 ratio && flt ratio f1) in
  Ok (f_as_usize (fmul ratio (f_of_usize n))).
