(** The bins of a dense column in binary64 arithmetic: decision_tree/bin.rs:95-135 [cut_dense] on the floating-point
    numbers of Coq's standard library ([SpecFloat]: radix 2, 53 bits, exponents up to 1024, rounding to nearest, ties to
    even).  Needed because the loop of [cut_dense] counts bins by accumulated rounding. *)
From Coq Require Import ZArith List Bool.
From Coq Require Import Floats.SpecFloat.
From Verif Require Import Base.
Import ListNotations.

Definition f64 := spec_float.
Definition fadd : f64 -> f64 -> f64 := SFadd 53 1024.
Definition fsub : f64 -> f64 -> f64 := SFsub 53 1024.
Definition fdiv : f64 -> f64 -> f64 := SFdiv 53 1024.
(** `n as f64` *)
Definition f_of_Z (z : Z) : f64 := binary_normalize 53 1024 z 0 false.
(** the literals 1e-9 and 1e-3 rounded to binary64 (bin.rs:7-8 NUM_TOLERANCE, EPS) *)
Definition f_tol : f64 := S754_finite false 4835703278458517 (-82).
Definition f_eps : f64 := S754_finite false 4611686018427388 (-62).
Definition f_max : f64 := S754_finite false 9007199254740991 971.
Definition f_min : f64 := S754_finite true 9007199254740991 971.
(** f64::min, f64::max on numbers *)
Definition fmin (a b : f64) : f64 := if SFltb b a then b else a.
Definition fmax (a b : f64) : f64 := if SFltb a b then b else a.

(** lines 121-130: None if more than [fuel] bins are made *)
Fixpoint fcut_loop (fuel : nat) (mx w left : f64) : option (list (f64 * f64)) :=
  match fuel with
  | O => None
  | S fuel' =>
      if SFltb left mx then
        let right := fadd left w in
        if SFltb (SFabs (fsub right mx)) f_tol then Some [(left, right)]
        else match fcut_loop fuel' mx w right with Some r => Some ((left, right) :: r) | None => None end
      else Some []
  end.
Definition fcut_dense (v : list f64) (n : nat) : res (list (f64 * f64)) :=
  let mn := fold_left fmin v f_max in
  let mx := fold_left fmax v f_min in
  let '(mn, mx) := if SFeqb mn mx then (fsub mn f_eps, fadd mx f_eps) else (mn, mx) in
  match fcut_loop (n + 2) mx (fdiv (fsub mx mn) (f_of_Z (Z.of_nat n))) mn with
  | Some bins => if Nat.eqb (length bins) n then Ok bins else Panic AssertFailed
  | None => Panic AssertFailed
  end.
