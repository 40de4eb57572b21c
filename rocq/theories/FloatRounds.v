(** The round limits of the boosters in binary64 arithmetic.  [fln] is f64::ln of the platform; [umax] is usize::MAX. *)
From Coq Require Import ZArith List Bool Reals.
From Flocq Require Import Core.Core IEEE754.BinarySingleNaN.
From Verif Require Import Base Float FloatEdge FloatTree FloatMada.
Import ListNotations.

(** [x as usize]: truncation towards zero, saturating at both ends; NaN gives 0 *)
Definition f_sat_usize (umax : nat) (x : f64) : nat :=
  match x with
  | B754_nan => 0%nat
  | B754_zero _ => 0%nat
  | B754_infinity s => if s then 0%nat else umax
  | B754_finite _ _ _ _ => Nat.min umax (Z.to_nat (Btrunc x))
  end.
(** f64::ceil *)
Definition f_ceil (x : f64) : f64 := Bnearbyint mode_UP x.
(** [x.powi(2)].  Simplification: one multiplication, as LLVM expands it *)
Definition f_square (x : f64) : f64 := fmul x x.

(** erlpboost_algorithm.rs:233, cerlpboost_algorithm.rs:194 and mlpboost_algorithm.rs [tolerance]: the stored half *)
Definition f_half_tol (tol : f64) : f64 := fdiv tol (f_of_usize 2).

Section Rounds.
  Variables (fln : f64 -> f64) (umax : nat).

  (** adaboost_algorithm.rs:156-160 [max_loop] and gbm.rs:157-161 [max_loop] *)
  Definition f_ada_rounds (tol : f64) (n : nat) : nat :=
    f_sat_usize umax (fdiv (fln (f_of_usize n)) (f_square tol)).
  (** adaboostv_algorithm.rs:190-194 [max_loop] *)
  Definition f_adav_rounds (tol : f64) (n : nat) : nat :=
    f_sat_usize umax (fdiv (fmul (f_of_usize 2) (fln (f_of_usize n))) (f_square tol)).
  (** madaboost_algorithm.rs:154-158 [max_loop] *)
  Definition f_mada_rounds (tol : f64) (n : nat) : nat :=
    f_sat_usize umax (f_ceil (fdiv (fsub (f_of_usize n) f1) (f_square tol))).
  (** softboost_algorithm.rs:217-225 [max_loop] *)
  Definition f_soft_rounds (tol nu : f64) (n : nat) : nat :=
    f_sat_usize umax (f_ceil (fdiv (fmul (f_of_usize 2) (fln (fdiv (f_of_usize n) nu))) (f_square tol))).
  (** cerlpboost_algorithm.rs:225-233 and mlpboost_algorithm.rs:298-301 [max_loop] *)
  Definition f_cerlp_rounds (tol nu : f64) (n : nat) : nat :=
    f_sat_usize umax (f_ceil (fdiv (fmul (f_of_usize 8) (fln (fdiv (f_of_usize n) nu))) (f_square (f_half_tol tol)))).
  (** erlpboost_algorithm.rs:255-268 [max_loop] *)
  Definition f_erlp_rounds (tol nu : f64) (n : nat) : nat :=
    f_sat_usize umax (f_ceil (f_max (fdiv (f_of_usize 4) (f_half_tol tol))
      (fdiv (fmul (f_of_usize 8) (fln (fdiv (f_of_usize n) nu))) (f_square (f_half_tol tol))))).
  (** smoothboost_algorithm.rs:193-200 [max_loop] *)
  Definition f_sb_rounds (kappa gamma : f64) : nat :=
    f_sat_usize umax (f_ceil (fdiv (f_of_usize 2) (fmul (fmul kappa (f_square gamma)) (fsqrt (fsub f1 gamma))))).
End Rounds.

(** adaboost_algorithm.rs:136 and madaboost_algorithm.rs:134 [init]: the tolerance of a booster that is not given one *)
Definition f_default_tol (n : nat) : f64 := fdiv f1 (fadd (f_of_usize n) f1).
