(** Vocabulary for C77-C79: what the binary64 numbers stand for and how far rounding may go *)
From Coq Require Import ZArith List Bool Reals.
From Flocq Require Import Core.Core IEEE754.BinarySingleNaN.
From Verif Require Import Base Float.
Open Scope R_scope.

(** the real number a finite binary64 number stands for, and "neither infinite nor NaN" *)
Notation val := (@B2R 53 1024).
Definition finite_num (x : f64) : Prop := is_finite x = true.
Definition finite_all (l : list f64) : Prop := forall x, In x l -> finite_num x.
(** the unit roundoff *)
Definition uu : R := / 2 ^ 53.
(** how much n roundings can add, relatively: (1+u)^n - 1, that is about n u *)
Definition gam (n : nat) : R := (1 + uu) ^ n - 1.
(** exact sum, and exact sum of the absolute values *)
Definition total (l : list f64) : R := rsum (map val l).
Definition size (l : list f64) : R := rsum (map (fun x => Rabs (val x)) l).
(** at most 2^52 terms *)
Definition few (n : nat) : Prop := INR n <= 2 ^ 52.
(** exact inner product, and the sum of the absolute products *)
Definition dot_exact (a b : list f64) : R := rsum (map (fun p => val (fst p) * val (snd p)) (combine a b)).
Definition dot_size (a b : list f64) : R := rsum (map (fun p => Rabs (val (fst p) * val (snd p))) (combine a b)).
(** the members of a vote with positive weight, and their exact vote with the weights normalised *)
Definition positive_members {H} (ws : list f64) (hs : list H) : list (f64 * H) := filter (fun p => if Rlt_dec 0 (val (fst p)) then true else false) (combine ws hs).
Definition exact_vote {H} (conf : H -> f64) (m : list (f64 * H)) : R :=
  rsum (map (fun p => val (fst p) * val (conf (snd p))) m) / rsum (map (fun p => val (fst p)) m).
