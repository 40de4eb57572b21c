(** The coefficient of the absolute loss (src/common/loss_functions.rs) in binary64 arithmetic. *)
From Coq Require Import ZArith List Bool Reals.
From Flocq Require Import Core.Core IEEE754.BinarySingleNaN.
From Verif Require Import Base SortLib Float.

(** the literal 0.5 *)
Definition f_half : f64 := binary_normalize 53 1024 eq_refl eq_refl mode_NE 1 (-1) false.

(** loss_functions.rs:205-213: the loop over the sorted items *)
Fixpoint f_median_scan (half acc : f64) (items : list (f64 * f64)) : res f64 :=
  match items with
  | [] => Panic Unreachable
  | (w, x) :: t => let acc' := fadd acc w in if fle half acc' then Ok x else f_median_scan half acc' t
  end.

(** loss_functions.rs:190-214 [weighted_median].  With at least two items the sort compares every key with another one, and
    partial_cmp(..).unwrap() panics on a NaN key *)
Definition f_weighted_median (items : list (f64 * f64)) : res f64 :=
  let* _ := assert_ (Nat.ltb 0 (length items)) in
  match items with
  | [(_, x)] => Ok x
  | _ =>
      if existsb (fun q => is_nan (snd q)) items then Panic UnwrapNone else
      let sorted := isort (fun a b : f64 * f64 => fle (snd a) (snd b)) items in
      let total_weight := fsum (map fst sorted) in
      f_median_scan (fmul f_half total_weight) f0 sorted
  end.

(** loss_functions.rs:166-175 [best_coefficient] for L1 *)
Definition f_best_l1 (targets predictions : list f64) : res f64 :=
  f_weighted_median (map (fun q => (fabs (snd q), fdiv (fst q) (snd q)))
                         (filter (fun q => negb (feq (snd q) f0)) (combine targets predictions))).
