(** Parts of the crate in binary64 arithmetic: rounding to nearest even, infinities and NaN included.  The numbers are
    Flocq's [binary_float 53 1024], whose operations are the IEEE-754 ones (one NaN, as Rust's comparisons see it).
    This model stands beside the exact one: C77-C79 measure how far rounding, and the schedule of rayon, can move the
    sums, the checks and the predictions that the other files treat in exact real arithmetic. *)
From Coq Require Import ZArith List Bool Reals Lia Lra.
From Flocq Require Import Core.Core IEEE754.BinarySingleNaN.
From Verif Require Import Base.
Import ListNotations.

#[export] Instance prec53 : Prec_gt_0 53 := eq_refl.
#[export] Instance emax1024 : Prec_lt_emax 53 1024 := eq_refl.

Definition f64 : Set := binary_float 53 1024.
Definition fadd : f64 -> f64 -> f64 := Bplus mode_NE.
Definition fsub : f64 -> f64 -> f64 := Bminus mode_NE.
Definition fmul : f64 -> f64 -> f64 := Bmult mode_NE.
Definition fdiv : f64 -> f64 -> f64 := Bdiv mode_NE.
Definition fabs : f64 -> f64 := Babs.
Definition flt : f64 -> f64 -> bool := Bltb.
Definition fle : f64 -> f64 -> bool := Bleb.
Definition feq : f64 -> f64 -> bool := Beqb.
Definition f0 : f64 := B754_zero false.
(** [n as f64] *)
Definition f_of_usize (n : nat) : f64 := binary_normalize 53 1024 eq_refl eq_refl mode_NE (Z.of_nat n) 0 false.
Definition f1 : f64 := f_of_usize 1.
(** the literal 1e-5 rounded to binary64: 5902958103587057 * 2^-69 (checker.rs:7 SIMPLEX_TOLERANCE) *)
Definition f_simplex_tol : f64 := binary_normalize 53 1024 eq_refl eq_refl mode_NE 5902958103587057 (-69) false.

(** [iter().sum::<f64>()]: left to right from zero *)
Definition fsum (l : list f64) : f64 := fold_left fadd l f0.

(** [par_iter().sum::<f64>()]: rayon splits the range recursively at arbitrary points, sums every piece from zero and adds
    the partial sums; an [ftree] is one such schedule (as [ptree] in Rayon.v) *)
Inductive ftree :=
| FLeaf (chunk : list f64)
| FNode (l r : ftree).
Fixpoint ftree_items (t : ftree) : list f64 := match t with FLeaf c => c | FNode l r => ftree_items l ++ ftree_items r end.
Fixpoint ftree_sum (t : ftree) : f64 := match t with FLeaf c => fsum c | FNode l r => fadd (ftree_sum l) (ftree_sum r) end.

(** utils.rs:275-282 [inner_product]: the products, summed by some schedule *)
Definition f_products (a b : list f64) : list f64 := map (fun p => fmul (fst p) (snd p)) (combine a b).

(** utils.rs:285-297 [normalize]; assert_ne! compares with 0.0 (NaN differs from everything) *)
Definition f_normalize (items : list f64) : res (list f64) :=
  let z := fsum (map fabs items) in
  let* _ := assert_ (negb (feq z f0)) in
  Ok (map (fun it => fdiv it z) items).

(** hypothesis/weighted_majority.rs:23-43 [from_slices]: weights that are > 0.0, with their hypotheses, normalised *)
Definition f_from_slices {H} (ws : list f64) (hs : list H) : res (list f64 * list H) :=
  let kept := filter (fun p => flt f0 (fst p)) (combine ws hs) in
  let* w := f_normalize (map fst kept) in
  Ok (w, map snd kept).

(** hypothesis/weighted_majority.rs:71-80 [confidence], hypothesis/hypothesis_traits.rs:16-19 [predict] *)
Definition f_confidence {H} (conf : H -> f64) (v : list f64 * list H) : f64 := fsum (f_products (fst v) (map conf (snd v))).
Definition f_predict {H} (conf : H -> f64) (v : list f64 * list H) : Z := if fle f0 (f_confidence conf v) then 1%Z else (-1)%Z.

(** common/checker.rs:29-34 [check_nu], 42-65 [check_capped_simplex_condition] *)
Definition f_check_nu (nu : f64) (n : nat) : res unit := assert_ (fle f1 nu && fle nu (f_of_usize n)).
Definition f_check_capped_simplex (v : list f64) (nu : f64) : res unit :=
  let* _ := f_check_nu nu (length v) in
  let s := fsum v in
  let* _ := assert_ (flt (fabs (fsub s f1)) f_simplex_tol) in
  let ub := fdiv f1 nu in
  assert_ (forallb (fun x => fle f0 x && fle x ub) v).
