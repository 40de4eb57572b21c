(** SmoothBoost (src/booster/smoothboost/smoothboost_algorithm.rs) in binary64 arithmetic.  [fpow] is f64::powf of the platform. *)
From Coq Require Import ZArith List Bool Reals.
From Flocq Require Import Core.Core IEEE754.BinarySingleNaN.
From Verif Require Import Base Float FloatEdge FloatMedian.
Import ListNotations.

(** smoothboost_algorithm.rs:176-182 [gamma]: the assertion of the setter *)
Definition f_sb_set_gamma (gamma : f64) : res f64 := let* _ := assert_ (andb (fle f0 gamma) (flt gamma f_half)) in Ok gamma.

(** smoothboost_algorithm.rs:186-188 [theta] *)
Definition f_sb_theta (gamma : f64) : f64 := fdiv gamma (fadd (f_of_usize 2) gamma).

(** smoothboost_algorithm.rs:203-219 [check_preconditions] *)
Definition f_sb_check (kappa theta gamma : f64) : res unit :=
  let* _ := assert_ (negb (orb (negb (andb (fle f0 kappa) (flt kappa f1))) (fle kappa f0))) in
  assert_ (andb (fle theta gamma) (flt gamma f_half)).

(** smoothboost_algorithm.rs:291-296: the test that ends the run *)
Definition f_sb_stop (kappa : f64) (m : list f64) : bool := flt (fsum m) (fmul (f_of_usize (length m)) kappa).

(** smoothboost_algorithm.rs:300-302: the distribution handed to the weak learner *)
Definition f_sb_dist (m : list f64) : list f64 := map (fun mj => fdiv mj (fsum m)) m.

(** smoothboost_algorithm.rs:319-323: [*nj + yh - self.theta] *)
Definition f_sb_moved (theta : f64) (n margins : list f64) : list f64 :=
  map (fun q => fsub (fadd (fst q) (snd q)) theta) (combine n margins).

(** smoothboost_algorithm.rs:327-335: the new weights; element-wise, whatever the schedule *)
Definition f_sb_weight (fpow : f64 -> f64 -> f64) (gamma nj : f64) : f64 :=
  if fle nj f0 then f1 else fpow (fsub f1 gamma) (fmul nj f_half).

(** smoothboost_algorithm.rs:249-338: the rounds of a run.  [hist] are the confidences of the hypotheses on the training rows, [m] and [n]
    the two vectors of the booster.  The weak learner may answer anything that satisfies [ok] *)
Inductive f_sb_run (fpow : f64 -> f64 -> f64) (ok : list f64 -> Prop) (kappa gamma : f64) (y : list f64) : list (list f64) -> list f64 -> list f64 -> Prop :=
| fsb_start : f_sb_run fpow ok kappa gamma y [] (repeat f1 (length y)) (repeat f1 (length y))
| fsb_round hist m n conf :
    f_sb_run fpow ok kappa gamma y hist m n -> f_sb_stop kappa m = false -> length conf = length y -> ok conf ->
    let n' := f_sb_moved (f_sb_theta gamma) n (f_margins y conf) in
    f_sb_run fpow ok kappa gamma y (hist ++ [conf]) (map (f_sb_weight fpow gamma) n') n'.

(** smoothboost_algorithm.rs:341-350 [postprocess]: as many weights as training examples, zipped with the hypotheses *)
Definition f_sb_post {H} (terminated n_sample : nat) (hyps : list H) : res (list f64 * list H) :=
  f_from_slices (repeat (fdiv f1 (f_of_usize terminated)) n_sample) hyps.
