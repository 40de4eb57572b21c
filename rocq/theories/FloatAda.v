(** AdaBoost (src/booster/adaboost/adaboost_algorithm.rs) in binary64 arithmetic: the weights of the training examples.
    [fexp] and [fln] are f64::exp and f64::ln of the platform. *)
From Coq Require Import ZArith List Bool Reals Permutation Sorting.
From Flocq Require Import Core.Core IEEE754.BinarySingleNaN.
From Verif Require Import Base Float FloatEdge.
Import ListNotations.

Section Platform.
  Variables (fexp fln : f64 -> f64).

  (** adaboost_algorithm.rs:206: the weight of the new hypothesis *)
  Definition f_ada_weight (edge : f64) : f64 := fdiv (fln (fdiv (fadd f1 edge) (fsub f1 edge))) (f_of_usize 2).

  (** adaboost_algorithm.rs:210-212: the logarithms of the unnormalised weights *)
  Definition f_ada_logs (weight : f64) (margins dist : list f64) : list f64 :=
    map (fun q => fsub (fln (fst q)) (fmul weight (snd q))) (combine dist margins).

  (** adaboost_algorithm.rs:215-219: [ix] is a possible outcome of the (unstable) sort of the indices *)
  Definition f_ascending (logs : list f64) (ix : list nat) : Prop :=
    Permutation ix (seq 0 (length logs)) /\ StronglySorted (fun i j => fle (nth i logs f0) (nth j logs f0) = true) ix.

  (** adaboost_algorithm.rs:223-232: one step of the normaliser *)
  Definition f_ada_add (normalizer d : f64) : f64 :=
    if flt normalizer d then fadd d (fln (fadd f1 (fexp (fsub normalizer d))))
    else fadd normalizer (fln (fadd f1 (fexp (fsub d normalizer)))).

  (** adaboost_algorithm.rs:222-232: the normaliser, in the order [ix] *)
  Definition f_ada_norm (logs : list f64) (ix : list nat) : res f64 :=
    match ix with
    | [] => Panic IndexOutOfBounds
    | i :: rest => Ok (fold_left (fun v j => f_ada_add v (nth j logs f0)) rest (nth i logs f0))
    end.

  (** adaboost_algorithm.rs:194-242 [update_params]; with at least two entries the sort compares every entry with another
      one, and partial_cmp(..).unwrap() panics on NaN *)
  Definition f_ada_update (ix : list nat) (weight : f64) (margins dist : list f64) : res (list f64) :=
    let logs := f_ada_logs weight margins dist in
    if andb (Nat.ltb 1 (length logs)) (existsb is_nan logs) then Panic UnwrapNone else
    let* z := f_ada_norm logs ix in
    Ok (map (fun d => fexp (fsub d z)) logs).

  (** adaboost_algorithm.rs:281-345: the rounds of a run (preprocess, then boost as long as it continues).  [hist] is the list
      of the weights with the confidences of their hypotheses on the training rows; [ok] restricts the rounds that are
      considered.  The weak learner may answer anything; every order of summation of the edge and every outcome of the
      sort is possible *)
  Inductive f_ada_run (ok : list f64 -> f64 -> Prop) (y : list f64) : list (f64 * list f64) -> list f64 -> Prop :=
  | far_start : f_ada_run ok y [] (f_uniform (length y))
  | far_round hist dist conf edge ix dist' :
      f_ada_run ok y hist dist -> length conf = length y -> f_edge y conf dist edge -> f_perfect edge = false -> ok conf edge ->
      f_ascending (f_ada_logs (f_ada_weight edge) (f_margins y conf) dist) ix ->
      f_ada_update ix (f_ada_weight edge) (f_margins y conf) dist = Ok dist' ->
      f_ada_run ok y (hist ++ [(f_ada_weight edge, conf)]) dist'.
End Platform.
