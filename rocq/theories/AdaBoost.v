(** Model of src/booster/adaboost/adaboost_algorithm.rs. *)
From Verif Require Import Base SortLib Utils WMajority Booster.
From Verif Require Export Valid.
Open Scope R_scope.

(** [(x) as usize] for a finite f64: truncation, saturating at 0 from below.
    Simplification: no saturation at usize::MAX (nat is unbounded). *)
Definition as_usize (x : R) : nat := Z.to_nat (Int_part x).

(** The log-domain exponential update shared by AdaBoost (adaboost_algorithm.rs:209-238) and AdaBoostV
    (adaboostv_algorithm.rs:246-272).
    [ln] of a non-positive entry would be -inf/NaN: [Panic NonFinite]. *)
Definition log_update (dist margins : list R) (weight : R) : list R :=
  map (fun p => ln (fst p) - weight * snd p) (combine dist margins).

(** adaboost_algorithm.rs:223-232: fold of pairwise log-sum-exp; [indices[0]] panics when empty *)
Definition normalizer_step (ld : list R) (acc : R) (i : nat) : R :=
  let a := acc in
  let b := nth i ld 0 in
  if Rltb a b then lse b a else lse a b.
Definition log_normalizer (ld : list R) (indices : list nat) : res R :=
  match indices with
  | [] => Panic IndexOutOfBounds
  | i0 :: rest => Ok (fold_left (normalizer_step ld) rest (nth i0 ld 0))
  end.

Definition exp_update (dist margins : list R) (weight : R) : res (list R) :=
  if existsb (fun d => Rleb d 0) dist then Panic NonFinite else
  let ld := log_update dist margins weight in
  let indices := isort (key_asc ld) (seq 0 (length ld)) in
  let* z := log_normalizer ld indices in
  Ok (map (fun d => exp (d - z)) ld).

Section AdaBoost.
  Context {H : Type}.
  Variable conf : H -> nat -> R.
  (** the weak learner: answer to the distribution shown in round [t] *)
  Variable produce : nat -> list R -> H.
  (** target column of the training sample *)
  Variable y : list R.

  (** adaboost_algorithm.rs:91-121.  [sample] is the section variable; [terminated] is never read. *)
  Record ada := mkAda {
    a_dist : list R;
    a_tolerance : R;
    a_weights : list R;
    a_hyps : list H;
    a_max_iter : nat;
    a_force_quit : option nat;
  }.

  (** adaboost_algorithm.rs:129-145 [init]; usize::MAX for max_iter is irrelevant (overwritten), 0 here *)
  Definition ada_init : ada :=
    mkAda [] (1 / (INR (length y) + 1)) [] [] 0 None.

  (** adaboost_algorithm.rs:179-182 / 168-171 *)
  Definition ada_tolerance (s : ada) (tol : R) : ada :=
    mkAda (a_dist s) tol (a_weights s) (a_hyps s) (a_max_iter s) (a_force_quit s).
  Definition ada_force_quit_at (s : ada) (it : nat) : ada :=
    mkAda (a_dist s) (a_tolerance s) (a_weights s) (a_hyps s) (a_max_iter s) (Some it).

  (** adaboost_algorithm.rs:156-160 [max_loop].  Simplification: a zero tolerance gives inf in Rust
      (saturating to usize::MAX); the theorems assume a positive tolerance. *)
  Definition ada_max_loop (s : ada) : nat :=
    as_usize (ln (INR (length y)) / (a_tolerance s) ^ 2).

  (** adaboost_algorithm.rs:275-296 [preprocess] *)
  Definition ada_pre (s : ada) : res ada :=
    let* _ := is_valid_binary_instance y in
    let n := length y in
    let uni := 1 / INR n in
    let mi := match a_force_quit s with Some it => it | None => ada_max_loop s end in
    Ok (mkAda (repeat uni n) (a_tolerance s) [] [] mi (a_force_quit s)).

  (** adaboost_algorithm.rs:195-242 [update_params] *)
  Definition ada_update (dist margins : list R) (edge : R) : res (list R * R) :=
    let weight := ln ((1 + edge) / (1 - edge)) / 2 in
    let* d := exp_update dist margins weight in
    Ok (d, weight).

  (** adaboost_algorithm.rs:299-339 [boost] *)
  Definition ada_boost (it : nat) (s : ada) : trace * res (ada * cflow) :=
    if Nat.ltb (a_max_iter s) it then ([], Ok (s, Break (a_max_iter s))) else
    let h := produce it (a_dist s) in
    let margins := margins_of_hypothesis conf y h in
    let edge := inner_product margins (a_dist s) in
    ([a_dist s],
     if Rleb 1 (Rabs edge) then
       Ok (mkAda (a_dist s) (a_tolerance s) [rsignum edge] [h] (a_max_iter s) (a_force_quit s), Break it)
     else
       let* (d, w) := ada_update (a_dist s) margins edge in
       Ok (mkAda d (a_tolerance s) (a_weights s ++ [w]) (a_hyps s ++ [h]) (a_max_iter s) (a_force_quit s),
           Continue)).

  (** adaboost_algorithm.rs:342-349 [postprocess] (also current_hypothesis, 357-359) *)
  Definition ada_post (s : ada) : res (wmajority H) := from_slices (a_weights s) (a_hyps s).

  Definition adaboost : booster ada (wmajority H) := mkBooster ada_pre ada_boost ada_post.
End AdaBoost.
