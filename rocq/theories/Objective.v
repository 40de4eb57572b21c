(** Model of src/research/objective_functions.rs (and common/checker.rs:12-25). *)
From Verif Require Import Base SortLib Utils WMajority Feature Sample.
Open Scope R_scope.

(** common/checker.rs:12-25 [check_sample] *)
Definition check_sample (s : sample) : res unit :=
  let* _ := assert_ (Nat.ltb 0 (fst (shape s))) in
  assert_ (Nat.ltb 0 (snd (shape s))).

(** objective_functions.rs:72-83: the loop over the sorted margins; [unit] is the cap, [left] the weight left *)
Fixpoint soft_margin_loop (unit left : R) (margins : list R) (obj : R) : R :=
  match margins with
  | [] => obj
  | yh :: rest => if Rltb unit left then soft_margin_loop unit (left - unit) rest (obj + unit * yh)
                  else obj + left * yh
  end.

(** lines 50-87 [SoftMarginObjective::eval]; [conf i] is the confidence of the hypothesis on row i *)
Definition soft_margin_eval (nu : R) (s : sample) (conf : nat -> R) : res R :=
  let* _ := check_sample s in
  let n_sample := fst (shape s) in
  let* _ := check_nu nu n_sample in
  let margins := map (fun p => snd p * fst p) (combine (map conf (seq 0 n_sample)) (s_target s)) in
  let sorted := isort Rleb margins in
  let unit_weight := 1 / nu in
  Ok (soft_margin_loop unit_weight 1 sorted 0).

(** lines 100-105, 123-130 [HardMarginObjective] *)
Definition hard_margin_eval (s : sample) (conf : nat -> R) : res R := soft_margin_eval 1 s conf.

(** lines 158-174 [ExponentialLoss::eval]: uses the predicted label, not the confidence *)
Definition exponential_loss_eval (s : sample) (conf : nat -> R) : res R :=
  let* _ := check_sample s in
  let n_sample := fst (shape s) in
  Ok (rsum (map (fun p => exp (- snd p * fst p)) (combine (map (fun i => predict_of_confidence (conf i)) (seq 0 n_sample)) (s_target s))) / INR n_sample).
