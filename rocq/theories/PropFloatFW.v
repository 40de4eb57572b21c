(** C104: the Frank-Wolfe updates of the hypothesis weights in binary64 *)
From Coq Require Import ZArith List Bool Reals Lia Lra Psatz.
From Verif Require Import Base Spec Float FloatSpec FloatProofs FloatFacts FloatCheckFacts FloatProjectProofs FloatTree FloatMada FloatMadaProofs FloatRounds FrankWolfe FrankWolfeProofs FloatFW FloatFWSpec FloatFWProofs FloatFWFacts.
Open Scope R_scope.


(** ** C104: whatever the step sizes and however long the run, every weight stays a number between 0 and 1 *)

Theorem C104_unit_weights :
  forall (l : list fwmove) (ws ws' : list f64), unit_weights ws -> f_history l ws = Ok ws' -> unit_weights ws'.
Proof. exact P_C104_unit_weights. Qed.
Print Assumptions C104_unit_weights.

(** ** C104: a step is refused exactly when its size is not in [0,1] *)

Theorem C104_step_refused :
  forall (s : f64) (k : nat) (ws : list f64),
  (forall p, f_interior_point s k ws = Panic p -> p = AssertFailed) /\
  ((exists ws', f_interior_point s k ws = Ok ws') <-> finite_num s /\ 0 <= val s <= 1).
Proof. exact P_C104_step_refused. Qed.
Print Assumptions C104_step_refused.

(** ** C104: the weights stay within (number of steps) 2^-49 of the exact ones, summed over the hypotheses, in every history
    of new hypotheses and steps *)

Theorem C104_history_close :
  forall (l : list fwmove), steps_agree l -> INR (length l) <= 2 ^ 29 ->
  exists ws v, f_history l [f1] = Ok ws /\ exact_history l [1] = Ok v /\ length ws = length v /\ unit_weights ws /\
    distance ws v <= INR (steps_taken l) / 2 ^ 49.
Proof. exact P_C104_history_close. Qed.
Print Assumptions C104_history_close.

(** ** C104: a run with the classic rule.  After T rounds the weights are a distribution up to T 2^-49, the vote of any
    confidences in [-1,1] is within T 2^-49 of the exact one, and the check that MLPBoost makes on its weights passes *)

Theorem C104_classic_run :
  forall (ps : list nat), ps <> [] -> positions_ok 0 ps -> INR (length ps) <= 2 ^ 29 ->
  exists ws v, f_classic_run 1 ps [] = Ok ws /\ exact_classic_run 1 ps [] = Ok v /\ length ws = length v /\ is_dist v /\ unit_weights ws /\
    distance ws v <= INR (length ps) / 2 ^ 49 /\ Rabs (total ws - 1) <= INR (length ps) / 2 ^ 49 /\
    (forall ms, (forall m, In m ms -> Rabs m <= 1) ->
      Rabs (rsum (map (fun p => val (fst p) * snd p) (combine ws ms)) - rsum (map (fun p => fst p * snd p) (combine v ms))) <= INR (length ps) / 2 ^ 49) /\
    f_check_capped_simplex ws f1 = Ok tt.
Proof. exact P_C104_classic_run. Qed.
Print Assumptions C104_classic_run.

(** ** C104: the short-step rule, whatever the margins: weights in [0,1] again, and the only panic is the refusal of a step size that
    is not a number *)

Theorem C104_short_step :
  forall (eta : f64) (dist new_m old_m : list f64) (hyps k : nat) (ws : list f64), hyps <> 1%nat ->
  (forall p, f_fw_short_step eta dist new_m old_m hyps k ws = Panic p -> p = AssertFailed /\ not_a_number (f_short_quotient eta dist new_m old_m)) /\
  (not_a_number (f_short_quotient eta dist new_m old_m) -> f_fw_short_step eta dist new_m old_m hyps k ws = Panic AssertFailed) /\
  (forall ws', f_fw_short_step eta dist new_m old_m hyps k ws = Ok ws' -> length ws' = length ws /\ (unit_weights ws -> unit_weights ws')).
Proof. exact P_C104_short_step. Qed.
Print Assumptions C104_short_step.

(** ** C104 refuted for the short-step rule: when the new hypothesis has the same margins as the current vote the quotient is 0/0, and the
    run panics *)

Theorem C104_short_step_refuted :
  forall (eta : f64) (dist m : list f64) (hyps k : nat) (ws : list f64), hyps <> 1%nat ->
  finite_num eta -> finite_all dist -> finite_all m -> length dist = length m -> m <> [] ->
  f_fw_short_step eta dist m m hyps k ws = Panic AssertFailed.
Proof. exact P_C104_short_step_refuted. Qed.
Print Assumptions C104_short_step_refuted.

Example C104_nonvacuous : exists ps, ps <> [] /\ positions_ok 0 ps /\ length ps = 6%nat /\
  (exists ws, f_classic_run 1 ps [] = Ok ws /\ length ws = 3%nat) /\
  exists l, steps_agree l /\ steps_taken l = 2%nat.
Proof. exact ex_C104. Qed.
