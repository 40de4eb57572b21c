(** * C107: CERLPBoost with the classic rule in binary64: no round panics, and stopping certifies the margin *)
From Coq Require Import ZArith List Bool Reals Lia Lra Psatz.
From Verif Require Import Base Spec Float FloatSpec FloatProofs FloatFacts FloatCheckFacts FloatProjectSpec FloatProject FloatProjectProofs FloatProjectFacts FloatMedian FloatTree FloatMada FloatMadaProofs FloatRounds FrankWolfe FrankWolfeProofs FloatFW FloatFWSpec FloatFWProofs FloatFWFacts FloatMedianFacts FloatLine FloatLineFacts FloatExpDist FloatExpDistSpec FloatExpDistFacts FloatCERLP FloatCERLPSpec FloatCERLPProofs FloatCERLPFacts.
Open Scope R_scope.


(** ** C107: no round of a run panics, whatever the weak learner returns: it stops on its test or at the round limit, with as many weights
    as hypotheses, every weight in [0,1] and, unless it stopped in the first round, a sum of one up to (rounds) 2^-49 *)

Theorem C107_run_never_panics :
  forall (H : Type) (conf : H -> nat -> f64) (eqH : H -> H -> bool) (produce : nat -> list f64 -> H) (fexp fln : f64 -> f64) (eta half_tol : f64) (ys : list f64) (rounds : nat),
  accurate_exp fexp -> accurate_ln fln -> signed_labels ys -> bounded_confidences conf -> finite_num eta -> 0 <= val eta ->
  INR (length ys) * (val eta + 65) <= 2 ^ 30 -> INR rounds <= 2 ^ 29 -> val eta * (INR rounds + 2) / 2 ^ 48 <= / 2 ^ 22 ->
  let good ws (hs : list H) := length ws = length hs /\ unit_weights ws /\ (ws = [] \/ Rabs (total ws - 1) <= INR rounds / 2 ^ 49) in
  match f_cerlp_run conf eqH produce fexp fln eta f1 half_tol ys rounds 1 [] [] with
  | FStopped t dist h ws hs => (1 <= t <= rounds)%nat /\ good ws hs /\ h = produce t dist
  | FLimit ws hs => good ws hs
  | FCrashed _ => False
  end.
Proof. exact P_C107_run_never_panics. Qed.
Print Assumptions C107_run_never_panics.

(** ** C107: when it stops on its test (after the first round), the computed weights are a certificate: every example's margin under the
    normalised vote is at least the exact edge of the last hypothesis under the computed distribution, less half the tolerance, less
    ln n / eta, less 2^-16 *)

Theorem C107_stop_certifies_margin :
  forall (H : Type) (conf : H -> nat -> f64) (eqH : H -> H -> bool) (produce : nat -> list f64 -> H) (fexp fln : f64 -> f64) (eta half_tol : f64) (ys : list f64) (rounds : nat) t dist h ws hs,
  accurate_exp fexp -> accurate_ln fln -> signed_labels ys -> bounded_confidences conf -> finite_num eta -> 0 < val eta -> finite_num half_tol ->
  INR (length ys) * (val eta + 65) <= 2 ^ 30 -> INR rounds <= 2 ^ 29 -> val eta * (INR rounds + 2) / 2 ^ 48 <= / 2 ^ 22 ->
  f_cerlp_run conf eqH produce fexp fln eta f1 half_tol ys rounds 1 [] [] = FStopped t dist h ws hs -> ws <> [] ->
  h = produce t dist /\ near_distribution (length ys) dist /\
  forall k, (k < length ys)%nat -> true_edge conf ys dist h - val half_tol - ln (INR (length ys)) / val eta - / 2 ^ 16 <= vote_margin conf ys ws hs k.
Proof. exact P_C107_stop_certifies_margin. Qed.
Print Assumptions C107_stop_certifies_margin.

(** ** C107: so with eta at least ln n / half_tol and a weak learner whose hypotheses always have edge at least [g] under (nearly) a distribution,
    stopping means a vote
    with margin at least g - tolerance - 2^-16 on every example *)

Theorem C107_guarantee :
  forall (H : Type) (conf : H -> nat -> f64) (eqH : H -> H -> bool) (produce : nat -> list f64 -> H) (fexp fln : f64 -> f64) (eta half_tol : f64) (ys : list f64) (rounds : nat) (g : R) t dist h ws hs,
  accurate_exp fexp -> accurate_ln fln -> signed_labels ys -> bounded_confidences conf -> finite_num eta -> 0 < val eta -> finite_num half_tol ->
  INR (length ys) * (val eta + 65) <= 2 ^ 30 -> INR rounds <= 2 ^ 29 -> val eta * (INR rounds + 2) / 2 ^ 48 <= / 2 ^ 22 ->
  ln (INR (length ys)) / val eta <= val half_tol -> (forall t d, near_distribution (length ys) d -> g <= true_edge conf ys d (produce t d)) ->
  f_cerlp_run conf eqH produce fexp fln eta f1 half_tol ys rounds 1 [] [] = FStopped t dist h ws hs -> ws <> [] ->
  forall k, (k < length ys)%nat -> g - 2 * val half_tol - / 2 ^ 16 <= vote_margin conf ys ws hs k.
Proof. exact P_C107_guarantee. Qed.
Print Assumptions C107_guarantee.

(** ** C107: the hypotheses are met, by a run that stops on its test with two hypotheses in its vote: one example, a learner that first
    returns a hypothesis with confidence 1/2 there and then one with confidence 1, half tolerance 1/4, in the third round *)

Example C107_nonvacuous :
  exists (conf : bool -> nat -> f64) (produce : nat -> list f64 -> bool) fexp fln eta half_tol ys rounds t dist h ws hs,
    accurate_exp fexp /\ accurate_ln fln /\ signed_labels ys /\ bounded_confidences conf /\ finite_num eta /\ 0 < val eta /\ finite_num half_tol /\
    INR (length ys) * (val eta + 65) <= 2 ^ 30 /\ INR rounds <= 2 ^ 29 /\ val eta * (INR rounds + 2) / 2 ^ 48 <= / 2 ^ 22 /\
    ln (INR (length ys)) / val eta <= val half_tol /\
    f_cerlp_run conf Bool.eqb produce fexp fln eta f1 half_tol ys rounds 1 [] [] = FStopped t dist h ws hs /\ length ws = 2%nat /\ t = 3%nat.
Proof. exact ex_C107. Qed.
