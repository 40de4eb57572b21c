(** * C106: the distribution of the corrective boosters in binary64 *)
From Coq Require Import ZArith List Bool Reals Lia Lra Psatz.
From Verif Require Import Base Spec Float FloatSpec FloatProofs FloatFacts FloatCheckFacts FloatProjectSpec FloatProject FloatProjectProofs FloatProjectFacts FloatTree FloatMada FloatMadaProofs FloatRounds FrankWolfe FrankWolfeProofs FloatFW FloatFWSpec FloatFWProofs FloatFWFacts FloatExpDist FloatExpDistSpec FloatExpDistFacts.
Open Scope R_scope.


(** ** C106: the distribution computed from the weights is, example by example, the exact one of the exact weights up to a relative
    2^-18: with exp and ln accurate to 2^-50, when eta times the error of the weights is at most 2^-22 *)

Theorem C106_distribution :
  forall (fexp fln : f64 -> f64) (eta : f64) (ys : list f64) (confs : list (list f64)) (T : nat) (ws : list f64) (v : list R),
  accurate_exp fexp -> accurate_ln fln -> labelled ys confs T -> finite_num eta -> 0 <= val eta -> INR (length ys) * (val eta + 65) <= 2 ^ 30 ->
  unit_weights ws -> is_dist v -> length ws = T -> length v = T -> INR T <= 2 ^ 30 -> distance ws v <= 1 / 2 ->
  val eta * (distance ws v + (INR T + 2) / 2 ^ 50) <= / 2 ^ 22 ->
  exists dist, f_exp_distribution fexp fln eta f1 ys confs ws = Ok dist /\ length dist = length ys /\
    forall i, (i < length ys)%nat -> finite_num (nth i dist f0) /\ 0 <= val (nth i dist f0) <= 1 /\
      Rabs (val (nth i dist f0) - exact_exp_distribution (val eta) (exact_margins v ys confs) i) <= / 2 ^ 18 * exact_exp_distribution (val eta) (exact_margins v ys confs) i + / 2 ^ 50.
Proof. exact P_C106_distribution. Qed.
Print Assumptions C106_distribution.

(** ** C106: the distribution after a run of CERLPBoost's classic rule in binary64, against a run that computes exactly *)

Theorem C106_classic_round :
  forall (fexp fln : f64 -> f64) (eta : f64) (ys : list f64) (confs : list (list f64)) (ps : list nat),
  accurate_exp fexp -> accurate_ln fln -> ps <> [] -> positions_ok 0 ps -> INR (length ps) <= 2 ^ 29 ->
  finite_num eta -> 0 <= val eta -> INR (length ys) * (val eta + 65) <= 2 ^ 30 -> val eta * (INR (length ps) + 2) / 2 ^ 48 <= / 2 ^ 22 ->
  exists ws v, f_classic_run 1 ps [] = Ok ws /\ exact_classic_run 1 ps [] = Ok v /\
    (labelled ys confs (length ws) -> exists dist, f_exp_distribution fexp fln eta f1 ys confs ws = Ok dist /\ length dist = length ys /\
      forall i, (i < length ys)%nat -> finite_num (nth i dist f0) /\ 0 <= val (nth i dist f0) <= 1 /\
        Rabs (val (nth i dist f0) - exact_exp_distribution (val eta) (exact_margins v ys confs) i) <= / 2 ^ 18 * exact_exp_distribution (val eta) (exact_margins v ys confs) i + / 2 ^ 50).
Proof. exact P_C106_classic_round. Qed.
Print Assumptions C106_classic_round.

Example C106_nonvacuous : exists fexp fln ys confs ps eta, accurate_exp fexp /\ accurate_ln fln /\ ps <> [] /\ positions_ok 0 ps /\ finite_num eta /\ 0 < val eta /\
  val eta * (INR (length ps) + 2) / 2 ^ 48 <= / 2 ^ 22 /\ INR (length ys) * (val eta + 65) <= 2 ^ 30 /\
  (exists ws, f_classic_run 1 ps [] = Ok ws /\ labelled ys confs (length ws)) /\ exact_exp_distribution (val eta) (exact_margins [1] ys confs) 0 <> exact_exp_distribution (val eta) (exact_margins [1] ys confs) 1.
Proof. exact ex_C106. Qed.
