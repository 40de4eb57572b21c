(** C103: the round limits of the boosters in binary64 *)
From Coq Require Import ZArith List Bool Reals Lia Lra Psatz.
From Verif Require Import Base Float FloatSpec FloatProofs FloatFacts FloatCheckFacts FloatSplit FloatSplitFacts FloatProjectProofs FloatEdge FloatEdgeFacts FloatMedian FloatMedianFacts FloatTree FloatAdaSpec FloatAdaProofs FloatAdaRun FloatAdaFacts FloatSmooth FloatSmoothSpec FloatSmoothFacts FloatMada FloatMadaProofs FloatRTreeTerm FloatGrowProofs FloatRounds FloatRoundsSpec FloatRoundsProofs FloatRoundsFacts.
Open Scope R_scope.


(** ** Limits that depend on the number of examples and the tolerance *)

Theorem C103_adaboost :
  forall fln umax (tol : f64) (n : nat), precise_ln fln -> usual_tolerance tol -> some_examples n ->
  let X := ln (INR n) / val tol ^ 2 in
  rounded_down umax (f_ada_rounds fln umax tol n) X (/ 2 ^ 50 * X + / 2 ^ 100).
Proof. exact P_C103_adaboost. Qed.
Print Assumptions C103_adaboost.

Theorem C103_adaboostv :
  forall fln umax (tol : f64) (n : nat), precise_ln fln -> usual_tolerance tol -> some_examples n ->
  let X := 2 * ln (INR n) / val tol ^ 2 in
  rounded_down umax (f_adav_rounds fln umax tol n) X (/ 2 ^ 50 * X + / 2 ^ 100).
Proof. exact P_C103_adaboostv. Qed.
Print Assumptions C103_adaboostv.

Theorem C103_madaboost :
  forall umax (tol : f64) (n : nat), usual_tolerance tol -> some_examples n ->
  let X := (INR n - 1) / val tol ^ 2 in
  rounded_up umax (f_mada_rounds umax tol n) X (/ 2 ^ 50 * X + / 2 ^ 100).
Proof. exact P_C103_madaboost. Qed.
Print Assumptions C103_madaboost.

(** ** Limits that also depend on the capping parameter *)

Theorem C103_softboost :
  forall fln umax (tol nu : f64) (n : nat), precise_ln fln -> usual_tolerance tol -> some_examples n -> capping nu n ->
  let X := 2 * ln (INR n / val nu) / val tol ^ 2 in
  rounded_up umax (f_soft_rounds fln umax tol nu n) X (/ 2 ^ 50 * X + / 2 ^ 48 / val tol ^ 2).
Proof. exact P_C103_softboost. Qed.
Print Assumptions C103_softboost.

Theorem C103_cerlpboost_mlpboost :
  forall fln umax (tol nu : f64) (n : nat), precise_ln fln -> usual_tolerance tol -> some_examples n -> capping nu n ->
  let X := 8 * ln (INR n / val nu) / (val tol / 2) ^ 2 in
  rounded_up umax (f_cerlp_rounds fln umax tol nu n) X (/ 2 ^ 50 * X + / 2 ^ 48 / (val tol / 2) ^ 2).
Proof. exact P_C103_cerlpboost_mlpboost. Qed.
Print Assumptions C103_cerlpboost_mlpboost.

Theorem C103_erlpboost :
  forall fln umax (tol nu : f64) (n : nat), precise_ln fln -> usual_tolerance tol -> some_examples n -> capping nu n ->
  let X := Rmax (4 / (val tol / 2)) (8 * ln (INR n / val nu) / (val tol / 2) ^ 2) in
  rounded_up umax (f_erlp_rounds fln umax tol nu n) X (/ 2 ^ 50 * X + / 2 ^ 48 / (val tol / 2) ^ 2).
Proof. exact P_C103_erlpboost. Qed.
Print Assumptions C103_erlpboost.

(** ** SmoothBoost *)

Theorem C103_smoothboost :
  forall umax (kappa gamma : f64), accepted kappa gamma -> / 2 ^ 100 <= val kappa -> / 2 ^ 100 <= val gamma ->
  let X := 2 / (val kappa * val gamma ^ 2 * sqrt (1 - val gamma)) in
  rounded_up umax (f_sb_rounds umax kappa gamma) X (/ 2 ^ 50 * X).
Proof. exact P_C103_smoothboost. Qed.
Print Assumptions C103_smoothboost.

(** ** The tolerance of a booster that is not given one *)

Theorem C103_default_tolerance :
  forall fln umax (n : nat), precise_ln fln -> (1 <= n)%nat -> INR n + 1 < 2 ^ 53 ->
  let X := ln (INR n) * (INR n + 1) ^ 2 in
  let Y := (INR n - 1) * (INR n + 1) ^ 2 in
  rounded_down umax (f_ada_rounds fln umax (f_default_tol n) n) X (/ 2 ^ 49 * X + / 2 ^ 100) /\
  rounded_up umax (f_mada_rounds umax (f_default_tol n) n) Y (/ 2 ^ 49 * Y + / 2 ^ 100).
Proof. exact P_C103_default_tolerance. Qed.
Print Assumptions C103_default_tolerance.

(** ** Tolerances that vanish, and tolerances that are no numbers *)

Theorem C103_vanishing_tolerance :
  forall fln umax (tol nu : f64) (n : nat), precise_ln fln -> vanishing tol -> (2 <= n)%nat -> INR n < 2 ^ 53 -> capping nu n -> 2 * val nu <= INR n ->
  f_ada_rounds fln umax tol n = umax /\ f_adav_rounds fln umax tol n = umax /\ f_mada_rounds umax tol n = umax /\
  f_soft_rounds fln umax tol nu n = umax /\ f_cerlp_rounds fln umax tol nu n = umax /\ f_erlp_rounds fln umax tol nu n = umax.
Proof. exact P_C103_vanishing_tolerance. Qed.
Print Assumptions C103_vanishing_tolerance.

Theorem C103_no_number :
  forall fln umax (tol nu : f64) (n : nat), tol = nan_num ->
  f_ada_rounds fln umax tol n = 0%nat /\ f_adav_rounds fln umax tol n = 0%nat /\ f_mada_rounds umax tol n = 0%nat /\
  f_soft_rounds fln umax tol nu n = 0%nat /\ f_cerlp_rounds fln umax tol nu n = 0%nat /\ f_erlp_rounds fln umax tol nu n = 0%nat.
Proof. exact P_C103_no_number. Qed.
Print Assumptions C103_no_number.

Theorem C103_one_example :
  forall fln umax (tol : f64), precise_ln fln ->
  f_ada_rounds fln umax tol 1 = 0%nat /\ f_adav_rounds fln umax tol 1 = 0%nat /\ f_mada_rounds umax tol 1 = 0%nat.
Proof. exact P_C103_one_example. Qed.
Print Assumptions C103_one_example.

(** ** The limit can be one round short of the formula *)

Theorem C103_one_round_short :
  forall umax, (9 <= umax)%nat ->
  f_mada_rounds umax (f_default_tol 2) 2 = 9%nat /\ 9 < (INR 2 - 1) / val (f_default_tol 2) ^ 2.
Proof. exact P_C103_one_round_short. Qed.
Print Assumptions C103_one_round_short.

Example C103_nonvacuous : exists fln, precise_ln fln /\ usual_tolerance f_half /\ some_examples 4 /\ capping f1 4 /\
  (exists tol, vanishing tol /\ 2 * val f1 <= INR 4) /\ accepted sb_kappa sb_gamma /\ / 2 ^ 100 <= val sb_kappa /\ / 2 ^ 100 <= val sb_gamma /\ f_mada_rounds 1000 f_half 4 = 12%nat.
Proof. exact ex_C103. Qed.
