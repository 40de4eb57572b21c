(** Properties C08, C12, C50, C51, C52, C62, C35: the guarantees in terms of what the user configures (defaults and the
    builder methods), with the numbers of rounds written out. *)
From Verif Require Import Base Spec RoundSpec RegSpec SortLib Utils UtilsProofs WMajority WMajorityProofs Booster AdaBoost AdaBoostProofs AdaBoostMain AdaBoostMore AdaBoostFacts AdaBoostV AdaBoostVProofs AdaBoostVFacts Num MadaBoost MadaBoostFacts SmoothBoost SmoothSpec SmoothBoostFacts Hoeffding FrankWolfe FrankWolfeFacts CERLP CERLPFacts Csc ConicSpec EdgeLP ERLP ERLPFacts ConfigFacts.
Open Scope R_scope.


(** ** C08: AdaBoost with tolerance [tol] (default 1/(n+1)) that meets no perfect hypothesis asks for exactly
    floor(ln n / tol^2) hypotheses; with force_quit_at(T), exactly T *)

Theorem C08_adaboost_exact_rounds :
  forall (H : Type) (conf : H -> nat -> R) (produce : nat -> list R -> H) (y : list R) (fuel : nat) tr f,
  Forall (fun e => e < 1) (edges conf produce y tr) ->
  (run (adaboost conf produce y) fuel (ada_init y) = Finished tr f ->
     floor_of (ln (INR (length y)) * (INR (length y) + 1) ^ 2) (length tr)) /\
  (forall tol, 0 < tol -> run (adaboost conf produce y) fuel (ada_tolerance (ada_init y) tol) = Finished tr f ->
     floor_of (ln (INR (length y)) / tol ^ 2) (length tr)) /\
  (forall s T, run (adaboost conf produce y) fuel (ada_force_quit_at s T) = Finished tr f -> length tr = T).
Proof. exact P_C08_adaboost_exact_rounds. Qed.
Print Assumptions C08_adaboost_exact_rounds.

(** ** C50: AdaBoostV likewise with floor(2 ln n / tol^2), default tolerance 1/n *)

Theorem C50_adaboostv_exact_rounds :
  forall (H : Type) (conf : H -> nat -> R) (produce : nat -> list R -> H) (y : list R) (fuel : nat) tr f,
  Forall (fun e => e < 1) (edges conf produce y tr) ->
  (run (adaboostv conf produce y) fuel (adav_init y) = Finished tr f ->
     floor_of (2 * ln (INR (length y)) * INR (length y) ^ 2) (length tr)) /\
  (forall tol, 0 < tol -> run (adaboostv conf produce y) fuel (adav_tolerance (adav_init y) tol) = Finished tr f ->
     floor_of (2 * ln (INR (length y)) / tol ^ 2) (length tr)) /\
  (forall s T, run (adaboostv conf produce y) fuel (adav_force_quit_at s T) = Finished tr f -> length tr = T).
Proof. exact P_C50_adaboostv_exact_rounds. Qed.
Print Assumptions C50_adaboostv_exact_rounds.

(** ** C12 in the user's terms: init(sample).tolerance(tol).run(..) with edges in [g, 1): every margin exceeds
    g - tol - tol / (2 T), T being the number of rounds *)

Theorem C12_adaboostv_configured_margin :
  forall (H : Type) (conf : H -> nat -> R) (produce : nat -> list R -> H) (y : list R) (fuel : nat) tol tr f g,
  (forall i, (i < length y)%nat -> pm1 (nth i y 0)) ->
  (forall h i, (i < length y)%nat -> -1 <= conf h i <= 1) ->
  0 < tol ->
  run (adaboostv conf produce y) fuel (adav_tolerance (adav_init y) tol) = Finished tr f ->
  Forall (fun e => g <= e < 1) (edges conf produce y tr) ->
  forall i, (i < length y)%nat -> g - tol * (1 + 1 / (2 * INR (length tr))) < nth i y 0 * wm_confidence conf f i.
Proof. exact P_C12_adaboostv_configured_margin. Qed.
Print Assumptions C12_adaboostv_configured_margin.

(** ** C51: MadaBoost: ceil((n-1) / tol^2) rounds *)

Theorem C51_madaboost_exact_rounds :
  forall (H : Type) (conf : H -> nat -> R) (produce : nat -> list R -> H) (y : list R) (fuel : nat) tr f,
  Forall (fun e => e < 1) (edges conf produce y tr) ->
  (run (madaboost conf produce y) fuel (mada_init y) = Finished tr f ->
     ceil_of ((INR (length y) - 1) * (INR (length y) + 1) ^ 2) (length tr)) /\
  (forall tol, 0 < tol -> run (madaboost conf produce y) fuel (mada_tolerance (mada_init y) tol) = Finished tr f ->
     ceil_of ((INR (length y) - 1) / tol ^ 2) (length tr)) /\
  (forall s T, run (madaboost conf produce y) fuel (mada_force_quit_at s T) = Finished tr f -> length tr = T).
Proof. exact P_C51_madaboost_exact_rounds. Qed.
Print Assumptions C51_madaboost_exact_rounds.

(** ** C52: SmoothBoost configured with tolerance kappa and gamma > 0: fewer than 1 + 2 / (kappa gamma^2 sqrt(1-gamma)) rounds *)

Theorem C52_smoothboost_configured_rounds :
  forall (H : Type) (conf : H -> nat -> R) (produce : nat -> list R -> H) (y : list R) (umax : nat) (fuel : nat) kappa gamma s,
  0 < kappa -> 0 < gamma ->
  sb_set_gamma (sb_tolerance (sb_init umax) kappa) gamma = Ok s ->
  INR (length (trace_of (run (smoothboost conf produce y umax) fuel s))) < 2 / (kappa * gamma ^ 2 * sqrt (1 - gamma)) + 1.
Proof. exact P_C52_smoothboost_configured_rounds. Qed.
Print Assumptions C52_smoothboost_configured_rounds.

(** ** C62 in the user's terms: tolerance [tol] and capping [nu] set through the builder, default short-step rule: fewer
    than 1 + 32 ln(n/nu) / tol^2 rounds, and a soft margin of at least g - tol *)

Theorem C62_cerlp_configured :
  forall (H : Type) (conf : H -> nat -> R) (eqH : H -> H -> bool) (produce : nat -> list R -> H) (y : list R) (fuel : nat) tol nu s tr f g,
  0 < tol -> cerlp_nu y (cerlp_tolerance (cerlp_init y) tol) nu = Ok s ->
  (forall h i, (i < length y)%nat -> -1 <= nth i y 0 * conf h i <= 1) ->
  (forall f h, eqH f h = true -> forall i, (i < length y)%nat -> conf f i = conf h i) ->
  run (cerlpboost conf eqH produce y) fuel s = Finished tr f ->
  Forall (fun e => g <= e) (edges conf produce y tr) ->
  INR (length tr) < 32 * ln (INR (length y) / nu) / tol ^ 2 + 1 /\
  forall v, soft_margin nu y (wm_confidence conf f) v -> g - tol <= v.
Proof. exact P_C62_cerlp_configured. Qed.
Print Assumptions C62_cerlp_configured.

(** ** C35 in the user's terms: tolerance [tol] and capping [nu] set through the builder *)

Theorem C35_configured_rounds : forall (H : Type) (conf : H -> nat -> R) solve produce y inner fuel tol nu (s : @erlp H),
  0 < tol -> erlp_nu y (erlp_tolerance (erlp_init y) tol) nu = Ok s ->
  INR (length (trace_of (run (erlpboost conf solve produce y inner) fuel s))) < Rmax (8 / tol) (32 * ln (INR (length y) / nu) / tol ^ 2) + 1.
Proof. exact P_C35_configured_rounds. Qed.
Print Assumptions C35_configured_rounds.
