(** Properties C16, C17, C18, C52: SmoothBoost. *)
From Verif Require Import Base Spec SortLib Utils UtilsProofs WMajority WMajorityProofs Booster AdaBoost AdaBoostProofs AdaBoostMain AdaBoostMore Num SmoothSpec SmoothAnalysis SmoothBoost SmoothBoostFacts.
Open Scope R_scope.


(** ** C16: smooth distributions, for every weak learner *)

Theorem C16_smoothboost_queries_are_smooth :
  forall (H : Type) (conf : H -> nat -> R) (produce : nat -> list R -> H) (y : list R) (umax : nat) (s : sb) (fuel : nat) d,
  0 <= sb_gamma s ->
  In d (trace_of (run (smoothboost conf produce y umax) fuel s)) ->
  smooth_dist (sb_kappa s) (length y) d.
Proof. exact P_C16_smoothboost_queries_are_smooth. Qed.
Print Assumptions C16_smoothboost_queries_are_smooth.

(** ** C17 *)

(** The defaults are not usable: with the parameters of [init] run() panics on every sample, whatever the weak
    learner, before the first query (gamma = 1/2 fails the precondition gamma < 1/2). *)
Theorem C17_smoothboost_defaults_refuted :
  forall (H : Type) (conf : H -> nat -> R) (produce : nat -> list R -> H) (y : list R) (umax : nat) (kappa : R) (fuel : nat),
  run (smoothboost conf produce y umax) fuel (sb_init umax) = Crashed [] AssertFailed /\
  run (smoothboost conf produce y umax) fuel (sb_tolerance (sb_init umax) kappa) = Crashed [] AssertFailed.
Proof. exact P_C17_smoothboost_defaults_refuted. Qed.
Print Assumptions C17_smoothboost_defaults_refuted.

(** What the returned vote is: the first n hypotheses (n = number of examples), equally weighted. *)
Theorem C17_smoothboost_result :
  forall (H : Type) (conf : H -> nat -> R) (produce : nat -> list R -> H) (y : list R) (umax : nat) (s : sb) (fuel : nat) tr f,
  0 <= sb_gamma s ->
  run (smoothboost conf produce y umax) fuel s = Finished tr f ->
  let k := Nat.min (length y) (length tr) in
  wm_hypotheses f = firstn (length y) (answers produce tr) /\ wm_weights f = repeat (1 / INR k) k /\ (0 < k)%nat.
Proof. exact P_C17_smoothboost_result. Qed.
Print Assumptions C17_smoothboost_result.

(** so all hypotheses are used, with equal weights, as long as there are no more rounds than examples *)
Theorem C17_smoothboost_uses_all_partial :
  forall (H : Type) (conf : H -> nat -> R) (produce : nat -> list R -> H) (y : list R) (umax : nat) (s : sb) (fuel : nat) tr f,
  0 <= sb_gamma s ->
  run (smoothboost conf produce y umax) fuel s = Finished tr f ->
  (length tr <= length y)%nat ->
  wm_hypotheses f = answers produce tr /\ wm_weights f = repeat (1 / INR (length tr)) (length tr) /\
  (forall i, wm_confidence conf f i = rsum (map (fun h => conf h i) (answers produce tr)) / INR (length tr)).
Proof. exact P_C17_smoothboost_uses_all_partial. Qed.
Print Assumptions C17_smoothboost_uses_all_partial.

(** ** C52: number of rounds and termination *)

Theorem C52_smoothboost_terminates :
  forall (H : Type) (conf : H -> nat -> R) (produce : nat -> list R -> H) (y : list R) (umax : nat) (s : sb) (fuel : nat),
  0 <= sb_gamma s ->
  (length (trace_of (run (smoothboost conf produce y umax) fuel s)) <= sb_max_loop umax (sb_kappa s) (sb_gamma s))%nat /\
  ((0 < umax)%nat -> is_valid_binary_instance y = Ok tt -> 0 < sb_kappa s < 1 -> 0 <= sb_gamma s < 1 / 2 ->
   (sb_max_loop umax (sb_kappa s) (sb_gamma s) < fuel)%nat ->
   exists tr f, run (smoothboost conf produce y umax) fuel s = Finished tr f).
Proof. exact P_C52_smoothboost_terminates. Qed.
Print Assumptions C52_smoothboost_terminates.

(** ** C18: progress *)

(** If every answer of the run meets the documented weak-learner guarantee with gamma > 0, the run stops before
    max_loop rounds; then fewer than kappa n examples have a vote at most T theta - 1, and fewer than
    kappa n / sqrt(1 - gamma) have one at most T theta (T = number of rounds). *)
Theorem C18_smoothboost_margin_partial :
  forall (H : Type) (conf : H -> nat -> R) (produce : nat -> list R -> H) (y : list R) (umax : nat) (s : sb) (fuel : nat),
  let kappa := sb_kappa s in let gamma := sb_gamma s in let theta := gamma / (2 + gamma) in
  let n := length y in
  is_valid_binary_instance y = Ok tt ->
  (forall i, (i < n)%nat -> pm1 (nth i y 0)) ->
  (forall t d i, (i < n)%nat -> -1 <= conf (produce t d) i <= 1) ->
  0 < kappa < 1 -> 0 < gamma < 1 / 2 ->
  (sb_max_loop umax kappa gamma < fuel)%nat ->
  let queries := trace_of (run (smoothboost conf produce y umax) fuel s) in
  (forall k, (k < length queries)%nat ->
     half_error y (nth k queries []) (conf (produce (S k) (nth k queries []))) <= 1 / 2 - gamma) ->
  exists tr f, run (smoothboost conf produce y umax) fuel s = Finished tr f /\
    (0 < length tr < sb_max_loop umax kappa gamma)%nat /\
    let m := margin_sum conf y (answers produce tr) in let T := INR (length tr) in
    n_at_most n m (T * theta - 1) < kappa * INR n /\
    sqrt (1 - gamma) * n_at_most n m (T * theta) < kappa * INR n.
Proof. exact P_C18_smoothboost_margin_partial. Qed.
Print Assumptions C18_smoothboost_margin_partial.

(** ** C16: the exact distribution of every round *)

Theorem C16_smoothboost_distribution_form :
  forall (H : Type) (conf : H -> nat -> R) (produce : nat -> list R -> H) (y : list R) (umax : nat) (s : sb) (fuel : nat) tr k,
  0 <= sb_gamma s ->
  trace_of (run (smoothboost conf produce y umax) fuel s) = tr -> (k < length tr)%nat ->
  let theta := sb_gamma s / (2 + sb_gamma s) in
  let N i := 1 + margin_sum conf y (answers produce (firstn k tr)) i - INR k * theta in
  let W i := if (k =? 0)%nat then 1 else if Rle_dec (N i) 0 then 1 else Rpower (1 - sb_gamma s) (N i / 2) in
  nth k tr [] = map (fun i => W i / rsum (map W (seq 0 (length y)))) (seq 0 (length y)).
Proof. exact P_C16_smoothboost_distribution_form. Qed.
Print Assumptions C16_smoothboost_distribution_form.

(** ** A weak learner that ignores the distribution *)

(** ** C17: a run in which most hypotheses are dropped (labels (1,-1), the constant hypothesis 0) *)

Theorem C17_smoothboost_all_hypotheses_refuted :
  exists (y : list R) (produce : nat -> list R -> nat -> R) (fuel : nat) (s : sb) tr f,
    sb_set_gamma (sb_tolerance (sb_init 1) (1 / 2)) (1 / 4) = Ok s /\
    run (smoothboost fconf produce y 1) fuel s = Finished tr f /\
    (length (wm_hypotheses f) < length tr)%nat.
Proof. exact P_C17_smoothboost_all_hypotheses_refuted. Qed.
Print Assumptions C17_smoothboost_all_hypotheses_refuted.

(** ** C18: a run meeting every hypothesis of the theorem above after which more than a kappa fraction of the
    examples has margin below theta *)

Theorem C18_smoothboost_kappa_fraction_refuted :
  exists (produce : nat -> list R -> nat -> R) (y : list R) (s : sb) (fuel : nat) tr f,
  let kappa := sb_kappa s in let gamma := sb_gamma s in let theta := gamma / (2 + gamma) in
  let n := length y in
  (is_valid_binary_instance y = Ok tt /\
   (forall i, (i < n)%nat -> pm1 (nth i y 0)) /\
   (forall t d i, (i < n)%nat -> -1 <= fconf (produce t d) i <= 1) /\
   0 < kappa < 1 /\ 0 < gamma < 1 / 2 /\
   (sb_max_loop 1 kappa gamma < fuel)%nat) /\
  run (smoothboost fconf produce y 1) fuel s = Finished tr f /\
  (forall k, (k < length tr)%nat ->
     half_error y (nth k tr []) (fconf (produce (S k) (nth k tr []))) <= 1 / 2 - gamma) /\
  exists i0, (i0 < n)%nat /\
    margin_sum fconf y (answers produce tr) i0 / INR (length tr) < theta /\ kappa * INR n < 1.
Proof. exact P_C18_smoothboost_kappa_fraction_refuted. Qed.
Print Assumptions C18_smoothboost_kappa_fraction_refuted.
