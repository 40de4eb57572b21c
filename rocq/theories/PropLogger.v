(** Properties C22, C23: the boosting protocol and logging. *)
From Verif Require Import Base Spec Utils WMajority WMajorityProofs Booster Logger AdaBoost AdaBoostProofs AdaBoostMain AdaBoostMore LoggerFacts.
From Coq Require Import NArith.
Open Scope R_scope.


(** ** C22: run() = preprocess; boost(1), boost(2), ... up to and including the first Break; postprocess *)

Theorem C22_run_protocol :
  forall (St Out : Type) (b : booster St Out) (s : St) tr o,
  (exists fuel, run b fuel s = Finished tr o) <->
  (exists k tr0 s0 q s1 it, reaches b s k tr0 s0 /\ b_boost b (S k) s0 = (q, Ok (s1, Break it)) /\
     b_post b s1 = Ok o /\ tr = tr0 ++ q).
Proof. exact P_C22_run_protocol. Qed.
Print Assumptions C22_run_protocol.

(** an execution that does not finish either panics in one of the three methods or keeps returning Continue *)
Theorem C22_run_not_finished :
  forall (St Out : Type) (b : booster St Out) (s : St) fuel,
  match run b fuel s with
  | Finished _ _ => True
  | Crashed tr p =>
      (b_pre b s = Panic p /\ tr = []) \/
      exists k tr0 s0 q, (k < fuel)%nat /\ reaches b s k tr0 s0 /\ tr = tr0 ++ q /\
        (b_boost b (S k) s0 = (q, Panic p) \/
         exists s2 it, b_boost b (S k) s0 = (q, Ok (s2, Break it)) /\ b_post b s2 = Panic p)
  | Unfinished tr => exists s', reaches b s fuel tr s'
  end.
Proof. exact P_C22_run_not_finished. Qed.
Print Assumptions C22_run_not_finished.

(** the calls received by the booster: preprocess, boost(1), ..., boost(k), postprocess, in this order, each
    once, with k >= 1; and recording them does not change the run *)
Theorem C22_run_calls :
  forall (St Out : Type) (b : booster St Out) (s : St) fuel,
  match run (spy b) fuel (s, []) with
  | Finished tr (o, calls) => run b fuel s = Finished tr o /\
      exists k, (1 <= k <= fuel)%nat /\ calls = CPre :: map CBoost (seq 1 k) ++ [CPost]
  | Crashed tr p => run b fuel s = Crashed tr p
  | Unfinished tr => run b fuel s = Unfinished tr
  end.
Proof. exact P_C22_run_calls. Qed.
Print Assumptions C22_run_calls.

Example C22_nonvacuous : exists tr, run (spy countdown) 10 (3%nat, []) =
  Finished tr (0%nat, [CPre; CBoost 1; CBoost 2; CBoost 3; CPost]).
Proof. eexists. reflexivity. Qed.

(** ** C23: the total time of rounds 1..t as the clock tells it *)

(** rounds whose accumulated time stays within the limit: the logged run coincides with the plain run, and the
    file has exactly one line per completed round *)
Theorem C23_logging_does_not_change_the_result_partial :
  forall (St Out Line : Type) (b : booster St Out) (measure : St -> res Line) (clock : nat -> N)
         (limit every : N) (s : St) (fuel : nat),
  (forall s, exists l, measure s = Ok l) ->      (* current_hypothesis() and the measurements do not panic *)
  every <> 0%N ->                                (* print_every(0) divides by zero *)
  (forall t, (t <= fuel)%nat -> (elapsed clock t <= limit)%N) ->
  fst (log_run b measure clock limit every fuel s) = run b fuel s.
Proof. exact P_C23_logging_does_not_change_the_result_partial. Qed.
Print Assumptions C23_logging_does_not_change_the_result_partial.

(** without any assumption: the file has one line per round that completed, the time column being the
    accumulated time; and a finished run reports, in its last line, the state that was returned *)
Theorem C23_one_line_per_round :
  forall (St Out Line : Type) (b : booster St Out) (measure : St -> res Line) (clock : nat -> N)
         (limit every : N) (s : St) (fuel : nat),
  let lines := snd (log_run b measure clock limit every fuel s) in
  map snd lines = map (elapsed clock) (seq 1 (length lines)) /\
  (forall tr o, fst (log_run b measure clock limit every fuel s) = Finished tr o ->
     exists k tr0 s0 q s1 flow l, reaches b s k tr0 s0 /\ b_boost b (S k) s0 = (q, Ok (s1, flow)) /\
       length lines = S k /\ measure s1 = Ok l /\ last (map fst lines) l = l /\ b_post b s1 = Ok o /\ tr = tr0 ++ q /\
       (flow = Continue -> (limit < elapsed clock (S k))%N)).
Proof. exact P_C23_one_line_per_round. Qed.
Print Assumptions C23_one_line_per_round.

(** once the accumulated time exceeds the limit after round k (and not before), the run ends with round k *)
Theorem C23_time_limit_stops :
  forall (St Out Line : Type) (b : booster St Out) (measure : St -> res Line) (clock : nat -> N)
         (limit every : N) (s : St) (fuel k : nat),
  (forall s, exists l, measure s = Ok l) -> every <> 0%N ->
  (limit < elapsed clock (S k))%N -> (forall t, (t <= k)%nat -> (elapsed clock t <= limit)%N) -> (k < fuel)%nat ->
  forall tr0 s0 q s1 flow, reaches b s k tr0 s0 -> b_boost b (S k) s0 = (q, Ok (s1, flow)) ->
  fst (log_run b measure clock limit every fuel s) =
    match b_post b s1 with Ok o => Finished (tr0 ++ q) o | Panic p => Crashed (tr0 ++ q) p end.
Proof. exact P_C23_time_limit_stops. Qed.
Print Assumptions C23_time_limit_stops.

Example C23_nonvacuous : exists tr, log_run countdown (fun s => Ok s) (fun _ => 1%N) 100 100 10 3%nat
  = (Finished tr 0%nat, [(2%nat, 1%N); (1%nat, 2%N); (0%nat, 3%N)]).
Proof. eexists. reflexivity. Qed.

Example C23_nonvacuous_limit : exists tr, log_run countdown (fun s => Ok s) (fun _ => 1%N) 1 100 10 3%nat
  = (Finished tr 1%nat, [(2%nat, 1%N); (1%nat, 2%N)]).
Proof. eexists. reflexivity. Qed.

(** In general C23 fails: current_hypothesis() of AdaBoost panics while all collected weights are negative,
    so a logged run dies where the plain run returns a perfect classifier. *)
Theorem C23_logged_adaboost_refuted :
  exists (produce : nat -> list R -> (nat -> R)) (y : list R) (s : ada),
    (exists tr f, run (adaboost (fun h i => h i) produce y) 2 s = Finished tr f) /\ (forall clock limit every, exists tr, log_run (adaboost (fun h i => h i) produce y) (@ada_post (nat -> R))
       clock limit every 2 s = (Crashed tr AssertFailed, [])).
Proof. exact P_C23_logged_adaboost_refuted. Qed.
Print Assumptions C23_logged_adaboost_refuted.
