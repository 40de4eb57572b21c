(** Specification vocabulary for the log of a run (C69). *)
From Verif Require Import Base Booster Logger LoggerFacts Research.
From Coq Require Import NArith.
Open Scope R_scope.

(** a clock under which a time limit of 0 ends the run with round k *)
Definition stop_after (k : nat) : nat -> N := fun t => if (t <? k)%nat then 0%N else 1%N.

(** [log_truthful b current]: in every log of every run of [b] (any objective, any loss, any clock, any limit, any print
    interval), the k-th line is about the combined hypothesis that the run would have returned had it been stopped by a
    time limit after round k: its objective value, its training and test loss, and the time of the first k rounds.
    And when the run returns, the last line is about the hypothesis that is returned. *)
Definition log_truthful {St Out} (b : booster St Out) (current : St -> res Out) : Prop :=
  forall (objective : Out -> res R) (train_loss test_loss : Out -> R) (clock : nat -> N) (limit every : N) (fuel : nat) (s : St),
  let logged := log_run b (research_line current objective train_loss test_loss) clock limit every fuel s in
  (forall k obj tr te t, nth_error (snd logged) k = Some ((obj, tr, te), t) ->
     t = elapsed clock (S k) /\
     exists queries f,
       fst (log_run b (research_line current objective train_loss test_loss) (stop_after (S k)) 0 every fuel s) = Finished queries f /\
       objective f = Ok obj /\ tr = train_loss f /\ te = test_loss f) /\
  (forall queries f, fst logged = Finished queries f ->
     exists lines obj t, snd logged = lines ++ [((obj, train_loss f, test_loss f), t)] /\ objective f = Ok obj).

(** every measurement the logger makes during the first [fuel] rounds succeeds *)
Definition measurable {St Out Line} (b : booster St Out) (measure : St -> res Line) (fuel : nat) (s : St) : Prop :=
  forall k tr s0 q s1 flow, (k < fuel)%nat -> reaches b s k tr s0 -> b_boost b (S k) s0 = (q, Ok (s1, flow)) ->
  exists l, measure s1 = Ok l.
