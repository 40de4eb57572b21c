(** Facts about the objective functions: C42, C56. *)
From Verif Require Import Base SortLib Spec Utils UtilsProofs WMajority Feature Sample Objective ObjectiveFacts.
Open Scope R_scope.


(** ** C42: the soft margin objective is the least edge over all distributions capped by 1/nu; it is evaluated
    exactly when the sample is non-empty and 1 <= nu <= n *)

Theorem C42_soft_margin :
  forall nu s conf, length (s_target s) = fst (shape s) ->
  match soft_margin_eval nu s conf with
  | Ok v => (0 < fst (shape s) /\ 0 < snd (shape s))%nat /\ 1 <= nu <= INR (fst (shape s)) /\
      is_min_of (fun d => length d = fst (shape s) /\ in_capped_simplex nu d) (fun d => edge_of (s_target s) d conf) v
  | Panic _ => fst (shape s) = 0%nat \/ snd (shape s) = 0%nat \/ nu < 1 \/ INR (fst (shape s)) < nu
  end.
Proof. exact P_C42_soft_margin. Qed.
Print Assumptions C42_soft_margin.

(** the hard margin objective is the smallest margin *)
Theorem C42_hard_margin :
  forall s conf, length (s_target s) = fst (shape s) -> (0 < fst (shape s))%nat -> (0 < snd (shape s))%nat ->
  exists v, hard_margin_eval s conf = Ok v /\ is_min_of (fun i => (i < fst (shape s))%nat) (fun i => nth i (s_target s) 0 * conf i) v.
Proof. exact P_C42_hard_margin. Qed.
Print Assumptions C42_hard_margin.

(** a larger nu (a smaller cap) never lowers the soft margin, and all of them are at least the hard margin *)
Theorem C42_soft_margin_monotone :
  forall nu nu' s conf v v', length (s_target s) = fst (shape s) -> nu <= nu' ->
  soft_margin_eval nu s conf = Ok v -> soft_margin_eval nu' s conf = Ok v' -> v <= v'.
Proof. exact P_C42_soft_margin_monotone. Qed.
Print Assumptions C42_soft_margin_monotone.

(** ** C56: the exponential loss objective is computed from the predicted labels: it is 1/e plus (e - 1/e) times the
    error rate, whatever the confidences are *)

Theorem C56_exponential_loss :
  forall s conf, length (s_target s) = fst (shape s) -> (0 < fst (shape s))%nat -> (0 < snd (shape s))%nat ->
  (forall y, In y (s_target s) -> pm1 y) ->
  exponential_loss_eval s conf =
    Ok (exp (-1) + (exp 1 - exp (-1)) * (INR (n_errors (s_target s) (fun i => sign_label (conf i))) / INR (fst (shape s)))).
Proof. exact P_C56_exponential_loss. Qed.
Print Assumptions C56_exponential_loss.

Example C42_nonvacuous : forall a : string, exists s, length (s_target s) = fst (shape s) /\ (0 < fst (shape s))%nat /\ (0 < snd (shape s))%nat /\
  (forall y, In y (s_target s) -> pm1 y).
Proof.
  intros a. exists (from_dataframe [(a, [1; 2; 3])] 3 [1; -1; -1]). simpl. repeat split; try lia. unfold pm1. intros y [<-|[<-|[<-|[]]]]; auto.
Qed.
