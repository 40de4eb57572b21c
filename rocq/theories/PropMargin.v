(** The soft margin the guarantees C62, C64, C65 speak of always exists: C42. *)
From Verif Require Import Base SortLib Spec Utils UtilsProofs WMajority Feature Sample Objective ObjectiveFacts RegSpec MarginFacts.
Open Scope R_scope.


(** ** C42: for every labels, every real-valued function and every nu in [1, n] there is exactly one soft margin *)

Theorem C42_soft_margin_unique_existence :
  forall nu (y : list R) (f : nat -> R), 1 <= nu <= INR (length y) ->
  exists v, soft_margin nu y f v /\ forall v', soft_margin nu y f v' -> v' = v.
Proof. exact P_C42_soft_margin_unique_existence. Qed.
Print Assumptions C42_soft_margin_unique_existence.

Example C42_soft_margin_of_three : exists v, soft_margin 2 [1; -1; 1] (fun i => INR i) v.
Proof. destruct (P_C42_soft_margin_unique_existence 2 [1; -1; 1] (fun i => INR i)) as [v [H _]]; [simpl; lra|]. exists v. exact H. Qed.
