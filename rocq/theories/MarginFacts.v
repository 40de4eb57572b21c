(** The soft margin the guarantees C62, C64, C65 speak of always exists: C42. *)
From Verif Require Import Base SortLib Spec Utils UtilsProofs WMajority Feature Sample Objective ObjectiveFacts RegSpec.
Open Scope R_scope.

(** ** C42: for every labels, every real-valued function and every nu in [1, n] there is exactly one soft margin *)
Lemma P_C42_soft_margin_unique_existence :
  forall nu (y : list R) (f : nat -> R), 1 <= nu <= INR (length y) ->
  exists v, soft_margin nu y f v /\ forall v', soft_margin nu y f v' -> v' = v.
Proof.
  intros nu y f Hnu. pose (s := mkSample [] [] y (length y) 1).
  pose proof (P_C42_soft_margin nu s f eq_refl) as P. destruct (soft_margin_eval nu s f) as [v|k].
  - destruct P as [_ [_ P]]. exists v. split; [exact P|]. intros v' [[d' [C' E']] L']. destruct P as [[d [C E]] L]. cbn [s_target shape s fst s_n_sample] in *.
    pose proof (L d' C') as A. pose proof (L' d C) as B. cbv beta in *. lra.
  - exfalso. unfold s, shape in P. cbn in P. destruct P as [P|[P|[P|P]]]; try lra; try discriminate.
    rewrite P in Hnu. simpl in Hnu. lra.
Qed.
Example C42_soft_margin_of_three : exists v, soft_margin 2 [1; -1; 1] (fun i => INR i) v.
Proof. destruct (P_C42_soft_margin_unique_existence 2 [1; -1; 1] (fun i => INR i)) as [v [H _]]; [simpl; lra|]. exists v. exact H. Qed.
