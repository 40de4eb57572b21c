(** Properties C36, C37: the Frank-Wolfe routine. *)
From Verif Require Import Base Spec RegSpec SortLib Utils UtilsProofs WMajority WMajorityProofs Booster AdaBoost AdaBoostProofs AdaBoostMain AdaBoostMore Num Hoeffding FrankWolfe FrankWolfeProofs FrankWolfeFacts.
Open Scope R_scope.


(** ** C36: for the classic rule every update keeps the hypothesis weights on the simplex *)

Theorem C36_classic_keeps_simplex :
  forall (H : Type) (conf : H -> nat -> R) (y : list R) (c : fw) (it : nat) (dist : list R) (hs : list H) (k : nat) (ws : list R),
  fw_type c = Classic -> (1 <= it)%nat -> (k < length hs)%nat -> length ws = length hs -> is_dist ws ->
  exists ws', next_iterate conf y c it dist hs k ws = Ok ws' /\ length ws' = length hs /\ is_dist ws'.
Proof. exact P_C36_classic_keeps_simplex. Qed.
Print Assumptions C36_classic_keeps_simplex.

(** ** the line-search rule *)

Theorem C36_line_search_keeps_simplex :
  forall (H : Type) (conf : H -> nat -> R) (y : list R) (c : fw) (it : nat) (dist : list R) (hs : list H) (k : nat) (ws : list R),
  fw_type c = LineSearch -> (0 < length y)%nat -> 1 <= fw_nu c <= INR (length y) ->
  (k < length hs)%nat -> length ws = length hs -> is_dist ws ->
  exists ws', next_iterate conf y c it dist hs k ws = Ok ws' /\ length ws' = length hs /\ is_dist ws'.
Proof. exact P_C36_line_search_keeps_simplex. Qed.
Print Assumptions C36_line_search_keeps_simplex.

(** ** the short-step rule; its step size is undefined (NaN, assertion failure) exactly when the new hypothesis has the
    same margin as the current vote on every example *)

Theorem C36_short_step_keeps_simplex :
  forall (H : Type) (conf : H -> nat -> R) (y : list R) (c : fw) (it : nat) (dist : list R) (hs : list H) (k : nat) (ws : list R) h,
  fw_type c = ShortStep -> 0 < fw_eta c -> length dist = length y ->
  nth_error hs k = Some h -> length ws = length hs -> is_dist ws ->
  match next_iterate conf y c it dist hs k ws with
  | Ok ws' => length ws' = length hs /\ is_dist ws'
  | Panic p => p = AssertFailed /\ forall i, (i < length y)%nat -> nth i y 0 * conf h i = nth i y 0 * vote conf (combine ws hs) i
  end.
Proof. exact P_C36_short_step_keeps_simplex. Qed.
Print Assumptions C36_short_step_keeps_simplex.

(** the first round starts from the weight vector [0]: the classic and the short-step rule move to [1] *)
Theorem C36_first_round :
  forall (H : Type) (conf : H -> nat -> R) (y : list R) (c : fw) (dist : list R) (h : H),
  fw_type c = Classic \/ fw_type c = ShortStep ->
  next_iterate conf y c 1 dist [h] 0 [0] = Ok [1].
Proof. exact P_C36_first_round. Qed.
Print Assumptions C36_first_round.

(** ** C36 fails in the first round of the line-search and pairwise rules: a hypothesis with a positive edge under
    every distribution (say, one that classifies everything correctly) gets a total weight of at most 1e-9, not 1 *)

Theorem C36_line_search_first_round_refuted :
  forall (H : Type) (conf : H -> nat -> R) (y : list R) (c : fw) (it : nat) (dist : list R) (h : H),
  fw_type c = LineSearch \/ fw_type c = BlendedPairwise ->
  (0 < length y)%nat -> 1 <= fw_nu c <= INR (length y) ->
  (forall d, capped (fw_nu c) y d -> 0 < edge_of y d (conf h)) ->
  exists s, next_iterate conf y c it dist [h] 0 [0] = Ok [s] /\ 0 <= s <= / 1000000000 /\ ~ is_dist [s].
Proof. exact P_C36_line_search_first_round_refuted. Qed.
Print Assumptions C36_line_search_first_round_refuted.

Example C36_first_round_nonvacuous : exists (conf : unit -> nat -> R) (y : list R),
  (0 < length y)%nat /\ 1 <= 1 <= INR (length y) /\ (forall d, capped 1 y d -> 0 < edge_of y d (conf tt)).
Proof.
  exists (fun _ i => nth i y2 0), y2. split; [simpl; lia|]. split; [simpl; lra|]. intros d [L [_ S]].
  destruct d as [|a [|b [|]]]; simpl in L; try lia. unfold edge_of, y2. simpl in *. lra.
Qed.

(** ** the pairwise rule: on the simplex as long as the hypothesis returned by the weak learner has no weight yet *)

Theorem C36_pairwise_keeps_simplex :
  forall (H : Type) (conf : H -> nat -> R) (y : list R) (c : fw) (it : nat) (dist : list R) (hs : list H) (k : nat) (ws : list R),
  fw_type c = BlendedPairwise -> (0 < length y)%nat -> 1 <= fw_nu c <= INR (length y) ->
  length dist = length y -> is_dist dist ->
  (forall h i, In h hs -> (i < length y)%nat -> -1 <= nth i y 0 * conf h i <= 1) ->
  (k < length hs)%nat -> length ws = length hs -> is_dist ws -> nth k ws 0 = 0 ->
  exists ws', next_iterate conf y c it dist hs k ws = Ok ws' /\ length ws' = length hs /\ is_dist ws'.
Proof. exact P_C36_pairwise_keeps_simplex. Qed.
Print Assumptions C36_pairwise_keeps_simplex.

(** ** C36: where the weight goes.  The classic, short-step and line-search rules move the weights towards the new
    hypothesis by some fraction s (the classic rule by 2/(t+1)) *)

Theorem C36_moves_towards_the_answer :
  forall (H : Type) (conf : H -> nat -> R) (y : list R) (c : fw) (it : nat) (dist : list R) (hs : list H) (k : nat) (ws ws' : list R),
  fw_type c <> BlendedPairwise -> length ws = length hs -> next_iterate conf y c it dist hs k ws = Ok ws' ->
  exists s, 0 <= s <= 1 /\ (fw_type c = Classic -> s = 2 / (INR it + 1)) /\ length ws' = length ws /\
    forall i, (i < length ws)%nat -> nth i ws' 0 = (1 - s) * nth i ws 0 + s * (if Nat.eqb i k then 1 else 0).
Proof. exact P_C36_moves_towards_the_answer. Qed.
Print Assumptions C36_moves_towards_the_answer.

(** ** C36, the pairwise rule: either a step towards the new hypothesis, or weight taken from a weighted hypothesis of
    smallest edge and given either entirely to the new hypothesis or in part to a weighted hypothesis of largest edge *)

Theorem C36_pairwise_direction :
  forall (H : Type) (conf : H -> nat -> R) (y : list R) (c : fw) (it : nat) (dist : list R) (hs : list H) (k : nat) (ws ws' : list R) (h0 : H),
  fw_type c = BlendedPairwise -> length dist = length y -> is_dist dist ->
  (forall h i, In h hs -> (i < length y)%nat -> -1 <= nth i y 0 * conf h i <= 1) ->
  length ws = length hs -> (forall j, (j < length ws)%nat -> 0 <= nth j ws 0) -> nth k ws 0 = 0 ->
  next_iterate conf y c it dist hs k ws = Ok ws' ->
  let edge j := edge_of y dist (conf (nth j hs h0)) in
  length ws' = length ws /\
  ((exists s, 0 <= s <= 1 /\ forall i, (i < length ws)%nat -> nth i ws' 0 = (1 - s) * nth i ws 0 + s * (if Nat.eqb i k then 1 else 0)) \/
   (exists a b delta, (a < length ws)%nat /\ (b < length ws)%nat /\ 0 < nth a ws 0 /\ (forall j, (j < length ws)%nat -> 0 < nth j ws 0 -> edge a <= edge j) /\
      0 <= delta <= nth a ws 0 /\
      (b = k /\ delta = nth a ws 0 \/ 0 < nth b ws 0 /\ forall j, (j < length ws)%nat -> 0 < nth j ws 0 -> edge j <= edge b) /\
      forall i, (i < length ws)%nat -> nth i ws' 0 = nth i ws 0 + (if Nat.eqb i b then delta else 0) - (if Nat.eqb i a then delta else 0))).
Proof. exact P_C36_pairwise_direction. Qed.
Print Assumptions C36_pairwise_direction.

(** ** C36 fails for the pairwise rule when the weak learner repeats a hypothesis that already has weight: its weight is
    overwritten.  Two examples, two hypotheses with weights 1/2 each; afterwards the weights are (1/2, 0). *)

Theorem C36_pairwise_repeated_refuted :
  exists (conf : nat -> nat -> R) (y : list R) (c : fw) (dist : list R) (hs : list nat) (k : nat) (ws : list R),
  fw_type c = BlendedPairwise /\ 0 < fw_eta c /\ 1 <= fw_nu c <= INR (length y) /\
  (forall i, (i < length y)%nat -> pm1 (nth i y 0)) /\ (forall h i, -1 <= conf h i <= 1) /\
  exp_distribution conf (fw_eta c) (fw_nu c) y ws hs = Ok dist /\ NoDup hs /\
  (k < length hs)%nat /\ length ws = length hs /\ is_dist ws /\
  edge_of y dist (vote conf (combine ws hs)) < edge_of y dist (conf (nth k hs 0%nat)) /\
  next_iterate conf y c 2 dist hs k ws = Ok [1 / 2; 0].
Proof. exact P_C36_pairwise_repeated_refuted. Qed.
Print Assumptions C36_pairwise_repeated_refuted.

(** ** C37 fails: the line search tests the sign of the gradient at the distribution of the direction instead of at the end
    point, and bisects the wrong way.  In this case the new hypothesis improves the edge of the current distribution,
    the line search moves all the weight to it, and the regularised soft margin it is meant to maximise drops. *)

Theorem C37_line_search_refuted :
  exists (conf : nat -> nat -> R) (y : list R) (c : fw) (dist : list R) (hs : list nat) (k : nat) (ws ws' : list R) (v v' : R),
  fw_type c = LineSearch /\ 0 < fw_eta c /\ 1 <= fw_nu c <= INR (length y) /\
  (forall i, (i < length y)%nat -> pm1 (nth i y 0)) /\ (forall h i, -1 <= conf h i <= 1) /\
  exp_distribution conf (fw_eta c) (fw_nu c) y ws hs = Ok dist /\ NoDup hs /\
  (k < length hs)%nat /\ length ws = length hs /\ is_dist ws /\
  edge_of y dist (vote conf (combine ws hs)) < edge_of y dist (conf (nth k hs 0%nat)) /\
  next_iterate conf y c 2 dist hs k ws = Ok ws' /\
  soft_objective (fw_eta c) (fw_nu c) y (vote conf (combine ws hs)) v /\
  soft_objective (fw_eta c) (fw_nu c) y (vote conf (combine ws' hs)) v' /\ v' < v.
Proof. exact P_C37_line_search_refuted. Qed.
Print Assumptions C37_line_search_refuted.

Example C36_nonvacuous : is_dist [1 / 3; 2 / 3] /\ is_dist [1; 0] /\ nth 1 [1; 0] 0 = 0 /\ (1 <= 1 <= INR (length y2)) /\
  is_dist [1 / 2; 1 / 2] /\ (forall h i, In h [0%nat; 1%nat] -> (i < length y2)%nat -> -1 <= nth i y2 0 * ls_conf h i <= 1).
Proof.
  repeat split; try (simpl; lra); try (intros x Hx; simpl in Hx; intuition (subst; lra)); destruct H as [<-|[<-|[]]];
    (destruct i as [|[|i]]; [unfold ls_conf; simpl; lra|unfold ls_conf; simpl; lra|simpl in H0; lia]).
Qed.
