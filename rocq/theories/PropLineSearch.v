(** What the line search of the Frank-Wolfe routine does (C37). *)
From Verif Require Import Base Spec RegSpec SortLib Utils UtilsProofs WMajority WMajorityProofs Booster AdaBoost AdaBoostProofs AdaBoostMain AdaBoostMore Num Hoeffding FrankWolfe FrankWolfeProofs FrankWolfeFacts LineSearchSpec LineSearchFacts.
Open Scope R_scope.


(** ** C37: whatever the sample, the hypotheses and the weights, the line search returns the new hypothesis alone, or the
    half step, or a step within 1e-9 of 0 or of 1 whose objective is strictly smaller than that of the half step *)

Theorem C37_line_search_never_beats_half_refuted :
  forall (H : Type) (conf : H -> nat -> R) (y : list R) (c : fw) (it : nat) (dist : list R) (hs : list H) (k : nat) (ws ws' half : list R),
  fw_type c = LineSearch -> (0 < length y)%nat -> 0 < fw_eta c -> 1 <= fw_nu c <= INR (length y) ->
  length ws = length hs -> moved_towards k (1 / 2) ws half -> next_iterate conf y c it dist hs k ws = Ok ws' ->
  moved_towards k 1 ws ws' \/ ws' = half \/
  exists s, moved_towards k s ws ws' /\ (0 <= s <= / 1000000000 \/ 1 - / 1000000000 <= s <= 1) /\
    forall v v', soft_objective (fw_eta c) (fw_nu c) y (vote conf (combine ws' hs)) v ->
      soft_objective (fw_eta c) (fw_nu c) y (vote conf (combine half hs)) v' -> v < v'.
Proof. exact P_C37_line_search_never_beats_half_refuted. Qed.
Print Assumptions C37_line_search_never_beats_half_refuted.

Example ex_line_search_case : exists (conf : nat -> nat -> R) y c dist (hs : list nat) k ws ws' half,
  fw_type c = LineSearch /\ (0 < length y)%nat /\ 0 < fw_eta c /\ 1 <= fw_nu c <= INR (length y) /\
  length ws = length hs /\ moved_towards k (1 / 2) ws half /\ next_iterate conf y c 2 dist hs k ws = Ok ws'.
Proof.
  destruct P_C37_line_search_refuted as [conf [y [c [dist [hs [k [ws [ws' [v [v' [A [B [C [_ [_ [_ [_ [_ [D [_ [_ [E _]]]]]]]]]]]]]]]]]]]]]].
  exists conf, y, c, dist, hs, k, ws, ws', (map (fun i => (1 - 1 / 2) * nth i ws 0 + 1 / 2 * (if Nat.eqb i k then 1 else 0)) (seq 0 (length ws))).
  split; [exact A|]. split; [|split; [exact B|split; [exact C|split; [exact D|split; [|exact E]]]]].
  - destruct (length y); [simpl in C; lra|lia].
  - split; [rewrite map_length, seq_length; reflexivity|]. intros i Hi. rewrite nth_map_seq by exact Hi. reflexivity.
Qed.
