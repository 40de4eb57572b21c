(** C96: with the edge criterion and binary64 weights, every split is nearly best and every leaf nearly the mean label *)
From Coq Require Import ZArith List Bool Reals Lia Lra Psatz Permutation String.
From Verif Require Import Base Feature FeatureFacts Sample SampleSpec SampleFacts Bins BinsSpec BinsProofs BinsFacts DTree TreeSpec DTreeBest DTreeGrow TreeShape DTreeFacts Float FloatSpec FloatProofs FloatFacts FloatCheckFacts FloatMedianFacts FloatTree FloatTreeSpec FloatTreeProofs FloatPackProofs FloatGrowProofs FloatGrowthProofs FloatTreeFacts FloatBestSpec FloatBestProofs FloatBestFeature FloatBestGrow FloatBestFacts.
Open Scope R_scope.


(** ** answers and edges *)

Theorem C96_edge_split :
  forall sched order fln s b t dist idx nb, summing sched -> some_order order ->
  trainable s -> dt_made s b -> tb_build b s = Ok t -> tb_criterion b = Edge -> pm_labels s -> length dist = fst (shape s) ->
  idx <> [] -> (length idx <= fst (shape s))%nat -> (forall i, In i idx -> (i < fst (shape s))%nat /\ finite_num (nth i dist f0) /\ 0 < weight64 dist i) ->
  TreeSpec.total (weight64 dist) idx < 2 ^ 1000 ->
  (forall f bins, In f (s_features s) -> sm_get (dt_bins t) (feat_name f) = Ok bins -> (length bins <= nb)%nat) ->
  INR (2 * fst (shape s) + nb) <= 2 ^ 32 ->
  exists f thr, f_best_split sched order fln (dt_criterion t) (dt_bins t) s dist idx = Ok (feat_name f, thr) /\
    nearly_best (128 * INR (2 * fst (shape s) + nb) * uu) (s_features s) (dt_bins t) (label s) (weight64 dist) f thr idx.
Proof. exact P_C96_edge_split. Qed.
Print Assumptions C96_edge_split.

Theorem C96_tree_nearly_greedy :
  forall sched order fln s b t dist nb, summing sched -> some_order order ->
  trainable s -> dt_made s b -> tb_build b s = Ok t -> tb_criterion b = Edge -> pm_labels s -> length dist = fst (shape s) ->
  (forall x, In x dist -> finite_num x /\ 0 <= val x) -> (exists x, In x dist /\ 0 < val x) -> FloatSpec.total dist < 2 ^ 1000 ->
  (forall f bins, In f (s_features s) -> sm_get (dt_bins t) (feat_name f) = Ok bins -> (length bins <= nb)%nat) ->
  INR (2 * fst (shape s) + nb) <= 2 ^ 32 ->
  let tol := 128 * INR (2 * fst (shape s) + nb) * uu in let I := weighted_rows dist (fst (shape s)) in
  exists h, f_dt_produce sched order fln t s dist = Ok h /\
    nearly_greedy tol (s_features s) (dt_bins t) (label s) (weight64 dist) h (tb_depth b) I /\
    answer_edge h s dist I >= (rsum (map (fun i => weight64 dist i * label s i) I)) ^ 2 / FloatSpec.total dist - tol * FloatSpec.total dist.
Proof. exact P_C96_tree_nearly_greedy. Qed.
Print Assumptions C96_tree_nearly_greedy.

(** ** a weak learning guarantee *)

Theorem C96_edge_of_best_stump :
  forall sched order fln s b t dist nb, summing sched -> some_order order ->
  trainable s -> dt_made s b -> tb_build b s = Ok t -> tb_criterion b = Edge -> pm_labels s -> length dist = fst (shape s) ->
  (forall x, In x dist -> finite_num x /\ 0 <= val x) -> / 2 ^ 200 <= FloatSpec.total dist <= 2 ^ 200 ->
  (forall f bins, In f (s_features s) -> sm_get (dt_bins t) (feat_name f) = Ok bins -> (length bins <= nb)%nat) ->
  INR (2 * fst (shape s) + nb) <= 2 ^ 32 ->
  let tol := 128 * INR (2 * fst (shape s) + nb) * uu in let I := weighted_rows dist (fst (shape s)) in
  exists h, f_dt_produce sched order fln t s dist = Ok h /\
    (forall i, (i < fst (shape s))%nat -> exists c, f_node_confidence h s i = Ok c /\ confidence_value c) /\
    forall f th, In f (s_features s) -> offered (dt_bins t) f th ->
      answer_edge h s dist I >= (stump_edge (column f) (label s) (weight64 dist) th I) ^ 2 / FloatSpec.total dist - 12 * tol * FloatSpec.total dist.
Proof. exact P_C96_edge_of_best_stump. Qed.
Print Assumptions C96_edge_of_best_stump.

(** ** a case that meets the hypotheses *)

Example C96_tree_nearly_greedy_applies : forall sched order fln, summing sched -> some_order order ->
  exists h, f_dt_produce sched order fln (gx_tree Edge) gx_sample gx_even = Ok h /\
  nearly_greedy (128 * INR (2 * 3 + 3) * uu) (s_features gx_sample) (dt_bins (gx_tree Edge)) (label gx_sample) (weight64 gx_even) h 2 (weighted_rows gx_even 3).
Proof. exact gx_edge_case. Qed.

Example C96_edge_of_best_stump_applies : forall sched order fln, summing sched -> some_order order ->
  exists h, f_dt_produce sched order fln (gx_tree Edge) gx_sample gx_even = Ok h /\
  forall f th, In f (s_features gx_sample) -> offered (dt_bins (gx_tree Edge)) f th ->
    answer_edge h gx_sample gx_even (weighted_rows gx_even 3) >= (stump_edge (column f) (label gx_sample) (weight64 gx_even) th (weighted_rows gx_even 3)) ^ 2 / FloatSpec.total gx_even - 12 * (128 * INR (2 * 3 + 3) * uu) * FloatSpec.total gx_even.
Proof. exact gx_stump_case. Qed.
