(** Property C97: AdaBoost over edge-criterion trees, everything in binary64. *)
From Coq Require Import ZArith List Bool Reals Lia Lra Psatz Permutation Sorting String.
From Verif Require Import Base Feature FeatureFacts Sample SampleSpec SampleFacts Bins BinsSpec BinsProofs BinsFacts DTree TreeSpec TreeShape DTreeFacts Float FloatSpec FloatProofs FloatFacts FloatCheckFacts FloatVoteFacts FloatEdge FloatEdgeSpec FloatEdgeFacts FloatTree FloatTreeSpec FloatTreeProofs FloatTreeFacts FloatBestSpec FloatBestProofs FloatBestFacts FloatAda FloatAdaSpec FloatAdaProofs FloatAdaStep FloatAdaRun FloatAdaFacts FloatBoostSpec FloatBoostFacts FloatAdaTree FloatAdaTreeSpec FloatAdaTreeFacts.
Open Scope R_scope.


Theorem C97_training_error :
  forall fexp fln s b t y g nb hist dist, precise_exp fexp -> precise_ln fln ->
  trainable s -> dt_made s b -> tb_build b s = Ok t -> tb_criterion b = Edge -> pm_labels s -> targets64 s y -> INR (fst (shape s)) <= 2 ^ 16 ->
  (forall f bins, In f (s_features s) -> sm_get (dt_bins t) (feat_name f) = Ok bins -> (length bins <= nb)%nat) -> INR nb <= 2 ^ 19 ->
  / 2 ^ 9 <= g <= 1 -> weak_stumps g s (dt_bins t) ->
  f_ada_tree_run fexp fln mild_edge t s y hist dist -> hist <> [] -> rsum (map (fun p => Rabs (val (fst p))) hist) <= 256 -> INR (length hist) <= 2 ^ 30 ->
  let gamma := g * g - / 2 ^ 20 in
  exists v, f_from_slices (map fst hist) (map snd hist) = Ok v /\
    INR (wrong_rows s v) <= INR (fst (shape s)) * (sqrt (1 - gamma * gamma) + / 2 ^ 14) ^ length hist * (1 + / 2 ^ 20).
Proof. exact P_C97_training_error. Qed.
Print Assumptions C97_training_error.

Theorem C97_no_mistakes :
  forall fexp fln s b t y g nb hist dist, precise_exp fexp -> precise_ln fln ->
  trainable s -> dt_made s b -> tb_build b s = Ok t -> tb_criterion b = Edge -> pm_labels s -> targets64 s y -> INR (fst (shape s)) <= 2 ^ 16 ->
  (forall f bins, In f (s_features s) -> sm_get (dt_bins t) (feat_name f) = Ok bins -> (length bins <= nb)%nat) -> INR nb <= 2 ^ 19 ->
  / 2 ^ 9 <= g <= 1 -> weak_stumps g s (dt_bins t) ->
  f_ada_tree_run fexp fln mild_edge t s y hist dist -> hist <> [] -> rsum (map (fun p => Rabs (val (fst p))) hist) <= 256 -> INR (length hist) <= 2 ^ 30 ->
  let gamma := g * g - / 2 ^ 20 in
  INR (fst (shape s)) * (sqrt (1 - gamma * gamma) + / 2 ^ 14) ^ length hist * (1 + / 2 ^ 20) < 1 ->
  exists v, f_from_slices (map fst hist) (map snd hist) = Ok v /\ forall i, (i < fst (shape s))%nat -> IZR (f_predict (conf64 s i) v) = label s i.
Proof. exact P_C97_no_mistakes. Qed.
Print Assumptions C97_no_mistakes.

(** ** every round succeeds, and has an edge *)

Theorem C97_round_succeeds :
  forall fexp fln s b t y g nb hist dist sched order, precise_exp fexp -> precise_ln fln -> summing sched -> some_order order ->
  trainable s -> dt_made s b -> tb_build b s = Ok t -> tb_criterion b = Edge -> pm_labels s -> targets64 s y -> INR (fst (shape s)) <= 2 ^ 16 ->
  (forall f bins, In f (s_features s) -> sm_get (dt_bins t) (feat_name f) = Ok bins -> (length bins <= nb)%nat) -> INR nb <= 2 ^ 19 ->
  0 <= g <= 1 -> weak_stumps g s (dt_bins t) -> f_ada_tree_run fexp fln mild_edge t s y hist dist ->
  exists h conf, f_dt_produce sched order fln t s dist = Ok h /\ f_tree_answers h s (seq 0 (fst (shape s))) = Ok conf /\
    forall e, f_edge y conf dist e -> finite_num e /\ g * g - / 2 ^ 20 <= val e /\ Rabs (val e - answer_edge h s dist (seq 0 (fst (shape s)))) <= / 2 ^ 34 /\
      (mild_edge e -> (exists ix, f_ascending (f_ada_logs fln (f_ada_weight fln e) (f_margins y conf) dist) ix) /\
        forall ix, f_ascending (f_ada_logs fln (f_ada_weight fln e) (f_margins y conf) dist) ix ->
          exists dist', f_ada_update fexp fln ix (f_ada_weight fln e) (f_margins y conf) dist = Ok dist' /\ f_ada_tree_run fexp fln mild_edge t s y (hist ++ [(f_ada_weight fln e, h)]) dist').
Proof. exact P_C97_round_succeeds. Qed.
Print Assumptions C97_round_succeeds.

(** ** three rows that no stump separates *)

(** ** Example: three rows labelled 1, -1, 1 from left to right, trees of depth 1: a round in f64 happens, and the theorems apply *)

Example C97_nonvacuous : exists fexp fln hist dist, precise_exp fexp /\ precise_ln fln /\ trainable at_sample /\ dt_made at_sample at_builder /\ tb_build at_builder at_sample = Ok at_tree /\ tb_criterion at_builder = Edge /\
  pm_labels at_sample /\ targets64 at_sample at_y /\ weak_stumps (1 / 3) at_sample (dt_bins at_tree) /\ f_ada_tree_run fexp fln mild_edge at_tree at_sample at_y hist dist /\ length hist = 1%nat /\
  rsum (map (fun p => Rabs (val (fst p))) hist) <= 256.
Proof. exact ex_C97. Qed.
