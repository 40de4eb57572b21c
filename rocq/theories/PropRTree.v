(** Facts about the regression tree learner: C29. *)
From Coq Require Import String.
From Verif Require Import Base Spec BinSearch Feature Sample SampleSpec FeatureFacts SampleFacts Bins BinsSpec BinsProofs BinsFacts TreeSpec DTree TreeShape DTreeProofs DTreeSplit DTreeBest DTreeGrow DTreeOut DTreeFacts Losses RTree RTreeSpec RTreeProofs RTreeOut RTreeFacts.
Open Scope R_scope.


(** ** C29: the value of a leaf *)

Theorem C29_leaf :
  forall idx g h lambda, length h = length g -> (forall i, In i idx -> (i < length g)%nat) ->
  let G := rsum (map (fun i => nth i g 0) idx) in let H := rsum (map (fun i => nth i h 0) idx) in
  0 < H + lambda ->
  exists p loss, prediction_and_loss idx g h lambda = Ok (p, loss) /\ loss = G * p + (1 / 2) * (H + lambda) * p ^ 2 /\
    (forall w, G * p + (1 / 2) * (H + lambda) * p ^ 2 <= G * w + (1 / 2) * (H + lambda) * w ^ 2) /\
    forall w, G * w + (1 / 2) * (H + lambda) * w ^ 2 <= loss -> w = p.
Proof. exact P_C29_leaf. Qed.
Print Assumptions C29_leaf.

(** ** C29: the split *)

Theorem C29_split :
  forall s b t g h idx, trainable s -> rt_made s b -> rb_build b s = Ok t -> 0 <= rb_lambda b ->
  length g = fst (shape s) -> length h = fst (shape s) -> idx <> [] -> (forall i, In i idx -> (i < fst (shape s))%nat /\ 0 < nth i h 0) ->
  exists f thr, rt_best_split (rt_bins t) s g h idx (rb_lambda b) = Ok (feat_name f, thr) /\ In f (s_features s) /\
    (exists t0, offered (rt_bins t) f t0 /\ forall i, In i idx -> (column f i < thr <-> column f i < t0)) /\
    forall f' t', In f' (s_features s) -> offered (rt_bins t) f' t' ->
      split_score (fun i => nth i g 0) (fun i => nth i h 0) (rb_lambda b) (column f') t' idx <= split_score (fun i => nth i g 0) (fun i => nth i h 0) (rb_lambda b) (column f) thr idx.
Proof. exact P_C29_split. Qed.
Print Assumptions C29_split.

(** ** C29: the tree grown for arbitrary gradients and positive hessians *)

Theorem C29_tree :
  forall s b t g h, trainable s -> rt_made s b -> rb_build b s = Ok t -> 0 <= rb_lambda b ->
  length g = fst (shape s) -> length h = fst (shape s) -> (forall i, (i < fst (shape s))%nat -> 0 < nth i h 0) ->
  let gf := fun i => nth i g 0 in let hf := fun i => nth i h 0 in let lambda := rb_lambda b in
  exists T, rt_full_tree (rt_bins t) s g h lambda (rb_depth b) (all_rows s) = Ok T /\
    let f := rt_to_node T in
    (depth f <= rb_depth b - 1)%nat /\
    (forall i, (i < fst (shape s))%nat -> exists v, rt_predict f s i = Ok v) /\
    (forall i, (i < fst (shape s))%nat -> let I := filter (same_leaf f s i) (all_rows s) in
       In i I /\ answer f s i = - total gf I / (total hf I + lambda)) /\
    (forall f', same_questions f f' -> tree_objective gf hf lambda f s (all_rows s) <= tree_objective gf hf lambda f' s (all_rows s)) /\
    rsum (map (fun i => gf i * answer f s i) (all_rows s)) <= - ((total gf (all_rows s)) ^ 2 / (total hf (all_rows s) + lambda)) /\
    tree_objective gf hf lambda f s (all_rows s) <= - (1 / 2) * ((total gf (all_rows s)) ^ 2 / (total hf (all_rows s) + lambda)) /\
    ((2 <= rb_depth b)%nat -> total gf (all_rows s) <> 0 -> forall f' t', In f' (s_features s) -> offered (rt_bins t) f' t' ->
       tree_objective gf hf lambda f s (all_rows s) <= - (1 / 2) * split_score gf hf lambda (column f') t' (all_rows s)).
Proof. exact P_C29_tree. Qed.
Print Assumptions C29_tree.

(** ** C29: every split of the tree, for arbitrary gradients and positive hessians, and of the tree returned for the squared loss *)

Theorem C29_every_split :
  forall s b t g h, trainable s -> rt_made s b -> rb_build b s = Ok t -> 0 <= rb_lambda b ->
  length g = fst (shape s) -> length h = fst (shape s) -> (forall i, (i < fst (shape s))%nat -> 0 < nth i h 0) ->
  exists T, rt_full_tree (rt_bins t) s g h (rb_lambda b) (rb_depth b) (all_rows s) = Ok T /\
    greedy_reg (fun i => nth i g 0) (fun i => nth i h 0) (rb_lambda b) (s_features s) (rt_bins t) (rt_to_node T) (rb_depth b) (all_rows s).
Proof. exact P_C29_every_split. Qed.
Print Assumptions C29_every_split.

(** ** C29: the squared loss *)

Theorem C29_squared_loss :
  forall s b t predictions, trainable s -> rt_made s b -> rb_build b s = Ok t -> 0 <= rb_lambda b -> rb_loss b = Some L2 ->
  length predictions = fst (shape s) ->
  let p := fun i => nth i predictions 0 in let y := label s in let lambda := rb_lambda b in
  exists f, rt_produce t s predictions = Ok f /\ (depth f <= rb_depth b - 1)%nat /\
    (forall i, (i < fst (shape s))%nat -> exists v, rt_predict f s i = Ok v) /\
    (* a leaf holds the shrunk mean of its residuals *)
    (forall i, (i < fst (shape s))%nat -> let I := filter (same_leaf f s i) (all_rows s) in
       In i I /\ answer f s i = rsum (map (fun j => y j - p j) I) / (INR (length I) + lambda)) /\
    (* no other values at the leaves fit better *)
    (forall f', same_questions f f' ->
       rsum (map (fun i => (p i + answer f s i - y i) ^ 2) (all_rows s)) + lambda * rsum (map (fun w => w ^ 2) (leaf_values f)) <=
       rsum (map (fun i => (p i + answer f' s i - y i) ^ 2) (all_rows s)) + lambda * rsum (map (fun w => w ^ 2) (leaf_values f'))) /\
    (* adding the tree lowers the squared loss *)
    rsum (map (fun i => (p i + answer f s i - y i) ^ 2) (all_rows s)) + lambda * rsum (map (fun w => w ^ 2) (leaf_values f)) <=
      rsum (map (fun i => (p i - y i) ^ 2) (all_rows s)) - (rsum (map (fun i => p i - y i) (all_rows s))) ^ 2 / (INR (fst (shape s)) + lambda) /\
    ((2 <= rb_depth b)%nat -> rsum (map (fun i => p i - y i) (all_rows s)) <> 0 -> forall f' t', In f' (s_features s) -> offered (rt_bins t) f' t' ->
       rsum (map (fun i => (p i + answer f s i - y i) ^ 2) (all_rows s)) + lambda * rsum (map (fun w => w ^ 2) (leaf_values f)) <=
         rsum (map (fun i => (p i - y i) ^ 2) (all_rows s)) - split_score (fun i => p i - y i) (fun _ => 1) lambda (column f') t' (all_rows s)).
Proof. exact P_C29_squared_loss. Qed.
Print Assumptions C29_squared_loss.

Theorem C29_every_split_squared_loss :
  forall s b t predictions, trainable s -> rt_made s b -> rb_build b s = Ok t -> 0 <= rb_lambda b -> rb_loss b = Some L2 ->
  length predictions = fst (shape s) ->
  exists f, rt_produce t s predictions = Ok f /\
    greedy_reg (fun i => nth i predictions 0 - label s i) (fun _ => 1) (rb_lambda b) (s_features s) (rt_bins t) f (rb_depth b) (all_rows s).
Proof. exact P_C29_every_split_squared_loss. Qed.
Print Assumptions C29_every_split_squared_loss.

(** ** C29: every tree returned, for either loss *)

Theorem C29_any_loss :
  forall s b t predictions f, trainable s -> rt_made s b -> rb_build b s = Ok t -> 0 <= rb_lambda b -> rt_produce t s predictions = Ok f ->
  exists g h, gradient (rt_loss t) predictions (s_target s) = Ok g /\ hessian (rt_loss t) predictions (s_target s) = Ok h /\
    let gf := fun i => nth i g 0 in let hf := fun i => nth i h 0 in
    (forall i, (i < fst (shape s))%nat -> let I := filter (same_leaf f s i) (all_rows s) in
       In i I /\ 0 < total hf I + rb_lambda b /\ answer f s i = - total gf I / (total hf I + rb_lambda b)) /\
    (forall f', same_questions f f' -> tree_objective gf hf (rb_lambda b) f s (all_rows s) <= tree_objective gf hf (rb_lambda b) f' s (all_rows s)) /\
    rsum (map (fun i => gf i * answer f s i) (all_rows s)) <= 0.
Proof. exact P_C29_any_loss. Qed.
Print Assumptions C29_any_loss.

(** for the absolute loss the tree points away from the targets: the gradient the library reports has the wrong sign *)
Theorem C29_L1_uphill_refuted :
  forall s b t predictions f, trainable s -> rt_made s b -> rb_build b s = Ok t -> 0 <= rb_lambda b -> rb_loss b = Some L1 -> rt_produce t s predictions = Ok f ->
  (forall i, (i < fst (shape s))%nat -> nth i predictions 0 <> label s i) ->
  rsum (map (fun i => (if Rlt_dec (label s i) (nth i predictions 0) then 1 else -1) * answer f s i) (all_rows s)) >= 0.
Proof. exact P_C29_L1_uphill_refuted. Qed.
Print Assumptions C29_L1_uphill_refuted.

(** residuals that sum to zero: the tree is a single leaf that answers 0, whatever the offered splits would gain *)
Theorem C29_zero_sum_leaf :
  forall s b t predictions, trainable s -> rt_made s b -> rb_build b s = Ok t -> 0 <= rb_lambda b -> rb_loss b = Some L2 ->
    length predictions = fst (shape s) -> rsum (map (fun i => nth i predictions 0 - label s i) (all_rows s)) = 0 ->
    rt_produce t s predictions = Ok (Leaf 0).
Proof. exact P_C29_zero_sum_leaf. Qed.
Print Assumptions C29_zero_sum_leaf.

Theorem C29_zero_sum_refuted :
  exists s b t predictions f th, trainable s /\ rt_made s b /\ rb_build b s = Ok t /\ 0 <= rb_lambda b /\ rb_loss b = Some L2 /\ (2 <= rb_depth b)%nat /\
    length predictions = fst (shape s) /\ rsum (map (fun i => nth i predictions 0 - label s i) (all_rows s)) = 0 /\
    In f (s_features s) /\ offered (rt_bins t) f th /\ 0 < split_score (fun i => nth i predictions 0 - label s i) (fun _ => 1) (rb_lambda b) (column f) th (all_rows s).
Proof. exact P_C29_zero_sum_refuted. Qed.
Print Assumptions C29_zero_sum_refuted.

(** ** C29, absolute loss: a bin whose gradients cancel counts as empty, and the chosen split can be far from best *)

Theorem C29_L1_split_refuted :
  exists s b t predictions g h f thr, trainable s /\ rt_made s b /\ rb_build b s = Ok t /\ 0 < rb_lambda b /\ rb_loss b = Some L1 /\ length predictions = fst (shape s) /\
    gradient L1 predictions (s_target s) = Ok g /\ hessian L1 predictions (s_target s) = Ok h /\
    rt_best_split (rt_bins t) s g h (all_rows s) (rb_lambda b) = Ok (feat_name f, thr) /\ In f (s_features s) /\
    exists th, offered (rt_bins t) f th /\
      split_score (fun i => nth i g 0) (fun i => nth i h 0) (rb_lambda b) (column f) thr (all_rows s) = 100 /\
      split_score (fun i => nth i g 0) (fun i => nth i h 0) (rb_lambda b) (column f) th (all_rows s) = 500.
Proof. exact P_C29_L1_split_refuted. Qed.
Print Assumptions C29_L1_split_refuted.

Example C29_case : exists s b t, trainable s /\ rt_made s b /\ rb_build b s = Ok t /\ 0 <= rb_lambda b /\ rb_loss b = Some L2 /\ (2 <= rb_depth b)%nat /\ rsum (map (fun i => 0 - label s i) (all_rows s)) <> 0.
Proof.
  exists l1_sample, (mkRTB [("a"%string, 3%nat)] 2 (/ 100) (Some L2)), (mkRTree [("a"%string, l1_bins)] 5 2 (/ 100) L2).
  split; [exact l1_trainable|]. split.
  { pose proof (rm_nbins l1_sample (rb_new l1_sample) "a" 3) as M. unfold rb_set_nbins in M. specialize (M _ (rm_new _) eq_refl). apply (rm_loss _ _ L2) in M. exact M. }
  split; [|split; [simpl; lra|split; [reflexivity|split; [simpl; lia|unfold label; simpl; lra]]]].
  unfold rb_build. cbn [rb_nbins rb_loss]. change (s_features l1_sample) with [l1_feature]. cbn [cut_all]. change (sm_get [("a"%string, 3%nat)] (feat_name l1_feature)) with (Ok (A := nat) 3%nat). cbn [bind]. rewrite l1_cut. reflexivity.
Qed.
