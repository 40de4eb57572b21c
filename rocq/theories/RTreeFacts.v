(** Facts about the regression tree learner: C29. *)
From Coq Require Import String.
From Verif Require Import Base Spec BinSearch Feature Sample SampleSpec FeatureFacts SampleFacts Bins BinsSpec BinsProofs BinsFacts TreeSpec DTree TreeShape DTreeProofs DTreeSplit DTreeBest DTreeGrow DTreeOut DTreeFacts Losses RTree RTreeSpec RTreeProofs RTreeOut.
Open Scope R_scope.

Lemma rt_made_builder s b : rt_made s b -> map fst (rb_nbins b) = map feat_name (s_features s) /\ (1 <= rb_depth b)%nat.
Proof.
  intros M. induction M as [|b l M IH|b x M IH|b d b' M IH E|b nm n b' M IH E].
  - unfold rb_new. simpl. rewrite map_map. simpl. split; [reflexivity|lia].
  - exact IH.
  - exact IH.
  - unfold rb_max_depth in E. destruct (Nat.ltb_spec 0 d) as [L|L]; cbn [assert_ bind] in E; [|discriminate]. inversion E; subst. simpl. split; [apply IH|lia].
  - unfold rb_set_nbins in E. destruct (sm_get (rb_nbins b) nm); [|discriminate]. cbn [bind] in E. inversion E; subst. simpl. rewrite map_map. destruct IH as [IH1 IH2]. split; [|exact IH2]. rewrite <- IH1. apply map_ext. intros [k v]. simpl. destruct (String.eqb k nm); reflexivity.
Qed.
Lemma rt_built s b t : good s -> (0 < s_n_sample s)%nat -> NoDup (map feat_name (s_features s)) -> (forall f x, In f (s_features s) -> In x (stored f) -> moderate x) ->
  rb_build b s = Ok t ->
  rt_depth t = rb_depth b /\ rt_lambda t = rb_lambda b /\ rb_loss b = Some (rt_loss t) /\ rt_n t = fst (shape s) /\
  forall f, In f (s_features s) -> exists nb bins, sm_get (rb_nbins b) (feat_name f) = Ok nb /\ cut f nb = Ok bins /\ sm_get (rt_bins t) (feat_name f) = Ok bins /\ chain F64MIN F64MAX bins.
Proof.
  intros G Hn NN Hm E. unfold rb_build in E. destruct (cut_all (rb_nbins b) (s_features s)) as [bm|] eqn:Ec; [|discriminate]. cbn [bind] in E. destruct (rb_loss b) as [l|]; [|discriminate]. inversion E; subst t. simpl.
  repeat (split; [reflexivity|]). intros f Hf. destruct (cut_all_in _ _ _ Ec f Hf) as [k [bins [E1 [E2 E3]]]]. exists k, bins. split; [exact E1|]. split; [exact E2|]. split.
  - apply sm_get_in; [|exact E3]. rewrite (cut_all_keys _ _ _ Ec). exact NN.
  - assert (Hc : col_ok (s_n_sample s) f) by (pose proof (good_cols s G) as F; rewrite Forall_forall in F; apply F, Hf). destruct (spans_exists _ f Hn Hc) as [mn [mx Hs]].
    pose proof (cut_spec f k mn mx Hs (fun x Hx => Hm f x Hf Hx)) as S. rewrite E2 in S. tauto.
Qed.

(** ** C29: the value of a leaf *)
Lemma P_C29_leaf :
  forall idx g h lambda, length h = length g -> (forall i, In i idx -> (i < length g)%nat) ->
  let G := rsum (map (fun i => nth i g 0) idx) in let H := rsum (map (fun i => nth i h 0) idx) in
  0 < H + lambda ->
  exists p loss, prediction_and_loss idx g h lambda = Ok (p, loss) /\ loss = G * p + (1 / 2) * (H + lambda) * p ^ 2 /\
    (forall w, G * p + (1 / 2) * (H + lambda) * p ^ 2 <= G * w + (1 / 2) * (H + lambda) * w ^ 2) /\
    forall w, G * w + (1 / 2) * (H + lambda) * w ^ 2 <= loss -> w = p.
Proof.
  intros idx g h lambda Hlen Hi G H HP. unfold prediction_and_loss.
  assert (S : forall l, length l = length g -> sum_at l idx = Ok (rsum (map (fun i => nth i l 0) idx))).
  { intros l El. revert Hi. clear - El. induction idx as [|i I IH]; intros Hi; [reflexivity|]. cbn [sum_at]. rewrite get_ok by (rewrite El; apply Hi; left; reflexivity). cbn [bind]. rewrite IH by (intros j Hj; apply Hi; right; exact Hj). reflexivity. }
  rewrite (S g eq_refl). cbn [bind]. rewrite (S h Hlen). cbn [bind]. fold G H. rewrite Reqb_false by lra.
  assert (E : forall w, G * w + 1 / 2 * (H + lambda) * w ^ 2 - (G * (- G / (H + lambda)) + 1 / 2 * (H + lambda) * (- G / (H + lambda)) ^ 2) = (1 / 2) * (H + lambda) * (w - - G / (H + lambda)) ^ 2) by (intros w; field; lra).
  eexists _, _. split; [reflexivity|]. split; [field; lra|]. split.
  - intros w. specialize (E w). assert (0 <= 1 / 2 * (H + lambda) * (w - - G / (H + lambda)) ^ 2); [|lra]. apply Rmult_le_pos; [lra|apply pow2_ge_0].
  - intros w Hw. specialize (E w).
    assert (E2 : - (1 / 2) * G ^ 2 / (H + lambda) = G * (- G / (H + lambda)) + 1 / 2 * (H + lambda) * (- G / (H + lambda)) ^ 2) by (field; lra). rewrite E2 in Hw.
    pose proof (pow2_ge_0 (w - - G / (H + lambda))) as Q. assert (Z : (w - - G / (H + lambda)) ^ 2 = 0).
    { destruct (Req_EM_T ((w - - G / (H + lambda)) ^ 2) 0) as [Z|Z]; [exact Z|]. assert (0 < 1 / 2 * (H + lambda) * (w - - G / (H + lambda)) ^ 2) by (apply Rmult_lt_0_compat; [apply Rmult_lt_0_compat; lra|lra]). lra. }
    simpl in Z. rewrite Rmult_1_r in Z. apply Rmult_integral in Z. destruct Z; lra.
Qed.

Section Use.
  Variables (s : sample) (b : rt_builder) (t : rtree) (g h : list R).
  Hypothesis Tr : trainable s.
  Hypothesis Eb : rb_build b s = Ok t.
  Hypothesis Hl : 0 <= rb_lambda b.
  Hypothesis Hg : length g = fst (shape s).
  Hypothesis Hh : length h = fst (shape s).
  Let gf i := nth i g 0.
  Let hf i := nth i h 0.

  Lemma use_hyp : good s /\ NoDup (map feat_name (s_features s)) /\ s_features s <> [] /\
    (forall f i, In f (s_features s) -> (i < s_n_sample s)%nat -> F64MIN <= fval f i < F64MAX) /\
    (forall f, In f (s_features s) -> exists bins, sm_get (rt_bins t) (feat_name f) = Ok bins /\ chain F64MIN F64MAX bins) /\ 0 <= rt_lambda t.
  Proof.
    destruct Tr as [M [Hn [Hf [NN [Ht Hm]]]]]. pose proof (made_good s M) as G. destruct (rt_built s b t G Hn NN Hm Eb) as [_ [El [_ [_ Hbins]]]].
    split; [exact G|]. split; [exact NN|]. split; [exact Hf|]. split; [|split; [|rewrite El; exact Hl]].
    - intros f i Hf' Hi. assert (Hcf : col_ok (s_n_sample s) f) by (pose proof (good_cols s G) as F; rewrite Forall_forall in F; apply F, Hf'). apply (value_range (s_n_sample s)); auto. intros x Hx. apply (Hm f x Hf' Hx).
    - intros f Hf'. destruct (Hbins f Hf') as [nb [bins [_ [_ H]]]]. exists bins. exact H.
  Qed.

  Lemma use_split idx : idx <> [] -> (forall i, In i idx -> (i < fst (shape s))%nat /\ 0 < hf i) ->
    exists f thr, rt_best_split (rt_bins t) s g h idx (rt_lambda t) = Ok (feat_name f, thr) /\ In f (s_features s) /\
      (exists t0, offered (rt_bins t) f t0 /\ forall i, In i idx -> (column f i < thr <-> column f i < t0)) /\
      forall f' t', In f' (s_features s) -> offered (rt_bins t) f' t' -> split_score gf hf (rt_lambda t) (column f') t' idx <= split_score gf hf (rt_lambda t) (column f) thr idx.
  Proof.
    intros Hne Hidx. destruct use_hyp as [G [NN [Hf [Hv [Hb Hl']]]]].
    destruct (rt_best_split_spec s g h (rt_bins t) (rt_lambda t) G NN Hf Hg Hh Hv Hb Hl' idx) as [f [thr [E [Hin [Hoff Hq]]]]]; [split; [exact Hne|exact Hidx]|].
    assert (Hcf : forall f0, In f0 (s_features s) -> forall i, In i idx -> column f0 i = fval f0 i).
    { intros f0 Hg0 i Hi. apply (column_fval (s_n_sample s)); [pose proof (good_cols s G) as F; rewrite Forall_forall in F; apply F, Hg0|]. apply (Hidx i Hi). }
    assert (Hsc : forall f0 th, In f0 (s_features s) -> split_score gf hf (rt_lambda t) (column f0) th idx = split_score gf hf (rt_lambda t) (fval f0) th idx).
    { intros f0 th Hf0. apply (score_ext g h (rt_lambda t)). intros i Hi. rewrite (Hcf f0 Hf0 i Hi). tauto. }
    exists f, thr. split; [exact E|]. split; [exact Hin|]. split.
    - destruct Hoff as [t0 [O S]]. exists t0. split; [exact O|]. intros i Hi. rewrite (Hcf f Hin i Hi). apply S, Hi.
    - intros f' t' Hf' Ht'. rewrite !Hsc by assumption. apply Hq; assumption.
  Qed.

  Lemma use_any T (Hpos : forall i, 0 <= hf i) : rt_full_tree (rt_bins t) s g h (rt_lambda t) (rt_depth t) (all_rows s) = Ok T ->
    (forall i, (i < fst (shape s))%nat -> exists v, node_confidence (rt_to_node T) s i = Ok v) /\
    (forall i, (i < fst (shape s))%nat -> let I := filter (same_leaf (rt_to_node T) s i) (all_rows s) in
       In i I /\ 0 < total hf I + rt_lambda t /\ answer (rt_to_node T) s i = - total gf I / (total hf I + rt_lambda t)) /\
    (forall t', same_questions (rt_to_node T) t' -> tree_objective gf hf (rt_lambda t) (rt_to_node T) s (all_rows s) <= tree_objective gf hf (rt_lambda t) t' s (all_rows s)) /\
    rsum (map (fun i => gf i * answer (rt_to_node T) s i) (all_rows s)) = 2 * tree_objective gf hf (rt_lambda t) (rt_to_node T) s (all_rows s) /\
    tree_objective gf hf (rt_lambda t) (rt_to_node T) s (all_rows s) <= 0.
  Proof.
    intros E. destruct use_hyp as [G [NN [Hf [Hv [Hb Hl']]]]].
    assert (Hin : forall i, (i < fst (shape s))%nat -> In i (all_rows s)) by (intros i Hi; apply in_seq; lia).
    assert (Hgr : grown s g h (rt_lambda t) T (all_rows s)).
    { apply (full_tree_grown s g h (rt_bins t) (rt_lambda t) Hg Hh Hl' Hpos (rt_depth t)); [|exact E]. intros i Hi. apply in_seq in Hi. simpl in Hi. lia. }
    split; [|split; [|split]].
    - intros i Hi. destruct (a_answers s g h (rt_lambda t) T (all_rows s) Hgr i (Hin i Hi)) as [v [p [A _]]]. eauto.
    - intros i Hi. apply (a_leaf_rows s g h (rt_lambda t) T (all_rows s) Hgr i (Hin i Hi)).
    - intros t' Hq. apply (a_optimal s g h (rt_lambda t) T (all_rows s) Hgr t' Hq).
    - apply (a_descent s g h (rt_lambda t) T (all_rows s) Hgr).
  Qed.

  Lemma below_ext_f (x x' : nat -> R) th I : (forall i, In i I -> x i = x' i) -> filter (below x th) I = filter (below x' th) I /\ filter (not_below x th) I = filter (not_below x' th) I.
  Proof. intros E. split; apply filter_ext_in; intros i Hi; unfold below, not_below; rewrite (E i Hi); reflexivity. Qed.

  Lemma use_greedy T lev : (forall i, (i < fst (shape s))%nat -> 0 < hf i) -> forall idx, grows s h idx -> rtree_ok s g h (rt_bins t) (rt_lambda t) T lev idx ->
    greedy_reg gf hf (rt_lambda t) (s_features s) (rt_bins t) (rt_to_node T) lev idx.
  Proof.
    intros Hpos. destruct use_hyp as [G [NN [Hf [Hv [Hb Hl']]]]].
    assert (Hcf : forall f0, In f0 (s_features s) -> forall i, (i < fst (shape s))%nat -> column f0 i = fval f0 i).
    { intros f0 Hg0 i Hi. apply (column_fval (s_n_sample s)); [pose proof (good_cols s G) as F; rewrite Forall_forall in F; apply F, Hg0|]. exact Hi. }
    assert (Hbest : forall f thr idx, grows s h idx -> In f (s_features s) -> best_question s g h (rt_bins t) (rt_lambda t) f thr idx -> best_score_rule gf hf (rt_lambda t) (s_features s) (rt_bins t) f thr idx).
    { intros f thr idx Hr Hin [[t0 [O S]] Hq].
      assert (Hsc : forall f0 th, In f0 (s_features s) -> split_score gf hf (rt_lambda t) (column f0) th idx = split_score gf hf (rt_lambda t) (fval f0) th idx).
      { intros f0 th Hf0. apply (score_ext g h (rt_lambda t)). intros i Hi. rewrite (Hcf f0 Hf0 i (proj1 (proj2 Hr i Hi))). tauto. }
      split; [exact Hin|]. split.
      - exists t0. split; [exact O|]. intros i Hi. rewrite (Hcf f Hin i (proj1 (proj2 Hr i Hi))). apply S, Hi.
      - intros f' t' Hf' Ht'. rewrite !Hsc by assumption. apply Hq; assumption. }
    revert lev. induction T as [p loss|rule l IHl r IHr p loss]; intros lev idx Hr HT; cbn [rtree_ok rt_to_node greedy_reg] in HT |- *.
    - destruct HT as [[Ep Eloss] HT]. split; [exact Ep|]. pose proof (grows_pos s h idx idx Hr (incl_refl _) (proj1 Hr)) as Ph. fold hf in Ph.
      destruct HT as [HT|[HT|[f [thr [Hin [Hbq HT]]]]]]; [left; exact HT|right; left|right; right].
      + rewrite HT in Eloss. set (Gs := total gf idx) in *. set (Hs := total hf idx + rt_lambda t) in *.
        assert (HH : 0 < Hs) by (unfold Hs; lra). change (0 = - (1 / 2) * Gs ^ 2 / Hs) in Eloss.
        assert (Z : Gs ^ 2 = 0). { assert (Gs ^ 2 = (- (1 / 2) * Gs ^ 2 / Hs) * (-2 * Hs)) by (field; lra). rewrite <- Eloss in H. lra. }
        simpl in Z. rewrite Rmult_1_r in Z. apply Rmult_integral in Z. destruct Z; assumption.
      + exists f, thr. split; [apply (Hbest f thr idx Hr Hin Hbq)|]. destruct HT as [HT|HT]; [right|left]; intros i Hi; rewrite (Hcf f Hin i (proj1 (proj2 Hr i Hi))).
        * destruct (Rlt_dec (fval f i) thr) as [L|L]; [|lra]. exfalso. assert (In i []) as []. rewrite <- HT. apply filter_In. split; [exact Hi|]. unfold below. destruct (Rlt_dec (fval f i) thr); [reflexivity|lra].
        * destruct (Rlt_dec (fval f i) thr) as [L|L]; [lra|]. exfalso. assert (In i []) as []. rewrite <- HT. apply filter_In. split; [exact Hi|]. unfold not_below. destruct (Rlt_dec (fval f i) thr); [lra|reflexivity].
    - destruct HT as [_ [lev' [f [thr [-> [-> [Hin [Hbq [N1 [N2 [T1 T2]]]]]]]]]]]. exists lev', f. split; [reflexivity|]. split; [reflexivity|]. cbn [sp_threshold].
      split; [apply (Hbest f thr idx Hr Hin Hbq)|].
      destruct (below_ext_f (column f) (fval f) thr idx) as [E1 E2]; [intros i Hi; apply (Hcf f Hin i (proj1 (proj2 Hr i Hi)))|]. rewrite E1, E2.
      split; [exact N1|]. split; [exact N2|]. split; [apply IHl|apply IHr]; try assumption; apply grows_filter; assumption.
  Qed.

  Lemma use_tree : (forall i, (i < fst (shape s))%nat -> 0 < hf i) -> exists T, rt_full_tree (rt_bins t) s g h (rt_lambda t) (rt_depth t) (all_rows s) = Ok T /\
    (depth (rt_to_node T) <= rt_depth t - 1)%nat /\
    tree_objective gf hf (rt_lambda t) (rt_to_node T) s (all_rows s) <= - (1 / 2) * side_score gf hf (rt_lambda t) (all_rows s) /\
    ((2 <= rt_depth t)%nat -> total gf (all_rows s) <> 0 -> forall f' t', In f' (s_features s) -> offered (rt_bins t) f' t' ->
       tree_objective gf hf (rt_lambda t) (rt_to_node T) s (all_rows s) <= - (1 / 2) * split_score gf hf (rt_lambda t) (column f') t' (all_rows s)).
  Proof.
    intros Hpos. destruct use_hyp as [G [NN [Hf [Hv [Hb Hl']]]]].
    assert (Hr : grows s h (all_rows s)).
    { split; [|intros i Hi; apply in_seq in Hi; simpl in Hi; split; [lia|apply Hpos; simpl; lia]]. destruct Tr as [_ [Hn _]]. unfold all_rows. destruct (fst (shape s)); [lia|discriminate]. }
    destruct (rt_full_tree_ok s g h (rt_bins t) (rt_lambda t) G NN Hf Hg Hh Hv Hb Hl' (rt_depth t) (all_rows s) Hr) as [T [E [HT D]]].
    exists T. split; [exact E|]. split; [rewrite rt_depth_node; exact D|]. split.
    - apply (r_bound s g h (rt_bins t) (rt_lambda t) G NN Hv Hb Hl' T (rt_depth t) (all_rows s) Hr HT).
    - intros Hd HG f' t' Hf' Ht'. rewrite (score_ext g h (rt_lambda t) (column f') (fval f') t' t').
      + apply (r_bound_split s g h (rt_bins t) (rt_lambda t) G NN Hv Hb Hl' T (rt_depth t) (all_rows s) Hr HT Hd HG f' t' Hf' Ht').
      + intros i Hi. apply in_seq in Hi. rewrite (column_fval (s_n_sample s)); [tauto| |simpl in Hi; lia]. pose proof (good_cols s G) as F. rewrite Forall_forall in F. apply F, Hf'.
  Qed.
End Use.

(** ** C29: the split *)
Lemma P_C29_split :
  forall s b t g h idx, trainable s -> rt_made s b -> rb_build b s = Ok t -> 0 <= rb_lambda b ->
  length g = fst (shape s) -> length h = fst (shape s) -> idx <> [] -> (forall i, In i idx -> (i < fst (shape s))%nat /\ 0 < nth i h 0) ->
  exists f thr, rt_best_split (rt_bins t) s g h idx (rb_lambda b) = Ok (feat_name f, thr) /\ In f (s_features s) /\
    (exists t0, offered (rt_bins t) f t0 /\ forall i, In i idx -> (column f i < thr <-> column f i < t0)) /\
    forall f' t', In f' (s_features s) -> offered (rt_bins t) f' t' ->
      split_score (fun i => nth i g 0) (fun i => nth i h 0) (rb_lambda b) (column f') t' idx <= split_score (fun i => nth i g 0) (fun i => nth i h 0) (rb_lambda b) (column f) thr idx.
Proof.
  intros s b t g h idx Tr Mb Eb Hl Hg Hh Hne Hidx. assert (El : rt_lambda t = rb_lambda b) by (unfold rb_build in Eb; destruct (cut_all (rb_nbins b) (s_features s)); [|discriminate]; cbn [bind] in Eb; destruct (rb_loss b); [|discriminate]; inversion Eb; reflexivity).
  rewrite <- El. apply (use_split s b t g h Tr Eb Hl Hg Hh idx Hne Hidx).
Qed.

(** ** C29: the tree grown for arbitrary gradients and positive hessians *)
Lemma P_C29_tree :
  forall s b t g h, trainable s -> rt_made s b -> rb_build b s = Ok t -> 0 <= rb_lambda b ->
  length g = fst (shape s) -> length h = fst (shape s) -> (forall i, (i < fst (shape s))%nat -> 0 < nth i h 0) ->
  let gf := fun i => nth i g 0 in let hf := fun i => nth i h 0 in let lambda := rb_lambda b in
  exists T, rt_full_tree (rt_bins t) s g h lambda (rb_depth b) (all_rows s) = Ok T /\
    let f := rt_to_node T in
    (depth f <= rb_depth b - 1)%nat /\
    (forall i, (i < fst (shape s))%nat -> exists v, rt_predict f s i = Ok v) /\
    (forall i, (i < fst (shape s))%nat -> let I := filter (same_leaf f s i) (all_rows s) in
       In i I /\ answer f s i = - total gf I / (total hf I + lambda)) /\
    (forall f', same_questions f f' -> tree_objective gf hf lambda f s (all_rows s) <= tree_objective gf hf lambda f' s (all_rows s)) /\
    rsum (map (fun i => gf i * answer f s i) (all_rows s)) <= - ((total gf (all_rows s)) ^ 2 / (total hf (all_rows s) + lambda)) /\
    tree_objective gf hf lambda f s (all_rows s) <= - (1 / 2) * ((total gf (all_rows s)) ^ 2 / (total hf (all_rows s) + lambda)) /\
    ((2 <= rb_depth b)%nat -> total gf (all_rows s) <> 0 -> forall f' t', In f' (s_features s) -> offered (rt_bins t) f' t' ->
       tree_objective gf hf lambda f s (all_rows s) <= - (1 / 2) * split_score gf hf lambda (column f') t' (all_rows s)).
Proof.
  intros s b t g h Tr Mb Eb Hl Hg Hh Hpos gf hf lambda.
  assert (El : rt_lambda t = rb_lambda b /\ rt_depth t = rb_depth b) by (unfold rb_build in Eb; destruct (cut_all (rb_nbins b) (s_features s)); [|discriminate]; cbn [bind] in Eb; destruct (rb_loss b); [|discriminate]; inversion Eb; auto).
  destruct El as [El Ed]. unfold lambda. rewrite <- El, <- Ed.
  assert (Hnn : forall i, 0 <= nth i h 0). { intros i. destruct (Nat.lt_ge_cases i (length h)) as [L|L]; [left; apply Hpos; lia|]. rewrite nth_overflow by exact L. lra. }
  destruct (use_tree s b t g h Tr Eb Hl Hg Hh Hpos) as [T [E [D [B1 B2]]]].
  destruct (use_any s b t g h Tr Eb Hl Hg Hh T Hnn E) as [A1 [A2 [A3 [A4 A5]]]].
  exists T. split; [exact E|]. split; [exact D|]. split; [exact A1|]. split; [|split; [exact A3|split; [|split; [|exact B2]]]].
  - intros i Hi. cbv zeta. destruct (A2 i Hi) as [Q1 [_ Q2]]. split; [exact Q1|exact Q2].
  - rewrite side_real in B1. unfold gf, hf. rewrite A4. lra.
  - rewrite side_real in B1. exact B1.
Qed.

(** ** C29: every split of the tree, for arbitrary gradients and positive hessians, and of the tree returned for the squared loss *)
Lemma P_C29_every_split :
  forall s b t g h, trainable s -> rt_made s b -> rb_build b s = Ok t -> 0 <= rb_lambda b ->
  length g = fst (shape s) -> length h = fst (shape s) -> (forall i, (i < fst (shape s))%nat -> 0 < nth i h 0) ->
  exists T, rt_full_tree (rt_bins t) s g h (rb_lambda b) (rb_depth b) (all_rows s) = Ok T /\
    greedy_reg (fun i => nth i g 0) (fun i => nth i h 0) (rb_lambda b) (s_features s) (rt_bins t) (rt_to_node T) (rb_depth b) (all_rows s).
Proof.
  intros s b t g h Tr Mb Eb Hl Hg Hh Hpos.
  assert (El : rt_lambda t = rb_lambda b /\ rt_depth t = rb_depth b) by (unfold rb_build in Eb; destruct (cut_all (rb_nbins b) (s_features s)); [|discriminate]; cbn [bind] in Eb; destruct (rb_loss b); [|discriminate]; inversion Eb; auto).
  destruct El as [El Ed]. rewrite <- El, <- Ed.
  destruct (use_hyp s b t Tr Eb Hl) as [G [NN [Hf [Hv [Hb Hl']]]]].
  assert (Hr : grows s h (all_rows s)).
  { split; [|intros i Hi; apply in_seq in Hi; simpl in Hi; split; [lia|apply Hpos; simpl; lia]]. destruct Tr as [_ [Hn _]]. unfold all_rows. destruct (fst (shape s)); [lia|discriminate]. }
  destruct (rt_full_tree_ok s g h (rt_bins t) (rt_lambda t) G NN Hf Hg Hh Hv Hb Hl' (rt_depth t) (all_rows s) Hr) as [T [E [HT D]]].
  exists T. split; [exact E|]. apply (use_greedy s b t g h Tr Eb Hl T (rt_depth t) Hpos (all_rows s) Hr HT).
Qed.

(** ** C29: the squared loss *)
Lemma nth_combine_map (F : R * R -> R) a c i : length a = length c -> (i < length a)%nat -> nth i (map F (combine a c)) 0 = F (nth i a 0, nth i c 0).
Proof.
  intros E Hi. rewrite (nth_map_in F (combine a c) i (0, 0) 0) by (rewrite combine_length; lia). rewrite combine_nth by exact E. reflexivity.
Qed.

Lemma P_C29_squared_loss :
  forall s b t predictions, trainable s -> rt_made s b -> rb_build b s = Ok t -> 0 <= rb_lambda b -> rb_loss b = Some L2 ->
  length predictions = fst (shape s) ->
  let p := fun i => nth i predictions 0 in let y := label s in let lambda := rb_lambda b in
  exists f, rt_produce t s predictions = Ok f /\ (depth f <= rb_depth b - 1)%nat /\
    (forall i, (i < fst (shape s))%nat -> exists v, rt_predict f s i = Ok v) /\
    (* a leaf holds the shrunk mean of its residuals *)
    (forall i, (i < fst (shape s))%nat -> let I := filter (same_leaf f s i) (all_rows s) in
       In i I /\ answer f s i = rsum (map (fun j => y j - p j) I) / (INR (length I) + lambda)) /\
    (* no other values at the leaves fit better *)
    (forall f', same_questions f f' ->
       rsum (map (fun i => (p i + answer f s i - y i) ^ 2) (all_rows s)) + lambda * rsum (map (fun w => w ^ 2) (leaf_values f)) <=
       rsum (map (fun i => (p i + answer f' s i - y i) ^ 2) (all_rows s)) + lambda * rsum (map (fun w => w ^ 2) (leaf_values f'))) /\
    (* adding the tree lowers the squared loss *)
    rsum (map (fun i => (p i + answer f s i - y i) ^ 2) (all_rows s)) + lambda * rsum (map (fun w => w ^ 2) (leaf_values f)) <=
      rsum (map (fun i => (p i - y i) ^ 2) (all_rows s)) - (rsum (map (fun i => p i - y i) (all_rows s))) ^ 2 / (INR (fst (shape s)) + lambda) /\
    ((2 <= rb_depth b)%nat -> rsum (map (fun i => p i - y i) (all_rows s)) <> 0 -> forall f' t', In f' (s_features s) -> offered (rt_bins t) f' t' ->
       rsum (map (fun i => (p i + answer f s i - y i) ^ 2) (all_rows s)) + lambda * rsum (map (fun w => w ^ 2) (leaf_values f)) <=
         rsum (map (fun i => (p i - y i) ^ 2) (all_rows s)) - split_score (fun i => p i - y i) (fun _ => 1) lambda (column f') t' (all_rows s)).
Proof.
  intros s b t predictions Tr Mb Eb Hl Eloss Hlen p y lambda.
  assert (Et : rt_lambda t = rb_lambda b /\ rt_depth t = rb_depth b /\ rt_loss t = L2 /\ rt_n t = fst (shape s)) by (unfold rb_build in Eb; destruct (cut_all (rb_nbins b) (s_features s)); [|discriminate]; cbn [bind] in Eb; rewrite Eloss in Eb; inversion Eb; auto).
  destruct Et as [El [Ed [Els En]]].
  assert (Hy : length (s_target s) = fst (shape s)) by apply Tr.
  assert (Eeq : Nat.eqb (length predictions) (length (s_target s)) = true) by (apply Nat.eqb_eq; lia).
  set (g := map (fun q : R * R => let '(y, p) := q in p - y) (combine (s_target s) predictions)).
  set (h := repeat 1 (length predictions)).
  assert (Eg : gradient L2 predictions (s_target s) = Ok g) by (unfold gradient; rewrite Eeq; reflexivity).
  assert (Eh : hessian L2 predictions (s_target s) = Ok h) by (unfold hessian; rewrite Eeq; reflexivity).
  assert (Lg : length g = fst (shape s)) by (unfold g; rewrite map_length, combine_length; lia).
  assert (Lh : length h = fst (shape s)) by (unfold h; rewrite repeat_length; exact Hlen).
  assert (Vg : forall i, In i (all_rows s) -> nth i g 0 = p i - y i).
  { intros i Hi. apply in_seq in Hi. unfold g. rewrite nth_combine_map by lia. reflexivity. }
  assert (Vh : forall i, In i (all_rows s) -> nth i h 0 = 1) by (intros i Hi; apply in_seq in Hi; unfold h; apply nth_repeat_lt; lia).
  assert (Hpos : forall i, (i < fst (shape s))%nat -> 0 < nth i h 0) by (intros i Hi; rewrite Vh by (apply in_seq; lia); lra).
  destruct (P_C29_tree s b t g h Tr Mb Eb Hl Lg Lh Hpos) as [T [E [D [A1 [A2 [A3 [_ [B1 B2]]]]]]]].
  assert (Tg : forall I, incl I (all_rows s) -> total (fun i => nth i g 0) I = rsum (map (fun j => p j - y j) I)) by (intros I HI; apply rsum_map_ext; intros i Hi; apply Vg, HI, Hi).
  assert (Th : forall I, incl I (all_rows s) -> total (fun i => nth i h 0) I = INR (length I)).
  { intros I HI. unfold total. rewrite (rsum_map_ext _ (fun _ => 1)) by (intros i Hi; apply Vh, HI, Hi). rewrite rsum_map_const. lra. }
  assert (Eobj : forall f, rsum (map (fun i => (p i + answer f s i - y i) ^ 2) (all_rows s)) + lambda * rsum (map (fun w => w ^ 2) (leaf_values f)) =
     rsum (map (fun i => (p i - y i) ^ 2) (all_rows s)) + 2 * tree_objective (fun i => nth i g 0) (fun i => nth i h 0) lambda f s (all_rows s)).
  { intros f. unfold tree_objective. rewrite (rsum_map_ext (fun i => nth i g 0 * answer f s i + 1 / 2 * nth i h 0 * answer f s i ^ 2) (fun i => (p i - y i) * answer f s i + 1 / 2 * answer f s i ^ 2)) by (intros i Hi; rewrite Vg, Vh by exact Hi; lra).
    assert (Q : forall l, rsum (map (fun i => (p i + answer f s i - y i) ^ 2) l) = rsum (map (fun i => (p i - y i) ^ 2) l) + 2 * rsum (map (fun i => (p i - y i) * answer f s i + 1 / 2 * answer f s i ^ 2) l)) by (induction l as [|i l IH]; cbn [map rsum]; [ring|rewrite IH; field]).
    rewrite Q. field. }
  exists (rt_to_node T). split.
  { unfold rt_produce. rewrite Els, Eg. cbn [bind]. rewrite Eh. cbn [bind]. rewrite El, Ed, En. change (seq 0 (fst (shape s))) with (all_rows s). rewrite E. reflexivity. }
  split; [exact D|]. split; [exact A1|]. split; [|split; [|split]].
  - intros i Hi. cbv zeta. destruct (A2 i Hi) as [Q1 Q2]. split; [exact Q1|]. cbv zeta in Q2. rewrite Q2.
    assert (HI : incl (filter (same_leaf (rt_to_node T) s i) (all_rows s)) (all_rows s)) by (intros j Hj; apply filter_In in Hj; tauto).
    rewrite (Tg _ HI), (Th _ HI). fold lambda. set (I := filter _ _). unfold Rdiv. f_equal.
    clear. induction I as [|j I IH]; simpl; [lra|]. rewrite <- IH. lra.
  - intros f' Hq. rewrite !Eobj. specialize (A3 f' Hq). fold lambda in A3. lra.
  - rewrite Eobj. rewrite (Tg _ (incl_refl _)), (Th _ (incl_refl _)) in B1. unfold all_rows in B1 at 3. rewrite seq_length in B1. fold lambda in B1. lra.
  - intros Hd HG f' t' Hf' Ht'. rewrite Eobj. rewrite (Tg _ (incl_refl _)) in B2. specialize (B2 Hd HG f' t' Hf' Ht'). fold lambda in B2.
    assert (Es : split_score (fun i => nth i g 0) (fun i => nth i h 0) lambda (column f') t' (all_rows s) = split_score (fun i => p i - y i) (fun _ => 1) lambda (column f') t' (all_rows s)).
    { unfold split_score. rewrite !side_real.
      assert (Q : forall q, total (fun i => nth i g 0) (filter q (all_rows s)) = total (fun i => p i - y i) (filter q (all_rows s)) /\ total (fun i => nth i h 0) (filter q (all_rows s)) = total (fun _ => 1) (filter q (all_rows s))).
      { intros q. split; apply rsum_map_ext; intros i Hi; apply filter_In in Hi; [apply Vg|apply Vh]; tauto. }
      destruct (Q (below (column f') t')) as [-> ->]. destruct (Q (not_below (column f') t')) as [-> ->]. reflexivity. }
    rewrite Es in B2. lra.
Qed.

Lemma total_ext g g' I : (forall i, In i I -> g i = g' i) -> total g I = total g' I.
Proof. intros E. apply rsum_map_ext. exact E. Qed.
Lemma split_score_ext g g' h h' lambda x th I : (forall i, In i I -> g i = g' i /\ h i = h' i) -> split_score g h lambda x th I = split_score g' h' lambda x th I.
Proof.
  intros E. unfold split_score, side_score.
  assert (Q : forall q, total g (filter q I) = total g' (filter q I) /\ total h (filter q I) = total h' (filter q I)).
  { intros q. split; apply total_ext; intros i Hi; apply filter_In in Hi; apply E; tauto. }
  destruct (Q (below x th)) as [-> ->]. destruct (Q (not_below x th)) as [-> ->]. reflexivity.
Qed.
Lemma greedy_reg_ext g g' h h' lambda fs bm T : forall lev I, (forall i, In i I -> g i = g' i /\ h i = h' i) -> greedy_reg g h lambda fs bm T lev I -> greedy_reg g' h' lambda fs bm T lev I.
Proof.
  assert (HB : forall f thr I, (forall i, In i I -> g i = g' i /\ h i = h' i) -> best_score_rule g h lambda fs bm f thr I -> best_score_rule g' h' lambda fs bm f thr I).
  { intros f thr I E [H1 [H2 H3]]. split; [exact H1|]. split; [exact H2|]. intros f' t' A B. rewrite <- !(split_score_ext g g' h h' lambda _ _ I E). apply H3; assumption. }
  assert (HF : forall q I, (forall i, In i I -> g i = g' i /\ h i = h' i) -> (forall i, In i (filter q I) -> g i = g' i /\ h i = h' i)) by (intros q I E i Hi; apply filter_In in Hi; apply E; tauto).
  induction T as [w|rule l IHl r IHr]; intros lev I E H; cbn [greedy_reg] in H |- *.
  - rewrite <- (total_ext g g' I (fun i Hi => proj1 (E i Hi))), <- (total_ext h h' I (fun i Hi => proj2 (E i Hi))). destruct H as [H1 H2]. split; [exact H1|].
    destruct H2 as [H2|[H2|[f [thr [A B]]]]]; [left; exact H2|right; left; exact H2|right; right]. exists f, thr. split; [apply HB; assumption|exact B].
  - destruct H as [lev' [f [E1 [E2 [B [N1 [N2 [L1 L2]]]]]]]]. exists lev', f. split; [exact E1|]. split; [exact E2|]. split; [apply HB; assumption|]. split; [exact N1|]. split; [exact N2|].
    split; [apply IHl|apply IHr]; try assumption; apply HF, E.
Qed.
Lemma P_C29_every_split_squared_loss :
  forall s b t predictions, trainable s -> rt_made s b -> rb_build b s = Ok t -> 0 <= rb_lambda b -> rb_loss b = Some L2 ->
  length predictions = fst (shape s) ->
  exists f, rt_produce t s predictions = Ok f /\
    greedy_reg (fun i => nth i predictions 0 - label s i) (fun _ => 1) (rb_lambda b) (s_features s) (rt_bins t) f (rb_depth b) (all_rows s).
Proof.
  intros s b t predictions Tr Mb Eb Hl Eloss Hlen.
  assert (Et : rt_lambda t = rb_lambda b /\ rt_depth t = rb_depth b /\ rt_loss t = L2 /\ rt_n t = fst (shape s)) by (unfold rb_build in Eb; destruct (cut_all (rb_nbins b) (s_features s)); [|discriminate]; cbn [bind] in Eb; rewrite Eloss in Eb; inversion Eb; auto).
  destruct Et as [El [Ed [Els En]]].
  assert (Hy : length (s_target s) = fst (shape s)) by apply Tr.
  assert (Eeq : Nat.eqb (length predictions) (length (s_target s)) = true) by (apply Nat.eqb_eq; lia).
  set (g := map (fun q : R * R => let '(y, p) := q in p - y) (combine (s_target s) predictions)).
  set (h := repeat 1 (length predictions)).
  assert (Eg : gradient L2 predictions (s_target s) = Ok g) by (unfold gradient; rewrite Eeq; reflexivity).
  assert (Eh : hessian L2 predictions (s_target s) = Ok h) by (unfold hessian; rewrite Eeq; reflexivity).
  assert (Lg : length g = fst (shape s)) by (unfold g; rewrite map_length, combine_length; lia).
  assert (Lh : length h = fst (shape s)) by (unfold h; rewrite repeat_length; exact Hlen).
  assert (Vg : forall i, In i (all_rows s) -> nth i g 0 = nth i predictions 0 - label s i).
  { intros i Hi. apply in_seq in Hi. unfold g. rewrite nth_combine_map by lia. reflexivity. }
  assert (Vh : forall i, In i (all_rows s) -> nth i h 0 = 1) by (intros i Hi; apply in_seq in Hi; unfold h; apply nth_repeat_lt; lia).
  assert (Hpos : forall i, (i < fst (shape s))%nat -> 0 < nth i h 0) by (intros i Hi; rewrite Vh by (apply in_seq; lia); lra).
  destruct (P_C29_every_split s b t g h Tr Mb Eb Hl Lg Lh Hpos) as [T [E HT]].
  exists (rt_to_node T). split.
  - unfold rt_produce. rewrite Els, Eg. cbn [bind]. rewrite Eh. cbn [bind]. rewrite El, Ed, En. change (seq 0 (fst (shape s))) with (all_rows s). rewrite E. reflexivity.
  - eapply greedy_reg_ext; [|exact HT]. intros i Hi. split; [apply Vg|apply Vh]; exact Hi.
Qed.

(** ** C29: every tree returned, for either loss *)
Lemma P_C29_any_loss :
  forall s b t predictions f, trainable s -> rt_made s b -> rb_build b s = Ok t -> 0 <= rb_lambda b -> rt_produce t s predictions = Ok f ->
  exists g h, gradient (rt_loss t) predictions (s_target s) = Ok g /\ hessian (rt_loss t) predictions (s_target s) = Ok h /\
    let gf := fun i => nth i g 0 in let hf := fun i => nth i h 0 in
    (forall i, (i < fst (shape s))%nat -> let I := filter (same_leaf f s i) (all_rows s) in
       In i I /\ 0 < total hf I + rb_lambda b /\ answer f s i = - total gf I / (total hf I + rb_lambda b)) /\
    (forall f', same_questions f f' -> tree_objective gf hf (rb_lambda b) f s (all_rows s) <= tree_objective gf hf (rb_lambda b) f' s (all_rows s)) /\
    rsum (map (fun i => gf i * answer f s i) (all_rows s)) <= 0.
Proof.
  intros s b t predictions f Tr Mb Eb Hl E.
  assert (Et : rt_lambda t = rb_lambda b /\ rt_depth t = rb_depth b /\ rt_n t = fst (shape s)) by (unfold rb_build in Eb; destruct (cut_all (rb_nbins b) (s_features s)); [|discriminate]; cbn [bind] in Eb; destruct (rb_loss b); [|discriminate]; inversion Eb; auto).
  destruct Et as [El [Ed En]]. assert (Hy : length (s_target s) = fst (shape s)) by apply Tr.
  unfold rt_produce in E. destruct (gradient (rt_loss t) predictions (s_target s)) as [g|] eqn:Eg; [|discriminate]. cbn [bind] in E. destruct (hessian (rt_loss t) predictions (s_target s)) as [h|] eqn:Eh; [|discriminate]. cbn [bind] in E.
  rewrite En in E. change (seq 0 (fst (shape s))) with (all_rows s) in E.
  destruct (rt_full_tree (rt_bins t) s g h (rt_lambda t) (rt_depth t) (all_rows s)) as [T|] eqn:ET; [|discriminate]. cbn [bind] in E. inversion E; subst f.
  assert (Hlen : length predictions = length (s_target s)) by (unfold gradient in Eg; destruct (Nat.eqb_spec (length predictions) (length (s_target s))); [assumption|discriminate]).
  assert (Lg : length g = fst (shape s)). { unfold gradient in Eg. rewrite Hlen, Nat.eqb_refl in Eg. cbn [assert_ bind] in Eg. inversion Eg. rewrite map_length, combine_length. lia. }
  assert (Eh' : h = repeat (match rt_loss t with L1 => 0 | L2 => 1 end) (length predictions)) by (unfold hessian in Eh; rewrite Hlen, Nat.eqb_refl in Eh; cbn [assert_ bind] in Eh; inversion Eh; rewrite Hlen; reflexivity).
  assert (Lh : length h = fst (shape s)) by (rewrite Eh', repeat_length; lia).
  assert (Hnn : forall i, 0 <= nth i h 0).
  { intros i. destruct (Nat.lt_ge_cases i (length h)) as [L|L]; [|rewrite nth_overflow by exact L; lra]. rewrite Eh'. rewrite nth_repeat_lt by lia. destruct (rt_loss t); lra. }
  destruct (use_any s b t g h Tr Eb Hl Lg Lh T Hnn ET) as [_ [A2 [A3 [A4 A5]]]]. rewrite El in *.
  exists g, h. split; [reflexivity|]. split; [reflexivity|]. split; [exact A2|]. split; [exact A3|]. rewrite A4. lra.
Qed.

(** for the absolute loss the tree points away from the targets: the gradient the library reports has the wrong sign *)
Lemma P_C29_L1_uphill_refuted :
  forall s b t predictions f, trainable s -> rt_made s b -> rb_build b s = Ok t -> 0 <= rb_lambda b -> rb_loss b = Some L1 -> rt_produce t s predictions = Ok f ->
  (forall i, (i < fst (shape s))%nat -> nth i predictions 0 <> label s i) ->
  rsum (map (fun i => (if Rlt_dec (label s i) (nth i predictions 0) then 1 else -1) * answer f s i) (all_rows s)) >= 0.
Proof.
  intros s b t predictions f Tr Mb Eb Hl Eloss E Hne.
  assert (Els : rt_loss t = L1) by (unfold rb_build in Eb; destruct (cut_all (rb_nbins b) (s_features s)); [|discriminate]; cbn [bind] in Eb; rewrite Eloss in Eb; inversion Eb; reflexivity).
  destruct (P_C29_any_loss s b t predictions f Tr Mb Eb Hl E) as [g [h [Eg [_ [_ [_ D]]]]]]. rewrite Els in Eg.
  assert (Hy : length (s_target s) = fst (shape s)) by apply Tr.
  assert (Hlen : length predictions = length (s_target s)) by (unfold gradient in Eg; destruct (Nat.eqb_spec (length predictions) (length (s_target s))); [assumption|discriminate]).
  unfold gradient in Eg. rewrite Hlen, Nat.eqb_refl in Eg. cbn [assert_ bind] in Eg. inversion Eg as [Eg']. clear Eg.
  apply Rle_ge.
  assert (Q : rsum (map (fun i => nth i g 0 * answer f s i) (all_rows s)) = - rsum (map (fun i => (if Rlt_dec (label s i) (nth i predictions 0) then 1 else -1) * answer f s i) (all_rows s))).
  { assert (V : forall i, In i (all_rows s) -> nth i g 0 = - (if Rlt_dec (label s i) (nth i predictions 0) then 1 else -1)).
    { intros i Hi. apply in_seq in Hi. rewrite <- Eg'. rewrite nth_combine_map by lia. specialize (Hne i ltac:(lia)). unfold label in *. unfold rsignum. destruct (Rltb_spec (nth i (s_target s) 0 - nth i predictions 0) 0), (Rlt_dec (nth i (s_target s) 0) (nth i predictions 0)); lra. }
    revert V. generalize (all_rows s). induction l as [|i l IH]; intros V; simpl; [lra|]. rewrite IH by (intros j Hj; apply V; right; exact Hj). rewrite (V i (or_introl eq_refl)). lra. }
  cbv beta zeta in D. rewrite Q in D. lra.
Qed.

(** residuals that sum to zero: the tree is a single leaf that answers 0, whatever the offered splits would gain *)
Lemma P_C29_zero_sum_leaf :
  forall s b t predictions, trainable s -> rt_made s b -> rb_build b s = Ok t -> 0 <= rb_lambda b -> rb_loss b = Some L2 ->
    length predictions = fst (shape s) -> rsum (map (fun i => nth i predictions 0 - label s i) (all_rows s)) = 0 ->
    rt_produce t s predictions = Ok (Leaf 0).
Proof.
  - intros s b t predictions Tr Mb Eb Hl Eloss Hlen HS.
    assert (Et : rt_lambda t = rb_lambda b /\ rt_depth t = rb_depth b /\ rt_loss t = L2 /\ rt_n t = fst (shape s)) by (unfold rb_build in Eb; destruct (cut_all (rb_nbins b) (s_features s)); [|discriminate]; cbn [bind] in Eb; rewrite Eloss in Eb; inversion Eb; auto).
    destruct Et as [El [Ed [Els En]]]. assert (Hy : length (s_target s) = fst (shape s)) by apply Tr.
    assert (Hn : (0 < fst (shape s))%nat) by apply Tr. pose proof (proj2 (rt_made_builder s b Mb)) as Hd.
    assert (Eeq : Nat.eqb (length predictions) (length (s_target s)) = true) by (apply Nat.eqb_eq; lia).
    unfold rt_produce. rewrite Els, El, Ed, En. 
    set (g := map (fun q : R * R => let '(y, p) := q in p - y) (combine (s_target s) predictions)).
    set (h := repeat 1 (length predictions)).
    assert (Eg : gradient L2 predictions (s_target s) = Ok g) by (unfold gradient; rewrite Eeq; reflexivity).
    assert (Eh : hessian L2 predictions (s_target s) = Ok h) by (unfold hessian; rewrite Eeq; reflexivity).
    rewrite Eg. cbn [bind]. rewrite Eh. cbn [bind]. change (seq 0 (fst (shape s))) with (all_rows s).
    assert (Hi : forall i, In i (all_rows s) -> (i < s_n_sample s)%nat) by (intros i Hi; apply in_seq in Hi; simpl in Hi; lia).
    assert (Lg : length g = s_n_sample s) by (unfold g; rewrite map_length, combine_length; simpl in Hy, Hlen; lia).
    assert (Lh : length h = s_n_sample s) by (unfold h; rewrite repeat_length; exact Hlen).
    assert (Tg : total (fun i => nth i g 0) (all_rows s) = 0).
    { etransitivity; [|exact HS]. apply rsum_map_ext. intros i Hii. specialize (Hi i Hii). unfold g. rewrite nth_combine_map by (simpl in Hy, Hlen; lia). reflexivity. }
    assert (Th : 0 < total (fun i => nth i h 0) (all_rows s)).
    { apply total_pos'; [unfold all_rows; destruct (fst (shape s)); [lia|discriminate]|]. intros i Hii. specialize (Hi i Hii). unfold h. rewrite nth_repeat_lt by (simpl in Hlen; lia). lra. }
    destruct (rb_depth b) as [|dep]; [lia|]. cbn [rt_full_tree]. unfold prediction_and_loss. rewrite (sum_at_total s g Lg _ Hi). cbn [bind]. rewrite (sum_at_total s h Lh _ Hi). cbn [bind]. rewrite Reqb_false by lra. cbn [bind].
    rewrite Tg. rewrite Reqb_true by (unfold Rdiv; ring). cbn [orb bind rt_to_node]. do 2 f_equal. unfold Rdiv. ring.
Qed.
Lemma P_C29_zero_sum_refuted :
  exists s b t predictions f th, trainable s /\ rt_made s b /\ rb_build b s = Ok t /\ 0 <= rb_lambda b /\ rb_loss b = Some L2 /\ (2 <= rb_depth b)%nat /\
    length predictions = fst (shape s) /\ rsum (map (fun i => nth i predictions 0 - label s i) (all_rows s)) = 0 /\
    In f (s_features s) /\ offered (rt_bins t) f th /\ 0 < split_score (fun i => nth i predictions 0 - label s i) (fun _ => 1) (rb_lambda b) (column f) th (all_rows s).
Proof.
  - set (s := from_dataframe [("a"%string, [0; 0; 1; 1])] 4 [1; 1; -1; -1]). set (f := Dense "a" [0; 0; 1; 1]).
    assert (Tr : trainable s).
    { pose proof F64MAX_big as B. split; [|split; [|split; [|split; [|split]]]].
      - apply made_dataframe. intros p [<-|[]]. reflexivity.
      - simpl. lia.
      - simpl. discriminate.
      - simpl. constructor; [intros []|constructor].
      - reflexivity.
      - intros g x [<-|[]] Hx. unfold moderate. destruct Hx as [<-|[<-|[<-|[<-|[]]]]]; rewrite Rabs_pos_eq; lra. }
    set (b := mkRTB [("a"%string, 2%nat)] 2 (/ 100) (Some L2)).
    assert (Mb : rt_made s b).
    { assert (E : rb_new s = mkRTB [("a"%string, 2%nat)] 2 (/ 100) None) by (unfold rb_new; change (s_features s) with [ex_feature]; cbn [map]; rewrite ex_distinct; reflexivity).
      pose proof (rm_new s) as M. rewrite E in M. exact (rm_loss _ _ L2 M). }
    destruct (P_C24_bins_exist f 2 0 1 ex_spans) as [bins Eb].
    { destruct Tr as [_ [_ [_ [_ [_ Hm]]]]]. intros x Hx. apply (Hm f x (or_introl eq_refl) Hx). }
    { right. split; [lia|]. unfold bin_width. destruct (Req_EM_T 0 1); [lra|]. simpl. lra. }
    exists s, b, (mkRTree [("a"%string, bins)] 4 2 (/ 100) L2), [0; 0; 0; 0], f, (/ 2).
    split; [exact Tr|]. split; [exact Mb|]. split.
    { unfold rb_build. cbn [rb_nbins b rb_loss]. change (s_features s) with [f]. cbn [cut_all]. change (sm_get [("a"%string, 2%nat)] (feat_name f)) with (Ok (A := nat) 2%nat). cbn [bind]. rewrite Eb. reflexivity. }
    split; [simpl; lra|]. split; [reflexivity|]. split; [simpl; lia|]. split; [reflexivity|]. split.
    { unfold label. simpl. lra. }
    split; [left; reflexivity|]. split.
    + exists bins. split; [reflexivity|]. right.
      pose proof (cut_spec f 2 0 1 ex_spans) as S. rewrite Eb in S. destruct S as [L [_ [_ He]]]; [destruct Tr as [_ [_ [_ [_ [_ Hm]]]]]; intros x Hx; apply (Hm f x (or_introl eq_refl) Hx)|].
      specialize (He 0%nat ltac:(lia)). assert (Q : b_end (nth 0 bins b0) = / 2). { rewrite He. unfold cut_lo, bin_width. destruct (Req_EM_T 0 1); [lra|]. simpl. lra. }
      rewrite <- Q. apply in_map, nth_In. lia.
    + unfold split_score.
      assert (F1 : filter (below (column f) (/ 2)) (all_rows s) = [0; 1]%nat) by (simpl; unfold below; simpl; unfold column; simpl; repeat (destruct Rlt_dec; try lra); reflexivity).
      assert (F2 : filter (not_below (column f) (/ 2)) (all_rows s) = [2; 3]%nat) by (simpl; unfold not_below; simpl; unfold column; simpl; repeat (destruct Rlt_dec; try lra); reflexivity).
      rewrite F1, F2. unfold side_score, total, label. simpl.
      assert (Q : 0 < / (1 + (1 + 0) + / 100)) by (apply Rinv_0_lt_compat; lra). set (q := / (1 + (1 + 0) + / 100)) in *. unfold Rdiv. fold q. nra.
Qed.

(** ** C29, absolute loss: a bin whose gradients cancel counts as empty, and the chosen split can be far from best *)
Definition l1_sample : sample := from_dataframe [("a"%string, [0; 0; 6 / 5; 9 / 5; 3])] 5 [1; 1; -1; 1; -1].
Definition l1_feature : feature := Dense "a" [0; 0; 6 / 5; 9 / 5; 3].
Definition l1_builder : rt_builder := mkRTB [("a"%string, 3%nat)] 2 (/ 100) (Some L1).
Definition l1_bins : list bin := [mkBin F64MIN 1; mkBin 1 2; mkBin 2 F64MAX].

Lemma l1_trainable : trainable l1_sample.
Proof.
  pose proof F64MAX_big as B. split; [|split; [|split; [|split; [|split]]]].
  - apply made_dataframe. intros p [<-|[]]. reflexivity.
  - simpl. lia.
  - simpl. discriminate.
  - simpl. constructor; [intros []|constructor].
  - reflexivity.
  - intros f x [<-|[]] Hx. unfold moderate. destruct Hx as [<-|[<-|[<-|[<-|[<-|[]]]]]]; rewrite Rabs_pos_eq; lra.
Qed.
Lemma l1_made : rt_made l1_sample l1_builder.
Proof.
  pose proof (rm_nbins l1_sample (rb_new l1_sample) "a" 3) as M. unfold rb_set_nbins in M. specialize (M _ (rm_new _) eq_refl). apply (rm_loss _ _ L1) in M. exact M.
Qed.
Lemma l1_cut : cut l1_feature 3 = Ok l1_bins.
Proof.
  assert (Hs : spans l1_feature 0 3) by (split; [simpl; auto|]; split; [simpl; tauto|]; intros x [<-|[<-|[<-|[<-|[<-|[]]]]]]; lra).
  assert (Hm : forall x, In x (stored l1_feature) -> moderate x) by (destruct l1_trainable as [_ [_ [_ [_ [_ Hm]]]]]; intros x Hx; apply (Hm l1_feature x (or_introl eq_refl) Hx)).
  assert (W : bin_width 0 3 3 = 1) by (unfold bin_width; destruct (Req_EM_T 0 3); [lra|]; simpl; lra).
  destruct (P_C24_bins_exist l1_feature 3 0 3 Hs Hm) as [bins Eb]; [right; split; [lia|rewrite W; lra]|].
  pose proof (cut_spec l1_feature 3 0 3 Hs Hm) as S. rewrite Eb in S |- *. destruct S as [L [_ [C He]]]. f_equal.
  destruct bins as [|[s1 e1] [|[s2 e2] [|[s3 e3] [|]]]]; try discriminate. simpl in C. destruct C as [C1 [_ [C2 [_ [C3 [_ C4]]]]]].
  pose proof (He 0%nat ltac:(lia)) as H0. pose proof (He 1%nat ltac:(lia)) as H1. rewrite W in H0, H1. unfold cut_lo in H0, H1. destruct (Req_EM_T 0 3); [lra|]. simpl in H0, H1.
  unfold l1_bins. repeat f_equal; lra.
Qed.
Lemma l1_find x k : F64MIN <= x < F64MAX -> (k < 3)%nat -> in_bin (nth k l1_bins b0) x -> find_bin l1_bins x = Ok k.
Proof.
  intros Hx Hk Hin. assert (C : chain F64MIN F64MAX l1_bins) by (pose proof F64MAX_big; unfold l1_bins, F64MIN; simpl; repeat split; lra).
  destruct (find_bin_ok l1_bins _ _ x C Hx) as [j [E [Hj Hin2]]]. rewrite E. f_equal. unfold in_bin in *. simpl in Hj.
  destruct k as [|[|[|k]]]; try lia; destruct j as [|[|[|j]]]; try lia; try reflexivity; exfalso; simpl in *; lra.
Qed.

Lemma P_C29_L1_split_refuted :
  exists s b t predictions g h f thr, trainable s /\ rt_made s b /\ rb_build b s = Ok t /\ 0 < rb_lambda b /\ rb_loss b = Some L1 /\ length predictions = fst (shape s) /\
    gradient L1 predictions (s_target s) = Ok g /\ hessian L1 predictions (s_target s) = Ok h /\
    rt_best_split (rt_bins t) s g h (all_rows s) (rb_lambda b) = Ok (feat_name f, thr) /\ In f (s_features s) /\
    exists th, offered (rt_bins t) f th /\
      split_score (fun i => nth i g 0) (fun i => nth i h 0) (rb_lambda b) (column f) thr (all_rows s) = 100 /\
      split_score (fun i => nth i g 0) (fun i => nth i h 0) (rb_lambda b) (column f) th (all_rows s) = 500.
Proof.
  pose proof F64MAX_big as FM.
  set (g := [1; 1; -1; 1; -1]). set (h := [0; 0; 0; 0; 0]).
  exists l1_sample, l1_builder, (mkRTree [("a"%string, l1_bins)] 5 2 (/ 100) L1), [0; 0; 0; 0; 0], g, h, l1_feature, (3 / 2).
  split; [exact l1_trainable|]. split; [exact l1_made|]. split.
  { unfold rb_build. cbn [rb_nbins l1_builder rb_loss]. change (s_features l1_sample) with [l1_feature]. cbn [cut_all]. change (sm_get [("a"%string, 3%nat)] (feat_name l1_feature)) with (Ok (A := nat) 3%nat). cbn [bind]. rewrite l1_cut. reflexivity. }
  split; [simpl; lra|]. split; [reflexivity|]. split; [reflexivity|]. split.
  { unfold gradient. change (s_target l1_sample) with [1; 1; -1; 1; -1]. simpl Nat.eqb. cbn [assert_ bind combine map]. unfold rsignum. rewrite (Rltb_false (1 - 0)) by lra. rewrite (Rltb_true (-1 - 0)) by lra. reflexivity. }
  split; [reflexivity|]. 
  assert (Hpack : rt_pack l1_bins [0; 1; 2; 3; 4]%nat l1_feature g h = Ok [(mkBin F64MIN ((1 + 2) / 2), (0 + 1 + 1, 0 + 0 + 0)); (mkBin ((1 + 2) / 2) F64MAX, (0 + -1, 0 + 0))]).
  { unfold rt_pack.
    assert (B0 : find_bin l1_bins 0 = Ok 0%nat) by (apply l1_find; [unfold F64MIN; lra|lia|unfold in_bin; simpl; unfold F64MIN; lra]).
    assert (B2 : find_bin l1_bins (6 / 5) = Ok 1%nat) by (apply l1_find; [unfold F64MIN; lra|lia|unfold in_bin; simpl; lra]).
    assert (B3 : find_bin l1_bins (9 / 5) = Ok 1%nat) by (apply l1_find; [unfold F64MIN; lra|lia|unfold in_bin; simpl; lra]).
    assert (B4 : find_bin l1_bins 3 = Ok 2%nat) by (apply l1_find; [unfold F64MIN; lra|lia|unfold in_bin; simpl; lra]).
    cbn [pack_loop feat_index l1_feature nth_error bind]. rewrite B0. cbn [bind]. rewrite B2. cbn [bind]. rewrite B3. cbn [bind]. rewrite B4. cbn [bind].
    unfold rt_add, get_, g, h. cbn [nth_error bind length repeat nth upd l1_bins fst snd].
    unfold remove_empty. cbn [combine l1_bins filter snd]. unfold gh_zero. cbn [fst snd]. rewrite (Reqb_false (0 + 1 + 1)) by lra.
    rewrite (Reqb_true (0 + -1 + 1)) by lra. rewrite (Reqb_true (0 + 0 + 0)) by lra. rewrite (Reqb_false (0 + -1)) by lra. cbn [andb negb merge_loop b_end b_start]. reflexivity. }
  split.
  { unfold rt_best_split. change (s_features l1_sample) with [l1_feature]. change (all_rows l1_sample) with [0; 1; 2; 3; 4]%nat. cbn [rt_eval rt_bins].
    change (sm_get [("a"%string, l1_bins)] (feat_name l1_feature)) with (Ok l1_bins). cbn [bind]. rewrite Hpack. cbn [bind]. unfold best_split_at. cbn [map fst snd rsum score_loop rb_lambda l1_builder].
    unfold score_term. rewrite !quot_ok by lra. cbn [bind]. 
    rewrite (Rltb_true F64MIN) by (unfold F64MIN; field_simplify; lra). cbn [b_end].
    rewrite Rltb_false by (field_simplify; lra). cbn [bind fst snd pick_max]. reflexivity. }
  split; [left; reflexivity|].
  exists 1. split; [exists l1_bins; split; [reflexivity|right; left; reflexivity]|].
  change (all_rows l1_sample) with [0; 1; 2; 3; 4]%nat. unfold split_score.
  assert (F1 : filter (below (column l1_feature) (3 / 2)) [0; 1; 2; 3; 4]%nat = [0; 1; 2]%nat) by (simpl; unfold below, column; simpl; repeat (destruct Rlt_dec; try lra); reflexivity).
  assert (F2 : filter (not_below (column l1_feature) (3 / 2)) [0; 1; 2; 3; 4]%nat = [3; 4]%nat) by (simpl; unfold not_below, column; simpl; repeat (destruct Rlt_dec; try lra); reflexivity).
  assert (F3 : filter (below (column l1_feature) 1) [0; 1; 2; 3; 4]%nat = [0; 1]%nat) by (simpl; unfold below, column; simpl; repeat (destruct Rlt_dec; try lra); reflexivity).
  assert (F4 : filter (not_below (column l1_feature) 1) [0; 1; 2; 3; 4]%nat = [2; 3; 4]%nat) by (simpl; unfold not_below, column; simpl; repeat (destruct Rlt_dec; try lra); reflexivity).
  rewrite F1, F2, F3, F4. unfold side_score, total, g, h. cbn [map nth rsum rb_lambda l1_builder]. split; field.
Qed.

Example C29_case : exists s b t, trainable s /\ rt_made s b /\ rb_build b s = Ok t /\ 0 <= rb_lambda b /\ rb_loss b = Some L2 /\ (2 <= rb_depth b)%nat /\ rsum (map (fun i => 0 - label s i) (all_rows s)) <> 0.
Proof.
  exists l1_sample, (mkRTB [("a"%string, 3%nat)] 2 (/ 100) (Some L2)), (mkRTree [("a"%string, l1_bins)] 5 2 (/ 100) L2).
  split; [exact l1_trainable|]. split.
  { pose proof (rm_nbins l1_sample (rb_new l1_sample) "a" 3) as M. unfold rb_set_nbins in M. specialize (M _ (rm_new _) eq_refl). apply (rm_loss _ _ L2) in M. exact M. }
  split; [|split; [simpl; lra|split; [reflexivity|split; [simpl; lia|unfold label; simpl; lra]]]].
  unfold rb_build. cbn [rb_nbins rb_loss]. change (s_features l1_sample) with [l1_feature]. cbn [cut_all]. change (sm_get [("a"%string, 3%nat)] (feat_name l1_feature)) with (Ok (A := nat) 3%nat). cbn [bind]. rewrite l1_cut. reflexivity.
Qed.
