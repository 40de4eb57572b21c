(** Property C74: the margin boosters with the decision trees of the crate as weak learner. *)
From Coq Require Import String.
From Verif Require Import Base Spec RegSpec SortLib Num Utils UtilsProofs WMajority WMajorityProofs Booster AdaBoost AdaBoostProofs AdaBoostMain AdaBoostMore
  FrankWolfe FrankWolfeProofs FrankWolfeFacts CERLP CERLPProofs CERLPFacts ConicSpec Csc LPSpec LPBoost LPBoostProofs LPBoostFacts MLP MLPProofs MLPFacts Objective ObjectiveFacts ERLP ERLPProofs ERLPFacts
  BinSearch Feature Sample SampleSpec FeatureFacts SampleFacts Bins BinsSpec BinsProofs BinsFacts TreeSpec DTree TreeShape DTreeProofs DTreeSplit DTreeBest DTreeGrow DTreeOut DTreeFacts TreeBoostFacts.
Open Scope R_scope.

(** ** Specification: trees whose margins on the sample are in [-1, 1], and stumps with a sign *)
Definition bounded_tree (s : sample) (h : node) : Prop := forall i, (i < length (s_target s))%nat -> -1 <= nth i (s_target s) 0 * TreeShape.answer h s i <= 1.
Definition btree (s : sample) : Type := { h : node | bounded_tree s h }.
Definition btree_conf (s : sample) (h : btree s) (i : nat) : R := TreeShape.answer (proj1_sig h) s i.
(** the learner handed to the booster answers every distribution with the tree that [DecisionTree::produce] returns *)
Definition answers_with_trees (order : lw -> lw) (t : dtree) (s : sample) (produce : nat -> list R -> btree s) : Prop :=
  forall k d, length d = length (s_target s) -> is_dist d -> dt_produce order t s d = Ok (proj1_sig (produce k d)).
Record sstump := mkStump { ss_feature : feature; ss_threshold : R; ss_flip : bool }.
Definition sstump_conf (h : sstump) (i : nat) : R := (if ss_flip h then -1 else 1) * stump (ss_threshold h) (column (ss_feature h) i).
Definition on_offer (s : sample) (t : dtree) (h : sstump) : Prop := In (ss_feature h) (s_features s) /\ offered (dt_bins t) (ss_feature h) (ss_threshold h).

Lemma all_dec (P : nat -> Prop) : (forall i, {P i} + {~ P i}) -> forall n, {forall i, (i < n)%nat -> P i} + {~ forall i, (i < n)%nat -> P i}.
Proof.
  intros D. induction n as [|n [Y|N]].
  - left. intros i Hi. lia.
  - destruct (D n) as [Yn|Nn]; [left|right; auto]. intros i Hi. destruct (Nat.eq_dec i n) as [->|Ne]; [exact Yn|apply Y; lia].
  - right. intros Z. apply N. intros i Hi. apply Z. lia.
Qed.
Lemma bounded_dec s h : {bounded_tree s h} + {~ bounded_tree s h}.
Proof.
  apply (all_dec (fun i => -1 <= nth i (s_target s) 0 * TreeShape.answer h s i <= 1)). intros i.
  destruct (Rle_dec (-1) (nth i (s_target s) 0 * TreeShape.answer h s i)) as [A|A]; [|right; intros [? _]; contradiction].
  destruct (Rle_dec (nth i (s_target s) 0 * TreeShape.answer h s i) 1) as [B|B]; [left; auto|right; intros [_ ?]; contradiction].
Qed.
Lemma leaf0_bounded s : bounded_tree s (Leaf 0).
Proof. intros i _. unfold TreeShape.answer. simpl. lra. Qed.
Definition btree_learner (order : lw -> lw) (t : dtree) (s : sample) (k : nat) (d : list R) : btree s :=
  match bounded_dec s (tree_learner order t s k d) with left H => exist _ _ H | right _ => exist _ _ (leaf0_bounded s) end.

Section Trees.
  Variables (order : lw -> lw) (s : sample) (b : dt_builder) (t : dtree).
  Hypothesis Tr : trainable s.
  Hypothesis Mb : dt_made s b.
  Hypothesis Eb : tb_build b s = Ok t.
  Hypothesis Ho : listing order.
  Hypothesis Hpm : pm_labels s.
  Local Notation y := (s_target s).

  Lemma soft_round d : length d = length y -> is_dist d ->
    exists h, dt_produce order t s d = Ok h /\ bounded_tree s h /\ (depth h <= tb_depth b)%nat /\ 0 <= edge_of y d (TreeShape.answer h s) /\
    (tb_criterion b = Edge -> forall f th, In f (s_features s) -> offered (dt_bins t) f th ->
       (stump_edge (column f) (label s) (weight d) th (all_rows s)) ^ 2 <= edge_of y d (TreeShape.answer h s)).
  Proof.
    intros Ld [Hp Hs]. pose proof (target_length s Tr) as LT. destruct (pm_int s Hpm) as [lab HL].
    assert (Ld' : length d = fst (shape s)) by congruence.
    assert (Hnn : forall i, 0 <= weight d i).
    { intros i. unfold weight. destruct (Nat.lt_ge_cases i (length d)) as [Hi|Hi]; [apply Hp, nth_In, Hi|rewrite nth_overflow by exact Hi; lra]. }
    assert (Hsome : exists i, (i < fst (shape s))%nat /\ 0 < weight d i).
    { destruct (Rlt_dec 0 1) as [_|N]; [|lra]. rewrite <- Ld'. clear - Hp Hs. unfold weight. revert Hs. intros Hs.
      assert (G : forall l, (forall x, In x l -> 0 <= x) -> 0 < rsum l -> exists i, (i < length l)%nat /\ 0 < nth i l 0).
      { induction l as [|a l IH]; intros Ha Hl; [simpl in Hl; lra|]. change (rsum (a :: l)) with (a + rsum l) in Hl. destruct (Rlt_dec 0 a) as [P|P].
        - exists 0%nat. simpl. split; [lia|exact P].
        - destruct IH as [i [Hi Q]]; [intros x Hx; apply Ha; right; exact Hx|pose proof (Ha a (or_introl eq_refl)); lra|]. exists (S i). simpl. split; [lia|exact Q]. }
      apply G; [exact Hp|lra]. }
    destruct (P_C27_tree order s b t d lab Tr Mb Eb Ld' Hsome HL Ho) as [h [Eh [Dh [Ok1 [Ok2 _]]]]].
    destruct (P_C27_edge order s b t d Tr Mb Eb Ld' Hnn Hsome Hpm Ho) as [h' [Eh' [_ [E0 E1]]]].
    assert (h' = h) by congruence. subst h'. exists h. split; [exact Eh|]. split; [|split; [exact Dh|split]].
    - intros i Hi. rewrite LT in Hi. destruct (Ok1 i Hi) as [v Ev]. pose proof (Ok2 _ _ _ Ev) as B. unfold TreeShape.answer. rewrite Ev.
      destruct (Hpm i Hi) as [-> | ->]; lra.
    - rewrite (tree_edge s d h LT). lra.
    - intros Hc f th Hf Hth. rewrite (tree_edge s d h LT). specialize (E1 Hc f th Hf Hth).
      assert (ET : rsum (map (weight d) (all_rows s)) = 1). { unfold all_rows. rewrite <- Ld'. unfold weight. rewrite rsum_nth. exact Hs. }
      rewrite ET in E1. unfold Rdiv in E1. rewrite Rinv_1, Rmult_1_r in E1. lra.
  Qed.

  Lemma learner_answers : answers_with_trees order t s (btree_learner order t s).
  Proof.
    intros k d Ld Dd. destruct (soft_round d Ld Dd) as [h [E [B _]]]. unfold btree_learner, tree_learner. rewrite E. destruct (bounded_dec s h); [reflexivity|contradiction].
  Qed.

  Variable produce : nat -> list R -> btree s.
  Hypothesis Hw : answers_with_trees order t s produce.

  Lemma tree_edge_nonneg k d : length d = length y -> is_dist d -> 0 <= edge_of y d (btree_conf s (produce k d)).
  Proof.
    intros Ld Dd. destruct (soft_round d Ld Dd) as [h [E [_ [_ [P _]]]]]. rewrite (Hw k d Ld Dd) in E. injection E as <-. exact P.
  Qed.

  (** a tree has at least the square of the edge of any vote of signed stumps on offer *)
  Lemma tree_beats_votes k d ws hs v : tb_criterion b = Edge -> length d = length y -> is_dist d ->
    length ws = length hs -> is_dist ws -> (forall h, In h hs -> on_offer s t h) -> 0 <= v ->
    v <= edge_of y d (vote sstump_conf (combine ws hs)) -> v ^ 2 <= edge_of y d (btree_conf s (produce k d)).
  Proof.
    intros Hc Ld Dd Lw Dw Hof Hv0 Hv. destruct (soft_round d Ld Dd) as [h [E [_ [_ [P Q]]]]]. rewrite (Hw k d Ld Dd) in E. injection E as <-.
    change (edge_of y d (btree_conf s (produce k d))) with (edge_of y d (TreeShape.answer (proj1_sig (produce k d)) s)). set (e := edge_of y d (TreeShape.answer (proj1_sig (produce k d)) s)) in *.
    assert (M : edge_of y d (vote sstump_conf (combine ws hs)) <= sqrt e).
    { apply vote_edge_ub; [exact Dw|exact Lw| |exact Ld]. intros [f th fl] Hin. destruct (Hof _ Hin) as [Hf Hth]. cbn [ss_feature ss_threshold] in *. specialize (Q Hc f th Hf Hth).
      assert (A : Rabs (stump_edge (column f) (label s) (weight d) th (all_rows s)) <= sqrt e).
      { rewrite <- sqrt_Rsqr_abs. apply sqrt_le_1_alt. unfold Rsqr. lra. }
      assert (Eq : edge_of y d (sstump_conf (mkStump f th fl)) = (if fl then -1 else 1) * stump_edge (column f) (label s) (weight d) th (all_rows s)).
      { unfold edge_of, stump_edge, sstump_conf, all_rows, weight, label. rewrite <- (target_length s Tr). rewrite <- rsum_map_mult. apply rsum_map_ext. intros i _. cbn [ss_feature ss_threshold ss_flip]. ring. }
      rewrite Eq. pose proof (Rle_abs (stump_edge (column f) (label s) (weight d) th (all_rows s))) as R1. pose proof (Rle_abs (- stump_edge (column f) (label s) (weight d) th (all_rows s))) as R2. rewrite Rabs_Ropp in R2.
      destruct fl; lra. }
    assert (v <= sqrt e) by lra. rewrite <- (sqrt_sqrt e P). simpl. rewrite Rmult_1_r. apply Rmult_le_compat; lra.
  Qed.
End Trees.

(** the objective that the crate reports exists for these samples and is the least edge over the capped distributions *)
Lemma eval_total s nu g : trainable s -> 1 <= nu <= INR (length (s_target s)) -> exists v, soft_margin_eval nu s g = Ok v /\ soft_margin nu (s_target s) g v.
Proof.
  intros Tr Hnu. pose proof (target_length s Tr) as LT. pose proof (P_C42_soft_margin nu s g LT) as P. destruct Tr as [M [Hn [Hf _]]].
  destruct (soft_margin_eval nu s g) as [v|p].
  - exists v. split; [reflexivity|]. destruct P as [_ [_ P]]. unfold soft_margin, capped. rewrite LT. exact P.
  - exfalso. rewrite LT in Hnu. pose proof (good_nf s (made_good s M)) as G. assert (snd (shape s) <> 0%nat); [|destruct P as [P|[P|[P|P]]]; [lia|contradiction|lra|lra]].
    unfold shape. cbn [snd]. rewrite G. destruct (s_features s); [congruence|discriminate].
Qed.
Lemma eval_is_soft s nu g v : trainable s -> soft_margin_eval nu s g = Ok v -> soft_margin nu (s_target s) g v /\ 1 <= nu <= INR (length (s_target s)).
Proof.
  intros Tr E. pose proof (target_length s Tr) as LT. pose proof (P_C42_soft_margin nu s g LT) as P. rewrite E in P. destruct P as [_ [Hnu P]]. rewrite LT. split; [|exact Hnu]. unfold soft_margin, capped. rewrite LT. exact P.
Qed.
Lemma capped_dist nu y d : capped nu y d -> length d = length y /\ is_dist d.
Proof. intros [L [B S]]. split; [exact L|]. split; [intros x Hx; apply (B x Hx)|exact S]. Qed.

(** ** C74: CERLPBoost with trees grown by the edge criterion.  If some vote of signed stumps on offer has soft margin r, as
    SoftMarginObjective reports it, and r^2 is more than half the tolerance, the run ends within the round limit with a vote
    whose reported soft margin is at least r^2 - tolerance *)
Lemma P_C74_cerlpboost_with_trees :
  forall order s b t produce eqH (c : @cerlp (btree s)) fuel, trainable s -> dt_made s b -> tb_build b s = Ok t -> listing order -> pm_labels s ->
  is_valid_binary_instance (s_target s) = Ok tt -> tb_criterion b = Edge -> answers_with_trees order t s produce -> (forall f h, eqH f h = true -> f = h) ->
  let nu := fw_nu (ce_fw c) in let tol := 2 * ce_half_tol c in
  fw_type (ce_fw c) = Classic \/ fw_type (ce_fw c) = ShortStep -> nu < INR (length (s_target s)) -> 0 < tol ->
  (ceil_usize (32 * ln (INR (length (s_target s)) / nu) / tol ^ 2) < fuel)%nat ->
  forall ws hs r, length ws = length hs -> is_dist ws -> (forall h, In h hs -> on_offer s t h) ->
  soft_margin_eval nu s (vote sstump_conf (combine ws hs)) = Ok r -> 0 <= r -> tol / 2 < r ^ 2 ->
  exists tr f v, run (cerlpboost (btree_conf s) eqH produce (s_target s)) fuel c = Finished tr f /\
    soft_margin_eval nu s (wm_confidence (btree_conf s) f) = Ok v /\ r ^ 2 - tol <= v.
Proof.
  intros order s b t produce eqH c fuel Tr Mb Eb Ho Hpm Hval Hc Hw Heq nu tol Hty Hnu1 Htol Hfuel ws hs r Lw Dw Hof Er Hr0 Hr.
  destruct (eval_is_soft s nu _ r Tr Er) as [[_ Hmin] Hnu].
  assert (Hht : 0 < ce_half_tol c) by (unfold tol in Htol; lra).
  assert (Hm : forall (h : btree s) i, (i < length (s_target s))%nat -> -1 <= nth i (s_target s) 0 * btree_conf s h i <= 1) by (intros [h Hh] i Hi; apply (Hh i Hi)).
  assert (He2 : forall f h : btree s, eqH f h = true -> forall i, (i < length (s_target s))%nat -> btree_conf s f i = btree_conf s h i) by (intros f h E i _; rewrite (Heq f h E); reflexivity).
  assert (Ge : forall k d, capped nu (s_target s) d -> r ^ 2 <= edge_of (s_target s) d (btree_conf s (produce k d))).
  { intros k d Cd. destruct (capped_dist _ _ _ Cd) as [Ld Dd]. apply (tree_beats_votes order s b t Tr Mb Eb Ho Hpm produce Hw k d ws hs r Hc Ld Dd Lw Dw Hof Hr0). apply (Hmin d Cd). }
  assert (Hlim : ceil_usize (32 * ln (INR (length (s_target s)) / nu) / tol ^ 2) = ceil_usize (8 * ln (INR (length (s_target s)) / nu) / ce_half_tol c ^ 2)).
  { f_equal. unfold tol. field. lra. }
  rewrite Hlim in Hfuel.
  destruct (P_C62_cerlp_round_limit (btree s) (btree_conf s) eqH produce (s_target s) c fuel Hnu) as [_ T]. specialize (T Hfuel).
  destruct (run (cerlpboost (btree_conf s) eqH produce (s_target s)) fuel c) as [tr f|tr p|tr] eqn:Erun; [| |destruct T].
  - destruct (eval_total s nu (wm_confidence (btree_conf s) f) Tr Hnu) as [v [Ev Sv]]. exists tr, f, v. split; [reflexivity|]. split; [exact Ev|].
    apply (P_C62_cerlp_guarantee (btree s) (btree_conf s) eqH produce (s_target s) c fuel tr f (r ^ 2) Hty Hnu Hht Hm He2 Erun); [|exact Sv].
    apply Forall_forall. intros e He. unfold edges in He. apply in_map_iff in He. destruct He as [[k d] [<- Hp]]. cbn [fst snd]. apply in_combine_r in Hp. apply Ge.
    apply (P_C62_cerlp_queries_capped (btree s) (btree_conf s) eqH produce (s_target s) c fuel d Hnu). rewrite Erun. exact Hp.
  - exfalso. destruct (P_C62_cerlp_crash_only_when (btree s) (btree_conf s) eqH produce (s_target s) c fuel tr p Hty Hval (conj (proj1 Hnu) Hnu1) Hht Hm He2 Erun) as [_ [_ X]].
    assert (Hn : (0 < length (s_target s))%nat) by (apply valid_instance_nonempty, Hval).
    pose proof (Ge 1%nat _ (capped_uniform nu (s_target s) Hn Hnu)) as G. unfold tol in Hr. lra.
Qed.

(** ** C74: MLPBoost with trees, with an exact solver: the same guarantee, and no condition on r *)
Lemma P_C74_mlpboost_with_trees :
  forall order s b t produce eqH solve noise (c : @mlp (btree s)) fuel, trainable s -> dt_made s b -> tb_build b s = Ok t -> listing order -> pm_labels s ->
  is_valid_binary_instance (s_target s) = Ok tt -> tb_criterion b = Edge -> answers_with_trees order t s produce -> (forall f h, eqH f h = true -> f = h) ->
  let nu := fw_nu (ml_fw c) in let tol := 2 * ml_half_tol c in
  fw_type (ml_fw c) = Classic \/ fw_type (ml_fw c) = ShortStep -> nu < INR (length (s_target s)) -> 0 < tol ->
  (forall k, 0 < noise k < 1) -> (forall hs p, mlp_asks (btree_conf s) eqH solve noise produce (s_target s) c hs p -> solves p (solve p)) ->
  32 * ln (INR (length (s_target s)) / nu) / tol ^ 2 < INR fuel ->
  forall ws hs r, length ws = length hs -> is_dist ws -> (forall h, In h hs -> on_offer s t h) ->
  soft_margin_eval nu s (vote sstump_conf (combine ws hs)) = Ok r -> 0 <= r ->
  exists tr f v, run (mlpboost (btree_conf s) eqH solve noise produce (s_target s)) (S fuel) c = Finished tr f /\
    soft_margin_eval nu s (wm_confidence (btree_conf s) f) = Ok v /\ r ^ 2 - tol <= v.
Proof.
  intros order s b t produce eqH solve noise c fuel Tr Mb Eb Ho Hpm Hval Hc Hw Heq nu tol Hty Hnu1 Htol Hnoise Hsol Hfuel ws hs r Lw Dw Hof Er Hr0.
  destruct (eval_is_soft s nu _ r Tr Er) as [[_ Hmin] Hnu].
  assert (Hht : 0 < ml_half_tol c) by (unfold tol in Htol; lra).
  assert (Hm : forall (h : btree s) i, (i < length (s_target s))%nat -> -1 <= nth i (s_target s) 0 * btree_conf s h i <= 1) by (intros [h Hh] i Hi; apply (Hh i Hi)).
  assert (He2 : forall f h : btree s, eqH f h = true -> forall i, (i < length (s_target s))%nat -> btree_conf s f i = btree_conf s h i) by (intros f h E i _; rewrite (Heq f h E); reflexivity).
  assert (Hlim : (mlp_max_loop (ml_half_tol c) nu (length (s_target s)) < S fuel)%nat).
  { unfold mlp_max_loop. apply Nat.lt_succ_r. apply ceil_usize_least. left. replace (8 * ln (INR (length (s_target s)) / nu) / ml_half_tol c ^ 2) with (32 * ln (INR (length (s_target s)) / nu) / tol ^ 2) by (unfold tol; field; lra). exact Hfuel. }
  destruct (P_C65_guarantee (btree s) (btree_conf s) eqH solve noise produce (s_target s) c (S fuel) Hty Hval (conj (proj1 Hnu) Hnu1) Hht Hm He2 Hnoise Hsol Hlim) as [tr [f [Erun G]]].
  destruct (eval_total s nu (wm_confidence (btree_conf s) f) Tr Hnu) as [v [Ev Sv]]. exists tr, f, v. split; [exact Erun|]. split; [exact Ev|].
  apply (G (r ^ 2) v); [|exact Sv]. apply Forall_forall. intros e He. unfold edges in He. apply in_map_iff in He. destruct He as [[k d] [<- Hp]]. cbn [fst snd]. apply in_combine_r in Hp.
  pose proof (P_C65_rounds (btree s) (btree_conf s) eqH solve noise produce (s_target s) c (S fuel) Hnu) as [_ Q]. rewrite Erun in Q. specialize (Q d Hp). cbv beta in Q. destruct (capped_dist _ _ _ Q) as [Ld Dd].
  apply (tree_beats_votes order s b t Tr Mb Eb Ho Hpm produce Hw k d ws hs r Hc Ld Dd Lw Dw Hof Hr0). apply (Hmin d Q).
Qed.

(** ** C74: LPBoost with trees, with an exact solver: if it returns a vote, its smallest margin is at least r^2 - tolerance,
    r >= 0 being the smallest margin of any vote of signed stumps on offer *)
Lemma P_C74_lpboost_with_trees :
  forall order s b t produce solve (c : @lpboost (btree s)) fuel tr f, trainable s -> dt_made s b -> tb_build b s = Ok t -> listing order -> pm_labels s ->
  tb_criterion b = Edge -> answers_with_trees order t s produce ->
  (forall p, lpb_asks (btree_conf s) solve produce (s_target s) c p -> solves p (solve p)) ->
  run (lpboost_booster (btree_conf s) solve produce (s_target s)) fuel c = Finished tr f ->
  forall ws hs r v, length ws = length hs -> is_dist ws -> (forall h, In h hs -> on_offer s t h) ->
  hard_margin_eval s (vote sstump_conf (combine ws hs)) = Ok r -> 0 <= r -> hard_margin_eval s (wm_confidence (btree_conf s) f) = Ok v -> r ^ 2 - lb_tol c <= v.
Proof.
  intros order s b t produce solve c fuel tr f Tr Mb Eb Ho Hpm Hc Hw Hsol Erun ws hs r v Lw Dw Hof Er Hr0 Ev.
  pose proof (target_length s Tr) as LT. assert (Hn : (0 < length (s_target s))%nat) by (rewrite LT; apply Tr).
  assert (Hf : (0 < snd (shape s))%nat).
  { destruct Tr as [M [_ [Hf _]]]. unfold shape. cbn [snd]. rewrite (good_nf s (made_good s M)). destruct (s_features s); [congruence|simpl; lia]. }
  destruct (P_C42_hard_margin s (vote sstump_conf (combine ws hs)) LT ltac:(apply Tr) Hf) as [r' [Er' Mr]]. rewrite Er in Er'. injection Er' as <-.
  destruct (P_C42_hard_margin s (wm_confidence (btree_conf s) f) LT ltac:(apply Tr) Hf) as [v' [Ev' Mv]]. rewrite Ev in Ev'. injection Ev' as <-. rewrite <- LT in Mr, Mv.
  destruct (P_C34_certificate (btree s) (btree_conf s) solve produce (s_target s) c fuel tr f Hsol Erun) as [Q [g [gh [[[i2 [Hi2 Ei2]] Hg2] [_ [Gi [_ Gt]]]]]]].
  destruct Mv as [[i1 [Hi1 Ei1]] Hv']. assert (Eg : g = v) by (apply Rle_antisym; [rewrite <- Ei1; apply Hg2, Hi1|rewrite <- Ei2; apply Hv', Hi2]). subst g.
  assert (r ^ 2 <= gh); [|lra]. destruct Mr as [[i0 [Hi0 Ei0]] Hr]. destruct Gi as [->|Gi].
  - assert (r <= 1); [|nra]. rewrite <- Ei0.
    assert (B : vote sstump_conf (combine ws hs) i0 <= 1 /\ -1 <= vote sstump_conf (combine ws hs) i0).
    { unfold vote. destruct Dw as [D1 D2]. clear - Lw D1 D2. rewrite <- D2 at 1. replace (-1) with (- rsum ws) by lra. clear D2. revert hs Lw. induction ws as [|w ws IH]; intros [|h hs] Lw; try discriminate; [simpl; lra|].
      cbn [combine map rsum fst snd]. destruct (IH ltac:(intros x Hx; apply D1; right; exact Hx) hs ltac:(simpl in Lw; congruence)) as [A B].
      pose proof (D1 w (or_introl eq_refl)) as W. assert (S : sstump_conf h i0 = 1 \/ sstump_conf h i0 = -1) by (unfold sstump_conf, stump; destruct (ss_flip h), (Rlt_dec (column (ss_feature h) i0) (ss_threshold h)); solve [left; ring | right; ring]).
      destruct S as [-> | ->]; lra. }
    rewrite LT in Hi0. destruct (Hpm i0 Hi0) as [-> | ->]; lra.
  - unfold edges in Gi. apply in_map_iff in Gi. destruct Gi as [[k d] [Ed Hin]]. cbn [fst snd] in Ed. apply in_combine_r in Hin.
    rewrite Forall_forall in Q. destruct (Q d Hin) as [Dd Ld]. rewrite <- Ed.
    apply (tree_beats_votes order s b t Tr Mb Eb Ho Hpm produce Hw k d ws hs r Hc Ld Dd Lw Dw Hof Hr0). apply dist_margin; assumption.
Qed.

(** ** C74: ERLPBoost with trees (any criterion), with an exact solver: it returns a vote within max_loop() rounds, it
    never panics; with the edge criterion and a stop before the limit, the edge of the vote under the last distribution is
    at least r^2 - tolerance, r >= 0 being the soft margin of any vote of signed stumps on offer *)
Lemma P_C74_erlpboost_with_trees :
  forall order s b t produce solve inner (c : @erlp (btree s)) fuel, trainable s -> dt_made s b -> tb_build b s = Ok t -> listing order -> pm_labels s ->
  is_valid_binary_instance (s_target s) = Ok tt -> answers_with_trees order t s produce ->
  (forall p, erlp_asks (btree_conf s) solve produce (s_target s) inner c p -> solves p (solve p)) ->
  let nu := er_nu c in let n := length (s_target s) in let limit := erlp_max_loop (er_half_tol c) nu n in
  1 <= nu <= INR n -> 0 < er_half_tol c < 1 ->
  (1001 + ln (INR n) / erlp_eta (er_half_tol c) nu n) * 1000000000 + 1 < INR inner -> (limit < fuel)%nat ->
  exists tr f, run (erlpboost (btree_conf s) solve produce (s_target s) inner) fuel c = Finished tr f /\ (length tr <= limit)%nat /\
  (tb_criterion b = Edge -> (length tr < limit)%nat -> forall ws hs r, length ws = length hs -> is_dist ws -> (forall h, In h hs -> on_offer s t h) ->
     soft_margin_eval nu s (vote sstump_conf (combine ws hs)) = Ok r -> 0 <= r ->
     exists tr' d, tr = tr' ++ [d] /\ r ^ 2 - 2 * er_half_tol c <= edge_of (s_target s) d (wm_confidence (btree_conf s) f)).
Proof.
  intros order s b t produce solve inner c fuel Tr Mb Eb Ho Hpm Hval Hw Hsol nu n limit Hnu Hht Hin Hfuel.
  assert (Hm : forall (h : btree s) i, (i < length (s_target s))%nat -> -1 <= nth i (s_target s) 0 * btree_conf s h i <= 1) by (intros [h Hh] i Hi; apply (Hh i Hi)).
  destruct (P_C35_terminates (btree s) (btree_conf s) solve produce (s_target s) inner c Hsol Hm Hval Hnu Hht Hin fuel Hfuel) as [[tr [f [Er [Fc Ll]]]]|[_ X]].
  - exists tr, f. split; [exact Er|]. split; [exact Ll|]. intros Hc Hlt ws hs r Lw Dw Hof Err Hr0. destruct (eval_is_soft s nu _ r Tr Err) as [[_ Hmin] _].
    apply (P_C35_criterion (btree s) (btree_conf s) solve produce (s_target s) inner c fuel tr f (r ^ 2) Hsol Hm Hin Er Hlt).
    intros e He. unfold edges in He. apply in_map_iff in He. destruct He as [[k d] [<- Hp]]. cbn [fst snd]. apply in_combine_r in Hp. rewrite Forall_forall in Fc. specialize (Fc d Hp).
    destruct (capped_dist _ _ _ Fc) as [Ld Dd]. apply (tree_beats_votes order s b t Tr Mb Eb Ho Hpm produce Hw k d ws hs r Hc Ld Dd Lw Dw Hof Hr0). apply (Hmin d Fc).
  - exfalso. assert (Hn : (0 < length (s_target s))%nat) by (apply valid_instance_nonempty, Hval).
    destruct (capped_dist _ _ _ (capped_uniform nu (s_target s) Hn Hnu)) as [Ld Dd]. pose proof (tree_edge_nonneg order s b t Tr Mb Eb Ho Hpm produce Hw 1 _ Ld Dd). lra.
Qed.

(** ** hypotheses met *)
Definition sep_stump : sstump := mkStump ex_feature (/ 2) true.
Example C74_case : exists t, tb_build (ex_builder Edge 2) sep_sample = Ok t /\ answers_with_trees (fun m => rev m) t sep_sample (btree_learner (fun m => rev m) t sep_sample) /\
  on_offer sep_sample t sep_stump /\ (forall nu, 1 <= nu <= 4 -> soft_margin_eval nu sep_sample (vote sstump_conf (combine [1] [sep_stump])) = Ok 1) /\
  exists fuel tr f v, run (cerlpboost (btree_conf sep_sample) (fun _ _ => false) (btree_learner (fun m => rev m) t sep_sample) (s_target sep_sample)) fuel (cerlp_init (s_target sep_sample)) = Finished tr f /\
    soft_margin_eval 1 sep_sample (wm_confidence (btree_conf sep_sample) f) = Ok v /\ 98 / 100 <= v.
Proof.
  destruct (sep_built Edge 2 ltac:(lia)) as [t [E O]]. exists t. split; [exact E|].
  assert (Ho : listing (fun m => rev m)) by (intros m; apply Permutation_sym, Permutation_rev).
  assert (Hw : answers_with_trees (fun m => rev m) t sep_sample (btree_learner (fun m => rev m) t sep_sample)).
  { apply (learner_answers (fun m => rev m) sep_sample (ex_builder Edge 2) t sep_trainable (sep_made Edge 2 ltac:(lia)) E Ho sep_pm). }
  split; [exact Hw|]. assert (Hof : on_offer sep_sample t sep_stump) by (split; [left; reflexivity|exact O]). split; [exact Hof|].
  assert (Hm : forall nu, 1 <= nu <= 4 -> soft_margin_eval nu sep_sample (vote sstump_conf (combine [1] [sep_stump])) = Ok 1).
  { intros nu Hnu. assert (Hnu' : 1 <= nu <= INR (length (s_target sep_sample))) by (simpl; lra). destruct (eval_total sep_sample nu (vote sstump_conf (combine [1] [sep_stump])) sep_trainable Hnu') as [v [Ev [[d [Cd Ed]] _]]].
    rewrite Ev. f_equal. rewrite <- Ed. destruct (capped_dist _ _ _ Cd) as [Ld [_ Sd]]. destruct d as [|d0 [|d1 [|d2 [|d3 [|d4 d]]]]]; try discriminate Ld.
    unfold edge_of, vote, sstump_conf, stump, column. simpl. simpl in Sd. repeat (destruct Rlt_dec; try lra). }
  split; [exact Hm|].
  set (N := ceil_usize (32 * ln (INR (length (s_target sep_sample)) / 1) / (2 * ce_half_tol (@cerlp_init (btree sep_sample) (s_target sep_sample))) ^ 2)).
  exists (S N).
  destruct (P_C74_cerlpboost_with_trees (fun m => rev m) sep_sample (ex_builder Edge 2) t (btree_learner (fun m => rev m) t sep_sample) (fun _ _ => false) (cerlp_init (s_target sep_sample)) (S N)
    sep_trainable (sep_made Edge 2 ltac:(lia)) E Ho sep_pm sep_valid eq_refl Hw ltac:(discriminate) ltac:(right; reflexivity) ltac:(simpl; lra) ltac:(simpl; lra) ltac:(unfold N; simpl fw_nu; lia) [1] [sep_stump] 1 eq_refl)
    as [tr [f [v [R1 [R2 R3]]]]].
  - split; [intros x [<-|[]]; lra|simpl; lra].
  - intros h [<-|[]]. exact Hof.
  - apply Hm. simpl. lra.
  - lra.
  - simpl. lra.
  - exists tr, f, v. split; [exact R1|]. split; [exact R2|]. simpl in R3. lra.
Qed.
