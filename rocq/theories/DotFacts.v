(** Property C83: the exported drawing of a tree reads like the tree. *)
From Coq Require Import String Permutation.
From Verif Require Import Base Spec BinSearch Feature Sample SampleSpec FeatureFacts SampleFacts Bins BinsSpec BinsProofs BinsFacts TreeSpec DTree TreeShape DTreeProofs DTreeSplit DTreeBest DTreeGrow DTreeOut DTreeFacts DotSpec Dot.
Open Scope R_scope.

Fixpoint size (t : node) : nat := match t with Leaf _ => 1 | Branch _ l r => 1 + size l + size r end.

Section Dot.
  Variables sh pr : R -> R.

  Lemma dot_next t : forall id, snd (to_dot_info sh pr t id) = (id + size t)%nat.
  Proof.
    induction t as [c|rule l IL r IR]; intros id; cbn [to_dot_info size snd]; [reflexivity|].
    specialize (IL (id + 1)%nat). destruct (to_dot_info sh pr l (id + 1)) as [li nx]. cbn [snd] in IL. subst nx.
    specialize (IR (id + 1 + size l)%nat). destruct (to_dot_info sh pr r _) as [ri rt]. cbn [snd] in *. lia.
  Qed.

  Lemma dot_branch rule l r id : fst (to_dot_info sh pr (Branch rule l r) id) =
    (((fst (to_dot_info sh pr l (id + 1)) ++ [Question id (sp_feature rule) (sh (sp_threshold rule))]) ++ fst (to_dot_info sh pr r (id + 1 + size l)))
      ++ [Link id (id + 1) true]) ++ [Link id (id + 1 + size l) false].
  Proof.
    cbn [to_dot_info]. pose proof (dot_next l (id + 1)) as N. destruct (to_dot_info sh pr l (id + 1)) as [li nx]. cbn [snd fst] in *. subst nx.
    destruct (to_dot_info sh pr r _) as [ri rt]. reflexivity.
  Qed.

  Ltac fm := unfold node_ids, question_ids, link_targets, link_sources; rewrite !flat_map_app; cbn [flat_map Bool.eqb app].

  Lemma seq_S a n : seq a (S n) = seq a n ++ [(a + n)%nat].
  Proof. apply seq_S. Qed.

  Lemma dot_nodes t : forall id, Permutation (node_ids (fst (to_dot_info sh pr t id))) (seq id (size t)).
  Proof.
    induction t as [c|rule l IL r IR]; intros id; [apply Permutation_refl|]. rewrite dot_branch. fm. rewrite !app_nil_r. fold node_ids.
    change (flat_map _ (fst (to_dot_info sh pr l (id + 1)))) with (node_ids (fst (to_dot_info sh pr l (id + 1)))).
    change (flat_map _ (fst (to_dot_info sh pr r (id + 1 + size l)))) with (node_ids (fst (to_dot_info sh pr r (id + 1 + size l)))).
    rewrite (IL (id + 1)%nat), (IR (id + 1 + size l)%nat). cbn [size]. rewrite <- app_assoc. cbn [app]. symmetry.
    replace (1 + size l + size r)%nat with (S (size l + size r)) by lia. cbn [seq]. rewrite seq_app.
    replace (S id) with (id + 1)%nat by lia. apply Permutation_middle.
  Qed.

  Lemma dot_targets t : forall id, Permutation (link_targets (fst (to_dot_info sh pr t id))) (seq (S id) (size t - 1)).
  Proof.
    induction t as [c|rule l IL r IR]; intros id; [apply Permutation_refl|]. rewrite dot_branch. fm.
    change (flat_map _ (fst (to_dot_info sh pr l (id + 1)))) with (link_targets (fst (to_dot_info sh pr l (id + 1)))).
    change (flat_map _ (fst (to_dot_info sh pr r (id + 1 + size l)))) with (link_targets (fst (to_dot_info sh pr r (id + 1 + size l)))).
    rewrite (IL (id + 1)%nat), (IR (id + 1 + size l)%nat). rewrite app_nil_r. cbn [size].
    assert (P1 : forall u, size u = S (size u - 1)) by (destruct u; cbn; lia).
    replace (1 + size l + size r - 1)%nat with (size l + size r)%nat by lia. rewrite seq_app. rewrite (P1 l) at 4. rewrite (P1 r) at 2. cbn [seq].
    replace (S id + size l)%nat with (id + 1 + size l)%nat by lia. replace (S id) with (id + 1)%nat by lia.
    set (a := seq (S (id + 1)) _). set (b := seq (S (id + 1 + size l)) _). rewrite <- !app_assoc.
    apply (Permutation_trans (l' := (id + 1)%nat :: a ++ b ++ [(id + 1 + size l)%nat])).
    - rewrite app_assoc. rewrite (app_assoc a b). apply Permutation_sym, Permutation_middle.
    - cbn [app]. constructor. apply Permutation_app_head. apply Permutation_sym, Permutation_cons_append.
  Qed.

  Lemma dot_sources c t : forall id, Permutation (link_sources c (fst (to_dot_info sh pr t id))) (question_ids (fst (to_dot_info sh pr t id))).
  Proof.
    induction t as [w|rule l IL r IR]; intros id; [apply Permutation_refl|]. rewrite !dot_branch. fm.
    change (flat_map _ (fst (to_dot_info sh pr l (id + 1)))) with (link_sources c (fst (to_dot_info sh pr l (id + 1)))) at 1.
    change (flat_map _ (fst (to_dot_info sh pr r (id + 1 + size l)))) with (link_sources c (fst (to_dot_info sh pr r (id + 1 + size l)))) at 1.
    change (flat_map _ (fst (to_dot_info sh pr l (id + 1)))) with (question_ids (fst (to_dot_info sh pr l (id + 1)))).
    change (flat_map _ (fst (to_dot_info sh pr r (id + 1 + size l)))) with (question_ids (fst (to_dot_info sh pr r (id + 1 + size l)))).
    rewrite (IL (id + 1)%nat), (IR (id + 1 + size l)%nat). rewrite !app_nil_r. rewrite <- !app_assoc. apply Permutation_app_head.
    destruct c; cbn [app Bool.eqb]; rewrite ?app_nil_r; apply Permutation_sym, Permutation_cons_append.
  Qed.

  (** the tree with the printed thresholds *)
  Fixpoint shown (t : node) : node := match t with Leaf c => Leaf c | Branch rule l r => Branch (mkSplitter (sp_feature rule) (sh (sp_threshold rule))) (shown l) (shown r) end.

  Definition src (l : line) : nat := match l with Question i _ _ => i | Box i _ => i | Link i _ _ => i end.

  Lemma dot_src t : forall id l, In l (fst (to_dot_info sh pr t id)) -> (id <= src l < id + size t)%nat.
  Proof.
    induction t as [c|rule l IL r IR]; intros id ln; [cbn; intros [<-|[]]; cbn; lia|]. rewrite dot_branch, !in_app_iff. cbn [size].
    intros [[[[H|[<-|[]]]|H]|[<-|[]]]|[<-|[]]]; cbn [src]; try lia; [apply IL in H|apply IR in H]; lia.
  Qed.

  Lemma cell_fun s row nm x x' : cell s row nm x -> cell s row nm x' -> x = x'.
  Proof. intros [f [A B]] [f' [A' B']]. rewrite A in A'. injection A' as <-. rewrite B in B'. injection B' as <-. reflexivity. Qed.

  Lemma split_cell rule s row b : split_left rule s row = Ok b <-> exists x, cell s row (sp_feature rule) x /\ b = Rltb x (sp_threshold rule).
  Proof.
    unfold split_left. split.
    - destruct (by_name s (sp_feature rule)) as [f|] eqn:E; cbn [bind]; [|discriminate]. destruct (feat_index f row) as [v|] eqn:E2; cbn [bind]; [|discriminate].
      intros X. injection X as <-. exists v. split; [exists f; auto|reflexivity].
    - intros [x [[f [A B]] ->]]. rewrite A. cbn [bind]. rewrite B. reflexivity.
  Qed.

  Lemma dot_reads s row g t : forall id,
    (forall l, In l g -> (id <= src l < id + size t)%nat -> In l (fst (to_dot_info sh pr t id))) -> (forall l, In l (fst (to_dot_info sh pr t id)) -> In l g) ->
    forall p, reads g s row id p <-> exists v, node_confidence (shown t) s row = Ok v /\ p = pr v.
  Proof.
    induction t as [c|rule l IL r IR]; intros id Hg Hi p.
    - split.
      + intros H. inversion H as [i v Hb|i nm th x j v Hq|i nm th x j v Hq]; subst.
        * apply Hg in Hb; [|cbn; lia]. destruct Hb as [Hb|[]]. injection Hb as <-. exists c; auto.
        * apply Hg in Hq; [|cbn; lia]. destruct Hq as [Hq|[]]. discriminate.
        * apply Hg in Hq; [|cbn; lia]. destruct Hq as [Hq|[]]. discriminate.
      + intros [v [E ->]]. cbn in E. injection E as <-. constructor. apply Hi. left. reflexivity.
    - assert (SL : (id + 1 + size l + size r = id + size (Branch rule l r))%nat) by (cbn [size]; lia).
      assert (Own : forall ln, In ln g -> src ln = id -> ln = Question id (sp_feature rule) (sh (sp_threshold rule)) \/ ln = Link id (id + 1) true \/ ln = Link id (id + 1 + size l) false).
      { intros ln H E. apply Hg in H; [|cbn [size]; lia]. rewrite dot_branch, !in_app_iff in H.
        destruct H as [[[[H|[<-|[]]]|H]|[<-|[]]]|[<-|[]]]; auto; apply dot_src in H; lia. }
      assert (Q : In (Question id (sp_feature rule) (sh (sp_threshold rule))) g) by (apply Hi; rewrite dot_branch, !in_app_iff; cbn; auto 10).
      assert (Y : In (Link id (id + 1) true) g) by (apply Hi; rewrite dot_branch, !in_app_iff; cbn; auto 10).
      assert (N : In (Link id (id + 1 + size l) false) g) by (apply Hi; rewrite dot_branch, !in_app_iff; cbn; auto 10).
      specialize (IL (id + 1)%nat). specialize (IR (id + 1 + size l)%nat).
      assert (GL : forall ln, In ln g -> (id + 1 <= src ln < id + 1 + size l)%nat -> In ln (fst (to_dot_info sh pr l (id + 1)))).
      { intros ln H E. apply Hg in H; [|lia]. rewrite dot_branch, !in_app_iff in H. destruct H as [[[[H|[<-|[]]]|H]|[<-|[]]]|[<-|[]]]; cbn [src] in E; try lia; [exact H|apply dot_src in H; lia]. }
      assert (GR : forall ln, In ln g -> (id + 1 + size l <= src ln < id + 1 + size l + size r)%nat -> In ln (fst (to_dot_info sh pr r (id + 1 + size l)))).
      { intros ln H E. apply Hg in H; [|lia]. rewrite dot_branch, !in_app_iff in H. destruct H as [[[[H|[<-|[]]]|H]|[<-|[]]]|[<-|[]]]; cbn [src] in E; try lia; [apply dot_src in H; lia|exact H]. }
      specialize (IL GL ltac:(intros ln H; apply Hi; rewrite dot_branch, !in_app_iff; auto 10)). specialize (IR GR ltac:(intros ln H; apply Hi; rewrite dot_branch, !in_app_iff; auto 10)).
      cbn [shown node_confidence]. split.
      + intros H. inversion H as [i v Hb|i nm th x j v Hq Hc Hl Hk Hr|i nm th x j v Hq Hc Hl Hk Hr]; subst.
        * apply Own in Hb; [|reflexivity]. destruct Hb as [|[|]]; discriminate.
        * apply Own in Hq; [|reflexivity]. destruct Hq as [Hq|[|]]; try discriminate. injection Hq as -> ->. apply Own in Hk; [|reflexivity]. destruct Hk as [|[Hk|Hk]]; try discriminate. injection Hk as ->.
          apply IL in Hr. destruct Hr as [w [E ->]]. exists w. split; [|reflexivity].
          rewrite (proj2 (split_cell (mkSplitter (sp_feature rule) (sh (sp_threshold rule))) s row true) (ex_intro _ x (conj Hc (eq_sym (Rltb_true _ _ Hl))))). exact E.
        * apply Own in Hq; [|reflexivity]. destruct Hq as [Hq|[|]]; try discriminate. injection Hq as -> ->. apply Own in Hk; [|reflexivity]. destruct Hk as [|[Hk|Hk]]; try discriminate. injection Hk as ->.
          apply IR in Hr. destruct Hr as [w [E ->]]. exists w. split; [|reflexivity].
          rewrite (proj2 (split_cell (mkSplitter (sp_feature rule) (sh (sp_threshold rule))) s row false) (ex_intro _ x (conj Hc (eq_sym (Rltb_false _ _ (Rnot_lt_le _ _ Hl)))))). exact E.
      + intros [v [E ->]]. destruct (split_left _ s row) as [b|] eqn:S; cbn [bind] in E; [|discriminate]. apply split_cell in S. cbn [sp_feature sp_threshold] in S. destruct S as [x [Hc ->]].
        destruct (Rltb_spec x (sh (sp_threshold rule))) as [L|L].
        * eapply on_yes; [exact Q|exact Hc|exact L|exact Y|]. apply IL. eauto.
        * eapply on_no; [exact Q|exact Hc|lra|exact N|]. apply IR. eauto.
  Qed.

  Lemma shown_same s row t : (forall rule x, In rule (rules t) -> cell s row (sp_feature rule) x -> (x < sp_threshold rule <-> x < sh (sp_threshold rule))) ->
    node_confidence (shown t) s row = node_confidence t s row.
  Proof.
    induction t as [c|rule l IL r IR]; intros H; [reflexivity|]. cbn [shown node_confidence rules] in *.
    rewrite IL, IR by (intros; apply H; [right; apply in_or_app; auto|assumption]).
    assert (S : split_left (mkSplitter (sp_feature rule) (sh (sp_threshold rule))) s row = split_left rule s row); [|rewrite S; reflexivity].
    unfold split_left. cbn [sp_feature sp_threshold]. destruct (by_name s (sp_feature rule)) as [f|] eqn:E; [|reflexivity]. cbn [bind]. destruct (feat_index f row) as [x|] eqn:E2; [|reflexivity]. cbn [bind]. f_equal.
    specialize (H rule x (or_introl eq_refl) (ex_intro _ f (conj E E2))).
    destruct (Rltb_spec x (sh (sp_threshold rule))), (Rltb_spec x (sp_threshold rule)); try reflexivity; exfalso; lra || tauto || (apply H in r0; lra).
  Qed.
End Dot.

(** ** the drawing is a tree rooted at node 0: its nodes are numbered without gaps or repetitions, every node but node 0 is
    the end of exactly one link, and every question has exactly one Yes- and one No-link (boxes have none) - for every
    tree, whatever its thresholds are printed as *)
Lemma P_C83_drawing_is_a_tree : forall sh t g, g = dt_dot_file sh t \/ g = rt_dot_file sh t ->
  Permutation (node_ids g) (seq 0 (length (node_ids g))) /\ In 0%nat (node_ids g) /\
  Permutation (link_targets g) (seq 1 (length (node_ids g) - 1)) /\
  Permutation (link_sources true g) (question_ids g) /\ Permutation (link_sources false g) (question_ids g).
Proof.
  intros sh t g Hg. assert (X : exists pr, g = fst (to_dot_info sh pr t 0)) by (destruct Hg as [-> | ->]; eexists; reflexivity). destruct X as [pr ->]. clear Hg.
  pose proof (dot_nodes sh pr t 0) as P. assert (L : length (node_ids (fst (to_dot_info sh pr t 0))) = size t) by (rewrite P, seq_length; reflexivity). rewrite L.
  split; [exact P|]. split; [apply Permutation_sym in P; eapply Permutation_in; [exact P|]; apply in_seq; destruct t; cbn [size]; lia|].
  split; [apply dot_targets|]. split; apply dot_sources.
Qed.

(** ** read for a row, the drawing gives exactly the tree's answer, provided no feature value of the row is within half a
    hundredth of a threshold asked about it (or the threshold is printed exactly); a regression tree's answer is rounded *)
Lemma P_C83_reads_like_the_tree : forall sh t s row v, two_decimals sh ->
  node_confidence t s row = Ok v ->
  (forall rule x, In rule (rules t) -> cell s row (sp_feature rule) x -> / 200 < Rabs (x - sp_threshold rule) \/ sh (sp_threshold rule) = sp_threshold rule) ->
  (forall p, reads (dt_dot_file sh t) s row 0 p <-> p = v) /\
  (forall p, reads (rt_dot_file sh t) s row 0 p <-> p = sh v) /\ Rabs (sh v - v) <= / 200.
Proof.
  intros sh t s row v Hsh E H.
  assert (S : node_confidence (shown sh t) s row = Ok v).
  { rewrite shown_same; [exact E|]. intros rule x Hr Hc. destruct (H rule x Hr Hc) as [A| ->]; [|tauto]. destruct (Hsh (sp_threshold rule)) as [_ B]. revert A B. unfold Rabs. repeat destruct Rcase_abs; lra. }
  assert (G : forall pr p, reads (fst (to_dot_info sh pr t 0)) s row 0 p <-> p = pr v).
  { intros pr p. rewrite (dot_reads sh pr s row _ t 0) by auto. rewrite S. split; [intros [w [X ->]]; congruence|intros ->; eauto]. }
  split; [apply (G (fun q => q))|]. split; [apply (G sh)|apply Hsh].
Qed.

(** ** two decimals are not enough: here the learner sees values 0 and 0.008, separates them without error, and the
    drawing of the tree it returns gives one of the two training rows the answer of the other - however it is rounded *)
Definition fine_feature : feature := Dense "a" [0; / 125].
Definition fine_sample : sample := from_dataframe [("a"%string, [0; / 125])] 2 [1; -1].
Definition fine_dist : list R := [/ 2; / 2].

Lemma fine_trainable : trainable fine_sample.
Proof.
  pose proof F64MAX_big as B. split; [|split; [|split; [|split; [|split]]]].
  - apply made_dataframe. intros p [<-|[]]. reflexivity.
  - simpl. lia.
  - simpl. discriminate.
  - simpl. constructor; [intros []|constructor].
  - reflexivity.
  - intros f x [<-|[]] Hx. unfold moderate. destruct Hx as [<-|[<-|[]]]; rewrite Rabs_pos_eq; lra.
Qed.
Lemma fine_pm : pm_labels fine_sample.
Proof. intros i Hi. simpl in *. destruct i as [|[|i]]; auto; lia. Qed.
Lemma fine_spans : spans fine_feature 0 (/ 125).
Proof. split; [simpl; auto|]. split; [simpl; auto|]. intros x [<-|[<-|[]]]; lra. Qed.
Lemma fine_made c dep : (0 < dep)%nat -> dt_made fine_sample (ex_builder c dep).
Proof.
  assert (D : distinct_value_count fine_feature = 2%nat).
  { unfold distinct_value_count, fine_feature, inner_distinct_value_count. simpl.
    repeat (first [rewrite (Rleb_true 0 0) by lra | rewrite (Rleb_true 0 (/ 125)) by lra | rewrite (Rleb_true (/ 125) (/ 125)) by lra]; simpl).
    repeat (first [rewrite (Reqb_true 0 0) by lra | rewrite (Reqb_false (/ 125) 0) by lra | rewrite (Reqb_true (/ 125) (/ 125)) by lra]; simpl). reflexivity. }
  intros Hd. assert (E : tb_new fine_sample = mkDTB [("a"%string, 2%nat)] 2 Entropy).
  { unfold tb_new. change (s_features fine_sample) with [fine_feature]. cbn [map]. rewrite D. reflexivity. }
  pose proof (dm_new fine_sample) as M. rewrite E in M. apply (dm_criterion _ _ c) in M. unfold tb_set_criterion in M. simpl in M.
  apply (dm_depth _ _ dep (ex_builder c dep)) in M; [exact M|]. unfold tb_max_depth. apply Nat.ltb_lt in Hd. rewrite Hd. reflexivity.
Qed.
Lemma fine_built c dep : (0 < dep)%nat -> exists t, tb_build (ex_builder c dep) fine_sample = Ok t /\ offered (dt_bins t) fine_feature (/ 250).
Proof.
  intros Hd. assert (X : exists t, tb_build (ex_builder c dep) fine_sample = Ok t).
  { destruct fine_trainable as [M [Hn [Hf [NN [Ht Hm]]]]]. apply (P_C60_build_iff fine_sample (ex_builder c dep) M Hn NN Hm (fine_made c dep Hd)).
    intros f mn mx [<-|[]] Hs. exists 2%nat. split; [left; reflexivity|]. right. split; [lia|].
    destruct (spans_unique fine_feature _ _ _ _ Hs fine_spans) as [-> ->]. unfold bin_width. destruct (Req_EM_T 0 (/ 125)); [lra|]. simpl. lra. }
  destruct X as [t E]. exists t. split; [exact E|].
  destruct (P_C26_offered fine_sample (ex_builder c dep) t fine_trainable (fine_made c dep Hd) E fine_feature 0 (/ 125) (or_introl eq_refl) fine_spans) as [nb [H1 [_ H2]]].
  destruct H1 as [H1|[]]. inversion H1; subst nb. apply H2. right. right. exists 1%nat. split; [lia|]. unfold bin_width. destruct (Req_EM_T 0 (/ 125)); [lra|]. simpl. lra.
Qed.

Lemma fine_cell row x nm : cell fine_sample row nm x -> (row < 2)%nat -> x = nth row [0; / 125] 0.
Proof.
  intros [f [A B]] Hr. assert (f = fine_feature) as ->.
  { unfold by_name in A. destruct (hm_get (s_names fine_sample) nm) as [q|]; [|discriminate]. change (s_features fine_sample) with [fine_feature] in A. destruct q as [|[|q]]; simpl in A; congruence. }
  destruct row as [|[|row]]; [| |lia]; cbn in B; injection B as <-; reflexivity.
Qed.

Lemma P_C83_two_decimals_refuted :
  exists s b t dist, trainable s /\ dt_made s b /\ tb_build b s = Ok t /\ is_dist dist /\ length dist = fst (shape s) /\ pm_labels s /\
  forall order, listing order -> exists h, dt_produce order t s dist = Ok h /\
    (forall i, (i < fst (shape s))%nat -> answer h s i = label s i) /\
    forall sh, two_decimals sh -> exists i p, (i < fst (shape s))%nat /\ reads (dt_dot_file sh h) s i 0 p /\ p = - label s i.
Proof.
  destruct (fine_built Edge 1 ltac:(lia)) as [t [E Hof]]. exists fine_sample, (ex_builder Edge 1), t, fine_dist.
  split; [exact fine_trainable|]. split; [apply fine_made; lia|]. split; [exact E|]. split; [split; [intros x [<-|[<-|[]]]; lra|unfold rsum; simpl; lra]|]. split; [reflexivity|]. split; [exact fine_pm|].
  intros order Ho.
  assert (Hpos : forall i, 0 <= weight fine_dist i) by (intros [|[|[|i]]]; unfold weight; simpl; lra).
  assert (Hsome : exists i, (i < fst (shape fine_sample))%nat /\ 0 < weight fine_dist i) by (exists 0%nat; unfold weight; simpl; split; [lia|lra]).
  destruct (P_C27_edge order fine_sample (ex_builder Edge 1) t fine_dist fine_trainable (fine_made Edge 1 ltac:(lia)) E eq_refl Hpos Hsome fine_pm Ho) as [h [Eh [_ [_ Hedge]]]].
  destruct (pm_int fine_sample fine_pm) as [lab HL].
  destruct (P_C27_tree order fine_sample (ex_builder Edge 1) t fine_dist lab fine_trainable (fine_made Edge 1 ltac:(lia)) E eq_refl Hsome HL Ho) as [h2 [Eh2 [Hd [Hok [Hb _]]]]].
  rewrite Eh in Eh2. injection Eh2 as <-. exists h. split; [exact Eh|].
  specialize (Hedge eq_refl fine_feature (/ 250) (or_introl eq_refl) Hof).
  assert (S : stump_edge (column fine_feature) (label fine_sample) (weight fine_dist) (/ 250) (all_rows fine_sample) = -1).
  { unfold stump_edge, all_rows, label, weight, column, stump. simpl. unfold rsum. repeat (destruct Rlt_dec; try lra); simpl; lra. }
  rewrite S in Hedge. assert (W : rsum (map (weight fine_dist) (all_rows fine_sample)) = 1) by (unfold all_rows, weight, rsum; simpl; lra). rewrite W in Hedge.
  destruct (Hok 0%nat ltac:(simpl; lia)) as [v0 E0]. destruct (Hok 1%nat ltac:(simpl; lia)) as [v1 E1]. pose proof (Hb _ _ _ E0) as B0. pose proof (Hb _ _ _ E1) as B1.
  assert (A0 : answer h fine_sample 0 = v0) by (unfold answer; rewrite E0; reflexivity). assert (A1 : answer h fine_sample 1 = v1) by (unfold answer; rewrite E1; reflexivity).
  assert (T : tree_edge_of h fine_sample fine_dist = (v0 - v1) / 2).
  { unfold tree_edge_of, all_rows. change (seq 0 (fst (shape fine_sample))) with [0; 1]%nat. cbn [map]. rewrite A0, A1. unfold label, weight, rsum. simpl. lra. }
  rewrite T in Hedge. assert (v0 = 1 /\ v1 = -1) as [-> ->] by lra.
  split; [intros [|[|i]] Hi; [rewrite A0; reflexivity|rewrite A1; reflexivity|simpl in Hi; lia]|].
  intros sh Hsh.
  assert (Same : node_confidence (shown sh h) fine_sample 1 = node_confidence (shown sh h) fine_sample 0).
  { clear - Hsh. induction h as [c|rule l IL r IR]; [reflexivity|]. cbn [shown node_confidence]. rewrite IL, IR.
    assert (Q : split_left (mkSplitter (sp_feature rule) (sh (sp_threshold rule))) fine_sample 1 = split_left (mkSplitter (sp_feature rule) (sh (sp_threshold rule))) fine_sample 0); [|rewrite Q; reflexivity].
    unfold split_left. cbn [sp_feature sp_threshold]. destruct (by_name fine_sample (sp_feature rule)) as [f|] eqn:Ef; [|reflexivity]. cbn [bind].
    assert (f = fine_feature) as ->.
    { unfold by_name in Ef. destruct (hm_get (s_names fine_sample) _) as [q|]; [|discriminate]. change (s_features fine_sample) with [fine_feature] in Ef. destruct q as [|[|q]]; simpl in Ef; congruence. }
    unfold fine_feature. cbn [feat_index nth_error bind]. f_equal. destruct (Hsh (sp_threshold rule)) as [[k ->] _]. destruct (Z_le_gt_dec k 0) as [K|K].
    - apply IZR_le in K. rewrite !Rltb_false by lra. reflexivity.
    - assert (K1 : (1 <= k)%Z) by lia. apply IZR_le in K1. rewrite !Rltb_true by lra. reflexivity. }
  destruct h as [c|rule l r]; [cbn in E0, E1; exfalso; assert (1 = -1) by congruence; lra|].
  change (tb_depth (ex_builder Edge 1)) with 1%nat in Hd. cbn [depth] in Hd. destruct l as [a|]; [|cbn [depth] in Hd; lia]. destruct r as [b|]; [|cbn [depth] in Hd; lia].
  assert (V : exists v, node_confidence (shown sh (Branch rule (Leaf a) (Leaf b))) fine_sample 0 = Ok v /\ (v = 1 \/ v = -1)).
  { clear Same. cbn [shown node_confidence] in *. destruct (split_left rule fine_sample 0) as [b0|] eqn:S0; cbn [bind] in E0; [|discriminate]. destruct (split_left rule fine_sample 1) as [b1|] eqn:S1; cbn [bind] in E1; [|discriminate].
    pose proof S0 as S0'. apply split_cell in S0'. destruct S0' as [x [Cx _]].
    rewrite (proj2 (split_cell (mkSplitter (sp_feature rule) (sh (sp_threshold rule))) fine_sample 0 _) (ex_intro _ x (conj Cx eq_refl))). cbn [bind sp_threshold].
    destruct b0, b1; cbn in E0, E1; try (exfalso; assert (1 = -1) by congruence; lra); injection E0 as ->; injection E1 as ->; destruct (Rltb x _); eauto. }
  destruct V as [v [Ev Hv]].
  assert (Rd : forall i, (i < 2)%nat -> reads (dt_dot_file sh (Branch rule (Leaf a) (Leaf b))) fine_sample i 0 v).
  { intros i Hi. apply (dot_reads sh (fun q => q) fine_sample i _ (Branch rule (Leaf a) (Leaf b)) 0); auto. exists v. split; [|reflexivity]. destruct i as [|[|i]]; [exact Ev|rewrite Same; exact Ev|lia]. }
  destruct Hv as [-> | ->].
  - exists 1%nat, 1. split; [simpl; lia|]. split; [apply Rd; lia|]. unfold label. simpl. lra.
  - exists 0%nat, (-1). split; [simpl; lia|]. split; [apply Rd; lia|]. unfold label. simpl. lra.
Qed.

(** the hypotheses of C83_reads_like_the_tree are met, on a tree that is not a leaf and with rounded thresholds *)
Example C83_case : exists sh t s row v, two_decimals sh /\ node_confidence t s row = Ok v /\ rules t <> [] /\
  (forall rule x, In rule (rules t) -> cell s row (sp_feature rule) x -> / 200 < Rabs (x - sp_threshold rule) \/ sh (sp_threshold rule) = sp_threshold rule) /\
  exists rule, In rule (rules t) /\ sh (sp_threshold rule) <> sp_threshold rule.
Proof.
  set (sh := fun x => IZR (Int_part (100 * x + / 2)) / 100).
  exists sh, (Branch (mkSplitter "a" (/ 3)) (Leaf 1) (Leaf (-1))), fine_sample, 0%nat, 1.
  split; [|split; [|split; [|split]]].
  - intros x. split; [eexists; reflexivity|]. unfold sh. destruct (base_Int_part (100 * x + / 2)) as [A B]. apply Rabs_le. split; apply (Rmult_le_reg_l 100); lra.
  - cbn. rewrite Rltb_true by lra. reflexivity.
  - discriminate.
  - intros rule x [<-|[]] Hc. left. apply fine_cell in Hc; [|lia]. subst x. cbn. rewrite Rabs_left; lra.
  - eexists. split; [left; reflexivity|]. cbn [sp_threshold]. unfold sh. intros E. apply (f_equal (fun z => 300 * z)) in E. assert (E2 : IZR (3 * Int_part (100 * / 3 + / 2)) = IZR 100) by (rewrite mult_IZR; lra). apply eq_IZR in E2. lia.
Qed.
