(** Facts about the decision tree learner: C25, C26, C27, C28, C61. *)
From Coq Require Import String.
From Verif Require Import Base Spec BinSearch Feature Sample SampleSpec FeatureFacts SampleFacts Bins BinsSpec BinsProofs BinsFacts TreeSpec DTree TreeShape DTreeProofs DTreeSplit DTreeBest DTreeGrow DTreeOut.
Open Scope R_scope.

Lemma column_fval n f i : col_ok n f -> (i < n)%nat -> column f i = fval f i.
Proof. intros Hc Hi. unfold column. rewrite (feat_index_ok n f i Hc Hi). reflexivity. Qed.

Lemma as_int_ext s lab : int_labels s lab -> forall i, (i < fst (shape s))%nat -> as_int 32 (nth i (s_target s) 0) = lab i.
Proof. intros H i Hi. destruct (H i Hi) as [-> B]. apply as_int_IZR. simpl. lia. Qed.

Lemma sum_where_ext_lab lab lab' d z I : (forall i, In i I -> lab i = lab' i) -> label_weight lab d z I = label_weight lab' d z I.
Proof. intros H. unfold label_weight. apply sum_where_ext. intros i Hi. rewrite (H i Hi). reflexivity. Qed.
Lemma share_ext lab lab' d z I : (forall i, In i I -> lab i = lab' i) -> share lab d z I = share lab' d z I.
Proof. intros H. unfold share. rewrite (sum_where_ext_lab lab lab' d z I H). reflexivity. Qed.
Lemma filter_sub {A} (p : A -> bool) l (P : A -> Prop) : (forall i, In i l -> P i) -> forall i, In i (filter p l) -> P i.
Proof. intros H i Hi. apply filter_In in Hi. apply H. tauto. Qed.
Lemma crit_value_lab c labels lab lab' x d t idx : (forall i, In i idx -> lab i = lab' i) -> crit_value c labels lab x d t idx = crit_value c labels lab' x d t idx.
Proof.
  intros H. destruct c; unfold crit_value.
  - unfold split_impurity. f_equal. f_equal; unfold side; destruct (filter _ idx) as [|a l] eqn:E; try reflexivity; f_equal; unfold entropy_of; apply rsum_map_ext; intros z _; rewrite (share_ext lab lab'); try reflexivity; rewrite <- E; apply filter_sub, H.
  - do 2 f_equal. unfold stump_edge. apply rsum_map_ext. intros i Hi. rewrite (H i Hi). reflexivity.
  - unfold split_impurity. f_equal. f_equal; unfold side; destruct (filter _ idx) as [|a l] eqn:E; try reflexivity; f_equal; unfold gini_of; f_equal; apply rsum_map_ext; intros z _; rewrite (share_ext lab lab'); try reflexivity; rewrite <- E; apply filter_sub, H.
  - unfold twoing_of. destruct (filter (below x t) idx) as [|a l] eqn:E1; [reflexivity|]. destruct (filter (not_below x t) idx) as [|b r] eqn:E2; [reflexivity|]. f_equal. f_equal. apply rsum_map_ext. intros z _.
    rewrite (share_ext lab lab' d z (a :: l)) by (rewrite <- E1; apply filter_sub, H). rewrite (share_ext lab lab' d z (b :: r)) by (rewrite <- E2; apply filter_sub, H). reflexivity.
Qed.

(** ** C25: what packing keeps *)
Lemma P_C25_pack :
  forall bins f y dist idx x lab, chain F64MIN F64MAX bins -> idx <> [] ->
  (forall i, In i idx -> feat_index f i = Ok (x i) /\ F64MIN <= x i < F64MAX) ->
  (forall i, In i idx -> (i < length y)%nat /\ nth i y 0 = IZR (lab i) /\ (- 2 ^ 31 <= lab i < 2 ^ 31)%Z) ->
  (forall i, In i idx -> (i < length dist)%nat /\ 0 < weight dist i) ->
  exists out e, dt_pack bins idx f y dist = Ok out /\
    chain F64MIN e (map fst out) /\ e <= F64MAX /\
    (forall i, In i idx -> one_bin (map fst out) (x i)) /\
    (forall b m, In (b, m) out -> exists i, In i idx /\ in_bin b (x i)) /\
    (forall b m z, In (b, m) out -> (match lw_get m z with Some w => w | None => 0 end) =
       sum_where (weight dist) (fun i => andb (bin_contains b (x i)) (Z.eqb (lab i) z)) idx / total (weight dist) idx) /\
    (forall b, In b bins -> exists t, In t (F64MIN :: map (fun o => b_end (fst o)) out) /\ forall i, In i idx -> (x i < b_end b <-> x i < t)) /\
    (forall b m, In (b, m) out -> exists b', In b' bins /\ forall i, In i idx -> (x i < b_end b <-> x i < b_end b')).
Proof.
  intros bins f y dist idx x lab C Hne Hx Hy Hd.
  destruct (dt_pack_spec bins f y dist idx x F64MIN F64MAX C Hne Hx) as [out [e [E [He [C' [Hon [Hxe [Hm [Hto Hfrom]]]]]]]]].
  { intros i Hi. destruct (Hy i Hi) as [A _]. destruct (Hd i Hi) as [B D]. auto. }
  exists out, e. split; [exact E|]. split; [exact C'|]. split; [lra|]. split; [intros i Hi; apply (chain_one_bin _ F64MIN e); [exact C'|apply Hxe, Hi]|].
  split; [intros b m Hin; apply (Hm b m Hin)|]. split; [|split; assumption].
  intros b m z Hin. destruct (Hm b m Hin) as [Em _]. change (match lw_get m z with Some w => w | None => 0 end) with (lw_val m z). rewrite Em, scaled_val. f_equal.
  rewrite (sum_where_ext_lab _ lab).
  - unfold label_weight, sum_where. unfold weight. clear. induction idx as [|i I IH]; simpl; [reflexivity|]. destruct (bin_contains b (x i)); simpl; [|exact IH]. destruct (Z.eqb (lab i) z); simpl; [f_equal; exact IH|exact IH].
  - intros i Hi. apply filter_In in Hi. destruct (Hy i (proj1 Hi)) as [_ [-> B]]. apply as_int_IZR. simpl. lia.
Qed.

(** trailing empty bins are dropped: the last remaining bin need not reach the largest f64 *)
Lemma P_C25_trailing_bins_dropped :
  exists bins f y dist idx out, chain F64MIN F64MAX bins /\ dt_pack bins idx f y dist = Ok out /\
    forall e, chain F64MIN e (map fst out) -> e < F64MAX.
Proof.
  pose proof F64MAX_big as B.
  set (bins := [mkBin F64MIN 1; mkBin 1 F64MAX]).
  assert (C : chain F64MIN F64MAX bins) by (unfold bins, F64MIN; simpl; repeat split; lra).
  assert (Ef : find_bin bins 0 = Ok 0%nat).
  { destruct (find_bin_ok bins _ _ 0 C ltac:(unfold F64MIN; lra)) as [k [E [Hk Hin]]]. rewrite E. f_equal. destruct k as [|[|k]]; [reflexivity| |simpl in Hk; lia]. unfold in_bin in Hin. simpl in Hin. lra. }
  exists bins, (Dense "a" [0]), [1], [1], [0%nat]. eexists. split; [exact C|]. split.
  - unfold dt_pack. cbn [pack_loop feat_index nth_error bind]. rewrite Ef. cbn [bind]. unfold dt_add, get_. cbn [nth_error bind length repeat nth upd pack_loop].
    assert (Et : as_int 32 1 = 1%Z) by (apply (as_int_IZR 32 1); simpl; lia). rewrite Et. unfold bins. cbn [length repeat nth upd lw_add map].
    assert (Ht : rsum [lw_total [(1%Z, 0 + 1)]; lw_total []] = 1) by (unfold lw_total; simpl; lra).
    rewrite Ht. rewrite Rltb_true by lra. cbn [assert_ bind]. unfold remove_empty, bins. simpl. reflexivity.
  - intros e He. simpl in He. destruct He as [_ [_ He]]. lra.
Qed.

(** ** C61: the split of every criterion is best among the offered ones *)
Lemma best_split_general s b t dist idx lab labels : trainable s -> dt_made s b -> tb_build b s = Ok t ->
  length dist = fst (shape s) -> idx <> [] -> (forall i, In i idx -> (i < fst (shape s))%nat /\ 0 < weight dist i) ->
  int_labels s lab -> NoDup labels -> (forall i, (i < fst (shape s))%nat -> In (lab i) labels) ->
  exists f thr, best_split (dt_criterion t) (dt_bins t) s dist idx = Ok (feat_name f, thr) /\ In f (s_features s) /\
    (exists t0, offered (dt_bins t) f t0 /\ forall i, In i idx -> (column f i < thr <-> column f i < t0)) /\
    forall f' t', In f' (s_features s) -> offered (dt_bins t) f' t' ->
      not_worse (dt_criterion t) (crit_value (dt_criterion t) labels lab (column f) (weight dist) thr idx) (crit_value (dt_criterion t) labels lab (column f') (weight dist) t' idx).
Proof.
  intros [M [Hn [Hf [NN [Ht Hm]]]]] Mb Eb Hd Hne Hidx HL NL Hl. pose proof (made_good s M) as G.
  destruct (built s b t G Hn NN Hm Mb Eb) as [_ [_ [_ Hbins]]].
  assert (Hcol : forall f, In f (s_features s) -> col_ok (s_n_sample s) f) by (intros f Hf'; pose proof (good_cols s G) as F; rewrite Forall_forall in F; apply F, Hf').
  destruct (best_split_spec s dist (dt_bins t) (dt_criterion t) labels G NN Hf Ht Hd) with (idx := idx) as [f [thr [E [Hin [Hoff Hbest]]]]].
  - intros f i Hf' Hi. apply (value_range (s_n_sample s)); auto. intros x Hx. apply (Hm f x Hf' Hx).
  - intros f Hf'. destruct (Hbins f Hf') as [nb [bins [_ [_ H]]]]. exists bins. exact H.
  - exact NL.
  - intros i Hi. rewrite (as_int_ext s lab HL i Hi). apply Hl, Hi.
  - split; [exact Hne|exact Hidx].
  - assert (Hrow : forall i, In i idx -> (i < s_n_sample s)%nat) by (intros i Hi; apply (Hidx i Hi)).
    assert (Hcf : forall g, In g (s_features s) -> forall i, In i idx -> column g i = fval g i) by (intros g Hg i Hi; apply (column_fval (s_n_sample s)); auto).
    assert (Hcv : forall g th, In g (s_features s) -> crit_value (dt_criterion t) labels lab (column g) (weight dist) th idx = crit_value (dt_criterion t) labels (fun i => as_int 32 (nth i (s_target s) 0)) (fval g) (fun i => nth i dist 0) th idx).
    { intros g th Hg. rewrite (crit_value_ext _ labels lab (column g) (fval g) (weight dist) th th) by (intros i Hi; rewrite (Hcf g Hg i Hi); tauto).
      symmetry. apply crit_value_lab. intros i Hi. apply (as_int_ext s lab HL), Hrow, Hi. }
    exists f, thr. split; [exact E|]. split; [exact Hin|]. split.
    + destruct Hoff as [t0 [O S]]. exists t0. split; [exact O|]. intros i Hi. rewrite (Hcf f Hin i Hi). apply S, Hi.
    + intros f' t' Hf' Ht'. rewrite !Hcv by assumption. apply Hbest; assumption.
Qed.

Lemma P_C61_best_split :
  forall s b t dist idx lab labels, trainable s -> dt_made s b -> tb_build b s = Ok t ->
  length dist = fst (shape s) -> idx <> [] -> (forall i, In i idx -> (i < fst (shape s))%nat /\ 0 < weight dist i) ->
  int_labels s lab -> NoDup labels -> (forall i, (i < fst (shape s))%nat -> In (lab i) labels) ->
  exists f thr, best_split (dt_criterion t) (dt_bins t) s dist idx = Ok (feat_name f, thr) /\ In f (s_features s) /\
    (exists t0, offered (dt_bins t) f t0 /\ forall i, In i idx -> (column f i < thr <-> column f i < t0)) /\
    forall f' t', In f' (s_features s) -> offered (dt_bins t) f' t' ->
      match tb_criterion b with
      | Entropy => split_impurity (entropy_of labels lab (weight dist)) (column f) (weight dist) thr idx <= split_impurity (entropy_of labels lab (weight dist)) (column f') (weight dist) t' idx
      | Gini => split_impurity (gini_of labels lab (weight dist)) (column f) (weight dist) thr idx <= split_impurity (gini_of labels lab (weight dist)) (column f') (weight dist) t' idx
      | Twoing => twoing_of labels lab (column f') (weight dist) t' idx <= twoing_of labels lab (column f) (weight dist) thr idx
      | Edge => Rabs (stump_edge (column f') (fun i => IZR (lab i)) (weight dist) t' idx) <= Rabs (stump_edge (column f) (fun i => IZR (lab i)) (weight dist) thr idx)
      end.
Proof.
  intros s b t dist idx lab labels Tr Mb Eb Hd Hne Hidx HL NL Hl. destruct (best_split_general s b t dist idx lab labels Tr Mb Eb Hd Hne Hidx HL NL Hl) as [f [thr [E [Hin [Ho Hb]]]]].
  assert (Ec : dt_criterion t = tb_criterion b) by (unfold tb_build in Eb; destruct (cut_all (tb_nbins b) (s_features s)); [|discriminate]; cbn [bind] in Eb; inversion Eb; reflexivity).
  exists f, thr. split; [exact E|]. split; [exact Hin|]. split; [exact Ho|]. intros f' t' Hf' Ht'. specialize (Hb f' t' Hf' Ht'). rewrite Ec in Hb.
  destruct (tb_criterion b); unfold not_worse, crit_value in Hb; try exact Hb.
  assert (T0 : 0 < total (weight dist) idx) by (apply total_pos'; [exact Hne|intros i Hi; apply Hidx, Hi]). apply (Rmult_le_reg_r (/ total (weight dist) idx)); [apply Rinv_0_lt_compat, T0|exact Hb].
Qed.

(** ** C26: the edge criterion *)
Lemma P_C26_edge_split :
  forall s b t dist idx, trainable s -> dt_made s b -> tb_build b s = Ok t -> tb_criterion b = Edge ->
  length dist = fst (shape s) -> idx <> [] -> (forall i, In i idx -> (i < fst (shape s))%nat /\ 0 < weight dist i) -> pm_labels s ->
  exists f thr, best_split (dt_criterion t) (dt_bins t) s dist idx = Ok (feat_name f, thr) /\ In f (s_features s) /\
    (exists t0, offered (dt_bins t) f t0 /\ forall i, In i idx -> (column f i < thr <-> column f i < t0)) /\
    forall f' t', In f' (s_features s) -> offered (dt_bins t) f' t' ->
      Rabs (stump_edge (column f') (label s) (weight dist) t' idx) <= Rabs (stump_edge (column f) (label s) (weight dist) thr idx).
Proof.
  intros s b t dist idx Tr Mb Eb Ec Hd Hne Hidx Hpm. set (lab := fun i => as_int 32 (label s i)).
  assert (HL : int_labels s lab). { intros i Hi. unfold lab, label. destruct (Hpm i Hi) as [->| ->]; [rewrite (as_int_IZR 32 1) by (simpl; lia)|rewrite (as_int_IZR 32 (-1)) by (simpl; lia)]; split; try reflexivity; lia. }
  destruct (P_C61_best_split s b t dist idx lab [1%Z; (-1)%Z] Tr Mb Eb Hd Hne Hidx HL) as [f [thr [E [Hin [Ho Hb]]]]].
  - repeat constructor; simpl; intuition congruence.
  - intros i Hi. destruct (HL i Hi) as [Q _]. destruct (Hpm i Hi) as [P|P]; rewrite P in Q; [left|right; left]; apply eq_IZR; exact Q.
  - exists f, thr. split; [exact E|]. split; [exact Hin|]. split; [exact Ho|]. intros f' t' Hf' Ht'. specialize (Hb f' t' Hf' Ht'). rewrite Ec in Hb.
    assert (X : forall g th, stump_edge g (fun i => IZR (lab i)) (weight dist) th idx = stump_edge g (label s) (weight dist) th idx).
    { intros g th. unfold stump_edge. apply rsum_map_ext. intros i Hi. destruct (HL i (proj1 (Hidx i Hi))) as [Q _]. fold (label s i) in Q. rewrite Q. reflexivity. }
    rewrite !X in Hb. exact Hb.
Qed.

(** what can be offered: the ends of equally wide bins *)
Lemma P_C26_offered :
  forall s b t, trainable s -> dt_made s b -> tb_build b s = Ok t -> forall f mn mx, In f (s_features s) -> spans f mn mx ->
  exists nb, In (feat_name f, nb) (tb_nbins b) /\ (0 < nb)%nat /\
    forall th, offered (dt_bins t) f th <-> th = F64MIN \/ th = F64MAX \/ exists k, (0 < k < nb)%nat /\ th = (if Req_EM_T mn mx then mn - / 1000 else mn) + INR k * bin_width mn mx nb.
Proof.
  intros s b t [M [Hn [Hf [NN [Ht Hm]]]]] Mb Eb f mn mx Hin Hs. pose proof (made_good s M) as G.
  destruct (built s b t G Hn NN Hm Mb Eb) as [_ [_ [_ Hbins]]]. destruct (Hbins f Hin) as [nb [bins [E1 [E2 [E3 C]]]]]. exists nb. split; [apply sm_get_some, E1|].
  pose proof (cut_spec f nb mn mx Hs (fun x Hx => Hm f x Hin Hx)) as S. rewrite E2 in S. destruct S as [L [Hnb [_ Hend]]]. fold (cut_lo mn mx). assert (Hpos : (0 < nb)%nat) by lia. split; [exact Hpos|].
  assert (Hne : bins <> []) by (intros ->; simpl in L; lia).
  pose proof (chain_last bins _ _ C Hne) as HL. rewrite L in HL.
  intros th. unfold offered. rewrite E3. split.
  - intros [bins' [Q [<-|H]]]; [left; reflexivity|]. inversion Q; subst bins'. right. apply in_map_iff in H. destruct H as [bb [<- H]]. apply (In_nth _ _ b0) in H. destruct H as [k [Hk <-]]. rewrite L in Hk.
    destruct (Nat.eq_dec (S k) nb) as [Ek|Ek]; [left; replace k with (nb - 1)%nat by lia; exact HL|]. right. exists (S k). split; [lia|]. apply Hend. lia.
  - intros H. exists bins. split; [reflexivity|]. destruct H as [->|[->|[k [Hk ->]]]]; [left; reflexivity| |]; right.
    + rewrite <- HL. apply in_map, nth_In. lia.
    + destruct k as [|k]; [lia|]. rewrite <- Hend by lia. apply in_map, nth_In. lia.
Qed.

(** ** the whole learner *)
Lemma positive_rows_ok n dist : length dist = n -> positive_rows n dist = Ok (filter (has_weight dist) (seq 0 n)).
Proof.
  intros H. unfold positive_rows. assert (E : Nat.leb n (length dist) = true) by (apply Nat.leb_le; lia). rewrite E. reflexivity.
Qed.

Section Learner.
  Variables (order : lw -> lw) (s : sample) (b : dt_builder) (t : dtree) (dist : list R) (lab : nat -> Z).
  Hypothesis Tr : trainable s.
  Hypothesis Mb : dt_made s b.
  Hypothesis Eb : tb_build b s = Ok t.
  Hypothesis Hd : length dist = fst (shape s).
  Hypothesis Hsome : exists i, (i < fst (shape s))%nat /\ 0 < weight dist i.
  Hypothesis HL : int_labels s lab.
  Hypothesis Ho : listing order.
  Let n := s_n_sample s.
  Let idx := filter (has_weight dist) (seq 0 n).
  Let labels := nodup Z.eq_dec (map lab (seq 0 n)).

  Lemma idx_ok : rows_ok s dist idx.
  Proof.
    split.
    - destruct Hsome as [i [Hi Hw]]. intros E. assert (H : In i []); [|destruct H]. fold idx in E. rewrite <- E. apply filter_In. split; [apply in_seq; simpl in Hi; unfold n; lia|]. unfold has_weight. destruct (Rlt_dec 0 (weight dist i)); [reflexivity|lra].
    - intros i Hi. apply filter_In in Hi. destruct Hi as [Hi Hw]. apply in_seq in Hi. unfold n in Hi. split; [lia|]. unfold has_weight, weight in Hw. destruct (Rlt_dec 0 (nth i dist 0)); [assumption|discriminate].
  Qed.

  Lemma grown : exists T, dt_produce order t s dist = Ok (to_node (remove_redundant T)) /\ full_tree order (dt_criterion t) (dt_bins t) s dist (dt_depth t) idx = Ok T /\
    tree_ok s dist (dt_bins t) (dt_criterion t) labels T (dt_depth t) idx /\ (tdepth T <= dt_depth t)%nat /\ remove_redundant T = T.
  Proof.
    destruct Tr as [M [Hn [Hf [NN [Ht Hm]]]]]. pose proof (made_good s M) as G. destruct (built s b t G Hn NN Hm Mb Eb) as [_ [_ [_ Hbins]]].
    destruct (full_tree_ok s dist (dt_bins t) (dt_criterion t) order labels G NN Hf Ht Hd) with (depth := dt_depth t) (idx := idx) as [T [E [HT D]]].
    - intros f i Hf' Hi. assert (Hcf : col_ok (s_n_sample s) f) by (pose proof (good_cols s G) as F; rewrite Forall_forall in F; apply F, Hf'). apply (value_range (s_n_sample s)); auto. intros x Hx. apply (Hm f x Hf' Hx).
    - intros f Hf'. destruct (Hbins f Hf') as [nb [bins [_ [_ H]]]]. exists bins. exact H.
    - intros i Hi. exists (lab i). apply HL, Hi.
    - apply NoDup_nodup.
    - intros i Hi. rewrite (as_int_ext s lab HL i Hi). unfold labels. apply nodup_In. apply in_map. apply in_seq. unfold n. lia.
    - exact Ho.
    - exact idx_ok.
    - exists T. split; [|split; [exact E|split; [exact HT|split; [exact D|]]]].
      + unfold dt_produce. rewrite positive_rows_ok by exact Hd. cbn [bind]. change (filter (has_weight dist) (seq 0 (fst (shape s)))) with idx.
        assert (Enil : is_nil idx = false) by (destruct idx_ok as [H _]; destruct idx; [congruence|reflexivity]). rewrite Enil. cbn [negb assert_ bind]. rewrite E. reflexivity.
      + eapply prune_id; [exact idx_ok|exact HT].
  Qed.
End Learner.

Lemma leaves_bounded s dist bm c labels : forall T dep idx, tree_ok s dist bm c labels T dep idx -> forall s' row v, node_confidence (to_node T) s' row = Ok v -> -1 <= v <= 1.
Proof.
  induction T as [conf w loss|rule l IHl r IHr conf w loss]; intros dep idx H s' row v E; simpl in *.
  - inversion E; subst. destruct H as [_ [[z [_ [_ [_ ->]]]] _]]. apply rclamp_in. lra.
  - destruct H as [_ [_ [_ [dep' [f [t [_ [_ [_ [_ [_ [_ [Tl Tr]]]]]]]]]]]]]. destruct (split_left rule s' row) as [[|]|]; cbn [bind] in E; [eapply IHl|eapply IHr|discriminate]; eauto.
Qed.

Lemma leaf_rows_filter h s dist i : filter (same_leaf h s i) (filter (has_weight dist) (all_rows s)) = filter (fun j => andb (has_weight dist j) (same_leaf h s i j)) (all_rows s).
Proof. induction (all_rows s) as [|j l IH]; simpl; [reflexivity|]. destruct (has_weight dist j); simpl; [|exact IH]. destruct (same_leaf h s i j); [f_equal|]; exact IH. Qed.

(** ** C61 for the returned tree: every split in it is best for the rows that reach it *)
Lemma below_ext x x' t idx : (forall i, In i idx -> x i = x' i) -> filter (below x t) idx = filter (below x' t) idx.
Proof. intros H. apply filter_ext_in. intros i Hi. unfold below. rewrite (H i Hi). reflexivity. Qed.
Lemma not_below_ext x x' t idx : (forall i, In i idx -> x i = x' i) -> filter (not_below x t) idx = filter (not_below x' t) idx.
Proof. intros H. apply filter_ext_in. intros i Hi. unfold not_below. rewrite (H i Hi). reflexivity. Qed.

Lemma pure_rows lab (d : nat -> R) z idx : (forall i, In i idx -> 0 < d i) -> total d idx - label_weight lab d z idx = 0 -> forall i, In i idx -> lab i = z.
Proof.
  induction idx as [|j idx IH]; intros Hp E i Hi; [destruct Hi|].
  assert (LE : label_weight lab d z idx <= total d idx) by (apply label_weight_le; intros k Hk; apply Hp; right; exact Hk).
  unfold label_weight, sum_where, total in *. cbn [filter map rsum] in E. specialize (Hp j (or_introl eq_refl)) as Hj.
  destruct (Z.eqb_spec (lab j) z) as [Ez|Ez]; cbn [map rsum] in E; [|lra]. destruct Hi as [<-|Hi]; [exact Ez|]. apply IH; [intros k Hk; apply Hp; right; exact Hk|lra|exact Hi].
Qed.

Lemma tree_greedy s dist bm c labels lab : (forall f, In f (s_features s) -> col_ok (s_n_sample s) f) -> int_labels s lab ->
  forall T dep idx, rows_ok s dist idx -> tree_ok s dist bm c labels T dep idx -> greedy c labels lab (s_features s) bm (weight dist) (to_node T) dep idx.
Proof.
  intros Hcol HL.
  assert (Opt : forall f thr idx, rows_ok s dist idx -> In f (s_features s) -> best_rule s dist bm c labels f thr idx -> optimal_rule c labels lab (s_features s) bm (weight dist) f thr idx).
  { intros f thr idx Hr Hin [[t0 [O S]] B]. assert (Hrow : forall i, In i idx -> (i < s_n_sample s)%nat) by (intros i Hi; apply Hr, Hi).
    assert (Hcf : forall g, In g (s_features s) -> forall i, In i idx -> column g i = fval g i) by (intros g Hg i Hi; apply (column_fval (s_n_sample s)); auto).
    assert (Hcv : forall g th, In g (s_features s) -> crit_value c labels lab (column g) (weight dist) th idx = crit_value c labels (fun i => as_int 32 (nth i (s_target s) 0)) (fval g) (fun i => nth i dist 0) th idx).
    { intros g th Hg. rewrite (crit_value_ext _ labels lab (column g) (fval g) (weight dist) th th) by (intros i Hi; rewrite (Hcf g Hg i Hi); tauto).
      symmetry. apply crit_value_lab. intros i Hi. apply (as_int_ext s lab HL), Hrow, Hi. }
    split; [exact Hin|]. split.
    - exists t0. split; [exact O|]. intros i Hi. rewrite (Hcf f Hin i Hi). apply S, Hi.
    - intros f' t' Hf' Ht'. rewrite !Hcv by assumption. apply B; assumption. }
  induction T as [conf w loss|rule l IHl r IHr conf w loss]; intros dep idx Hr HT; cbn [tree_ok to_node greedy] in *.
  - destruct HT as [_ [[z [_ [_ [Eloss _]]]] Hwhy]]. destruct Hwhy as [H0|[H0|[f [thr [Hin [B Hside]]]]]]; [left; exact H0| |].
    + right. left. exists z. intros i Hi. rewrite <- (as_int_ext s lab HL i) by (apply Hr, Hi). apply (pure_rows (fun i => as_int 32 (nth i (s_target s) 0)) (fun i => nth i dist 0) z idx); [intros j Hj; apply Hr, Hj|rewrite <- Eloss; exact H0|exact Hi].
    + right. right. exists f, thr. split; [apply Opt; assumption|]. assert (Hcf : forall i, In i idx -> column f i = fval f i) by (intros i Hi; apply (column_fval (s_n_sample s)); [auto|apply Hr, Hi]).
      destruct Hside as [N|N]; [right|left]; intros i Hi; rewrite Hcf by exact Hi.
      * destruct (Rlt_dec (fval f i) thr) as [L|L]; [|lra]. exfalso. assert (X : In i []) by (rewrite <- N; apply filter_In; split; [exact Hi|unfold below; destruct (Rlt_dec (fval f i) thr); [reflexivity|contradiction]]). destruct X.
      * destruct (Rlt_dec (fval f i) thr) as [L|L]; [exact L|]. exfalso. assert (X : In i []) by (rewrite <- N; apply filter_In; split; [exact Hi|unfold not_below; destruct (Rlt_dec (fval f i) thr); [contradiction|reflexivity]]). destruct X.
  - destruct HT as [_ [_ [_ [dep' [f [thr [-> [-> [Hin [B [NA [NB [Tl Tr]]]]]]]]]]]]]. exists dep', f. cbn [sp_feature sp_threshold].
    assert (Hcf : forall i, In i idx -> column f i = fval f i) by (intros i Hi; apply (column_fval (s_n_sample s)); [auto|apply Hr, Hi]).
    rewrite (below_ext _ _ thr idx Hcf), (not_below_ext _ _ thr idx Hcf). repeat (split; [first [reflexivity|exact NA|exact NB|apply Opt; assumption]|]). split; [apply IHl|apply IHr]; try assumption; apply rows_filter; assumption.
Qed.

Lemma P_C61_every_split :
  forall order s b t dist lab, trainable s -> dt_made s b -> tb_build b s = Ok t ->
  length dist = fst (shape s) -> (exists i, (i < fst (shape s))%nat /\ 0 < weight dist i) -> int_labels s lab -> listing order ->
  exists h, dt_produce order t s dist = Ok h /\
    greedy (tb_criterion b) (nodup Z.eq_dec (map lab (all_rows s))) lab (s_features s) (dt_bins t) (weight dist) h (tb_depth b) (filter (has_weight dist) (all_rows s)).
Proof.
  intros order s b t dist lab Tr Mb Eb Hd Hsome HL Ho. destruct (grown order s b t dist lab Tr Mb Eb Hd Hsome HL Ho) as [T [E [_ [HT [D P]]]]]. rewrite P in E.
  pose proof (idx_ok s dist Hd Hsome) as Hidx. exists (to_node T). split; [exact E|].
  destruct Tr as [M _]. pose proof (made_good s M) as G.
  assert (Ec : dt_criterion t = tb_criterion b /\ dt_depth t = tb_depth b) by (unfold tb_build in Eb; destruct (cut_all (tb_nbins b) (s_features s)); [|discriminate]; cbn [bind] in Eb; inversion Eb; split; reflexivity).
  destruct Ec as [E1 E2]. rewrite <- E1, <- E2. eapply (tree_greedy s dist _ _ _ lab); [|exact HL|exact Hidx|exact HT].
  intros f Hf'; pose proof (good_cols s G) as F; rewrite Forall_forall in F; apply F, Hf'.
Qed.

(** ** C27: depth, confidences, leaves *)
Lemma P_C27_tree :
  forall order s b t dist lab, trainable s -> dt_made s b -> tb_build b s = Ok t ->
  length dist = fst (shape s) -> (exists i, (i < fst (shape s))%nat /\ 0 < weight dist i) -> int_labels s lab -> listing order ->
  exists h, dt_produce order t s dist = Ok h /\ (depth h <= tb_depth b)%nat /\
    (forall i, (i < fst (shape s))%nat -> exists v, node_confidence h s i = Ok v) /\
    (forall s' row v, node_confidence h s' row = Ok v -> -1 <= v <= 1) /\
    (forall i, (i < fst (shape s))%nat -> 0 < weight dist i ->
       let I := filter (fun j => andb (has_weight dist j) (same_leaf h s i j)) (all_rows s) in
       In i I /\ exists z, (exists j, In j I /\ lab j = z) /\
         (forall z', label_weight lab (weight dist) z' I <= label_weight lab (weight dist) z I) /\
         answer h s i = rclamp (-1) 1 (IZR z * (2 * share lab (weight dist) z I - 1))).
Proof.
  intros order s b t dist lab Tr Mb Eb Hd Hsome HL Ho. destruct (grown order s b t dist lab Tr Mb Eb Hd Hsome HL Ho) as [T [E [_ [HT [D P]]]]]. rewrite P in E.
  pose proof (idx_ok s dist Hd Hsome) as Hidx.
  destruct Tr as [M [Hn [Hf [NN [Ht Hm]]]]]. pose proof (made_good s M) as G. destruct (built s b t G Hn NN Hm Mb Eb) as [_ [Edep _]].
  exists (to_node T). split; [exact E|]. split; [rewrite to_node_depth; lia|]. split; [|split].
  - intros i Hi. destruct (answers s dist _ _ _ G NN T _ _ HT i Hi) as [v [p [A _]]]. eauto.
  - eapply leaves_bounded; exact HT.
  - intros i Hi Hw. cbv zeta. rewrite <- leaf_rows_filter.
    assert (Hin : In i (filter (has_weight dist) (seq 0 (s_n_sample s)))) by (apply filter_In; split; [apply in_seq; simpl in Hi; lia|unfold has_weight; destruct (Rlt_dec 0 (weight dist i)); [reflexivity|lra]]).
    destruct (leaf_rows s dist _ _ _ G NN T _ _ Hidx HT i Hin) as [A [loss [z [B1 [B2 [_ B3]]]]]]. cbv zeta in *.
    set (I := filter (same_leaf (to_node T) s i) (filter (has_weight dist) (seq 0 (s_n_sample s)))) in *. change (filter (same_leaf (to_node T) s i) (filter (has_weight dist) (all_rows s))) with I.
    assert (Hext : forall j, In j I -> as_int 32 (nth j (s_target s) 0) = lab j). { intros j Hj. apply (as_int_ext s lab HL). apply filter_In in Hj. destruct Hj as [Hj _]. apply filter_In in Hj. destruct Hj as [Hj _]. apply in_seq in Hj. simpl. lia. }
    split; [exact A|]. exists z. split; [|split].
    + destruct B1 as [j [Hj Ej]]. exists j. split; [exact Hj|]. rewrite <- (Hext j Hj). exact Ej.
    + intros z'. rewrite <- !(sum_where_ext_lab _ lab (weight dist) _ I Hext). apply B2.
    + rewrite <- (share_ext _ lab (weight dist) z I Hext). exact B3.
Qed.

Lemma pm_int s : pm_labels s -> exists lab, int_labels s lab.
Proof.
  intros H. exists (fun i => as_int 32 (label s i)). intros i Hi. unfold label. destruct (H i Hi) as [->| ->]; [rewrite (as_int_IZR 32 1) by (simpl; lia)|rewrite (as_int_IZR 32 (-1)) by (simpl; lia)]; split; try reflexivity; lia.
Qed.

Lemma positive_sum (s : sample) dist (g : nat -> R) : (forall i, In i (all_rows s) -> has_weight dist i = false -> g i = 0) -> rsum (map g (filter (has_weight dist) (all_rows s))) = rsum (map g (all_rows s)).
Proof.
  induction (all_rows s) as [|i l IH]; intros H; simpl; [reflexivity|]. destruct (has_weight dist i) eqn:E; simpl; rewrite IH by (intros j Hj; apply H; right; exact Hj); [reflexivity|]. rewrite (H i (or_introl eq_refl) E). lra.
Qed.

(** for labels +1 and -1 the answer is the mean label of the leaf, and the tree has an edge *)
Lemma P_C27_mean :
  forall order s b t dist, trainable s -> dt_made s b -> tb_build b s = Ok t ->
  length dist = fst (shape s) -> (exists i, (i < fst (shape s))%nat /\ 0 < weight dist i) -> pm_labels s -> listing order ->
  exists h, dt_produce order t s dist = Ok h /\
    forall i, (i < fst (shape s))%nat -> 0 < weight dist i ->
       let I := filter (fun j => andb (has_weight dist j) (same_leaf h s i j)) (all_rows s) in
       answer h s i = rsum (map (fun j => weight dist j * label s j) I) / rsum (map (weight dist) I).
Proof.
  intros order s b t dist Tr Mb Eb Hd Hsome Hpm Ho. destruct (pm_int s Hpm) as [lab HL]. destruct (grown order s b t dist lab Tr Mb Eb Hd Hsome HL Ho) as [T [E [_ [HT [D P]]]]]. rewrite P in E.
  pose proof (idx_ok s dist Hd Hsome) as Hidx. destruct Tr as [M [Hn [Hf [NN [Ht Hm]]]]]. pose proof (made_good s M) as G.
  exists (to_node T). split; [exact E|]. intros i Hi Hw. cbv zeta. rewrite <- leaf_rows_filter.
  assert (Hin : In i (filter (has_weight dist) (seq 0 (s_n_sample s)))) by (apply filter_In; split; [apply in_seq; simpl in Hi; lia|unfold has_weight; destruct (Rlt_dec 0 (weight dist i)); [reflexivity|lra]]).
  destruct (leaf_rows s dist _ _ _ G NN T _ _ Hidx HT i Hin) as [A [loss B]]. cbv zeta in *.
  set (I := filter (same_leaf (to_node T) s i) (filter (has_weight dist) (seq 0 (s_n_sample s)))) in *. change (filter (same_leaf (to_node T) s i) (filter (has_weight dist) (all_rows s))) with I.
  assert (HI : rows_ok s dist I) by (apply rows_filter; [exact Hidx|]; intros E0; unfold I in A; rewrite E0 in A; destruct A).
  apply (leaf_mean s dist Hpm I _ loss HI B).
Qed.

Lemma P_C27_edge :
  forall order s b t dist, trainable s -> dt_made s b -> tb_build b s = Ok t ->
  length dist = fst (shape s) -> (forall i, 0 <= weight dist i) -> (exists i, (i < fst (shape s))%nat /\ 0 < weight dist i) -> pm_labels s -> listing order ->
  exists h, dt_produce order t s dist = Ok h /\
    tree_edge_of h s dist >= (rsum (map (fun i => weight dist i * label s i) (all_rows s))) ^ 2 / rsum (map (weight dist) (all_rows s)) /\
    tree_edge_of h s dist >= 0 /\
    (tb_criterion b = Edge -> forall f th, In f (s_features s) -> offered (dt_bins t) f th ->
       tree_edge_of h s dist >= (stump_edge (column f) (label s) (weight dist) th (all_rows s)) ^ 2 / rsum (map (weight dist) (all_rows s))).
Proof.
  intros order s b t dist Tr Mb Eb Hd Hpos Hsome Hpm Ho. destruct (pm_int s Hpm) as [lab HL]. destruct (grown order s b t dist lab Tr Mb Eb Hd Hsome HL Ho) as [T [E [_ [HT [D P]]]]]. rewrite P in E.
  pose proof (idx_ok s dist Hd Hsome) as Hidx. destruct Tr as [M [Hn [Hf [NN [Ht Hm]]]]]. pose proof (made_good s M) as G. destruct (built s b t G Hn NN Hm Mb Eb) as [D1 [_ [Ecrit _]]].
  assert (Hz : forall i, has_weight dist i = false -> weight dist i = 0) by (intros i H; specialize (Hpos i); unfold has_weight in H; destruct (Rlt_dec 0 (weight dist i)); [discriminate|lra]).
  set (idx := filter (has_weight dist) (seq 0 (s_n_sample s))) in *.
  assert (E1 : tree_edge_of (to_node T) s dist = E_ s dist (to_node T) idx).
  { unfold tree_edge_of, E_, idx. symmetry. apply (positive_sum s dist (fun i => weight dist i * label s i * answer (to_node T) s i)). intros i _ H. rewrite (Hz i H). lra. }
  assert (E2 : rsum (map (fun i => weight dist i * label s i) (all_rows s)) = S_ s dist idx).
  { unfold S_, idx. symmetry. apply (positive_sum s dist (fun i => weight dist i * label s i)). intros i _ H. rewrite (Hz i H). lra. }
  assert (E3 : rsum (map (weight dist) (all_rows s)) = total (fun i => nth i dist 0) idx).
  { unfold total, idx. symmetry. apply (positive_sum s dist (weight dist)). intros i _ H. apply Hz, H. }
  exists (to_node T). split; [exact E|]. rewrite E1, E2, E3.
  pose proof (tree_edge s dist (dt_bins t) (dt_criterion t) (nodup Z.eq_dec (map lab (seq 0 (s_n_sample s)))) G NN Hpm T _ _ Hidx HT) as TE.
  assert (T0 : 0 < total (fun i => nth i dist 0) idx) by (apply total_pos'; [apply Hidx|intros i Hi; apply (proj2 Hidx i Hi)]).
  split; [apply Rle_ge; exact TE|]. split.
  - apply Rle_ge. eapply Rle_trans; [|exact TE]. apply Rmult_le_pos; [apply pow2_ge_0|left; apply Rinv_0_lt_compat, T0].
  - intros Ec f th Hin Hoff. apply Rle_ge. destruct (dt_depth t) as [|dep] eqn:Edep; [lia|].
    assert (Q : stump_edge (column f) (label s) (weight dist) th (all_rows s) = stump_edge (fval f) (fun i => nth i (s_target s) 0) (fun i => nth i dist 0) th idx).
    { unfold stump_edge, idx. rewrite <- (positive_sum s dist (fun i => weight dist i * (label s i * stump th (column f i)))) by (intros i _ H; rewrite (Hz i H); lra).
      apply rsum_map_ext. intros i Hi. apply filter_In in Hi. destruct Hi as [Hi _]. apply in_seq in Hi. rewrite (column_fval (s_n_sample s)); [reflexivity| |simpl in Hi; lia]. pose proof (good_cols s G) as F. rewrite Forall_forall in F. apply F, Hin. }
    rewrite Q. refine (edge_guarantee s dist (dt_bins t) (dt_criterion t) _ G NN Hpm _ T dep idx Hidx HT f th Hin Hoff). rewrite Ecrit. exact Ec.
Qed.

(** ** C28: conversion and pruning *)
Lemma P_C28_conversion : forall t s row, node_confidence (to_node t) s row = train_confidence t s row.
Proof. intros. apply to_node_confidence. Qed.

Lemma P_C28_pruning :
  forall order s b t dist lab, trainable s -> dt_made s b -> tb_build b s = Ok t ->
  length dist = fst (shape s) -> (exists i, (i < fst (shape s))%nat /\ 0 < weight dist i) -> int_labels s lab -> listing order ->
  exists h full, dt_produce order t s dist = Ok h /\
    full_tree order (dt_criterion t) (dt_bins t) s dist (dt_depth t) (filter (has_weight dist) (all_rows s)) = Ok full /\
    forall s' row, node_confidence h s' row = train_confidence full s' row.
Proof.
  intros order s b t dist lab Tr Mb Eb Hd Hsome HL Ho. destruct (grown order s b t dist lab Tr Mb Eb Hd Hsome HL Ho) as [T [E [Ef [_ [_ P]]]]]. rewrite P in E.
  exists (to_node T), T. split; [exact E|]. split; [exact Ef|]. intros. apply to_node_confidence.
Qed.

(** ** a sample that meets the hypotheses *)
Definition ex_sample : sample := from_dataframe [("a"%string, [0; 0; 1; 1])] 4 [1; -1; 1; -1].
Definition ex_dist : list R := [3; 1; 2; 1].
Definition ex_feature : feature := Dense "a" [0; 0; 1; 1].

Lemma ex_trainable : trainable ex_sample.
Proof.
  pose proof F64MAX_big as B. split; [|split; [|split; [|split; [|split]]]].
  - apply made_dataframe. intros p [<-|[]]. reflexivity.
  - simpl. lia.
  - simpl. discriminate.
  - simpl. constructor; [intros []|constructor].
  - reflexivity.
  - intros f x [<-|[]] Hx. unfold moderate. destruct Hx as [<-|[<-|[<-|[<-|[]]]]]; rewrite Rabs_pos_eq; lra.
Qed.
Lemma ex_pm : pm_labels ex_sample.
Proof. intros i Hi. simpl in *. destruct i as [|[|[|[|i]]]]; auto; lia. Qed.
Lemma ex_spans : spans ex_feature 0 1.
Proof. split; [simpl; auto|]. split; [simpl; auto|]. intros x [<-|[<-|[<-|[<-|[]]]]]; lra. Qed.
Lemma ex_distinct : distinct_value_count ex_feature = 2%nat.
Proof.
  unfold distinct_value_count, ex_feature, inner_distinct_value_count. simpl.
  repeat (first [rewrite (Rleb_true 0 0) by lra | rewrite (Rleb_true 0 1) by lra | rewrite (Rleb_true 1 1) by lra]; simpl).
  repeat (first [rewrite (Reqb_true 0 0) by lra | rewrite (Reqb_false 1 0) by lra | rewrite (Reqb_true 1 1) by lra]; simpl). reflexivity.
Qed.
Definition ex_builder (c : criterion) (dep : nat) : dt_builder := mkDTB [("a"%string, 2%nat)] dep c.
Lemma ex_made c dep : (0 < dep)%nat -> dt_made ex_sample (ex_builder c dep).
Proof.
  intros Hd. assert (E : tb_new ex_sample = mkDTB [("a"%string, 2%nat)] 2 Entropy).
  { unfold tb_new. change (s_features ex_sample) with [ex_feature]. cbn [map]. rewrite ex_distinct. reflexivity. }
  pose proof (dm_new ex_sample) as M. rewrite E in M. apply (dm_criterion _ _ c) in M. unfold tb_set_criterion in M. simpl in M.
  apply (dm_depth _ _ dep (ex_builder c dep)) in M; [exact M|]. unfold tb_max_depth. apply Nat.ltb_lt in Hd. rewrite Hd. reflexivity.
Qed.
Lemma ex_built c dep : (0 < dep)%nat -> exists t, tb_build (ex_builder c dep) ex_sample = Ok t.
Proof.
  intros Hd. destruct ex_trainable as [M [Hn [Hf [NN [Ht Hm]]]]]. apply (P_C60_build_iff ex_sample (ex_builder c dep) M Hn NN Hm (ex_made c dep Hd)).
  intros f mn mx [<-|[]] Hs. exists 2%nat. split; [left; reflexivity|]. right. split; [lia|].
  destruct (spans_unique ex_feature _ _ _ _ Hs ex_spans) as [-> ->]. unfold bin_width. destruct (Req_EM_T 0 1); [lra|]. simpl. lra.
Qed.
Lemma ex_weight : length ex_dist = fst (shape ex_sample) /\ (forall i, 0 <= weight ex_dist i) /\ exists i, (i < fst (shape ex_sample))%nat /\ 0 < weight ex_dist i.
Proof.
  split; [reflexivity|]. split; [|exists 0%nat; simpl; unfold weight; simpl; split; [lia|lra]]. intros i. unfold weight, ex_dist. destruct i as [|[|[|[|i]]]]; simpl; try lra. destruct i; lra.
Qed.

(** ** C28: redundant leaves are not removed *)
Lemma ex_rows : filter (has_weight ex_dist) (seq 0 (s_n_sample ex_sample)) = [0; 1; 2; 3]%nat.
Proof. simpl. unfold has_weight, weight, ex_dist. simpl. repeat (destruct Rlt_dec; [|lra]). reflexivity. Qed.

Lemma ex_half : forall c dep t, (0 < dep)%nat -> tb_build (ex_builder c dep) ex_sample = Ok t -> offered (dt_bins t) ex_feature (/ 2).
Proof.
  intros c dep t Hd E. destruct (P_C26_offered ex_sample (ex_builder c dep) t ex_trainable (ex_made c dep Hd) E ex_feature 0 1 (or_introl eq_refl) ex_spans) as [nb [H1 [_ H2]]].
  destruct H1 as [H1|[]]. inversion H1; subst nb. apply H2. right. right. exists 1%nat. split; [lia|]. unfold bin_width. destruct (Req_EM_T 0 1); [lra|]. simpl. lra.
Qed.

Lemma P_C28_redundant_leaves_refuted :
  exists s b t dist, trainable s /\ dt_made s b /\ tb_build b s = Ok t /\ length dist = fst (shape s) /\ (forall i, 0 <= weight dist i) /\ pm_labels s /\
  forall order, listing order -> exists rule u v, dt_produce order t s dist = Ok (Branch rule (Leaf u) (Leaf v)) /\ 0 < u /\ 0 < v.
Proof.
  destruct (ex_built Gini 1 ltac:(lia)) as [t E]. exists ex_sample, (ex_builder Gini 1), t, ex_dist.
  destruct ex_weight as [W1 [W2 W3]]. split; [exact ex_trainable|]. split; [apply ex_made; lia|]. split; [exact E|]. split; [exact W1|]. split; [exact W2|]. split; [exact ex_pm|].
  intros order Ho. destruct (pm_int _ ex_pm) as [lab HL].
  destruct (grown order ex_sample (ex_builder Gini 1) t ex_dist lab ex_trainable (ex_made Gini 1 ltac:(lia)) E W1 W3 HL Ho) as [T [Ep [_ [HT [_ P]]]]]. rewrite P in Ep.
  pose proof (idx_ok ex_sample ex_dist W1 W3) as Hidx. rewrite ex_rows in *.
  assert (Ec : dt_criterion t = Gini /\ dt_depth t = 1%nat).
  { pose proof E as E'. unfold tb_build in E'. destruct (cut_all (tb_nbins (ex_builder Gini 1)) (s_features ex_sample)); [|discriminate]. cbn [bind] in E'. inversion E'. auto. }
  destruct Ec as [Ec Ed]. rewrite Ec, Ed in HT.
  set (lab' := fun i => as_int 32 (nth i (s_target ex_sample) 0)).
  assert (L : lab' 0%nat = 1%Z /\ lab' 1%nat = (-1)%Z /\ lab' 2%nat = 1%Z /\ lab' 3%nat = (-1)%Z).
  { unfold lab'. simpl. rewrite (as_int_IZR 32 1), (as_int_IZR 32 (-1)) by (simpl; lia). auto. }
  destruct L as [L0 [L1 [L2 L3]]].
  set (labels := nodup Z.eq_dec (map lab (seq 0 (s_n_sample ex_sample)))) in *.
  assert (Hlabs : labels = [1%Z; (-1)%Z]).
  { unfold labels. simpl. assert (Q : lab 0%nat = 1%Z /\ lab 1%nat = (-1)%Z /\ lab 2%nat = 1%Z /\ lab 3%nat = (-1)%Z).
    { rewrite <- !(as_int_ext ex_sample lab HL) by (simpl; lia). fold lab'. auto. }
    destruct Q as [-> [-> [-> ->]]]. reflexivity. }
  destruct T as [conf w loss|rule l r conf w loss].
  - exfalso. cbn [tree_ok] in HT. destruct HT as [_ [[z [_ [_ [Eloss _]]]] [D|[Z0|[f [th [Hin [[_ Hbest] Hempty]]]]]]]]; [discriminate| |].
    + rewrite Z0 in Eloss. fold lab' in Eloss. rewrite label_weight_ind in Eloss. unfold total, ex_dist in Eloss. simpl in Eloss. rewrite L0, L1, L2, L3 in Eloss.
      destruct (Z.eqb_spec 1 z), (Z.eqb_spec (-1) z); try lra. congruence.
    + destruct Hin as [<-|[]]. specialize (Hbest ex_feature (/ 2) (or_introl eq_refl) (ex_half Gini 1 t ltac:(lia) E)). unfold not_worse, crit_value in Hbest. fold lab' in Hbest.
      set (d := fun i => nth i ex_dist 0) in *.
      assert (F1 : filter (below (fval ex_feature) (/ 2)) [0; 1; 2; 3]%nat = [0; 1]%nat) by (simpl; unfold below; simpl; repeat (destruct Rlt_dec; try lra); reflexivity).
      assert (F2 : filter (not_below (fval ex_feature) (/ 2)) [0; 1; 2; 3]%nat = [2; 3]%nat) by (simpl; unfold not_below; simpl; repeat (destruct Rlt_dec; try lra); reflexivity).
      assert (G1 : gini_of labels lab' d [0; 1; 2; 3]%nat = 20 / 49).
      { unfold gini_of, share. rewrite Hlabs. cbn [map]. rewrite !label_weight_ind. unfold total, d, ex_dist. simpl. rewrite L0, L1, L2, L3. simpl. field. }
      assert (G2 : gini_of labels lab' d [0; 1]%nat = 6 / 16).
      { unfold gini_of, share. rewrite Hlabs. cbn [map]. rewrite !label_weight_ind. unfold total, d, ex_dist. simpl. rewrite L0, L1. simpl. field. }
      assert (G3 : gini_of labels lab' d [2; 3]%nat = 4 / 9).
      { unfold gini_of, share. rewrite Hlabs. cbn [map]. rewrite !label_weight_ind. unfold total, d, ex_dist. simpl. rewrite L2, L3. simpl. field. }
      assert (T4 : total d [0; 1; 2; 3]%nat = 7) by (unfold total, d, ex_dist; simpl; lra). assert (TA : total d [0; 1]%nat = 4) by (unfold total, d, ex_dist; simpl; lra). assert (TB : total d [2; 3]%nat = 3) by (unfold total, d, ex_dist; simpl; lra).
      assert (S1 : split_impurity (gini_of labels lab' d) (fval ex_feature) d (/ 2) [0; 1; 2; 3]%nat = (4 * (6 / 16) + 3 * (4 / 9)) / 7) by (unfold split_impurity; rewrite F1, F2, T4; unfold side; rewrite G2, G3, TA, TB; reflexivity).
      assert (S2 : split_impurity (gini_of labels lab' d) (fval ex_feature) d th [0; 1; 2; 3]%nat = 20 / 49).
      { pose proof (total_two d (fval ex_feature) th [0; 1; 2; 3]%nat) as TT. unfold split_impurity.
        assert (A : filter (below (fval ex_feature) th) [0; 1; 2; 3]%nat = [] -> filter (not_below (fval ex_feature) th) [0; 1; 2; 3]%nat = [0; 1; 2; 3]%nat).
        { simpl. unfold below, not_below. repeat (destruct Rlt_dec; simpl); congruence. }
        assert (B : filter (not_below (fval ex_feature) th) [0; 1; 2; 3]%nat = [] -> filter (below (fval ex_feature) th) [0; 1; 2; 3]%nat = [0; 1; 2; 3]%nat).
        { simpl. unfold below, not_below. repeat (destruct Rlt_dec; simpl); congruence. }
        change (filter (below (fval ex_feature) th) [0; 1; 2; 3]%nat = [] \/ filter (not_below (fval ex_feature) th) [0; 1; 2; 3]%nat = []) in Hempty. destruct Hempty as [H|H]; rewrite H; [rewrite (A H)|rewrite (B H)]; unfold side; rewrite G1, T4; field. }
      change (split_impurity (gini_of labels lab' d) (fval ex_feature) d th [0; 1; 2; 3]%nat <= split_impurity (gini_of labels lab' d) (fval ex_feature) d (/ 2) [0; 1; 2; 3]%nat) in Hbest. rewrite S1, S2 in Hbest. lra.
  - cbn [tree_ok] in HT. destruct HT as [_ [_ [_ [dep' [f [th [Hdep [Hrule [Hin [_ [NA [NB [Tl Tr]]]]]]]]]]]]]. destruct Hin as [<-|[]]. inversion Hdep; subst dep'. set (ff := Dense _ _) in *. change ff with ex_feature in *. clear ff.
    pose proof (rows_filter ex_sample ex_dist _ _ Hidx NA) as RA. pose proof (rows_filter ex_sample ex_dist _ _ Hidx NB) as RB.
    assert (Hth : 0 < th <= 1).
    { clear - NA NB. simpl in NA, NB. unfold below, not_below in *. simpl in *. repeat (destruct Rlt_dec in NA; destruct Rlt_dec in NB); simpl in *; try congruence; try lra.
      all: destruct (Rlt_dec 0 th); destruct (Rlt_dec 1 th); simpl in *; try congruence; lra. }
    assert (F1 : filter (below (fval ex_feature) th) [0; 1; 2; 3]%nat = [0; 1]%nat) by (simpl; unfold below; simpl; repeat (destruct Rlt_dec; try lra); reflexivity).
    assert (F2 : filter (not_below (fval ex_feature) th) [0; 1; 2; 3]%nat = [2; 3]%nat) by (simpl; unfold not_below; simpl; repeat (destruct Rlt_dec; try lra); reflexivity).
    rewrite F1 in *. rewrite F2 in *.
    destruct l as [cl wl ll|]; [|simpl in Tl; destruct Tl as [_ [_ [_ [q [? [? [Q _]]]]]]]; discriminate]. destruct r as [cr wr lr|]; [|simpl in Tr; destruct Tr as [_ [_ [_ [q [? [? [Q _]]]]]]]; discriminate].
    simpl in Tl, Tr. destruct Tl as [_ [HLl _]]. destruct Tr as [_ [HLr _]].
    destruct (leaf_mean ex_sample ex_dist ex_pm _ _ _ RA HLl) as [C1 _]. destruct (leaf_mean ex_sample ex_dist ex_pm _ _ _ RB HLr) as [C2 _].
    exists rule, cl, cr. split; [rewrite Ep; reflexivity|]. rewrite C1, C2. unfold total, ex_dist. simpl. split; lra.
Qed.

(** ** hypotheses met *)
Example C27_case : forall c, trainable ex_sample /\ dt_made ex_sample (ex_builder c 2) /\ (exists t, tb_build (ex_builder c 2) ex_sample = Ok t) /\
  length ex_dist = fst (shape ex_sample) /\ (forall i, 0 <= weight ex_dist i) /\ (exists i, (i < fst (shape ex_sample))%nat /\ 0 < weight ex_dist i) /\ pm_labels ex_sample /\ listing (fun m => rev m).
Proof.
  intros c. destruct ex_weight as [A [B C]]. split; [exact ex_trainable|]. split; [apply ex_made; lia|]. split; [apply ex_built; lia|]. split; [exact A|]. split; [exact B|]. split; [exact C|]. split; [exact ex_pm|].
  intros m. apply Permutation_sym, Permutation_rev.
Qed.
Example C61_case : int_labels ex_sample (fun i => if Nat.even i then 1%Z else (-1)%Z) /\ forall i, In i [1; 2]%nat -> (i < fst (shape ex_sample))%nat /\ 0 < weight ex_dist i.
Proof.
  split.
  - intros i Hi. simpl in Hi. destruct i as [|[|[|[|i]]]]; simpl; try lia; split; try lra; lia.
  - intros i [<-|[<-|[]]]; simpl; unfold weight; simpl; split; try lia; lra.
Qed.
