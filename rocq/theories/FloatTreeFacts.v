(** C90: the decision tree learner on binary64 weights *)
From Coq Require Import ZArith List Bool Reals Lia Lra Psatz Permutation String.
From Flocq Require Import Core.Core IEEE754.BinarySingleNaN.
From Verif Require Import Base Feature FeatureFacts Sample SampleSpec SampleFacts Bins BinsSpec BinsProofs BinsFacts TreeSpec DTree DTreeGrow TreeShape DTreeFacts Float FloatSpec FloatProofs FloatFacts FloatCheckFacts FloatMedianFacts FloatTree FloatTreeSpec FloatTreeProofs FloatPackProofs FloatTwoingProofs FloatGrowProofs FloatGrowthProofs.
Import ListNotations.
Open Scope R_scope.
Local Notation total := FloatSpec.total.

Lemma leaves_ok s t : grown_ok s t -> forall c, In c (f_leaves (f_to_node t)) -> confidence_value c.
Proof.
  induction t as [c0 w l|rule l IHl r IHr c0 w lo]; cbn [grown_ok f_to_node f_leaves]; [intros H c [<- |[]]; exact H|].
  intros [_ [_ [Gl Gr]]] c Hc. apply in_app_or in Hc. destruct Hc; auto.
Qed.
Lemma answers_ok s t : good s -> NoDup (map feat_name (s_features s)) -> grown_ok s t -> forall i, (i < s_n_sample s)%nat -> exists v, f_node_confidence (f_to_node t) s i = Ok v /\ In v (f_leaves (f_to_node t)).
Proof.
  intros G NN. induction t as [c0 w l|rule l IHl r IHr c0 w lo]; cbn [grown_ok f_to_node f_leaves f_node_confidence]; [intros _ i _; exists c0; split; [reflexivity|left; reflexivity]|].
  intros [_ [[f [Hin Er]] [Gl Gr]]] i Hi. destruct rule as [nm th]. cbn [sp_feature] in Er. subst nm. rewrite (split_left_ok s G NN f th i Hin Hi). cbn [bind].
  destruct (below (fval f) th i).
  - destruct (IHl Gl i Hi) as [v [E V]]. exists v. split; [exact E|]. apply in_or_app. left. exact V.
  - destruct (IHr Gr i Hi) as [v [E V]]. exists v. split; [exact E|]. apply in_or_app. right. exact V.
Qed.

Lemma P_C90_tree_grows :
  forall sched order fln s b t dist, summing sched -> some_order order -> sane_ln fln ->
  trainable s -> dt_made s b -> tb_build b s = Ok t ->
  length dist = fst (shape s) -> (forall x, In x dist -> finite_num x /\ 0 <= val x) -> (exists x, In x dist /\ 0 < val x) -> total dist < 2 ^ 1000 ->
  (forall f bins, In f (s_features s) -> sm_get (dt_bins t) (feat_name f) = Ok bins -> INR (2 * fst (shape s) + length bins) <= 2 ^ 32) ->
  (dt_criterion t = Gini -> forall x, In x dist -> 0 < val x -> INR (length dist) * total dist <= 2 ^ 49 * val x) ->
  exists h, f_dt_produce sched order fln t s dist = Ok h /\ (forall c, In c (f_leaves h) -> confidence_value c) /\
    (forall i, (i < fst (shape s))%nat -> exists c, f_node_confidence h s i = Ok c /\ In c (f_leaves h)).
Proof.
  intros sched order fln s b t dist Hs Ho Hln Tr Mb Eb Hd Hx [x0 [I0 P0]] HT HB HG.
  destruct Tr as [M [Hn [Hf [NN [Ht Hm]]]]]. pose proof (made_good s M) as G. destruct (built s b t G Hn NN Hm Mb Eb) as [_ [_ [_ Hbins]]]. cbn [shape fst] in *.
  set (n := s_n_sample s) in *. unfold f_dt_produce, f_positive_rows. cbn [shape fst]. fold n. rewrite (proj2 (Nat.leb_le n (length dist))) by lia. cbn [bind].
  set (idx := filter (fun i => flt f0 (nth i dist f0)) (seq 0 n)).
  assert (Hi : forall i, In i idx <-> (i < n)%nat /\ 0 < val (nth i dist f0)).
  { intros i. unfold idx. rewrite filter_In, in_seq. split; intros [H1 H2].
    - split; [lia|]. assert (F : fin (nth i dist f0)) by (apply Hx, nth_In; lia). apply (flt_true f0 _ eq_refl F) in H2. rewrite val_f0 in H2. exact H2.
    - split; [lia|]. assert (F : fin (nth i dist f0)) by (apply Hx, nth_In; lia). apply (flt_true f0 _ eq_refl F). rewrite val_f0. exact H2. }
  assert (Ne : idx <> []). { destruct (In_nth dist x0 f0 I0) as [i [L E]]. intros Q. assert (In i idx) as Ii by (apply Hi; split; [lia|rewrite E; exact P0]). rewrite Q in Ii. destruct Ii. }
  assert (Nn : is_nil idx = false) by (destruct idx; [congruence|reflexivity]). rewrite Nn. cbn [negb assert_ bind].
  destruct (min_entry (map (fun i => nth i dist f0) idx)) as [mn [Hmn1 Hmn2]]; [destruct idx; [congruence|discriminate]|].
  assert (Pm : 0 < val mn) by (apply in_map_iff in Hmn1; destruct Hmn1 as [i [<- Q]]; apply Hi, Q).
  assert (Tle : total (map (fun i => nth i dist f0) idx) <= total dist).
  { apply Rle_trans with (total (map (fun i => nth i dist f0) (seq 0 (length dist)))); [|rewrite map_nth_seq; apply Rle_refl]. rewrite Hd. apply total_filter. intros i Q. apply in_seq in Q. apply Hx, nth_In. lia. }
  assert (Ll : (length idx <= n)%nat) by (unfold idx; eapply Nat.le_trans; [apply filter_le_len|rewrite seq_length; lia]).
  assert (Tp : 0 <= total (map (fun i => nth i dist f0) idx)) by (apply total_pos; intros x Q; apply in_map_iff in Q; destruct Q as [i [<- Q]]; apply Hi in Q; lra).
  destruct (FloatGrowthProofs.tree_ok sched order fln Hs Ho Hln s dist (dt_bins t) (dt_criterion t) (val mn) G NN Hf Ht Hd) with (depth := dt_depth t) (idx := idx) as [T [ET GT]].
  - intros f i Hin Hlt. assert (Hcf : col_ok n f) by (pose proof (good_cols s G) as F; rewrite Forall_forall in F; apply F, Hin). apply (value_range n); auto. intros x Q. apply (Hm f x Hin Q).
  - intros f Hin. destruct (Hbins f Hin) as [nb [bins [_ [_ [E C]]]]]. exists bins. split; [exact E|]. split; [exact C|]. apply (HB f bins Hin E).
  - exact Pm.
  - split; [exact Ne|]. split; [exact Ll|]. split; [|split; [lra|]].
    + intros i Q. pose proof (proj1 (Hi i) Q) as [Q1 Q2]. split; [exact Q1|]. split; [apply Hx, nth_In; lia|]. apply Hmn2, in_map_iff. exists i. auto.
    + intros Ec. eapply Rle_trans; [|apply (HG Ec mn); [|exact Pm]].
      * apply Rmult_le_compat; [apply pos_INR|exact Tp|apply le_INR; lia|exact Tle].
      * apply in_map_iff in Hmn1. destruct Hmn1 as [i [<- Q]]. apply nth_In. apply Hi in Q. lia.
  - rewrite ET. cbn [bind]. pose proof (redundant_ok s T GT) as GR. eexists. split; [reflexivity|]. split; [apply (leaves_ok s), GR|]. intros i Q. apply (answers_ok s); assumption.
Qed.

(** ** the Gini criterion removes a label too early *)
Definition dyad (m e : Z) : f64 := binary_normalize 53 1024 eq_refl eq_refl mode_NE m e false.
Definition gx_sample : sample := from_dataframe [("a"%string, [0; 1; 3])] 3 [1; 1; -1].
Definition gx_feature : feature := Dense "a" [0; 1; 3].
Definition gx_dist : list f64 := [dyad 1 (-1); dyad 1 (-54); dyad (2 ^ 53 - 1) (-54)].
Definition gx_bins : list bin := [mkBin F64MIN 1; mkBin 1 2; mkBin 2 F64MAX].
Definition gx_builder (c : criterion) : dt_builder := mkDTB [("a"%string, 3%nat)] 2 c.
Definition gx_tree (c : criterion) : dtree := mkDTree [("a"%string, gx_bins)] c 2.

Lemma gx_trainable : trainable gx_sample.
Proof.
  pose proof F64MAX_big as B. split; [|split; [|split; [|split; [|split]]]].
  - apply made_dataframe. intros p [<-|[]]. reflexivity.
  - simpl. lia.
  - simpl. discriminate.
  - simpl. constructor; [intros []|constructor].
  - reflexivity.
  - intros f x [<-|[]] Hx. unfold moderate. destruct Hx as [<-|[<-|[<-|[]]]]; rewrite Rabs_pos_eq; lra.
Qed.
Lemma gx_distinct : distinct_value_count gx_feature = 3%nat.
Proof.
  unfold distinct_value_count, gx_feature, inner_distinct_value_count. simpl.
  repeat (first [rewrite (Rleb_true 0 1) by lra | rewrite (Rleb_true 1 3) by lra | rewrite (Rleb_true 0 3) by lra]; simpl).
  repeat (first [rewrite (Reqb_false 1 0) by lra | rewrite (Reqb_false 3 1) by lra]; simpl). reflexivity.
Qed.
Lemma gx_made c : dt_made gx_sample (gx_builder c).
Proof.
  assert (E : tb_new gx_sample = mkDTB [("a"%string, 3%nat)] 2 Entropy).
  { unfold tb_new. change (s_features gx_sample) with [gx_feature]. cbn [map]. rewrite gx_distinct. reflexivity. }
  pose proof (dm_new gx_sample) as M. rewrite E in M. apply (dm_criterion _ _ c) in M. exact M.
Qed.
Lemma gx_cut : cut gx_feature 3 = Ok gx_bins.
Proof.
  unfold cut, gx_feature. pose proof F64MAX_big as BM.
  assert (E1 : vmin [0; 1; 3] = 0) by (unfold vmin; cbn [fold_left]; rewrite (Rmin_right F64MAX 0), (Rmin_left 0 1), (Rmin_left 0 3) by lra; reflexivity).
  assert (E2 : vmax [0; 1; 3] = 3) by (unfold vmax; cbn [fold_left]; rewrite (Rmax_right F64MIN 0), (Rmax_right 0 1), (Rmax_right 1 3) by (unfold F64MIN; lra); reflexivity).
  rewrite E1, E2. unfold cut_range. rewrite Reqb_false by lra. cbn [Nat.eqb]. replace ((3 - 0) / INR 3) with 1 by (simpl; field). assert (S9 : 0 < / 10 ^ 9 <= / 2) by (split; [apply Rinv_0_lt_compat, pow_lt; lra|simpl; lra]).
  cbn [cut_loop]. rewrite (Rltb_true 0 3) by lra. rewrite Rltb_false by (rewrite Rabs_left by lra; lra). rewrite Rltb_true by lra. rewrite Rltb_false by (rewrite Rabs_left by lra; lra).
  rewrite Rltb_true by lra. rewrite Rltb_true by (replace (0 + 1 + 1 + 1 - 3) with 0 by ring; rewrite Rabs_R0; lra). cbn [bind assert_ length Nat.eqb set_first_start set_last_end b_end b_start].
  unfold gx_bins. replace (0 + 1 + 1) with 2 by ring. replace (0 + 1) with 1 by ring. reflexivity.
Qed.
Lemma gx_built c : tb_build (gx_builder c) gx_sample = Ok (gx_tree c).
Proof. unfold tb_build, gx_builder. change (s_features gx_sample) with [gx_feature]. cbn [cut_all]. change (sm_get _ (feat_name gx_feature)) with (Ok 3%nat : res nat). cbn [bind]. rewrite gx_cut. reflexivity. Qed.

Lemma gx_find : find_bin gx_bins 0 = Ok 0%nat /\ find_bin gx_bins 1 = Ok 1%nat /\ find_bin gx_bins 3 = Ok 2%nat.
Proof.
  pose proof F64MAX_big as B. assert (C : chain F64MIN F64MAX gx_bins) by (unfold gx_bins, F64MIN; simpl; repeat split; lra).
  assert (K : forall x k, F64MIN <= x < F64MAX -> (k < 3)%nat -> (forall j, (j < 3)%nat -> in_bin (nth j gx_bins (mkBin 0 0)) x -> j = k) -> find_bin gx_bins x = Ok k).
  { intros x k Hx Hk H. destruct (find_bin_ok gx_bins _ _ x C Hx) as [j [E [Hj Hin]]]. rewrite E. f_equal. apply H; assumption. }
  split; [|split]; apply K; try (unfold F64MIN; lra); try lia; intros [|[|[|j]]] Hj Hin; try reflexivity; try lia; unfold in_bin in Hin; simpl in Hin; lra.
Qed.
Lemma gx_pm : pm_labels gx_sample.
Proof. intros i Hi. simpl in *. destruct i as [|[|[|i]]]; auto; lia. Qed.
Lemma gx_total : total gx_dist = 1.
Proof.
  unfold gx_dist. rewrite !total_cons. unfold dyad. 
  destruct (normalize_exact 1 (-1)) as [_ V1]; [reflexivity|lia|]. destruct (normalize_exact 1 (-54)) as [_ V2]; [reflexivity|lia|]. destruct (normalize_exact (2 ^ 53 - 1) (-54)) as [_ V3]; [reflexivity|lia|].
  rewrite V1, V2, V3. unfold total. simpl. lra.
Qed.
Lemma gx_weights : forall x, In x gx_dist -> finite_num x /\ 0 < val x.
Proof.
  intros x [<- |[<- |[<- |[]]]]; unfold dyad.
  - destruct (normalize_exact 1 (-1)) as [F V]; [reflexivity|lia|]. split; [exact F|]. rewrite V. simpl. lra.
  - destruct (normalize_exact 1 (-54)) as [F V]; [reflexivity|lia|]. split; [exact F|]. rewrite V. simpl. lra.
  - destruct (normalize_exact (2 ^ 53 - 1) (-54)) as [F V]; [reflexivity|lia|]. split; [exact F|]. rewrite V. simpl. lra.
Qed.
Ltac same := apply B2SF_inj; vm_compute; reflexivity.
Lemma gx_pack : exists b1 b2 b3, f_dt_pack fsum (fun m => m) gx_bins [0; 1; 2]%nat gx_feature [1; 1; -1] gx_dist =
  Ok [(b1, [(1%Z, dyad 1 (-1))]); (b2, [(1%Z, dyad 1 (-54))]); (b3, [((-1)%Z, dyad (2 ^ 53 - 1) (-54))])].
Proof.
  destruct gx_find as [F0 [F1 F2]]. do 3 eexists. unfold f_dt_pack.
  assert (E : pack_loop (f_dt_add [1; 1; -1] gx_dist) [] gx_bins gx_feature [0; 1; 2]%nat (repeat [] (length gx_bins)) =
    Ok [[(1%Z, fadd f0 (dyad 1 (-1)))]; [(1%Z, fadd f0 (dyad 1 (-54)))]; [((-1)%Z, fadd f0 (dyad (2 ^ 53 - 1) (-54)))]]).
  { change (repeat [] (length gx_bins)) with ([[]; []; []] : list flw). cbn [pack_loop]. unfold gx_feature. cbn [feat_index nth_error bind]. rewrite F0. cbn [bind nth f_dt_add get_ nth_error f_get gx_dist]. 
    assert (A1 : as_int 32 1 = 1%Z) by (apply (as_int_IZR 32 1); simpl; lia). assert (A2 : as_int 32 (-1) = (-1)%Z) by (apply (as_int_IZR 32 (-1)); simpl; lia).
    unfold f_dt_add, get_, f_get. cbn [nth_error bind gx_dist]. rewrite A1. cbn [f_lw_add upd]. rewrite F1. cbn [bind nth f_lw_add upd]. rewrite F2. cbn [bind nth]. rewrite A2. cbn [f_lw_add upd]. reflexivity. }
  rewrite E. cbn [bind]. set (tot := fsum _). assert (T : tot = f1) by same. rewrite T. change (flt f0 f1) with true. cbn [assert_ bind].
  unfold remove_empty, gx_bins. cbn [combine is_nil filter snd negb merge_loop bind map fst]. 
  assert (D1 : fdiv (fadd f0 (dyad 1 (-1))) f1 = dyad 1 (-1)) by same.
  assert (D2 : fdiv (fadd f0 (dyad 1 (-54))) f1 = dyad 1 (-54)) by same.
  assert (D3 : fdiv (fadd f0 (dyad (2 ^ 53 - 1) (-54))) f1 = dyad (2 ^ 53 - 1) (-54)) by same.
  rewrite D1, D2, D3. reflexivity.
Qed.
Lemma gx_conf : exists conf loss, f_confidence_and_loss fsum (fun m => m) [1; 1; -1] gx_dist [0; 1; 2]%nat = Ok (conf, loss) /\ feq loss f0 = false.
Proof.
  unfold f_confidence_and_loss. cbn [is_nil negb assert_ bind f_count_labels get_ nth_error f_get gx_dist].
  assert (A1 : as_int 64 1 = 1%Z) by (apply (as_int_IZR 64 1); simpl; lia). assert (A2 : as_int 64 (-1) = (-1)%Z) by (apply (as_int_IZR 64 (-1)); simpl; lia).
  unfold get_, f_get, gx_dist. cbn [nth_error bind]. rewrite A1, A2. cbn [f_lw_add Z.eqb Pos.eqb]. set (a := fadd (fadd f0 (dyad 1 (-1))) (dyad 1 (-54))). set (c := fadd f0 (dyad (2 ^ 53 - 1) (-54))). cbn [map snd is_nil negb existsb andb orb].
  set (tt := fsum [a; c]). assert (N1 : is_nan a = false) by (vm_compute; reflexivity). assert (N2 : is_nan c = false) by (vm_compute; reflexivity). rewrite N1, N2. cbn [orb f_max_entry snd].
  assert (L1 : flt c a = true) by (vm_compute; reflexivity). rewrite L1. assert (L2 : flt f0 tt = true) by (vm_compute; reflexivity). rewrite L2.
  do 2 eexists. split; [reflexivity|]. vm_compute. reflexivity.
Qed.
Lemma gx_split b1 b2 b3 : f_split_by_gini fsum [(b1, [(1%Z, dyad 1 (-1))]); (b2, [(1%Z, dyad 1 (-54))]); (b3, [((-1)%Z, dyad (2 ^ 53 - 1) (-54))])] = Panic UnwrapNone.
Proof.
  unfold f_split_by_gini, f_split_by_impurity. set (ws := fsum _).
  assert (Er : f_all_right [(b1, [(1%Z, dyad 1 (-1))]); (b2, [(1%Z, dyad 1 (-54))]); (b3, [((-1)%Z, dyad (2 ^ 53 - 1) (-54))])] = [(1%Z, dyad 1 (-1)); ((-1)%Z, dyad (2 ^ 53 - 1) (-54))]).
  { unfold f_all_right, f_lw_merge. cbn [fold_left snd fst f_lw_add Z.eqb Pos.eqb]. assert (E1 : fadd (fadd f0 (dyad 1 (-1))) (dyad 1 (-54)) = dyad 1 (-1)) by same.
    assert (E2 : fadd f0 (dyad (2 ^ 53 - 1) (-54)) = dyad (2 ^ 53 - 1) (-54)) by same. rewrite E1, E2. reflexivity. }
  rewrite Er. cbn [f_impurity_loop].
  assert (M1 : exists l x, f_move_loop true [(1%Z, dyad 1 (-1))] [] [(1%Z, dyad 1 (-1)); ((-1)%Z, dyad (2 ^ 53 - 1) (-54))] f0 = Ok (l, [((-1)%Z, dyad (2 ^ 53 - 1) (-54))], x)).
  { cbn [f_move_loop f_lw_get find fst snd Z.eqb Pos.eqb]. change (fle (fsub (dyad 1 (-1)) (dyad 1 (-1))) f0) with true. cbn [andb f_lw_remove filter fst negb Z.eqb Pos.eqb]. do 2 eexists. reflexivity. }
  destruct M1 as [l [x M1]]. rewrite M1. cbn [bind]. assert (M2 : forall l x, f_move_loop true [(1%Z, dyad 1 (-54))] l [((-1)%Z, dyad (2 ^ 53 - 1) (-54))] x = Panic UnwrapNone) by reflexivity.
  destruct (flt _ _); rewrite M2; reflexivity.
Qed.

Lemma P_C90_gini_absorbed_label_refuted :
  exists s b t dist, trainable s /\ pm_labels s /\ dt_made s b /\ tb_build b s = Ok t /\ dt_criterion t = Gini /\ length dist = fst (shape s) /\
  (forall x, In x dist -> finite_num x /\ 0 < val x) /\ total dist = 1 /\
  exists sched order, summing sched /\ some_order order /\ forall fln, f_dt_produce sched order fln t s dist = Panic UnwrapNone.
Proof.
  exists gx_sample, (gx_builder Gini), (gx_tree Gini), gx_dist. split; [exact gx_trainable|]. split; [exact gx_pm|]. split; [apply gx_made|]. split; [apply gx_built|]. split; [reflexivity|]. split; [reflexivity|].
  split; [exact gx_weights|]. split; [exact gx_total|]. exists fsum, (fun m => m). split; [intros l; exists (FLeaf l); split; [apply Permutation_refl|reflexivity]|]. split; [intros m; apply Permutation_refl|].
  intros fln. unfold f_dt_produce. assert (Ep : f_positive_rows (fst (shape gx_sample)) gx_dist = Ok [0; 1; 2]%nat) by reflexivity. rewrite Ep. cbn [bind is_nil negb assert_ gx_tree dt_depth dt_criterion dt_bins].
  cbn [f_full_tree]. assert (Ew : exists ws, f_weights_at gx_dist [0; 1; 2]%nat = Ok ws) by (eexists; reflexivity). destruct Ew as [ws Ew]. rewrite Ew. cbn [bind]. change (s_target gx_sample) with [1; 1; -1]. destruct gx_conf as [conf [loss [Ec Nz]]]. rewrite Ec. cbn [bind]. rewrite Nz. unfold f_best_split. change (s_features gx_sample) with [gx_feature]. change (s_target gx_sample) with [1; 1; -1]. cbn [f_eval_features].
  change (sm_get [("a"%string, gx_bins)] (feat_name gx_feature)) with (Ok gx_bins : res (list bin)). cbn [bind]. destruct gx_pack as [b1 [b2 [b3 Pk]]]. rewrite Pk. cbn [bind f_split_by]. rewrite gx_split. reflexivity.
Qed.

(** ** a case that meets the hypotheses of C90_tree_grows, for every criterion *)
Definition gx_even : list f64 := [dyad 1 (-2); dyad 1 (-2); dyad 1 (-1)].
Example C90_tree_grows_applies : forall sched order fln c, summing sched -> some_order order -> sane_ln fln ->
  exists h, f_dt_produce sched order fln (gx_tree c) gx_sample gx_even = Ok h.
Proof.
  intros sched order fln c Hs Ho Hl. assert (V : val (dyad 1 (-2)) = / 4 /\ fin (dyad 1 (-2)) /\ val (dyad 1 (-1)) = / 2 /\ fin (dyad 1 (-1))).
  { unfold dyad. destruct (normalize_exact 1 (-2)) as [F1 V1]; [reflexivity|lia|]. destruct (normalize_exact 1 (-1)) as [F2 V2]; [reflexivity|lia|]. rewrite V1, V2. split; [simpl; lra|]. split; [exact F1|]. split; [simpl; lra|exact F2]. }
  destruct V as [V1 [F1 [V2 F2]]]. assert (T : total gx_even = 1) by (unfold gx_even; rewrite !total_cons, V1, V2; unfold total; simpl; lra).
  assert (W : forall x, In x gx_even -> finite_num x /\ / 4 <= val x) by (intros x [<- |[<- |[<- |[]]]]; split; try assumption; lra).
  destruct (P_C90_tree_grows sched order fln gx_sample (gx_builder c) (gx_tree c) gx_even Hs Ho Hl gx_trainable (gx_made c) (gx_built c)) as [h [E _]].
  - reflexivity.
  - intros x Hx. destruct (W x Hx). split; [assumption|lra].
  - exists (dyad 1 (-1)). split; [right; right; left; reflexivity|lra].
  - rewrite T. apply Rlt_pow_R1; [lra|lia].
  - intros f bins [<- |[]] E. change (sm_get (dt_bins (gx_tree c)) _) with (Ok gx_bins : res (list bin)) in E. inversion E; subst bins. simpl. lra.
  - intros _ x Hx _. destruct (W x Hx) as [_ Wx]. rewrite T. simpl. lra.
  - exists h. exact E.
Qed.
