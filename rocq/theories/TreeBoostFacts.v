(** Property C73: AdaBoost with the decision trees of the crate as weak learner. *)
From Coq Require Import String.
From Verif Require Import Base Spec SortLib Utils UtilsProofs WMajority WMajorityProofs Booster AdaBoost AdaBoostProofs AdaBoostMain AdaBoostMore AdaBoostFacts
  BinSearch Feature Sample SampleSpec FeatureFacts SampleFacts Bins BinsSpec BinsProofs BinsFacts TreeSpec DTree TreeShape DTreeProofs DTreeSplit DTreeBest DTreeGrow DTreeOut DTreeFacts.
Open Scope R_scope.

(** the learner as a function of the round and the distribution; that it does not panic is part of the theorems *)
Definition tree_learner (order : lw -> lw) (t : dtree) (s : sample) (round : nat) (d : list R) : node :=
  match dt_produce order t s d with Ok h => h | Panic _ => Leaf 0 end.

Lemma tree_edge s d h : length (s_target s) = fst (shape s) -> edge_of (s_target s) d (answer h s) = tree_edge_of h s d.
Proof. intros L. unfold edge_of, tree_edge_of, all_rows. rewrite L. apply rsum_map_ext. intros i _. unfold weight, label. ring. Qed.

Lemma rprod_zero l : In 0 l -> rprod l = 0.
Proof. induction l as [|a l IH]; [intros []|]. intros [->|Hin]; unfold rprod in *; simpl; [ring|]. rewrite IH by exact Hin. ring. Qed.

Lemma rsum_all_zero l : (forall x, In x l -> x = 0) -> rsum l = 0.
Proof. induction l as [|a l IH]; intros Hz; [reflexivity|]. change (rsum (a :: l)) with (a + rsum l); rewrite (Hz a) by (left; reflexivity). rewrite IH by (intros x Hx; apply Hz; right; exact Hx). ring. Qed.

Section Trees.
  Variables (order : lw -> lw) (s : sample) (b : dt_builder) (t : dtree).
  Hypothesis Tr : trainable s.
  Hypothesis Mb : dt_made s b.
  Hypothesis Eb : tb_build b s = Ok t.
  Hypothesis Ho : listing order.
  Hypothesis Hpm : pm_labels s.
  Local Notation y := (s_target s).
  Local Notation conf := (fun h i => answer h s i).
  Local Notation produce := (tree_learner order t s).

  Lemma target_length : length y = fst (shape s).
  Proof. destruct Tr as [_ [_ [_ [_ [L _]]]]]. exact L. Qed.

  Lemma tree_round k d : length d = length y -> is_pos_dist d ->
    dt_produce order t s d = Ok (produce k d) /\ (depth (produce k d) <= tb_depth b)%nat /\
    (forall i, (i < length y)%nat -> exists v, node_confidence (produce k d) s i = Ok v /\ -1 <= v <= 1) /\
    0 <= edge_of y d (conf (produce k d)) /\
    (tb_criterion b = Edge -> forall f th, In f (s_features s) -> offered (dt_bins t) f th ->
       (stump_edge (column f) (label s) (weight d) th (all_rows s)) ^ 2 <= edge_of y d (conf (produce k d))).
  Proof.
    intros Ld [Hp Hs]. pose proof target_length as LT. destruct (pm_int s Hpm) as [lab HL].
    assert (Ld' : length d = fst (shape s)) by congruence.
    assert (Hnn : forall i, 0 <= weight d i).
    { intros i. unfold weight. destruct (Nat.lt_ge_cases i (length d)) as [Hi|Hi]; [left; apply Hp, nth_In, Hi|rewrite nth_overflow by exact Hi; lra]. }
    assert (Hn : (0 < fst (shape s))%nat) by apply Tr.
    assert (Hsome : exists i, (i < fst (shape s))%nat /\ 0 < weight d i) by (exists 0%nat; split; [exact Hn|unfold weight; apply Hp, nth_In; lia]).
    destruct (P_C27_tree order s b t d lab Tr Mb Eb Ld' Hsome HL Ho) as [h [Eh [Dh [Ok1 [Ok2 _]]]]].
    destruct (P_C27_edge order s b t d Tr Mb Eb Ld' Hnn Hsome Hpm Ho) as [h' [Eh' [_ [E0 E1]]]].
    assert (h' = h) by congruence. subst h'. unfold tree_learner. rewrite Eh. split; [reflexivity|]. split; [exact Dh|]. split; [|split].
    - intros i Hi. rewrite LT in Hi. destruct (Ok1 i Hi) as [v Ev]. exists v. split; [exact Ev|apply (Ok2 _ _ _ Ev)].
    - change (edge_of y d (fun i => answer h s i)) with (edge_of y d (answer h s)). rewrite (tree_edge s d h LT). lra.
    - intros Hc f th Hf Hth. change (edge_of y d (fun i => answer h s i)) with (edge_of y d (answer h s)). rewrite (tree_edge s d h LT). specialize (E1 Hc f th Hf Hth).
      assert (ET : rsum (map (weight d) (all_rows s)) = 1). { unfold all_rows. rewrite <- Ld'. unfold weight. rewrite rsum_nth. exact Hs. }
      rewrite ET in E1. unfold Rdiv in E1. rewrite Rinv_1, Rmult_1_r in E1. lra.
  Qed.
End Trees.

(** ** C73: on every trainable sample with labels +1 and -1, AdaBoost with the decision tree learner never makes the
    learner panic; it returns a vote whose training error is at most the product of sqrt(1 - edge^2), or it panics in the
    final step because every tree had edge zero *)
Lemma P_C73_adaboost_with_trees :
  forall order s b t (a : ada) fuel, trainable s -> dt_made s b -> tb_build b s = Ok t -> listing order -> pm_labels s ->
  is_valid_binary_instance (s_target s) = Ok tt ->
  let y := s_target s in let conf := fun h i => answer h s i in let produce := tree_learner order t s in
  let limit := match a_force_quit a with Some it => it | None => ada_max_loop y a end in
  (0 < limit < fuel)%nat ->
  let out := run (adaboost conf produce y) fuel a in
  (forall d, In d (trace_of out) -> exists h, dt_produce order t s d = Ok h /\ (depth h <= tb_depth b)%nat /\
     forall i, (i < length y)%nat -> exists v, node_confidence h s i = Ok v /\ -1 <= v <= 1) /\
  Forall (fun e => 0 <= e <= 1) (edges conf produce y (trace_of out)) /\
  match out with
  | Finished tr f => INR (n_errors y (wm_predict conf f)) / INR (length y) <= rprod (map (fun g => sqrt (1 - g ^ 2)) (edges conf produce y tr))
  | Crashed tr p => p = AssertFailed /\ tr <> [] /\ Forall (fun e => e = 0) (edges conf produce y tr)
  | Unfinished _ => False
  end.
Proof.
  intros order s b t a fuel Tr Mb Eb Ho Hpm Hv y conf produce limit Hlim out.
  assert (Hy : forall i, (i < length y)%nat -> pm1 (nth i y 0)).
  { intros i Hi. unfold y in *. rewrite (target_length s Tr) in Hi. destruct (Hpm i Hi) as [->| ->]; unfold pm1; auto. }
  assert (Q : forall d, In d (trace_of out) -> length d = length y /\ is_pos_dist d) by (intros d Hd; apply (P_C04_adaboost_queries_are_distributions node conf produce y a fuel d Hd)).
  assert (Bd : forall h i, In h (Spec.answers produce (trace_of out)) -> (i < length y)%nat -> -1 <= conf h i <= 1).
  { intros h i Hh Hi. unfold Spec.answers in Hh. apply in_map_iff in Hh. destruct Hh as [[k d] [<- Hin]]. apply in_combine_r in Hin. cbn [fst snd].
    destruct (Q d Hin) as [Ld Pd]. destruct (tree_round order s b t Tr Mb Eb Ho Hpm k d Ld Pd) as [_ [_ [C _]]]. destruct (C i Hi) as [v [Ev Bv]]. unfold conf, answer, produce. rewrite Ev. exact Bv. }
  assert (Ed : Forall (fun e => 0 <= e <= 1) (edges conf produce y (trace_of out))).
  { apply Forall_forall. intros e He. unfold edges in He. apply in_map_iff in He. destruct He as [[k d] [<- Hin]]. pose proof Hin as Hin2. apply in_combine_r in Hin. cbn [fst snd].
    destruct (Q d Hin) as [Ld Pd]. destruct (tree_round order s b t Tr Mb Eb Ho Hpm k d Ld Pd) as [_ [_ [C [E _]]]]. split; [exact E|].
    apply (edge_bounds y d (conf (produce k d))); [destruct Pd as [P1 P2]; split; [intros x Hx; left; apply P1, Hx|exact P2]|exact Ld|].
    intros i Hi. assert (B : -1 <= conf (produce k d) i <= 1) by (apply Bd; [unfold Spec.answers; apply in_map_iff; exists (k, d); split; [reflexivity|exact Hin2]|exact Hi]).
    destruct (Hy i Hi) as [-> | ->]; lra. }
  split; [|split; [exact Ed|]].
  - intros d Hd. destruct (Q d Hd) as [Ld Pd]. destruct (tree_round order s b t Tr Mb Eb Ho Hpm 0 d Ld Pd) as [A [B [C _]]]. exists (produce 0%nat d). auto.
  - pose proof (P_C08_adaboost_round_limit node conf produce y a fuel) as [_ RL]. specialize (RL (proj2 Hlim)). fold out in RL.
    destruct out as [tr f|tr p|tr] eqn:Eo; [| |exact RL].
    + apply (P_C07_adaboost_training_error_bound node conf produce y a fuel tr f Hy); [exact Bd|exact Eo|]. eapply Forall_impl; [|exact Ed]. intros e He. cbv beta in *. lra.
    + destruct (P_C08_adaboost_crash_cause node conf produce y a fuel tr p Hv (proj1 Hlim) Eo) as [A [B C]]. split; [exact A|]. split; [exact B|]. cbn [trace_of] in Ed.
      assert (Hlast : In (last (edges conf produce y tr) 0) (edges conf produce y tr)).
      { destruct tr as [|d tr _] using rev_ind; [congruence|]. rewrite edges_app, last_last. apply in_or_app. right. left. reflexivity. }
      rewrite Forall_forall in Ed. apply Forall_forall. intros e He. pose proof (Ed e He). pose proof (Ed _ Hlast). destruct C as [C|C]; [rewrite Forall_forall in C; specialize (C e He)|]; lra.
Qed.

(** ** C73: if under every distribution some offered stump has edge at least g in absolute value, then with the edge
    criterion the returned vote is right on every training example once g^4 * (number of rounds) > 2 ln n *)
Lemma P_C73_trees_zero_training_error :
  forall order s b t (a : ada) fuel g, trainable s -> dt_made s b -> tb_build b s = Ok t -> listing order -> pm_labels s ->
  is_valid_binary_instance (s_target s) = Ok tt -> tb_criterion b = Edge ->
  let y := s_target s in let conf := fun h i => answer h s i in let produce := tree_learner order t s in
  let limit := match a_force_quit a with Some it => it | None => ada_max_loop y a end in
  (0 < limit < fuel)%nat -> 0 < g ->
  (forall d, length d = length y -> is_pos_dist d -> exists f th, In f (s_features s) /\ offered (dt_bins t) f th /\ g <= Rabs (stump_edge (column f) (label s) (weight d) th (all_rows s))) ->
  2 * ln (INR (length y)) < g ^ 4 * INR limit ->
  exists tr f, run (adaboost conf produce y) fuel a = Finished tr f /\ forall i, (i < length y)%nat -> wm_predict conf f i = nth i y 0.
Proof.
  intros order s b t a fuel g Tr Mb Eb Ho Hpm Hv Hc y conf produce limit Hlim Hg Hweak HT.
  destruct (P_C73_adaboost_with_trees order s b t a fuel Tr Mb Eb Ho Hpm Hv Hlim) as [P1 [P2 P3]]. fold y conf produce in P1, P2, P3.
  assert (Hy : forall i, (i < length y)%nat -> pm1 (nth i y 0)).
  { intros i Hi. unfold y in *. rewrite (target_length s Tr) in Hi. destruct (Hpm i Hi) as [->| ->]; unfold pm1; auto. }
  assert (Ge : Forall (fun e => g ^ 2 <= e) (edges conf produce y (trace_of (run (adaboost conf produce y) fuel a)))).
  { apply Forall_forall. intros e He. unfold edges in He. apply in_map_iff in He. destruct He as [[k d] [<- Hin]]. apply in_combine_r in Hin. cbn [fst snd].
    destruct (P_C04_adaboost_queries_are_distributions node conf produce y a fuel d Hin) as [Ld Pd].
    destruct (tree_round order s b t Tr Mb Eb Ho Hpm k d Ld Pd) as [_ [_ [_ [_ E]]]]. destruct (Hweak d Ld Pd) as [f [th [Hf [Hth Hge]]]].
    specialize (E Hc f th Hf Hth). eapply Rle_trans; [|exact E]. rewrite <- (pow2_abs (stump_edge _ _ _ _ _)). apply pow_incr. lra. }
  assert (G2 : 0 < g ^ 2) by (apply pow_lt, Hg).
  destruct (run (adaboost conf produce y) fuel a) as [tr f|tr p|tr] eqn:Eo; cbn [trace_of] in *; [| |destruct P3].
  - exists tr, f. split; [reflexivity|]. 
    assert (Z : n_errors y (wm_predict conf f) = 0%nat).
    { destruct (ada_run_spec conf produce y fuel a) as [_ HF]. destruct (HF tr f Eo) as [[_ Hn] [[HM _]|[tr0 [d [-> [_ [_ [He _]]]]]]]].
      - assert (Hb : forall h i, In h (Spec.answers produce tr) -> (i < length y)%nat -> -1 <= conf h i <= 1).
        { intros h i Hh Hi. unfold Spec.answers in Hh. apply in_map_iff in Hh. destruct Hh as [[k d] [<- Hin]]. apply in_combine_r in Hin. cbn [fst snd].
          destruct (P1 d Hin) as [h' [Eh' [_ C]]]. destruct (C i Hi) as [v [Ev Bv]]. unfold conf, answer, produce, tree_learner. rewrite Eh', Ev. exact Bv. }
        apply (ada_zero_error conf produce y fuel a tr f (g ^ 2) Hy Hb Eo G2 Ge). rewrite HM. replace ((g ^ 2) ^ 2) with (g ^ 4) by ring. exact HT.
      - assert (E1 : In (edge_of y d (conf (produce (length (tr0 ++ [d])) d))) (edges conf produce y (tr0 ++ [d]))).
        { rewrite edges_app. apply in_or_app. right. left. rewrite app_length. simpl. rewrite Nat.add_1_r. reflexivity. }
        rewrite Forall_forall in P2. destruct (P2 _ E1) as [_ Hle]. rewrite rprod_zero in P3.
        + apply Rdiv_le_iff in P3; [|apply INR_pos; exact Hn]. rewrite Rmult_0_l in P3. assert (X : INR (n_errors y (wm_predict conf f)) <= INR 0) by (simpl; lra). apply INR_le in X. lia.
        + apply in_map_iff. eexists. split; [|exact E1]. cbv beta. replace (edge_of y d (conf (produce (length (tr0 ++ [d])) d))) with 1 by lra. replace (1 - 1 ^ 2) with 0 by ring. apply sqrt_0. }
    unfold n_errors in Z.
    assert (G : forall l, count (fun i => negb (if Req_EM_T (wm_predict conf f i) (nth i y 0) then true else false)) l = 0%nat -> forall j, In j l -> wm_predict conf f j = nth j y 0).
    { induction l as [|x l IH]; intros Hz j Hj; [destruct Hj|]. destruct Hj as [<-|Hj]; cbn [count] in Hz; destruct (Req_EM_T (wm_predict conf f x) (nth x y 0)); simpl in Hz; try lia; auto. }
    intros i Hi. apply (G _ Z). apply in_seq. lia.
  - exfalso. destruct P3 as [_ [Hne Z]]. destruct tr as [|d tr _] using rev_ind; [congruence|]. rewrite edges_app in Z, Ge. apply Forall_app in Z. apply Forall_app in Ge.
    destruct Z as [_ Z]. destruct Ge as [_ Ge]. apply Forall_inv in Z. apply Forall_inv in Ge. lra.
Qed.


(** ** a separable sample, on which the theorems apply *)
Definition sep_sample : sample := from_dataframe [("a"%string, [0; 0; 1; 1])] 4 [1; 1; -1; -1].
Lemma sep_trainable : trainable sep_sample.
Proof.
  destruct ex_trainable as [_ [H2 [H3 [H4 [_ H6]]]]]. split; [apply made_dataframe; intros p [<-|[]]; reflexivity|].
  split; [exact H2|]. split; [exact H3|]. split; [exact H4|]. split; [reflexivity|exact H6].
Qed.
Lemma sep_pm : pm_labels sep_sample.
Proof. intros i Hi. simpl in *. destruct i as [|[|[|[|i]]]]; auto; lia. Qed.
Lemma sep_made c dep : (0 < dep)%nat -> dt_made sep_sample (ex_builder c dep).
Proof.
  intros Hd. assert (E : tb_new sep_sample = mkDTB [("a"%string, 2%nat)] 2 Entropy).
  { unfold tb_new. change (s_features sep_sample) with [ex_feature]. cbn [map]. rewrite ex_distinct. reflexivity. }
  pose proof (dm_new sep_sample) as M. rewrite E in M. apply (dm_criterion _ _ c) in M. unfold tb_set_criterion in M. simpl in M.
  apply (dm_depth _ _ dep (ex_builder c dep)) in M; [exact M|]. unfold tb_max_depth. apply Nat.ltb_lt in Hd. rewrite Hd. reflexivity.
Qed.
Lemma sep_built c dep : (0 < dep)%nat -> exists t, tb_build (ex_builder c dep) sep_sample = Ok t /\ offered (dt_bins t) ex_feature (/ 2).
Proof.
  intros Hd. destruct (ex_built c dep Hd) as [t E]. exists t. split; [exact E|]. apply (ex_half c dep t Hd E).
Qed.
Lemma sep_valid : is_valid_binary_instance (s_target sep_sample) = Ok tt.
Proof.
  apply valid_pm1; [|simpl; auto 20|simpl; auto 20]. intros v Hv. simpl in Hv. repeat (destruct Hv as [<-|Hv]; [auto|]). destruct Hv.
Qed.
Lemma ex_valid : is_valid_binary_instance (s_target ex_sample) = Ok tt.
Proof.
  apply valid_pm1; [|simpl; auto 20|simpl; auto 20]. intros v Hv. simpl in Hv. repeat (destruct Hv as [<-|Hv]; [auto|]). destruct Hv.
Qed.

Lemma twin_answers order c dep t d : (0 < dep)%nat -> tb_build (ex_builder c dep) ex_sample = Ok t -> listing order ->
  length d = 4%nat -> is_pos_dist d -> weight d 0 = weight d 1 -> weight d 2 = weight d 3 ->
  forall k i, (i < 4)%nat -> answer (tree_learner order t ex_sample k d) ex_sample i = 0.
Proof.
  intros Hd E Ho Ld [Hp _] W1 W2 k i Hi.
  assert (Hw : forall j, (j < 4)%nat -> 0 < weight d j) by (intros j Hj; unfold weight; apply Hp, nth_In; lia).
  assert (Hsome : exists j, (j < fst (shape ex_sample))%nat /\ 0 < weight d j) by (exists 0%nat; split; [simpl; lia|apply Hw; lia]).
  destruct (P_C27_mean order ex_sample (ex_builder c dep) t d ex_trainable (ex_made c dep Hd) E Ld Hsome ex_pm Ho) as [h [Eh Hm]].
  unfold tree_learner. rewrite Eh. rewrite (Hm i Hi (Hw i Hi)). cbv zeta.
  assert (T1 : forall u, leaf_of u ex_sample 1 = leaf_of u ex_sample 0 /\ leaf_of u ex_sample 3 = leaf_of u ex_sample 2).
  { induction u as [v|rule l [IL1 IL2] r [IR1 IR2]]; [split; reflexivity|]. cbn [leaf_of].
    assert (S : split_left rule ex_sample 1 = split_left rule ex_sample 0 /\ split_left rule ex_sample 3 = split_left rule ex_sample 2).
    { unfold split_left. destruct (by_name ex_sample (sp_feature rule)) as [f|p] eqn:Ef; [|split; reflexivity]. cbn [bind].
      assert (f = ex_feature) as ->; [|split; reflexivity]. unfold by_name in Ef. destruct (hm_get (s_names ex_sample) (sp_feature rule)) as [q|]; [|discriminate].
      change (s_features ex_sample) with [ex_feature] in Ef. destruct q as [|[|q]]; simpl in Ef; congruence. }
    destruct S as [S1 S2].
    rewrite S1, S2, IL1, IL2, IR1, IR2. split; reflexivity. }
  destruct (T1 h) as [A B].
  assert (Q1 : same_leaf h ex_sample i 1 = same_leaf h ex_sample i 0) by (unfold same_leaf; rewrite A; reflexivity).
  assert (Q2 : same_leaf h ex_sample i 3 = same_leaf h ex_sample i 2) by (unfold same_leaf; rewrite B; reflexivity).
  assert (HW : forall j, (j < 4)%nat -> has_weight d j = true) by (intros j Hj; unfold has_weight; destruct Rlt_dec as [_|N]; [reflexivity|destruct (N (Hw j Hj))]).
  unfold all_rows. change (seq 0 (fst (shape ex_sample))) with [0; 1; 2; 3]%nat. cbn [filter]. rewrite !HW by lia. cbn [andb]. rewrite Q1, Q2.
  assert (L : label ex_sample 0 = 1 /\ label ex_sample 1 = -1 /\ label ex_sample 2 = 1 /\ label ex_sample 3 = -1) by (unfold label; simpl; auto).
  destruct L as [L0 [L1 [L2 L3]]].
  destruct (same_leaf h ex_sample i 0), (same_leaf h ex_sample i 2); cbn [map]; unfold rsum; cbn [fold_right]; rewrite ?L0, ?L1, ?L2, ?L3, ?W1, ?W2; unfold Rdiv; ring.
Qed.

Lemma ln4_bound : 2 * ln 4 < 7.
Proof. pose proof (ln_le_sub 4 ltac:(lra)). lra. Qed.

Example C73_case : forall c, trainable sep_sample /\ dt_made sep_sample (ex_builder c 2) /\ pm_labels sep_sample /\ is_valid_binary_instance (s_target sep_sample) = Ok tt /\ listing (fun m => rev m) /\
  exists t, tb_build (ex_builder c 2) sep_sample = Ok t /\
    (forall d, length d = length (s_target sep_sample) -> is_pos_dist d -> exists f th, In f (s_features sep_sample) /\ offered (dt_bins t) f th /\
       1 <= Rabs (stump_edge (column f) (label sep_sample) (weight d) th (all_rows sep_sample))) /\
    2 * ln (INR (length (s_target sep_sample))) < 1 ^ 4 * INR 7.
Proof.
  intros c. split; [exact sep_trainable|]. split; [apply sep_made; lia|]. split; [exact sep_pm|]. split; [exact sep_valid|].
  split; [intros m; apply Permutation_sym, Permutation_rev|]. destruct (sep_built c 2 ltac:(lia)) as [t [E O]]. exists t. split; [exact E|]. split.
  - intros d Ld [Hp Hs]. exists ex_feature, (/ 2). split; [left; reflexivity|]. split; [exact O|].
    assert (S : stump_edge (column ex_feature) (label sep_sample) (weight d) (/ 2) (all_rows sep_sample) = - rsum d).
    { destruct d as [|d0 [|d1 [|d2 [|d3 [|d4 d]]]]]; try discriminate Ld. unfold stump_edge, all_rows, label, weight, column, stump. simpl.
      repeat (destruct Rlt_dec; try lra). }
    rewrite S, Hs, Rabs_Ropp, Rabs_R1. lra.
  - change (length (s_target sep_sample)) with 4%nat. replace (INR 4) with 4 by (simpl; lra). replace (INR 7) with 7 by (simpl; lra). pose proof ln4_bound. lra.
Qed.

(** ** C73, the limit: on a sample where two rows with the same features have different labels in equal numbers, every
    tree has edge zero and AdaBoost panics, whatever the criterion, the depth, the number of rounds and the order of the hash map *)
Lemma P_C73_uninformative_sample_refuted :
  exists s, trainable s /\ pm_labels s /\ is_valid_binary_instance (s_target s) = Ok tt /\
  forall c dep, (0 < dep)%nat -> exists b t, dt_made s b /\ tb_criterion b = c /\ tb_depth b = dep /\ tb_build b s = Ok t /\
  forall order (a : ada) fuel, listing order ->
  let conf := fun h i => answer h s i in
  (match a_force_quit a with Some it => it | None => ada_max_loop (s_target s) a end < fuel)%nat ->
  exists tr, run (adaboost conf (tree_learner order t s) (s_target s)) fuel a = Crashed tr AssertFailed.
Proof.
  exists ex_sample. split; [exact ex_trainable|]. split; [exact ex_pm|]. split; [exact ex_valid|]. intros c dep Hdep.
  destruct (ex_built c dep Hdep) as [t E]. exists (ex_builder c dep), t. split; [apply ex_made, Hdep|]. split; [reflexivity|]. split; [reflexivity|]. split; [exact E|].
  intros order a fuel Ho conf Hfuel. set (y := s_target ex_sample) in *. set (produce := tree_learner order t ex_sample).
  set (out := run (adaboost conf produce y) fuel a).
  assert (Ly : length y = 4%nat) by reflexivity.
  assert (TW : forall k, (k < length (trace_of out))%nat -> let d := nth k (trace_of out) [] in length d = 4%nat /\ is_pos_dist d /\ weight d 0 = weight d 1 /\ weight d 2 = weight d 3).
  { induction k as [k IH] using (well_founded_induction lt_wf). intros Hk d.
    destruct (P_C04_adaboost_queries_are_distributions node conf produce y a fuel d (nth_In _ _ Hk)) as [Ld Pd].
    split; [exact Ld|]. split; [exact Pd|].
    destruct (P_C05_adaboost_exponential_distribution node conf produce y a fuel (trace_of out) k eq_refl Hk) as [_ F]. fold d in F.
    assert (V : forall i, (i < 4)%nat -> vote conf (combine (map (fun e => ln ((1 + e) / (1 - e)) / 2) (edges conf produce y (firstn k (trace_of out)))) (Spec.answers produce (firstn k (trace_of out)))) i = 0).
    { intros i Hi. unfold vote. apply rsum_all_zero. intros x Hx. apply in_map_iff in Hx. destruct Hx as [[w h] [<- Hin]]. apply in_combine_r in Hin. cbn [fst snd].
      unfold Spec.answers in Hin. apply in_map_iff in Hin. destruct Hin as [[r e] [<- Hin]]. apply in_combine_r in Hin. cbn [fst snd].
      apply (In_nth _ _ []) in Hin. destruct Hin as [j [Hj Ej]]. rewrite firstn_length in Hj. assert (Hj' : (j < k)%nat) by lia.
      rewrite nth_firstn in Ej by lia. destruct (IH j Hj' ltac:(lia)) as [L1 [P1 [W1 W2]]]. rewrite Ej in *.
      unfold conf, produce. rewrite (twin_answers order c dep t e Hdep E Ho L1 P1 W1 W2 r i Hi). ring. }
    unfold weight. rewrite !F by (rewrite Ly; lia). cbv zeta. rewrite !V by lia. rewrite !Rmult_0_r. split; reflexivity. }
  assert (Z : Forall (fun e => e = 0) (edges conf produce y (trace_of out))).
  { apply Forall_forall. intros e He. unfold edges in He. apply in_map_iff in He. destruct He as [[r d] [<- Hin]]. apply in_combine_r in Hin. cbn [fst snd].
    apply (In_nth _ _ []) in Hin. destruct Hin as [j [Hj Ej]]. destruct (TW j Hj) as [L1 [P1 [W1 W2]]]. rewrite Ej in *. unfold edge_of. apply rsum_all_zero.
    intros x Hx. apply in_map_iff in Hx. destruct Hx as [i [<- Hi]]. apply in_seq in Hi. unfold conf, produce. rewrite (twin_answers order c dep t d Hdep E Ho L1 P1 W1 W2 r i) by lia. ring. }
  pose proof (P_C08_adaboost_round_limit node conf produce y a fuel) as [_ RL]. specialize (RL Hfuel). fold out in RL |- *.
  destruct out as [tr f|tr p|tr] eqn:Eo; [|exists tr; congruence|destruct RL]. exfalso. cbn [trace_of] in *.
  destruct (ada_run_spec conf produce y fuel a) as [_ HF]. destruct (HF tr f Eo) as [[_ Hn] [[_ [_ Hfs]]|[tr0 [d [-> [_ [_ [He _]]]]]]]].
  - pose proof (from_slices_spec conf (map ada_weight (edges conf produce y tr)) (Spec.answers produce tr)) as S. rewrite Hfs in S. cbv zeta in S. destruct S as [Hz _].
    destruct (kept (map ada_weight (edges conf produce y tr)) (Spec.answers produce tr)) as [|[w h] ks] eqn:K; [simpl in Hz; lra|].
    assert (Hw : 0 < w) by (apply (kept_pos (map ada_weight (edges conf produce y tr)) (Spec.answers produce tr)); rewrite K; left; reflexivity).
    assert (Hin : In (w, h) (kept (map ada_weight (edges conf produce y tr)) (Spec.answers produce tr))) by (rewrite K; left; reflexivity).
    unfold kept in Hin. apply filter_In in Hin. destruct Hin as [Hin _]. apply in_combine_l in Hin. apply in_map_iff in Hin. destruct Hin as [e [Ew He]].
    rewrite Forall_forall in Z. rewrite (Z e He) in Ew. unfold ada_weight in Ew. replace ((1 + 0) / (1 - 0)) with 1 in Ew by field. rewrite ln_1 in Ew. lra.
  - rewrite edges_app in Z. apply Forall_app in Z. destruct Z as [_ Z]. apply Forall_inv in Z. rewrite app_length in He. simpl in He. rewrite Nat.add_1_r in He. cbv beta in *. lra.
Qed.
