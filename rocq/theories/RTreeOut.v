(** Proofs about the regression tree learner, part 2: what the returned tree answers. *)
From Coq Require Import String.
From Verif Require Import Base Spec BinSearch Feature Sample SampleSpec FeatureFacts SampleFacts Bins BinsSpec BinsProofs TreeSpec DTree TreeShape DTreeProofs DTreeSplit DTreeBest DTreeGrow DTreeOut Losses RTree RTreeSpec RTreeProofs.
Open Scope R_scope.

Lemma rt_depth_node t : depth (rt_to_node t) = rdepth t.
Proof. induction t; simpl; congruence. Qed.

Lemma leaf_min g h lambda I w : 0 < total h I + lambda -> leaf_objective g h lambda I (- total g I / (total h I + lambda)) <= leaf_objective g h lambda I w.
Proof.
  intros H. unfold leaf_objective. set (A := total g I). set (B := total h I + lambda) in *.
  assert (E : A * w + 1 / 2 * B * w ^ 2 - (A * (- A / B) + 1 / 2 * B * (- A / B) ^ 2) = (1 / 2) * (B * w + A) ^ 2 / B) by (field; lra).
  assert (0 <= (1 / 2) * (B * w + A) ^ 2 / B); [|lra]. apply Rmult_le_pos; [|left; apply Rinv_0_lt_compat, H]. apply Rmult_le_pos; [lra|apply pow2_ge_0].
Qed.
Lemma leaf_opt g h lambda I : 0 < total h I + lambda -> leaf_objective g h lambda I (- total g I / (total h I + lambda)) = - (1 / 2) * (total g I) ^ 2 / (total h I + lambda).
Proof. intros H. unfold leaf_objective. field. lra. Qed.

Lemma objective_leaf g h lambda w s idx : tree_objective g h lambda (Leaf w) s idx = leaf_objective g h lambda idx w.
Proof.
  unfold tree_objective, leaf_objective. simpl leaf_values. simpl (map _ [w]). simpl (rsum [_]).
  assert (E : rsum (map (fun i => g i * answer (Leaf w) s i + 1 / 2 * h i * answer (Leaf w) s i ^ 2) idx) = total g idx * w + (1 / 2) * total h idx * w ^ 2).
  { unfold total, answer. simpl. induction idx as [|i I IH]; simpl; [ring|]. rewrite IH. ring. }
  rewrite E. ring.
Qed.

Lemma side_real g h lambda I : side_score g h lambda I = (total g I) ^ 2 / (total h I + lambda).
Proof. destruct I as [|i I]; [|reflexivity]. unfold side_score, total. simpl. unfold Rdiv. ring. Qed.

(** ** any tree the learner returns, without a hypothesis on the bins *)
Lemma partition_inv rule s : forall idx A B, partition_rows rule s idx = Ok (A, B) -> exists q : nat -> bool,
  (forall i, In i idx -> split_left rule s i = Ok (q i)) /\ A = filter q idx /\ B = filter (fun i => negb (q i)) idx.
Proof.
  intros idx A B E. exists (fun i => match split_left rule s i with Ok b => b | Panic _ => false end).
  revert A B E. induction idx as [|i idx IH]; intros A B E; cbn [partition_rows] in E.
  - inversion E; subst. split; [intros i []|]. split; reflexivity.
  - destruct (split_left rule s i) as [b|] eqn:Es; [|discriminate]. cbn [bind] in E. destruct (partition_rows rule s idx) as [[A' B']|] eqn:Ep; [|discriminate]. cbn [bind fst snd] in E.
    destruct (IH A' B' eq_refl) as [H1 [H2 H3]]. split.
    + intros j [<-|Hj]; [rewrite Es; reflexivity|apply H1, Hj].
    + simpl. rewrite Es. destruct b; simpl; inversion E; subst; split; reflexivity.
Qed.

Lemma filter_filter' {A} (p q : A -> bool) l : filter p (filter q l) = filter (fun x => andb (q x) (p x)) l.
Proof. induction l as [|x l IH]; simpl; [reflexivity|]. destruct (q x); simpl; [destruct (p x); [f_equal|]; exact IH|exact IH]. Qed.

Section Any.
  Variables (s : sample) (g h : list R) (bm : list (string * list bin)) (lambda : R).
  Let n := s_n_sample s.
  Let gf i := nth i g 0.
  Let hf i := nth i h 0.
  Hypothesis Hg : length g = n.
  Hypothesis Hh : length h = n.
  Hypothesis Hl : 0 <= lambda.
  Hypothesis Hp : forall i, 0 <= hf i.
  Notation obj := (tree_objective gf hf lambda).

  Fixpoint grown (T : rt_node) (idx : list nat) : Prop :=
    match T with
    | RLeaf p _ => 0 < total hf idx + lambda /\ p = - total gf idx / (total hf idx + lambda)
    | RBranch rule l r _ _ => exists q : nat -> bool, (forall i, In i idx -> split_left rule s i = Ok (q i)) /\
        grown l (filter q idx) /\ grown r (filter (fun i => negb (q i)) idx)
    end.

  Lemma total_nonneg I : 0 <= total hf I.
  Proof. unfold total. induction I as [|i I IH]; simpl; [lra|]. specialize (Hp i). lra. Qed.

  Lemma full_tree_grown : forall depth idx T, (forall i, In i idx -> (i < n)%nat) -> rt_full_tree bm s g h lambda depth idx = Ok T -> grown T idx.
  Proof.
    assert (Leaf : forall idx p loss, (forall i, In i idx -> (i < n)%nat) -> prediction_and_loss idx g h lambda = Ok (p, loss) -> grown (RLeaf p loss) idx).
    { intros idx p loss Hi E. unfold prediction_and_loss in E. rewrite (sum_at_total s g Hg idx Hi) in E. cbn [bind] in E. rewrite (sum_at_total s h Hh idx Hi) in E. cbn [bind] in E.
      destruct (Reqb_spec (total (fun i => nth i h 0) idx + lambda) 0) as [Z|Z]; [discriminate|]. inversion E; subst. simpl. split; [|reflexivity]. pose proof (total_nonneg idx) as T0. change (fun i => nth i h 0) with hf in Z. lra. }
    induction depth as [|depth IH]; intros idx T Hi E; cbn [rt_full_tree] in E; (destruct (prediction_and_loss idx g h lambda) as [[p loss]|] eqn:Ep; [|discriminate]); cbn [bind] in E.
    - inversion E; subst. eapply Leaf; eassumption.
    - destruct (orb (Reqb loss 0) (Nat.leb (S depth) 1)); [inversion E; subst; eapply Leaf; eassumption|].
      destruct (rt_best_split bm s g h idx lambda) as [[nm th]|]; [|discriminate]. cbn [bind fst snd] in E.
      destruct (partition_rows (mkSplitter nm th) s idx) as [[A B]|] eqn:Epa; [|discriminate]. cbn [bind fst snd] in E.
      destruct (orb (is_nil A) (is_nil B)); [inversion E; subst; eapply Leaf; eassumption|].
      destruct (partition_inv _ _ _ _ _ Epa) as [q [Hq [EA EB]]].
      destruct (rt_full_tree bm s g h lambda depth A) as [l|] eqn:E1; [|discriminate]. cbn [bind] in E. destruct (rt_full_tree bm s g h lambda depth B) as [r|] eqn:E2; [|discriminate]. cbn [bind] in E. inversion E; subst T.
      cbn [grown]. exists q. split; [exact Hq|]. rewrite <- EA, <- EB. split; apply IH; try assumption; intros i Hii; [rewrite EA in Hii|rewrite EB in Hii]; apply filter_In in Hii; apply Hi; tauto.
  Qed.

  Lemma a_answers : forall T idx, grown T idx -> forall i, In i idx -> exists v p, node_confidence (rt_to_node T) s i = Ok v /\ leaf_of (rt_to_node T) s i = Ok p.
  Proof.
    induction T as [p loss|rule l IHl r IHr p loss]; intros idx T i Hi; simpl in *.
    - exists p, []. split; reflexivity.
    - destruct T as [q [Hq [Tl Tr]]]. rewrite (Hq i Hi). cbn [bind]. destruct (q i) eqn:Eq.
      + destruct (IHl _ Tl i) as [v1 [p1 [A1 B1]]]; [apply filter_In; auto|]. rewrite A1, B1. cbn [bind]. eauto.
      + destruct (IHr _ Tr i) as [v1 [p1 [A1 B1]]]; [apply filter_In; rewrite Eq; auto|]. rewrite A1, B1. cbn [bind]. eauto.
  Qed.

  Lemma a_leaf_rows : forall T idx, grown T idx -> forall i, In i idx ->
    let I := filter (same_leaf (rt_to_node T) s i) idx in
    In i I /\ 0 < total hf I + lambda /\ answer (rt_to_node T) s i = - total gf I / (total hf I + lambda).
  Proof.
    induction T as [p loss|rule l IHl r IHr p loss]; intros idx T i Hi; cbv zeta.
    - simpl. assert (E : filter (same_leaf (Leaf p) s i) idx = idx) by (rewrite (filter_ext_in' _ (fun _ => true)); [clear; induction idx as [|j l IH]; simpl; [reflexivity|rewrite IH; reflexivity]|]; intros j _; reflexivity).
      rewrite E. split; [exact Hi|]. unfold answer. simpl. simpl in T. exact T.
    - simpl in T. destruct T as [q [Hq [Tl Tr]]]. cbn [rt_to_node].
      assert (Hconf : answer (Branch rule (rt_to_node l) (rt_to_node r)) s i = if q i then answer (rt_to_node l) s i else answer (rt_to_node r) s i) by (rewrite conf_branch, (Hq i Hi); reflexivity).
      rewrite Hconf. destruct (q i) eqn:Eq.
      + assert (Hi' : In i (filter q idx)) by (apply filter_In; auto). pose proof (IHl _ Tl i Hi') as R. cbv zeta in R.
        assert (E : filter (same_leaf (Branch rule (rt_to_node l) (rt_to_node r)) s i) idx = filter (same_leaf (rt_to_node l) s i) (filter q idx)).
        { rewrite filter_filter'. apply filter_ext_in'. intros j Hj. unfold same_leaf. cbn [leaf_of]. rewrite (Hq i Hi), (Hq j Hj), Eq. cbn [bind].
          destruct (a_answers _ _ Tl i Hi') as [_ [p1 [_ P1]]]. rewrite P1. cbn [bind]. destruct (q j) eqn:Ej.
          - destruct (a_answers _ _ Tl j) as [_ [p2 [_ P2]]]; [apply filter_In; auto|]. rewrite P2. cbn [bind andb]. repeat match goal with |- context [list_eq_dec ?a ?b ?c] => destruct (list_eq_dec a b c) end; congruence.
          - destruct (a_answers _ _ Tr j) as [_ [p2 [_ P2]]]; [apply filter_In; rewrite Ej; auto|]. rewrite P2. cbn [bind andb]. destruct (list_eq_dec Bool.bool_dec (true :: p1) (false :: p2)); congruence. }
        rewrite E. exact R.
      + assert (Hi' : In i (filter (fun i => negb (q i)) idx)) by (apply filter_In; rewrite Eq; auto). pose proof (IHr _ Tr i Hi') as R. cbv zeta in R.
        assert (E : filter (same_leaf (Branch rule (rt_to_node l) (rt_to_node r)) s i) idx = filter (same_leaf (rt_to_node r) s i) (filter (fun i => negb (q i)) idx)).
        { rewrite filter_filter'. apply filter_ext_in'. intros j Hj. unfold same_leaf. cbn [leaf_of]. rewrite (Hq i Hi), (Hq j Hj), Eq. cbn [bind].
          destruct (a_answers _ _ Tr i Hi') as [_ [p1 [_ P1]]]. rewrite P1. cbn [bind]. destruct (q j) eqn:Ej.
          - destruct (a_answers _ _ Tl j) as [_ [p2 [_ P2]]]; [apply filter_In; auto|]. rewrite P2. cbn [bind andb negb]. destruct (list_eq_dec Bool.bool_dec (false :: p1) (true :: p2)); congruence.
          - destruct (a_answers _ _ Tr j) as [_ [p2 [_ P2]]]; [apply filter_In; rewrite Ej; auto|]. rewrite P2. cbn [bind andb negb]. repeat match goal with |- context [list_eq_dec ?a ?b ?c] => destruct (list_eq_dec a b c) end; congruence. }
        rewrite E. exact R.
  Qed.

  Lemma a_branch_sum (F : nat -> R -> R) rule q l r idx : (forall i, In i idx -> split_left rule s i = Ok (q i)) ->
    rsum (map (fun i => F i (answer (Branch rule l r) s i)) idx) =
    rsum (map (fun i => F i (answer l s i)) (filter q idx)) + rsum (map (fun i => F i (answer r s i)) (filter (fun i => negb (q i)) idx)).
  Proof.
    intros Hq. induction idx as [|i I IH]; simpl; [lra|]. rewrite IH by (intros j Hj; apply Hq; right; exact Hj). rewrite conf_branch, (Hq i (or_introl eq_refl)). destruct (q i); simpl; lra.
  Qed.
  Lemma a_objective_branch rule q l r idx : (forall i, In i idx -> split_left rule s i = Ok (q i)) ->
    obj (Branch rule l r) s idx = obj l s (filter q idx) + obj r s (filter (fun i => negb (q i)) idx).
  Proof.
    intros Hq. unfold tree_objective. rewrite (a_branch_sum (fun i v => gf i * v + 1 / 2 * hf i * v ^ 2) rule q l r idx Hq). simpl leaf_values. rewrite map_app, rsum_app. ring.
  Qed.

  Lemma a_optimal : forall T idx, grown T idx -> forall t', same_questions (rt_to_node T) t' -> obj (rt_to_node T) s idx <= obj t' s idx.
  Proof.
    induction T as [p loss|rule l IHl r IHr p loss]; intros idx T t' S; simpl in T.
    - destruct t' as [w|]; [|destruct S]. simpl rt_to_node. rewrite !objective_leaf. destruct T as [T0 Ep]. rewrite Ep. apply leaf_min, T0.
    - destruct t' as [|q' l' r']; [destruct S|]. simpl in S. destruct S as [Eq [S1 S2]]. destruct T as [q [Hq [Tl Tr]]]. cbn [rt_to_node]. rewrite <- Eq.
      rewrite !(a_objective_branch rule q) by exact Hq. pose proof (IHl _ Tl l' S1). pose proof (IHr _ Tr r' S2). lra.
  Qed.

  Lemma a_descent : forall T idx, grown T idx -> rsum (map (fun i => gf i * answer (rt_to_node T) s i) idx) = 2 * obj (rt_to_node T) s idx /\ obj (rt_to_node T) s idx <= 0.
  Proof.
    induction T as [p loss|rule l IHl r IHr p loss]; intros idx T; simpl in T.
    - simpl rt_to_node. rewrite objective_leaf. destruct T as [T0 Ep].
      assert (E : rsum (map (fun i => gf i * answer (Leaf p) s i) idx) = total gf idx * p) by (unfold total, answer; simpl; clear; induction idx as [|i I IH]; simpl; [ring|rewrite IH; ring]).
      rewrite E, Ep. rewrite leaf_opt by exact T0. split; [field; lra|].
      assert (0 <= total gf idx ^ 2 / (total hf idx + lambda)); [apply Rmult_le_pos; [apply pow2_ge_0|left; apply Rinv_0_lt_compat, T0]|]. unfold Rdiv in *. lra.
    - destruct T as [q [Hq [Tl Tr]]]. cbn [rt_to_node]. rewrite !(a_objective_branch rule q) by exact Hq.
      rewrite (a_branch_sum (fun i v => gf i * v) rule q _ _ idx Hq). destruct (IHl _ Tl) as [A1 A2]. destruct (IHr _ Tr) as [B1 B2]. rewrite A1, B1. split; [ring|lra].
  Qed.
End Any.

Section RTOut.
  Variables (s : sample) (g h : list R) (bm : list (string * list bin)) (lambda : R).
  Let n := s_n_sample s.
  Let gf i := nth i g 0.
  Let hf i := nth i h 0.
  Hypothesis G : good s.
  Hypothesis NN : NoDup (map feat_name (s_features s)).
  Hypothesis Hv : forall f i, In f (s_features s) -> (i < n)%nat -> F64MIN <= fval f i < F64MAX.
  Hypothesis Hb : forall f, In f (s_features s) -> exists bins, sm_get bm (feat_name f) = Ok bins /\ chain F64MIN F64MAX bins.
  Hypothesis Hl : 0 <= lambda.
  Notation ok := (rtree_ok s g h bm lambda).
  Notation rows := (grows s h).
  Notation obj := (tree_objective gf hf lambda).

  (** a sum over the rows of a function of the answers splits at a branch *)
  Lemma branch_sum (F : nat -> R -> R) f t l r idx : In f (s_features s) -> (forall i, In i idx -> (i < n)%nat) ->
    rsum (map (fun i => F i (answer (Branch (mkSplitter (feat_name f) t) l r) s i)) idx) =
    rsum (map (fun i => F i (answer l s i)) (filter (below (fval f) t) idx)) + rsum (map (fun i => F i (answer r s i)) (filter (not_below (fval f) t) idx)).
  Proof.
    intros Hin Hi. rewrite <- (sum_two _ (fval f) t idx). f_equal; apply rsum_map_ext; intros i Hii; apply filter_In in Hii; destruct Hii as [Hi1 Hi2]; rewrite conf_branch, (split_left_ok s G NN f t i Hin (Hi i Hi1)).
    - rewrite Hi2. reflexivity.
    - rewrite below_neg in Hi2. destruct (below (fval f) t i); [discriminate|reflexivity].
  Qed.
  Lemma objective_branch f t l r idx : In f (s_features s) -> (forall i, In i idx -> (i < n)%nat) ->
    obj (Branch (mkSplitter (feat_name f) t) l r) s idx = obj l s (filter (below (fval f) t) idx) + obj r s (filter (not_below (fval f) t) idx).
  Proof.
    intros Hin Hi. unfold tree_objective. rewrite (branch_sum (fun i v => gf i * v + 1 / 2 * hf i * v ^ 2) f t l r idx Hin Hi). simpl leaf_values. rewrite map_app, rsum_app. ring.
  Qed.

  Lemma rows_h idx : rows idx -> 0 < total hf idx + lambda.
  Proof. intros [Hne H]. assert (0 < total hf idx); [|lra]. apply total_pos'; [exact Hne|]. intros i Hi. apply H, Hi. Qed.

  (** the objective of the tree against that of the root as a leaf *)
  Lemma r_bound : forall t depth idx, rows idx -> ok t depth idx -> obj (rt_to_node t) s idx <= - (1 / 2) * side_score gf hf lambda idx.
  Proof.
    induction t as [p loss|rule l IHl r IHr p loss]; intros dep idx Hrows T; simpl in T; pose proof (rows_h idx Hrows) as HP.
    - simpl rt_to_node. rewrite objective_leaf. destruct T as [[Ep _] _]. rewrite Ep. change (fun i => nth i g 0) with gf. change (fun i => nth i h 0) with hf. rewrite leaf_opt by exact HP.
      unfold side_score. destruct idx; [destruct Hrows; congruence|]. unfold Rdiv. lra.
    - destruct T as [_ [dep' [f [t [_ [Er [Hin [[_ Hq] [NA [NB [Tl Tr]]]]]]]]]]]. cbn [rt_to_node]. rewrite Er.
      assert (Hlt : forall j, In j idx -> (j < n)%nat) by (intros j Hj; apply Hrows, Hj). rewrite !objective_branch by assumption.
      pose proof (IHl _ _ (grows_filter s g h _ idx Hrows NA) Tl). pose proof (IHr _ _ (grows_filter s g h _ idx Hrows NB) Tr).
      destruct (root_score s g h bm lambda Hv Hb f idx Hin Hrows) as [t0 [O E0]]. pose proof (Hq f t0 Hin O) as Q. change (split_score gf hf lambda (fval f) t0 idx <= split_score gf hf lambda (fval f) t idx) in Q. change (split_score gf hf lambda (fval f) t0 idx = side_score gf hf lambda idx) in E0.
      unfold split_score at 2 in Q. lra.
  Qed.

  (** ... and against every offered split, when the root may be split *)
  Lemma r_bound_split t depth idx : rows idx -> ok t depth idx -> (2 <= depth)%nat -> total gf idx <> 0 -> forall f' t', In f' (s_features s) -> offered bm f' t' ->
    obj (rt_to_node t) s idx <= - (1 / 2) * split_score gf hf lambda (fval f') t' idx.
  Proof.
    intros Hrows T Hd HG f' t' Hf' Ht'. pose proof (rows_h idx Hrows) as HP.
    assert (Hdead : forall f t0, best_question s g h bm lambda f t0 idx -> (filter (below (fval f) t0) idx = [] \/ filter (not_below (fval f) t0) idx = []) -> split_score gf hf lambda (fval f') t' idx <= side_score gf hf lambda idx).
    { intros f t0 [_ Hq] He. pose proof (Hq f' t' Hf' Ht') as Q. change (split_score gf hf lambda (fval f') t' idx <= split_score gf hf lambda (fval f) t0 idx) in Q. unfold split_score at 2 in Q.
      pose proof (total_two gf (fval f) t0 idx) as E1. pose proof (total_two hf (fval f) t0 idx) as E2. rewrite !side_real in Q. rewrite side_real.
      destruct He as [He|He]; rewrite He in *; unfold total in E1 at 1, E2 at 1; unfold total in Q; simpl in *.
      - unfold total in *. simpl in *. rewrite Rplus_0_l in E1, E2. rewrite E1, E2 in Q. unfold Rdiv in *. lra.
      - unfold total in *. simpl in *. rewrite Rplus_0_r in E1, E2. rewrite E1, E2 in Q. unfold Rdiv in *. lra. }
    destruct t as [p loss|rule l r p loss]; simpl in T.
    - destruct T as [[Ep El] [T|[T|T]]]; [lia| |].
      + exfalso. apply HG. change (fun i => nth i g 0) with gf in El. change (fun i => nth i h 0) with hf in El. rewrite T in El.
        assert (E : (total gf idx) ^ 2 = 0). { apply (Rmult_eq_reg_r (/ (total hf idx + lambda))); [|apply Rinv_neq_0_compat; lra]. unfold Rdiv in El. lra. }
        simpl in E. rewrite Rmult_1_r in E. apply Rmult_integral in E. destruct E; assumption.
      + destruct T as [f [t0 [_ [Hq He]]]]. pose proof (Hdead f t0 Hq He) as Q. simpl rt_to_node. rewrite objective_leaf, Ep. change (fun i => nth i g 0) with gf. change (fun i => nth i h 0) with hf. rewrite leaf_opt by exact HP. rewrite side_real in Q. unfold Rdiv in *. lra.
    - destruct T as [_ [dep' [f [t [_ [Er [Hin [[_ Hq] [NA [NB [Tl Tr]]]]]]]]]]]. cbn [rt_to_node]. rewrite Er.
      assert (Hlt : forall j, In j idx -> (j < n)%nat) by (intros j Hj; apply Hrows, Hj). rewrite !objective_branch by assumption.
      pose proof (r_bound _ _ _ (grows_filter s g h _ idx Hrows NA) Tl). pose proof (r_bound _ _ _ (grows_filter s g h _ idx Hrows NB) Tr).
      pose proof (Hq f' t' Hf' Ht') as Q. change (split_score gf hf lambda (fval f') t' idx <= split_score gf hf lambda (fval f) t idx) in Q. unfold split_score at 2 in Q. lra.
  Qed.

End RTOut.
