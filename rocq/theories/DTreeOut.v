(** Proofs about the decision tree learner, part 5: what the returned tree answers. *)
From Coq Require Import String.
From Verif Require Import Base Spec BinSearch Feature Sample SampleSpec FeatureFacts SampleFacts Bins BinsSpec BinsProofs TreeSpec DTree TreeShape DTreeProofs DTreeSplit DTreeBest DTreeGrow.
Open Scope R_scope.

Lemma to_node_confidence t s row : node_confidence (to_node t) s row = train_confidence t s row.
Proof. induction t as [|rule l IHl r IHr]; simpl; [reflexivity|]. destruct (split_left rule s row) as [[|]|]; simpl; congruence. Qed.
Lemma to_node_depth t : depth (to_node t) = tdepth t.
Proof. induction t; simpl; congruence. Qed.

Notation conf_at := answer.

Lemma below_neg x t i : not_below x t i = negb (below x t i).
Proof. unfold below, not_below. destruct (Rlt_dec (x i) t); reflexivity. Qed.
Lemma filter_not_below x t idx : filter (not_below x t) idx = filter (fun i => negb (below x t i)) idx.
Proof. apply filter_ext_in'. intros i _. apply below_neg. Qed.
Lemma sum_two g x t idx : rsum (map g (filter (below x t) idx)) + rsum (map g (filter (not_below x t) idx)) = rsum (map g idx).
Proof. rewrite filter_not_below. apply (sum_where_split g (below x t) idx). Qed.
Lemma total_two d x t idx : total d (filter (below x t) idx) + total d (filter (not_below x t) idx) = total d idx.
Proof. apply sum_two. Qed.
Lemma label_weight_ind lab d z idx : label_weight lab d z idx = rsum (map (fun i => if Z.eqb (lab i) z then d i else 0) idx).
Proof. unfold label_weight, sum_where. induction idx as [|i I IH]; simpl; [reflexivity|]. destruct (Z.eqb (lab i) z); simpl; lra. Qed.
Lemma label_weight_two lab d z x t idx : label_weight lab d z (filter (below x t) idx) + label_weight lab d z (filter (not_below x t) idx) = label_weight lab d z idx.
Proof. rewrite !label_weight_ind. apply sum_two. Qed.
Lemma label_weight_le lab d z I : (forall i, In i I -> 0 < d i) -> label_weight lab d z I <= total d I.
Proof. intros H. rewrite label_weight_ind. unfold total. apply rsum_map_le. intros i Hi. specialize (H i Hi). destruct (Z.eqb (lab i) z); lra. Qed.

Lemma rsum_abs l : Rabs (rsum l) <= rsum (map Rabs l).
Proof. induction l as [|x l IH]; simpl; [rewrite Rabs_R0; lra|]. eapply Rle_trans; [apply Rabs_triang|]. lra. Qed.
Lemma rsum_map_zero {A} (f : A -> R) l : (forall x, In x l -> f x = 0) -> rsum (map f l) = 0.
Proof. intros H. induction l as [|x l IH]; simpl; [reflexivity|]. rewrite (H x) by (left; reflexivity). rewrite IH by (intros y Hy; apply H; right; exact Hy). lra. Qed.

Section Out.
  Variables (s : sample) (dist : list R) (bm : list (string * list bin)) (c : criterion) (labels : list Z).
  Let n := s_n_sample s.
  Let d i := nth i dist 0.
  Let y i := nth i (s_target s) 0.
  Let lab i := as_int 32 (y i).
  Hypothesis G : good s.
  Hypothesis NN : NoDup (map feat_name (s_features s)).

  Notation ok := (tree_ok s dist bm c labels).
  Notation rows := (rows_ok s dist).

  Lemma leaf_loss_nonneg I conf loss : rows I -> leaf_holds s dist I conf loss -> 0 <= loss.
  Proof. intros [_ H] [z [_ [_ [-> _]]]]. pose proof (label_weight_le lab d z I (fun i Hi => proj2 (H i Hi))). fold lab d y. unfold lab, d, y in *. lra. Qed.

  (** pruning changes nothing: the costs compared are loss * weight, and the loss of the two leaves weighs less *)
  Lemma prune_id : forall t depth idx, rows idx -> ok t depth idx -> remove_redundant t = t.
  Proof.
    induction t as [conf w loss|rule l IHl r IHr conf w loss]; intros dep idx Hrows T; [reflexivity|].
    simpl in T. destruct T as [Ew [HL [Hloss [dep' [f [t [_ [_ [Hin [_ [NA [NB [Tl Tr]]]]]]]]]]]]].
    pose proof (rows_filter s dist _ idx Hrows NA) as RA. pose proof (rows_filter s dist _ idx Hrows NB) as RB.
    cbn [remove_redundant]. rewrite (IHl _ _ RA Tl), (IHr _ _ RB Tr).
    destruct l as [cl wl ll|]; [|reflexivity]. destruct r as [cr wr lr|]; [|reflexivity]. simpl is_leaf. cbn [negb]. simpl node_cost.
    rewrite Reqb_false; [reflexivity|].
    simpl in Tl, Tr. destruct Tl as [El [HLl _]]. destruct Tr as [Er [HLr _]].
    pose proof (leaf_loss_nonneg _ _ _ RA HLl) as Pl. pose proof (leaf_loss_nonneg _ _ _ RB HLr) as Pr. pose proof (leaf_loss_nonneg _ _ _ Hrows HL) as P.
    destruct HL as [z [_ [_ [Eloss _]]]]. destruct HLl as [zl [_ [Ml [Ell _]]]]. destruct HLr as [zr [_ [Mr [Elr _]]]].
    specialize (Ml z). specialize (Mr z). pose proof (label_weight_two lab d z (fval f) t idx) as E1. pose proof (total_two d (fval f) t idx) as E2.
    pose proof (total_pos' d _ (proj1 RA) (fun i Hi => proj2 (proj2 RA i Hi))) as W1. pose proof (total_pos' d _ (proj1 RB) (fun i Hi => proj2 (proj2 RB i Hi))) as W2.
    unfold lab, y, d in *.
    assert (S1 : ll + lr <= loss) by lra. assert (S2 : w = wl + wr) by lra. assert (Lp : 0 < loss) by lra. rewrite El, Er in *.
    set (A := total (fun i => nth i dist 0) (filter (below (fval f) t) idx)) in *. set (B := total (fun i => nth i dist 0) (filter (not_below (fval f) t) idx)) in *. clearbody A B.
    intros E. rewrite S2 in E.
    assert (I1 : (ll + lr) * (A + B) <= loss * (A + B)) by (apply Rmult_le_compat_r; lra).
    assert (I2 : 0 <= ll * B) by (apply Rmult_le_pos; lra). assert (I3 : 0 <= lr * A) by (apply Rmult_le_pos; lra).
    assert (Z1 : ll * B = 0) by lra. assert (Z2 : lr * A = 0) by lra.
    apply Rmult_integral in Z1, Z2. assert (Q1 : ll = 0) by (destruct Z1; lra). assert (Q2 : lr = 0) by (destruct Z2; lra).
    assert (0 < loss * (A + B)) by (apply Rmult_lt_0_compat; lra). rewrite Q1, Q2 in E. lra.
  Qed.

  (** the answers *)
  Lemma conf_branch rule l r i : conf_at (Branch rule l r) s i = match split_left rule s i with Ok b => if b then conf_at l s i else conf_at r s i | Panic _ => 0 end.
  Proof. unfold answer. simpl. destruct (split_left rule s i) as [[|]|]; reflexivity. Qed.

  Lemma answers : forall t depth idx, ok t depth idx -> forall i, (i < n)%nat ->
    exists v p, node_confidence (to_node t) s i = Ok v /\ leaf_of (to_node t) s i = Ok p /\ -1 <= v <= 1.
  Proof.
    induction t as [conf w loss|rule l IHl r IHr conf w loss]; intros dep idx T i Hi; simpl in *.
    - exists conf, []. split; [reflexivity|]. split; [reflexivity|]. destruct T as [_ [[z [_ [_ [_ ->]]]] _]]. apply rclamp_in; lra.
    - destruct T as [_ [_ [_ [dep' [f [t [_ [-> [Hin [_ [_ [_ [Tl Tr]]]]]]]]]]]]]. rewrite (split_left_ok s G NN f t i Hin Hi). cbn [bind].
      destruct (IHl _ _ Tl i Hi) as [v1 [p1 [A1 [B1 C1]]]]. destruct (IHr _ _ Tr i Hi) as [v2 [p2 [A2 [B2 C2]]]].
      destruct (below (fval f) t i); rewrite ?A1, ?A2, ?B1, ?B2; cbn [bind]; eauto 6.
  Qed.

  (** rows that share a leaf, and what the leaf answers *)
  Lemma leaf_rows : forall t depth idx, rows idx -> ok t depth idx -> forall i, In i idx ->
    let I := filter (same_leaf (to_node t) s i) idx in
    In i I /\ exists loss, leaf_holds s dist I (conf_at (to_node t) s i) loss.
  Proof.
    induction t as [conf w loss|rule l IHl r IHr conf w loss]; intros dep idx Hrows T i Hi; cbv zeta.
    - simpl. assert (E : filter (same_leaf (Leaf conf) s i) idx = idx) by (rewrite (filter_ext_in' _ (fun _ => true)); [clear; induction idx as [|j l IH]; simpl; [reflexivity|rewrite IH; reflexivity]|]; intros j _; reflexivity).
      rewrite E. split; [exact Hi|]. exists loss. unfold answer. simpl. simpl in T. tauto.
    - simpl in T. destruct T as [_ [_ [_ [dep' [f [t [_ [-> [Hin [_ [NA [NB [Tl Tr]]]]]]]]]]]]]. cbn [to_node].
      set (rule := mkSplitter (feat_name f) t) in *.
      assert (Hlt : forall j, In j idx -> (j < n)%nat) by (intros j Hj; apply Hrows, Hj).
      assert (Hsl : forall j, In j idx -> split_left rule s j = Ok (below (fval f) t j)) by (intros j Hj; apply split_left_ok; auto).
      pose proof (rows_filter s dist _ idx Hrows NA) as RA. pose proof (rows_filter s dist _ idx Hrows NB) as RB.
      assert (Hsame : forall j, In j idx -> same_leaf (Branch rule (to_node l) (to_node r)) s i j =
        andb (Bool.eqb (below (fval f) t i) (below (fval f) t j)) (if below (fval f) t i then same_leaf (to_node l) s i j else same_leaf (to_node r) s i j)).
      { intros j Hj. unfold same_leaf. cbn [leaf_of]. rewrite (Hsl i Hi), (Hsl j Hj). cbn [bind].
        destruct (answers _ _ _ Tl i (Hlt i Hi)) as [_ [p1 [_ [P1 _]]]]. destruct (answers _ _ _ Tr i (Hlt i Hi)) as [_ [p2 [_ [P2 _]]]].
        destruct (answers _ _ _ Tl j (Hlt j Hj)) as [_ [q1 [_ [Q1 _]]]]. destruct (answers _ _ _ Tr j (Hlt j Hj)) as [_ [q2 [_ [Q2 _]]]].
        destruct (below (fval f) t i), (below (fval f) t j); rewrite ?P1, ?P2, ?Q1, ?Q2; cbn [bind Bool.eqb andb];
          repeat match goal with |- context [list_eq_dec ?a ?b ?c] => destruct (list_eq_dec a b c) end; congruence. }
      assert (Hconf : conf_at (Branch rule (to_node l) (to_node r)) s i = if below (fval f) t i then conf_at (to_node l) s i else conf_at (to_node r) s i) by (rewrite conf_branch, (Hsl i Hi); reflexivity).
      rewrite Hconf, (filter_ext_in' _ _ idx Hsame). destruct (below (fval f) t i) eqn:Eb.
      + assert (Hi' : In i (filter (below (fval f) t) idx)) by (apply filter_In; auto).
        destruct (IHl _ _ RA Tl i Hi') as [A B]. 
        assert (E : filter (fun j => andb (Bool.eqb true (below (fval f) t j)) (same_leaf (to_node l) s i j)) idx = filter (same_leaf (to_node l) s i) (filter (below (fval f) t) idx)).
        { clear. induction idx as [|j I IH]; simpl; [reflexivity|]. destruct (below (fval f) t j); simpl; [destruct (same_leaf (to_node l) s i j); [f_equal|]; exact IH|exact IH]. }
        rewrite E. auto.
      + assert (Hi' : In i (filter (not_below (fval f) t) idx)) by (apply filter_In; rewrite below_neg, Eb; auto).
        destruct (IHr _ _ RB Tr i Hi') as [A B].
        assert (E : filter (fun j => andb (Bool.eqb false (below (fval f) t j)) (same_leaf (to_node r) s i j)) idx = filter (same_leaf (to_node r) s i) (filter (not_below (fval f) t) idx)).
        { clear. induction idx as [|j I IH]; simpl; [reflexivity|]. rewrite below_neg. destruct (below (fval f) t j); simpl; [exact IH|destruct (same_leaf (to_node r) s i j); [f_equal|]; exact IH]. }
        rewrite E. auto.
  Qed.

  (** ** labels +1 and -1 *)
  Hypothesis Hpm : forall i, (i < n)%nat -> y i = 1 \/ y i = -1.

  Lemma lab_pm i : (i < n)%nat -> y i = IZR (lab i) /\ (lab i = 1%Z \/ lab i = (-1)%Z).
  Proof. intros Hi. unfold lab. destruct (Hpm i Hi) as [E|E]; rewrite E; rewrite (as_int_IZR 32); simpl; auto; lia. Qed.

  Lemma pm_sums I : (forall i, In i I -> (i < n)%nat) ->
    rsum (map (fun i => d i * y i) I) = label_weight lab d 1 I - label_weight lab d (-1) I /\ total d I = label_weight lab d 1 I + label_weight lab d (-1) I.
  Proof.
    rewrite !label_weight_ind. unfold total. induction I as [|i I IH]; intros H; simpl; [lra|].
    destruct IH as [A B]; [intros j Hj; apply H; right; exact Hj|]. destruct (lab_pm i (H i (or_introl eq_refl))) as [E [L|L]]; rewrite E, L; simpl; lra.
  Qed.

  (** the confidence of a leaf is the mean label *)
  Lemma leaf_mean I conf loss : rows I -> leaf_holds s dist I conf loss ->
    conf = rsum (map (fun i => d i * y i) I) / total d I /\ -1 <= rsum (map (fun i => d i * y i) I) / total d I <= 1.
  Proof.
    intros [Hne H] [z [[i0 [Hi0 Ez]] [Hmax [_ ->]]]]. change (fun i => as_int 32 (nth i (s_target s) 0)) with lab in *.
    assert (Hlt : forall i, In i I -> (i < n)%nat) by (intros i Hi; apply H, Hi).
    destruct (pm_sums I Hlt) as [E1 E2]. pose proof (total_pos' d I Hne (fun i Hi => proj2 (H i Hi))) as T0.
    pose proof (label_weight_nonneg lab d 1 I (fun i Hi => proj2 (H i Hi))) as N1. pose proof (label_weight_nonneg lab d (-1) I (fun i Hi => proj2 (H i Hi))) as N2.
    set (a := label_weight lab d 1 I) in *. set (b := label_weight lab d (-1) I) in *.
    assert (Q : -1 <= rsum (map (fun i => d i * y i) I) / total d I <= 1).
    { rewrite E1, E2. split; [apply (Rmult_le_reg_r (a + b)); [lra|]|apply (Rmult_le_reg_r (a + b)); [lra|]]; unfold Rdiv; rewrite Rmult_assoc, Rinv_l by lra; lra. }
    split; [|exact Q].
    assert (Es : IZR z * (2 * share lab d z I - 1) = rsum (map (fun i => d i * y i) I) / total d I).
    { unfold share. rewrite E1, E2. destruct (lab_pm i0 (Hlt i0 Hi0)) as [_ [L|L]]; assert (Ez' : z = lab i0) by (symmetry; exact Ez); rewrite Ez', L; fold a b; field; lra. }
    etransitivity; [|exact Es]. apply rclamp_id. rewrite Es. exact Q.
  Qed.

  Lemma frac_ineq a b u v : 0 < u -> 0 < v -> (a + b) ^ 2 / (u + v) <= a ^ 2 / u + b ^ 2 / v.
  Proof.
    intros Hu Hv. apply Rminus_le. replace ((a + b) ^ 2 / (u + v) - (a ^ 2 / u + b ^ 2 / v)) with (- ((a * v - b * u) ^ 2 / (u * v * (u + v)))) by (field; lra).
    assert (0 <= (a * v - b * u) ^ 2 / (u * v * (u + v))); [|lra]. apply Rmult_le_pos; [apply pow2_ge_0|]. left. apply Rinv_0_lt_compat. apply Rmult_lt_0_compat; [apply Rmult_lt_0_compat|]; lra.
  Qed.

  Definition S_ I := rsum (map (fun i => d i * y i) I).
  Definition E_ h I := rsum (map (fun i => d i * y i * conf_at h s i) I).

  Lemma E_branch f t l r idx : In f (s_features s) -> (forall i, In i idx -> (i < n)%nat) ->
    E_ (Branch (mkSplitter (feat_name f) t) l r) idx = E_ l (filter (below (fval f) t) idx) + E_ r (filter (not_below (fval f) t) idx).
  Proof.
    intros Hin H. unfold E_. induction idx as [|i I IH]; simpl; [lra|]. rewrite IH by (intros j Hj; apply H; right; exact Hj).
    rewrite conf_branch, (split_left_ok s G NN f t i Hin (H i (or_introl eq_refl))). rewrite below_neg. destruct (below (fval f) t i); simpl; lra.
  Qed.

  Lemma tree_edge : forall t depth idx, rows idx -> ok t depth idx -> (S_ idx) ^ 2 / total d idx <= E_ (to_node t) idx.
  Proof.
    induction t as [conf w loss|rule l IHl r IHr conf w loss]; intros dep idx Hrows T.
    - simpl in T. destruct T as [_ [HL _]]. destruct (leaf_mean idx conf loss Hrows HL) as [Ec _].
      assert (E : E_ (to_node (TLeaf conf w loss)) idx = S_ idx * conf).
      { unfold E_, S_, answer. simpl. clear. induction idx as [|i I IH]; simpl; [lra|]. rewrite IH. lra. }
      rewrite E, Ec. fold (S_ idx). unfold Rdiv. right. ring.
    - simpl in T. destruct T as [_ [_ [_ [dep' [f [t [_ [-> [Hin [_ [NA [NB [Tl Tr]]]]]]]]]]]]]. cbn [to_node].
      rewrite E_branch by (try exact Hin; intros i Hi; apply Hrows, Hi).
      pose proof (rows_filter s dist _ idx Hrows NA) as RA. pose proof (rows_filter s dist _ idx Hrows NB) as RB.
      pose proof (total_pos' d _ (proj1 RA) (fun i Hi => proj2 (proj2 RA i Hi))) as W1. pose proof (total_pos' d _ (proj1 RB) (fun i Hi => proj2 (proj2 RB i Hi))) as W2.
      specialize (IHl _ _ RA Tl). specialize (IHr _ _ RB Tr).
      pose proof (sum_two (fun i => d i * y i) (fval f) t idx) as E1. fold (S_ (filter (below (fval f) t) idx)) (S_ (filter (not_below (fval f) t) idx)) (S_ idx) in E1.
      pose proof (total_two d (fval f) t idx) as E2. rewrite <- E1, <- E2.
      pose proof (frac_ineq (S_ (filter (below (fval f) t) idx)) (S_ (filter (not_below (fval f) t) idx)) _ _ W1 W2). lra.
  Qed.

  (** the stump edge in terms of the two sides *)
  Lemma stump_edge_sides f t idx : (forall i, In i idx -> (i < n)%nat) ->
    stump_edge (fval f) y d t idx = S_ (filter (not_below (fval f) t) idx) - S_ (filter (below (fval f) t) idx).
  Proof.
    intros H. unfold stump_edge, S_. induction idx as [|i I IH]; simpl; [lra|]. rewrite IH by (intros j Hj; apply H; right; exact Hj).
    unfold stump. rewrite below_neg. assert (Eb : below (fval f) t i = if Rlt_dec (fval f i) t then true else false) by reflexivity. rewrite Eb. destruct (Rlt_dec (fval f i) t); simpl; lra.
  Qed.
  Lemma stump_edge_lab f t idx : (forall i, In i idx -> (i < n)%nat) -> stump_edge (fval f) (fun i => IZR (lab i)) d t idx = stump_edge (fval f) y d t idx.
  Proof. intros H. unfold stump_edge. apply rsum_map_ext. intros i Hi. destruct (lab_pm i (H i Hi)) as [E _]. rewrite E. reflexivity. Qed.
  Lemma stump_edge_le f t idx : rows idx -> Rabs (stump_edge (fval f) y d t idx) <= total d idx.
  Proof.
    intros [_ H]. unfold stump_edge, total. eapply Rle_trans; [apply rsum_abs|]. rewrite map_map. apply rsum_map_le. intros i Hi. destruct (H i Hi) as [Hi1 Hi2]. fold (d i).
    assert (E : Rabs (d i * (y i * stump t (fval f i))) = d i); [|lra].
    rewrite !Rabs_mult, (Rabs_right (d i)) by (apply Rle_ge; left; exact Hi2). unfold stump. destruct (Hpm i Hi1) as [->| ->], (Rlt_dec (fval f i) t); unfold Rabs; repeat destruct Rcase_abs; lra.
  Qed.

  Hypothesis Hc : c = Edge.
  Lemma sq_le a b : Rabs a <= Rabs b -> a ^ 2 <= b ^ 2.
  Proof. intros H. rewrite <- (pow2_abs a), <- (pow2_abs b). apply pow_incr. split; [apply Rabs_pos|exact H]. Qed.

  Lemma edge_guarantee T0 dep idx : rows idx -> ok T0 (S dep) idx -> forall f' t', In f' (s_features s) -> offered bm f' t' ->
    (stump_edge (fval f') y d t' idx) ^ 2 / total d idx <= E_ (to_node T0) idx.
  Proof.
    intros Hrows T f' t' Hf' Ht'. assert (Hlt : forall i, In i idx -> (i < n)%nat) by (intros i Hi; apply Hrows, Hi).
    pose proof (total_pos' d idx (proj1 Hrows) (fun i Hi => proj2 (proj2 Hrows i Hi))) as Tp.
    assert (Hinv : 0 < / total d idx) by (apply Rinv_0_lt_compat, Tp).
    assert (Hbest : forall f t, In f (s_features s) -> best_rule s dist bm c labels f t idx -> Rabs (stump_edge (fval f') y d t' idx) <= Rabs (stump_edge (fval f) y d t idx)).
    { intros f t Hin [_ B]. specialize (B f' t' Hf' Ht'). rewrite Hc in B. unfold not_worse, crit_value in B.
      change (fun i => IZR (as_int 32 (nth i (s_target s) 0))) with (fun i => IZR (lab i)) in B. change (fun i : nat => nth i dist 0) with d in B. rewrite !stump_edge_lab in B by exact Hlt.
      apply (Rmult_le_reg_r (/ total d idx)); assumption. }
    destruct T0 as [conf w loss|rule l r conf w loss].
    - pose proof (tree_edge _ _ _ Hrows T) as TE. simpl in T. destruct T as [_ [HL [D|[Z|[f [t [Hin [B Hempty]]]]]]]]; [discriminate| |].
      + (* one label only *) eapply Rle_trans; [|exact TE]. apply Rmult_le_compat_r; [lra|]. apply sq_le. eapply Rle_trans; [apply stump_edge_le, Hrows|].
        destruct HL as [z [_ [_ [El _]]]]. change (fun i => as_int 32 (nth i (s_target s) 0)) with lab in El. change (fun i : nat => nth i dist 0) with d in El.
        destruct (pm_sums idx Hlt) as [E1 E2]. fold (S_ idx) in E1.
        pose proof (label_weight_nonneg lab d 1 idx (fun i Hi => proj2 (proj2 Hrows i Hi))) as N1. pose proof (label_weight_nonneg lab d (-1) idx (fun i Hi => proj2 (proj2 Hrows i Hi))) as N2.
        assert (Q : label_weight lab d 1 idx = 0 \/ label_weight lab d (-1) idx = 0).
        { assert (Hz : total d idx = label_weight lab d z idx) by lra. destruct (Z.eq_dec z 1) as [->|Z1]; [right; lra|]. destruct (Z.eq_dec z (-1)) as [->|Z2]; [left; lra|].
          exfalso. rewrite label_weight_ind, rsum_map_zero in Hz; [lra|]. intros i Hi. destruct (lab_pm i (Hlt i Hi)) as [_ [L|L]]; rewrite L; destruct (Z.eqb_spec 1 z), (Z.eqb_spec (-1) z); congruence. }
        rewrite E1. unfold Rabs. destruct Rcase_abs; destruct Q; lra.
      + (* no split helps *) eapply Rle_trans; [|exact TE]. apply Rmult_le_compat_r; [lra|]. apply sq_le. eapply Rle_trans; [apply (Hbest f t Hin B)|].
        rewrite stump_edge_sides by exact Hlt. pose proof (sum_two (fun i => d i * y i) (fval f) t idx) as E1. fold (S_ (filter (below (fval f) t) idx)) (S_ (filter (not_below (fval f) t) idx)) (S_ idx) in E1.
        rewrite <- E1. assert (Z0 : S_ [] = 0) by reflexivity. destruct Hempty as [->| ->]; rewrite Z0; [right; f_equal; ring|]. rewrite Rminus_0_l, Rplus_0_r, Rabs_Ropp. lra.
    - simpl in T. destruct T as [_ [_ [_ [dep' [f [t [_ [-> [Hin [B [NA [NB [Tl Tr]]]]]]]]]]]]]. cbn [to_node]. rewrite E_branch by assumption.
      pose proof (rows_filter s dist _ idx Hrows NA) as RA. pose proof (rows_filter s dist _ idx Hrows NB) as RB.
      pose proof (total_pos' d _ (proj1 RA) (fun i Hi => proj2 (proj2 RA i Hi))) as W1. pose proof (total_pos' d _ (proj1 RB) (fun i Hi => proj2 (proj2 RB i Hi))) as W2.
      pose proof (tree_edge _ _ _ RA Tl) as T1. pose proof (tree_edge _ _ _ RB Tr) as T2.
      assert (Q : (stump_edge (fval f') y d t' idx) ^ 2 / total d idx <= (stump_edge (fval f) y d t idx) ^ 2 / total d idx) by (apply Rmult_le_compat_r; [lra|]; apply sq_le, (Hbest f t Hin B)).
      rewrite (stump_edge_sides f t idx Hlt) in Q. pose proof (total_two d (fval f) t idx) as E2.
      pose proof (frac_ineq (- S_ (filter (below (fval f) t) idx)) (S_ (filter (not_below (fval f) t) idx)) _ _ W1 W2) as F. rewrite E2 in F.
      replace ((- S_ (filter (below (fval f) t) idx) + S_ (filter (not_below (fval f) t) idx)) ^ 2) with ((S_ (filter (not_below (fval f) t) idx) - S_ (filter (below (fval f) t) idx)) ^ 2) in F by ring.
      replace ((- S_ (filter (below (fval f) t) idx)) ^ 2) with (S_ (filter (below (fval f) t) idx) ^ 2) in F by ring. lra.
  Qed.
End Out.
