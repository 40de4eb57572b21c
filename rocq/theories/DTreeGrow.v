(** Proofs about the decision tree learner, part 4: the best split over all features and the growth of the tree. *)
From Coq Require Import String.
From Verif Require Import Base Spec BinSearch Feature Sample SampleSpec FeatureFacts SampleFacts Bins BinsSpec BinsProofs TreeSpec DTree TreeShape DTreeProofs DTreeSplit DTreeBest.
Open Scope R_scope.

(** ** picking over a list *)
Lemma pick_min_spec : forall l x, In (pick_min x l) (x :: l) /\ forall y, In y (x :: l) -> fst (fst (pick_min x l)) <= fst (fst y).
Proof.
  induction l as [|a l IH]; intros x; cbn [pick_min].
  - split; [left; reflexivity|]. intros y [<-|[]]. lra.
  - destruct (Rltb_spec (fst (fst a)) (fst (fst x))) as [H|H].
    + destruct (IH a) as [A B]. split; [destruct A as [A|A]; [right; left; exact A|right; right; exact A]|].
      intros y [<-|[<-|Hy]]; [pose proof (B a (or_introl eq_refl)); lra|apply B; left; reflexivity|apply B; right; exact Hy].
    + destruct (IH x) as [A B]. split; [destruct A as [A|A]; [left; exact A|right; right; exact A]|].
      intros y [<-|[<-|Hy]]; [apply B; left; reflexivity|pose proof (B x (or_introl eq_refl)); lra|apply B; right; exact Hy].
Qed.
Lemma pick_max_spec : forall l x, In (pick_max x l) (x :: l) /\ forall y, In y (x :: l) -> fst (fst y) <= fst (fst (pick_max x l)).
Proof.
  induction l as [|a l IH]; intros x; cbn [pick_max].
  - split; [left; reflexivity|]. intros y [<-|[]]. lra.
  - destruct (Rltb_spec (fst (fst a)) (fst (fst x))) as [H|H].
    + destruct (IH x) as [A B]. split; [destruct A as [A|A]; [left; exact A|right; right; exact A]|].
      intros y [<-|[<-|Hy]]; [apply B; left; reflexivity|pose proof (B x (or_introl eq_refl)); lra|apply B; right; exact Hy].
    + destruct (IH a) as [A B]. split; [destruct A as [A|A]; [right; left; exact A|right; right; exact A]|].
      intros y [<-|[<-|Hy]]; [pose proof (B a (or_introl eq_refl)); lra|apply B; left; reflexivity|apply B; right; exact Hy].
Qed.

(** ** integer labels *)
Section Grow.
  Variables (s : sample) (dist : list R) (bm : list (string * list bin)) (c : criterion) (order : lw -> lw) (labels : list Z).
  Let n := s_n_sample s.
  Let d i := nth i dist 0.
  Let y i := nth i (s_target s) 0.
  Let lab i := as_int 32 (y i).
  Hypothesis G : good s.
  Hypothesis NN : NoDup (map feat_name (s_features s)).
  Hypothesis Hf : s_features s <> [].
  Hypothesis Ht : length (s_target s) = n.
  Hypothesis Hd : length dist = n.
  Hypothesis Hv : forall f i, In f (s_features s) -> (i < n)%nat -> F64MIN <= fval f i < F64MAX.
  Hypothesis Hb : forall f, In f (s_features s) -> exists bins, sm_get bm (feat_name f) = Ok bins /\ chain F64MIN F64MAX bins.
  Hypothesis Hy : forall i, (i < n)%nat -> exists z, y i = IZR z /\ (- 2 ^ 31 <= z < 2 ^ 31)%Z.
  Hypothesis NL : NoDup labels.
  Hypothesis Hl : forall i, (i < n)%nat -> In (lab i) labels.
  Hypothesis Ho : forall m, Permutation (order m) m.

  Definition rows_ok (idx : list nat) : Prop := idx <> [] /\ forall i, In i idx -> (i < n)%nat /\ 0 < d i.

  Lemma feature_split f idx : In f (s_features s) -> rows_ok idx -> exists bins pack t b,
    sm_get bm (feat_name f) = Ok bins /\ dt_pack bins idx f (s_target s) dist = Ok pack /\ split_by c pack = Ok (t, b) /\
    b = crit_value c labels lab (fval f) d t idx /\
    (exists t0, offered bm f t0 /\ forall i, In i idx -> (fval f i < t <-> fval f i < t0)) /\
    forall t', offered bm f t' -> not_worse c b (crit_value c labels lab (fval f) d t' idx).
  Proof.
    intros Hin [Hne HI]. destruct (Hb f Hin) as [bins [Eb Cb]].
    assert (Hcol : col_ok n f) by (pose proof (good_cols s G) as F; rewrite Forall_forall in F; apply F, Hin).
    destruct (dt_pack_spec bins f (s_target s) dist idx (fval f) F64MIN F64MAX Cb Hne) as [out [e' [E [He [C' [Hon [Hx [Hm [Hto Hfrom]]]]]]]]].
    { intros i Hi. destruct (HI i Hi) as [Hi1 _]. split; [apply (feat_index_ok n); assumption|apply Hv; assumption]. }
    { intros i Hi. destruct (HI i Hi) as [Hi1 Hi2]. rewrite Ht, Hd. fold n. auto. }
    fold d in Hm. 
    destruct (choice (fval f) d lab labels idx out e' C' Hon Hne Hx (fun i Hi => proj2 (HI i Hi)) (fun b m H => proj1 (Hm b m H)) NL (fun i Hi => Hl i (proj1 (HI i Hi))) c) as [t [b [Es [Hti [Hbv Hall]]]]].
    exists bins, out, t, b. split; [exact Eb|]. split; [exact E|]. split; [exact Es|]. split; [exact Hbv|]. split.
    - destruct Hti as [<-|Hti].
      + exists F64MIN. split; [exists bins; split; [exact Eb|left; reflexivity]|]. intros; tauto.
      + apply in_map_iff in Hti. destruct Hti as [[b' m] [<- Hbm]]. destruct (Hfrom b' m Hbm) as [b2 [Hb2 Hsep]]. simpl.
        exists (b_end b2). split; [exists bins; split; [exact Eb|right; apply in_map, Hb2]|]. exact Hsep.
    - intros t' [bins' [Eb' Ht']]. rewrite Eb in Eb'. inversion Eb'; subst bins'. destruct Ht' as [<-|Ht'].
      + apply Hall. left. reflexivity.
      + apply in_map_iff in Ht'. destruct Ht' as [b2 [<- Hb2]]. destruct (Hto b2 Hb2) as [t2 [Ht2 Hsep]].
        rewrite (crit_value_ext c labels lab (fval f) (fval f) d (b_end b2) t2 idx Hsep). apply Hall, Ht2.
  Qed.

  (** the entries [eval_features] makes *)
  Lemma eval_features_spec idx : rows_ok idx -> forall fs, incl fs (s_features s) -> exists l,
    eval_features c bm (s_target s) dist idx fs = Ok l /\ length l = length fs /\
    Forall2 (fun f q => let '(b, nm, t) := q in nm = feat_name f /\ b = crit_value c labels lab (fval f) d t idx /\
      (exists t0, offered bm f t0 /\ forall i, In i idx -> (fval f i < t <-> fval f i < t0)) /\
      forall t', offered bm f t' -> not_worse c b (crit_value c labels lab (fval f) d t' idx)) fs l.
  Proof.
    intros Hrows fs. induction fs as [|f fs IH]; intros Hin; cbn [eval_features].
    - exists []. split; [reflexivity|]. split; [reflexivity|constructor].
    - destruct (feature_split f idx (Hin f (or_introl eq_refl)) Hrows) as [bins [pack [t [b [E1 [E2 [E3 [E4 [E5 E6]]]]]]]]].
      rewrite E1. cbn [bind]. rewrite E2. cbn [bind]. rewrite E3. cbn [bind].
      destruct IH as [l [El [Ll F]]]; [intros g Hg; apply Hin; right; exact Hg|]. rewrite El. cbn [bind].
      exists ((b, feat_name f, t) :: l). split; [reflexivity|]. split; [simpl; lia|]. constructor; [|exact F].
      split; [reflexivity|]. auto.
  Qed.

  Lemma not_worse_trans a b e : not_worse c a b -> not_worse c b e -> not_worse c a e.
  Proof. unfold not_worse. destruct c; lra. Qed.

  Lemma best_split_spec idx : rows_ok idx -> exists f t,
    best_split c bm s dist idx = Ok (feat_name f, t) /\ In f (s_features s) /\
    (exists t0, offered bm f t0 /\ forall i, In i idx -> (fval f i < t <-> fval f i < t0)) /\
    forall f' t', In f' (s_features s) -> offered bm f' t' ->
      not_worse c (crit_value c labels lab (fval f) d t idx) (crit_value c labels lab (fval f') d t' idx).
  Proof.
    intros Hrows. unfold best_split. destruct (eval_features_spec idx Hrows (s_features s) (incl_refl _)) as [l [El [Ll F]]]. rewrite El. cbn [bind].
    destruct l as [|x l]; [destruct (s_features s); [congruence|discriminate]|].
    assert (P : exists b nm t, (match c with Entropy | Gini => pick_min x l | Edge | Twoing => pick_max x l end) = (b, nm, t) /\ In (b, nm, t) (x :: l) /\
      forall q, In q (x :: l) -> not_worse c b (fst (fst q))).
    { destruct (pick_min_spec l x) as [A1 A2]. destruct (pick_max_spec l x) as [B1 B2]. destruct (pick_min x l) as [[a1 a2] a3]. destruct (pick_max x l) as [[b1 b2] b3].
      unfold not_worse. destruct c; eexists _, _, _; (split; [reflexivity|]; split; [eassumption|]); intros q Hq; first [apply (A2 q Hq)|apply (B2 q Hq)]. }
    destruct P as [b [nm [t [E [Hin Hall]]]]]. rewrite E.
    assert (Hsel : exists f, In f (s_features s) /\ nm = feat_name f /\ b = crit_value c labels lab (fval f) d t idx /\ (exists t0, offered bm f t0 /\ forall i, In i idx -> (fval f i < t <-> fval f i < t0))).
    { clear - F Hin. induction F as [|f q fs l' H F IH]; [destruct Hin|]. destruct Hin as [->|Hin].
      - exists f. split; [left; reflexivity|]. tauto.
      - destruct (IH Hin) as [f' [H1 H2]]. exists f'. split; [right; exact H1|exact H2]. }
    destruct Hsel as [f [Hfin [-> [-> Hoff]]]]. exists f, t. split; [reflexivity|]. split; [exact Hfin|]. split; [exact Hoff|].
    intros f' t' Hf' Ht'.
    assert (Hq : exists q, In q (x :: l) /\ not_worse c (fst (fst q)) (crit_value c labels lab (fval f') d t' idx)).
    { clear - F Hf' Ht'. induction F as [|g q fs l' H F IH]; [destruct Hf'|]. destruct Hf' as [->|Hf'].
      - exists q. split; [left; reflexivity|]. destruct q as [[b nm] t]. simpl. apply H, Ht'.
      - destruct (IH Hf') as [q' [H1 H2]]. exists q'. split; [right; exact H1|exact H2]. }
    destruct Hq as [q [Hq1 Hq2]]. apply (not_worse_trans _ (fst (fst q))); [apply Hall, Hq1|exact Hq2].
  Qed.

  (** ** splitting the rows *)
  Lemma split_left_ok f t i : In f (s_features s) -> (i < n)%nat -> split_left (mkSplitter (feat_name f) t) s i = Ok (below (fval f) t i).
  Proof.
    intros Hin Hi. unfold split_left. simpl sp_feature. apply (In_nth _ _ (new_dense EmptyString)) in Hin. destruct Hin as [k [Hk <-]].
    rewrite (by_name_ok s k _ G NN Hk). cbn [bind].
    rewrite (feat_index_ok n) by (try exact Hi; pose proof (good_cols s G) as F; rewrite Forall_forall in F; apply F, nth_In, Hk).
    cbn [bind]. simpl. unfold below. destruct (Rltb_spec (fval (nth k (s_features s) (new_dense EmptyString)) i) t), (Rlt_dec (fval (nth k (s_features s) (new_dense EmptyString)) i) t); try reflexivity; lra.
  Qed.
  Lemma partition_ok f t idx : In f (s_features s) -> (forall i, In i idx -> (i < n)%nat) ->
    partition_rows (mkSplitter (feat_name f) t) s idx = Ok (filter (below (fval f) t) idx, filter (not_below (fval f) t) idx).
  Proof.
    intros Hin. induction idx as [|i idx IH]; intros Hi; [reflexivity|]. cbn [partition_rows].
    rewrite (split_left_ok f t i Hin) by (apply Hi; left; reflexivity). cbn [bind]. rewrite IH by (intros j Hj; apply Hi; right; exact Hj). cbn [bind].
    simpl. assert (Eb : below (fval f) t i = if Rlt_dec (fval f i) t then true else false) by reflexivity. assert (En : not_below (fval f) t i = if Rlt_dec (fval f i) t then false else true) by reflexivity. rewrite Eb, En. destruct (Rlt_dec (fval f i) t); reflexivity.
  Qed.

  (** ** leaves *)
  Lemma sum_at_ok idx : (forall i, In i idx -> (i < n)%nat) -> sum_at dist idx = Ok (total d idx).
  Proof.
    induction idx as [|i idx IH]; intros Hi; [reflexivity|]. cbn [sum_at]. rewrite get_ok by (rewrite Hd; apply Hi; left; reflexivity). cbn [bind].
    rewrite IH by (intros j Hj; apply Hi; right; exact Hj). reflexivity.
  Qed.
  Lemma as64 i : (i < n)%nat -> as_int 64 (y i) = lab i.
  Proof. intros Hi. unfold lab. destruct (Hy i Hi) as [z [-> Hz]]. rewrite !as_int_IZR; [reflexivity| |]; simpl; lia. Qed.
  Lemma count_labels_ok : forall idx m, (forall i, In i idx -> (i < n)%nat) ->
    count_labels (s_target s) dist idx m = Ok (fold_left (fun m i => lw_add m (lab i) (d i)) idx m).
  Proof.
    induction idx as [|i idx IH]; intros m Hi; [reflexivity|]. cbn [count_labels fold_left].
    assert (L : (i < n)%nat) by (apply Hi; left; reflexivity).
    rewrite get_ok by (rewrite Ht; exact L). cbn [bind]. rewrite get_ok by (rewrite Hd; exact L). cbn [bind]. fold (y i) (d i). rewrite (as64 i L). apply IH. intros j Hj. apply Hi. right. exact Hj.
  Qed.
  Lemma max_entry_spec : forall l x, In (max_entry x l) (x :: l) /\ forall q, In q (x :: l) -> snd q <= snd (max_entry x l).
  Proof.
    induction l as [|a l IH]; intros x; cbn [max_entry].
    - split; [left; reflexivity|]. intros q [<-|[]]. lra.
    - destruct (Rltb_spec (snd a) (snd x)) as [H|H].
      + destruct (IH x) as [A B]. split; [destruct A as [A|A]; [left; exact A|right; right; exact A]|].
        intros q [<-|[<-|Hq]]; [apply B; left; reflexivity|pose proof (B x (or_introl eq_refl)); lra|apply B; right; exact Hq].
      + destruct (IH a) as [A B]. split; [destruct A as [A|A]; [right; left; exact A|right; right; exact A]|].
        intros q [<-|[<-|Hq]]; [pose proof (B a (or_introl eq_refl)); lra|apply B; left; reflexivity|apply B; right; exact Hq].
  Qed.

  (** what a leaf over the rows idx holds: a label of largest weight *)
  Definition leaf_holds (idx : list nat) (conf loss : R) : Prop :=
    exists z, (exists i, In i idx /\ lab i = z) /\
      (forall z', label_weight lab d z' idx <= label_weight lab d z idx) /\
      loss = total d idx - label_weight lab d z idx /\
      conf = rclamp (-1) 1 (IZR z * (2 * share lab d z idx - 1)).

  Lemma confidence_ok idx : rows_ok idx -> exists conf loss, confidence_and_loss order (s_target s) dist idx = Ok (conf, loss) /\ leaf_holds idx conf loss.
  Proof.
    intros [Hne HI]. unfold confidence_and_loss. assert (En : is_nil idx = false) by (destruct idx; [congruence|reflexivity]). rewrite En. simpl negb. cbn [assert_ bind].
    rewrite count_labels_ok by (intros i Hi; apply HI, Hi). cbn [bind]. fold (histo lab d idx).
    destruct (histo_spec lab d idx) as [A [B [C [D _]]]]. cbv zeta in *.
    pose proof (total_pos' d idx Hne (fun i Hi => proj2 (HI i Hi))) as T0.
    rewrite D. fold (total d idx).
    destruct (order (histo lab d idx)) as [|x l] eqn:Eo.
    { exfalso. pose proof (Ho (histo lab d idx)) as P. rewrite Eo in P. apply Permutation_nil in P. rewrite P in D. rewrite <- D in T0. unfold lw_total in T0. simpl in T0. lra. }
    destruct (max_entry_spec l x) as [M1 M2]. destruct (max_entry x l) as [z p]. rewrite <- Eo in M1, M2.
    assert (Hzp : In (z, p) (histo lab d idx)) by (apply (Permutation_in _ (Ho _)), M1).
    assert (Ep : p = label_weight lab d z idx) by (rewrite <- C; symmetry; apply lw_val_in; [exact A|exact Hzp]).
    rewrite Rltb_true by exact T0. eexists _, _. split; [reflexivity|]. exists z. split; [|split; [|split]].
    - assert (Hk : In z (keys (histo lab d idx))) by (apply (in_map fst) in Hzp; exact Hzp). apply B in Hk. exact Hk.
    - intros z'. rewrite <- Ep. rewrite <- C. destruct (in_dec Z.eq_dec z' (keys (histo lab d idx))) as [Hk|Hk].
      + apply in_map_iff in Hk. destruct Hk as [[z2 v] [<- Hk]]. simpl. rewrite (lw_val_in _ z2 v A Hk).
        apply (M2 (z2, v)). apply (Permutation_in _ (Permutation_sym (Ho _))), Hk.
      + rewrite (lw_val_out _ _ Hk). rewrite Ep. apply label_weight_nonneg. intros i Hi. apply HI, Hi.
    - rewrite Ep. unfold total in *. field. lra.
    - rewrite Ep. reflexivity.
  Qed.

  (** ** the whole tree *)
  Fixpoint tdepth (t : train_node) : nat := match t with TLeaf _ _ _ => 0 | TBranch _ l r _ _ _ => S (Nat.max (tdepth l) (tdepth r)) end.

  Definition best_rule (f : feature) (t : R) (idx : list nat) : Prop :=
    (exists t0, offered bm f t0 /\ forall i, In i idx -> (fval f i < t <-> fval f i < t0)) /\
    forall f' t', In f' (s_features s) -> offered bm f' t' ->
      not_worse c (crit_value c labels lab (fval f) d t idx) (crit_value c labels lab (fval f') d t' idx).

  (** [depth]: how many levels were still allowed *)
  Fixpoint tree_ok (t : train_node) (depth : nat) (idx : list nat) : Prop :=
    match t with
    | TLeaf conf w loss => w = total d idx /\ leaf_holds idx conf loss /\
        (depth = 0%nat \/ loss = 0 \/ exists f t, In f (s_features s) /\ best_rule f t idx /\ (filter (below (fval f) t) idx = [] \/ filter (not_below (fval f) t) idx = []))
    | TBranch rule l r conf w loss => w = total d idx /\ leaf_holds idx conf loss /\ loss <> 0 /\
        exists depth' f t, depth = S depth' /\ rule = mkSplitter (feat_name f) t /\ In f (s_features s) /\ best_rule f t idx /\
          filter (below (fval f) t) idx <> [] /\ filter (not_below (fval f) t) idx <> [] /\
          tree_ok l depth' (filter (below (fval f) t) idx) /\ tree_ok r depth' (filter (not_below (fval f) t) idx)
    end.

  Lemma rows_filter p idx : rows_ok idx -> filter p idx <> [] -> rows_ok (filter p idx).
  Proof. intros [_ H] Hne. split; [exact Hne|]. intros i Hi. apply filter_In in Hi. apply H. tauto. Qed.

  Lemma full_tree_ok : forall depth idx, rows_ok idx -> exists t, full_tree order c bm s dist depth idx = Ok t /\ tree_ok t depth idx /\ (tdepth t <= depth)%nat.
  Proof.
    induction depth as [|depth IH]; intros idx Hrows; cbn [full_tree]; rewrite (sum_at_ok idx (fun i Hi => proj1 (proj2 Hrows i Hi))); cbn [bind];
      destruct (confidence_ok idx Hrows) as [conf [loss [E HL]]]; rewrite E; cbn [bind].
    - exists (TLeaf conf (total d idx) loss). split; [reflexivity|]. split; [|simpl; lia]. simpl. auto.
    - destruct (Reqb_spec loss 0) as [E0|E0].
      + exists (TLeaf conf (total d idx) loss). split; [reflexivity|]. split; [|simpl; lia]. simpl. auto.
      + destruct (best_split_spec idx Hrows) as [f [t [Eb [Hin Hbest]]]]. rewrite Eb. cbn [bind fst snd].
        rewrite (partition_ok f t idx Hin) by (intros i Hi; apply Hrows, Hi). cbn [bind fst snd].
        destruct (filter (below (fval f) t) idx) as [|a A] eqn:EA.
        { simpl orb. exists (TLeaf conf (total d idx) loss). split; [reflexivity|]. split; [|simpl; lia]. simpl. split; [reflexivity|]. split; [exact HL|]. right. right. exists f, t. auto. }
        destruct (filter (not_below (fval f) t) idx) as [|b B] eqn:EB.
        { simpl orb. exists (TLeaf conf (total d idx) loss). split; [reflexivity|]. split; [|simpl; lia]. simpl. split; [reflexivity|]. split; [exact HL|]. right. right. exists f, t. auto. }
        simpl orb. cbv iota. rewrite <- EA, <- EB.
        assert (NA : filter (below (fval f) t) idx <> []) by (rewrite EA; discriminate). assert (NB : filter (not_below (fval f) t) idx <> []) by (rewrite EB; discriminate).
        destruct (IH _ (rows_filter _ idx Hrows NA)) as [l [E1 [T1 D1]]]. destruct (IH _ (rows_filter _ idx Hrows NB)) as [r [E2 [T2 D2]]].
        rewrite E1. cbn [bind]. rewrite E2. cbn [bind].
        exists (TBranch (mkSplitter (feat_name f) t) l r conf (total d idx) loss). split; [reflexivity|]. split; [|simpl; lia].
        simpl. split; [reflexivity|]. split; [exact HL|]. split; [exact E0|]. exists depth, f, t. repeat (split; [solve [reflexivity|assumption]|]). exact T2.
  Qed.
End Grow.
