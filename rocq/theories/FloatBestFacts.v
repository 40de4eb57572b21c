(** C96: with the edge criterion and binary64 weights, every split is nearly best and every leaf nearly the mean label *)
From Coq Require Import ZArith List Bool Reals Lia Lra Psatz Permutation String.
From Flocq Require Import Core.Core IEEE754.BinarySingleNaN.
From Verif Require Import Base Feature FeatureFacts Sample SampleSpec SampleFacts Bins BinsSpec BinsProofs BinsFacts DTree TreeSpec DTreeBest DTreeGrow TreeShape DTreeFacts Float FloatSpec FloatProofs FloatFacts FloatCheckFacts FloatMedianFacts FloatTree FloatTreeSpec FloatTreeProofs FloatPackProofs FloatGrowProofs FloatGrowthProofs FloatTreeFacts FloatBestSpec FloatBestProofs FloatBestFeature FloatBestGrow.
Import ListNotations.
Open Scope R_scope.

Section Use.
  Variables (s : sample) (b : dt_builder) (t : dtree) (nb : nat).
  Hypothesis Tr : trainable s.
  Hypothesis Mb : dt_made s b.
  Hypothesis Eb : tb_build b s = Ok t.
  Hypothesis HB : forall f bins, In f (s_features s) -> sm_get (dt_bins t) (feat_name f) = Ok bins -> (length bins <= nb)%nat.
  Lemma setup : good s /\ NoDup (map feat_name (s_features s)) /\ s_features s <> [] /\ length (s_target s) = s_n_sample s /\
    (forall f i, In f (s_features s) -> (i < s_n_sample s)%nat -> F64MIN <= fval f i < F64MAX) /\
    (forall f, In f (s_features s) -> exists bins, sm_get (dt_bins t) (feat_name f) = Ok bins /\ chain F64MIN F64MAX bins /\ (length bins <= nb)%nat) /\
    dt_criterion t = tb_criterion b /\ dt_depth t = tb_depth b /\ (0 < tb_depth b)%nat.
  Proof.
    destruct Tr as [M [Hn [Hf [NN [Ht Hm]]]]]. pose proof (made_good s M) as G. pose proof (built s b t G Hn NN Hm Mb Eb) as [B1 [B2 [B3 Hbins]]].
    split; [exact G|]. split; [exact NN|]. split; [exact Hf|]. split; [exact Ht|]. split; [|split].
    - intros f i Hin Hlt. assert (Hcf : col_ok (s_n_sample s) f) by (pose proof (good_cols s G) as F; rewrite Forall_forall in F; apply F, Hin). apply (value_range (s_n_sample s)); auto. intros x Q. apply (Hm f x Hin Q).
    - intros f Hin. destruct (Hbins f Hin) as [k [bins [_ [_ [E C]]]]]. exists bins. split; [exact E|]. split; [exact C|]. apply (HB f bins Hin E).
    - split; [exact B3|]. split; [exact B2|]. rewrite <- B2. lia.
  Qed.
End Use.

(** ** answers and edges *)
Section Edge.
  Variables (s : sample) (dist : list f64) (bm : list (string * list bin)) (tol : R).
  Hypothesis G : good s.
  Hypothesis NN : NoDup (map feat_name (s_features s)).
  Hypothesis Hpm : pm_labels s.
  Local Notation dr := (weight64 dist).
  Local Notation y := (label s).
  Local Notation M := (fun I => rsum (map (fun i => dr i * y i) I)).
  Local Notation W := (fun I => TreeSpec.total dr I).
  Definition rows_in (idx : list nat) : Prop := idx <> [] /\ forall i, In i idx -> (i < s_n_sample s)%nat /\ 0 < dr i.
  Lemma rows_sub p idx : rows_in idx -> filter p idx <> [] -> rows_in (filter p idx).
  Proof. intros [_ H] N. split; [exact N|]. intros i Hi. apply H. apply filter_In in Hi. apply Hi. Qed.
  Lemma W_pos idx : rows_in idx -> 0 < W idx.
  Proof. intros [N H]. apply total_pos'; [exact N|]. intros i Hi. apply H, Hi. Qed.
  Lemma M_le idx : rows_in idx -> Rabs (M idx) <= W idx.
  Proof.
    intros [_ H]. unfold TreeSpec.total. cbn beta. induction idx as [|i I IH]; cbn [map rsum]; [rewrite Rabs_R0; lra|]. eapply Rle_trans; [apply Rabs_triang|]. apply Rplus_le_compat; [|apply IH; intros j Hj; apply H; right; exact Hj].
    destruct (H i (or_introl eq_refl)) as [H1 H2]. rewrite Rabs_mult, (Rabs_pos_eq (dr i)) by lra. destruct (Hpm i H1) as [E|E]; unfold label; rewrite E; [rewrite Rabs_R1|rewrite (Rabs_left (-1)) by lra]; lra.
  Qed.
  Lemma split_sum (g : nat -> R) (x : nat -> R) th idx : rsum (map g (filter (below x th) idx)) + rsum (map g (filter (not_below x th) idx)) = rsum (map g idx).
  Proof. induction idx as [|i I IH]; [simpl; ring|]. cbn [filter]. assert (N : not_below x th i = negb (below x th i)) by (unfold below, not_below; destruct (Rlt_dec (x i) th); reflexivity). rewrite N. destruct (below x th i); cbn [negb map rsum]; lra. Qed.
  Lemma squares a c v w : 0 < v -> 0 < w -> (a + c) ^ 2 / (v + w) <= a ^ 2 / v + c ^ 2 / w.
  Proof.
    intros V0 W0. assert (Q : a ^ 2 / v + c ^ 2 / w - (a + c) ^ 2 / (v + w) = (a * w - c * v) ^ 2 / (v * w * (v + w))) by (field; lra).
    assert (0 <= (a * w - c * v) ^ 2 / (v * w * (v + w))) by (apply Rmult_le_pos; [apply pow2_ge_0|left; apply Rinv_0_lt_compat; repeat apply Rmult_lt_0_compat; lra]). lra.
  Qed.
  Lemma branch_left f th l r i : In f (s_features s) -> (i < s_n_sample s)%nat -> answer64 (FBr (mkSplitter (feat_name f) th) l r) s i = (if below (column f) th i then answer64 l s i else answer64 r s i).
  Proof.
    intros Hin Hi. unfold answer64. cbn [f_node_confidence]. rewrite (split_left_ok s G NN f th i Hin Hi). cbn [bind].
    assert (E : below (fval f) th i = below (column f) th i) by (unfold below, column; rewrite (feat_index_ok (s_n_sample s) f i); [reflexivity|pose proof (good_cols s G) as F; rewrite Forall_forall in F; apply F, Hin|exact Hi]). rewrite E.
    destruct (below (column f) th i); reflexivity.
  Qed.
  Lemma branch_edge f th l r idx : In f (s_features s) -> (forall i, In i idx -> (i < s_n_sample s)%nat) ->
    answer_edge (FBr (mkSplitter (feat_name f) th) l r) s dist idx = answer_edge l s dist (filter (below (column f) th) idx) + answer_edge r s dist (filter (not_below (column f) th) idx).
  Proof.
    intros Hin Hi. unfold answer_edge. induction idx as [|i I IH]; [simpl; ring|]. cbn [filter map rsum]. rewrite IH by (intros j Hj; apply Hi; right; exact Hj). rewrite branch_left by (auto; apply Hi; left; reflexivity).
    assert (N : not_below (column f) th i = negb (below (column f) th i)) by (unfold below, not_below; destruct (Rlt_dec (column f i) th); reflexivity). rewrite N.
    destruct (below (column f) th i); cbn [negb map rsum]; ring.
  Qed.
  Lemma leaf_edge c idx : rows_in idx -> finite_num c -> Rabs (val c - mean_label y dr idx) <= tol -> M idx ^ 2 / W idx - tol * W idx <= answer_edge (FLf c) s dist idx.
  Proof.
    intros R F A. pose proof (W_pos idx R) as W0. pose proof (M_le idx R) as B. unfold answer_edge, answer64. cbn [f_node_confidence].
    assert (E : rsum (map (fun i => dr i * y i * val c) idx) = M idx * val c) by (clear; induction idx as [|i I IH]; cbn [map rsum]; [ring|rewrite IH; ring]). rewrite E.
    unfold mean_label in A. change (M idx) with (rsum (map (fun i => dr i * y i) idx)) in *. set (m := rsum (map (fun i => dr i * y i) idx)) in *. set (w := TreeSpec.total dr idx) in *.
    replace (m * val c) with (m ^ 2 / w + m * (val c - m / w)) by (field; lra). assert (Q : Rabs (m * (val c - m / w)) <= w * tol) by (rewrite Rabs_mult; apply Rmult_le_compat; try apply Rabs_pos; assumption). apply Rabs_le_inv in Q. lra.
  Qed.
  Lemma tree_edge h : forall dep idx, rows_in idx -> nearly_greedy tol (s_features s) bm y dr h dep idx -> M idx ^ 2 / W idx - tol * W idx <= answer_edge h s dist idx.
  Proof.
    induction h as [c|rule l IHl r IHr]; intros dep idx R H; cbn [nearly_greedy] in H.
    - destruct H as [F [_ A]]. apply leaf_edge; assumption.
    - destruct H as [dep' [f [_ [Er [NB [Nl [Nr [Gl Gr]]]]]]]]. destruct rule as [nm th]. cbn [sp_feature sp_threshold] in *. subst nm. pose proof R as [_ Ri].
      rewrite branch_edge; [|apply NB|intros i Hi; apply Ri, Hi]. pose proof (rows_sub _ _ R Nl) as RL. pose proof (rows_sub _ _ R Nr) as RR. specialize (IHl dep' _ RL Gl). specialize (IHr dep' _ RR Gr).
      pose proof (W_pos _ RL) as WL. pose proof (W_pos _ RR) as WR. cbv beta in *. unfold TreeSpec.total in *. pose proof (split_sum (fun i => dr i * y i) (column f) th idx) as SM. pose proof (split_sum dr (column f) th idx) as SW. rewrite <- SM, <- SW.
      pose proof (squares (rsum (map (fun i => dr i * y i) (filter (below (column f) th) idx))) (rsum (map (fun i => dr i * y i) (filter (not_below (column f) th) idx))) _ _ WL WR) as SQ. lra.
  Qed.
  Lemma stump_split x th idx : stump_edge x y dr th idx = M (filter (not_below x th) idx) - M (filter (below x th) idx).
  Proof.
    cbv beta. unfold stump_edge, stump. induction idx as [|i I IH]; [simpl; ring|]. cbn [filter map rsum]. rewrite IH. unfold below at 2, not_below at 2. destruct (Rlt_dec (x i) th); cbn [map rsum]; ring.
  Qed.
  Lemma square_loss a e w c : 0 < w -> 0 <= tol <= 1 / 10000 -> 0 <= a <= w -> 0 <= e -> 0 <= c <= 5 -> a <= e + c * tol * w -> a ^ 2 / w <= e ^ 2 / w + 11 * tol * w.
  Proof.
    intros W0 Ht Ha He Hc H. apply (proj2 (Rdiv_le_iff _ _ _ W0)). replace ((e ^ 2 / w + 11 * tol * w) * w) with (e ^ 2 + 11 * (tol * (w * w))) by (field; lra).
    assert (WW : 0 <= w * w) by (apply Rmult_le_pos; lra). assert (TW : 0 <= tol * (w * w)) by (apply Rmult_le_pos; lra). set (q := c * tol * w) in *.
    destruct (Rle_or_lt a q) as [L|L].
    - assert (q * q <= a * 0 + 5 * tol * w * w). { unfold q. assert (c * tol * (c * tol) <= 5 * tol). { assert (c * tol <= 1) by (apply Rle_trans with (5 * (1 / 10000)); [apply Rmult_le_compat; lra|lra]). assert (0 <= c * tol) by (apply Rmult_le_pos; lra). assert (c * tol <= 5 * tol) by (apply Rmult_le_compat_r; lra). nra. }
        replace (c * tol * w * (c * tol * w)) with (c * tol * (c * tol) * (w * w)) by ring. replace (a * 0 + 5 * tol * w * w) with (5 * tol * (w * w)) by ring. apply Rmult_le_compat_r; assumption. }
      assert (a * a <= q * q) by (apply Rmult_le_compat; lra). assert (0 <= e ^ 2) by apply pow2_ge_0. replace (a ^ 2) with (a * a) by ring. lra.
    - assert (Q : (a - q) * (a - q) <= e * e) by (apply Rmult_le_compat; lra). assert (A1 : a * q <= 5 * (tol * (w * w))).
      { unfold q. apply Rle_trans with (w * (5 * tol * w)); [|right; ring]. apply Rmult_le_compat; try lra; [apply Rmult_le_pos; [apply Rmult_le_pos; lra|lra]|]. apply Rmult_le_compat_r; [lra|]. apply Rmult_le_compat_r; lra. }
      assert (0 <= q * q) by nra. replace (a ^ 2) with (a * a) by ring. replace (e ^ 2) with (e * e) by ring. nra.
  Qed.
  Lemma stump_le x th idx : rows_in idx -> 0 <= Rabs (stump_edge x y dr th idx) <= W idx.
  Proof.
    intros [_ H]. split; [apply Rabs_pos|]. unfold stump_edge, TreeSpec.total. cbn beta. induction idx as [|i I IH]; cbn [map rsum]; [rewrite Rabs_R0; lra|]. eapply Rle_trans; [apply Rabs_triang|]. apply Rplus_le_compat; [|apply IH; intros j Hj; apply H; right; exact Hj].
    destruct (H i (or_introl eq_refl)) as [H1 H2]. unfold stump. destruct (Hpm i H1) as [E|E]; unfold label; rewrite E; destruct (Rlt_dec (x i) th); apply Rabs_le; lra.
  Qed.
  (** the edge of a tree compared with the best stump *)
  Lemma root_edge h dep idx : 0 <= tol <= 1 / 10000 -> rows_in idx -> nearly_greedy tol (s_features s) bm y dr h dep idx ->
    (forall c, h = FLf c -> forall f' t', In f' (s_features s) -> offered bm f' t' -> Rabs (stump_edge (column f') y dr t' idx) <= Rabs (M idx) + 5 * tol * W idx) ->
    forall f' t', In f' (s_features s) -> offered bm f' t' -> (stump_edge (column f') y dr t' idx) ^ 2 / W idx - 12 * tol * W idx <= answer_edge h s dist idx.
  Proof.
    intros Ht R NG Leaf f' t' Hf' Ht'. pose proof (W_pos idx R) as W0. pose proof (stump_le (column f') t' idx R) as SL. rewrite <- (pow2_abs (stump_edge (column f') y dr t' idx)).
    destruct h as [c|rule l r].
    - specialize (Leaf c eq_refl f' t' Hf' Ht'). pose proof (tree_edge _ _ _ R NG) as TE. pose proof (square_loss (Rabs (stump_edge (column f') y dr t' idx)) (Rabs (M idx)) (W idx) 5 W0 Ht SL (Rabs_pos _) (conj (ltac:(lra):0<=5) (ltac:(lra):5<=5)) Leaf) as SQ. cbv beta in *. set (m := rsum (map (fun i => dr i * y i) idx)) in *. set (w := TreeSpec.total dr idx) in *. rewrite (pow2_abs m) in SQ. clearbody m w. clear Leaf NG R. set (q := Rabs (stump_edge (column f') y dr t' idx) ^ 2) in *. clearbody q. set (ae := answer_edge (FLf c) s dist idx) in *. clearbody ae. lra.
    - cbn [nearly_greedy] in NG. destruct NG as [dep' [f [_ [Er [NB [Nl [Nr [Gl Gr]]]]]]]]. destruct rule as [nm th]. cbn [sp_feature sp_threshold] in *. subst nm. pose proof R as [_ Ri].
      rewrite branch_edge; [|apply NB|intros i Hi; apply Ri, Hi]. pose proof (rows_sub _ _ R Nl) as RL. pose proof (rows_sub _ _ R Nr) as RR. pose proof (tree_edge l dep' _ RL Gl) as IL. pose proof (tree_edge r dep' _ RR Gr) as IR.
      pose proof (W_pos _ RL) as WL. pose proof (W_pos _ RR) as WR. pose proof (stump_split (column f) th idx) as SS. destruct NB as [_ [_ NB]]. specialize (NB f' t' Hf' Ht').
      pose proof (split_sum dr (column f) th idx) as SW. change (rsum (map dr idx)) with (W idx) in SW. change (rsum (map dr (filter (below (column f) th) idx))) with (W (filter (below (column f) th) idx)) in SW. change (rsum (map dr (filter (not_below (column f) th) idx))) with (W (filter (not_below (column f) th) idx)) in SW.
      cbv beta in *. set (W1 := TreeSpec.total dr (filter (below (column f) th) idx)) in *. set (W2 := TreeSpec.total dr (filter (not_below (column f) th) idx)) in *. set (w := TreeSpec.total dr idx) in *.
      set (M1 := rsum (map (fun i => dr i * y i) (filter (below (column f) th) idx))) in *. set (M2 := rsum (map (fun i => dr i * y i) (filter (not_below (column f) th) idx))) in *.
      assert (SQ := squares (- M1) M2 W1 W2 WL WR). replace (- M1 + M2) with (stump_edge (column f) y dr th idx) in SQ by (rewrite SS; ring). rewrite SW in SQ. replace ((- M1) ^ 2) with (M1 ^ 2) in SQ by ring.
      pose proof (square_loss (Rabs (stump_edge (column f') y dr t' idx)) (Rabs (stump_edge (column f) y dr th idx)) w 1 W0 Ht SL (Rabs_pos _) (conj (ltac:(lra):0<=1) (ltac:(lra):1<=5)) ltac:(lra)) as S3. rewrite (pow2_abs (stump_edge (column f) y dr th idx)) in S3. assert (tol * W1 + tol * W2 = tol * w) by (rewrite <- SW; ring). lra.
  Qed.
End Edge.

Lemma conf_ok s dist bm nb : good s -> NoDup (map feat_name (s_features s)) -> forall t dep idx, grown_near s dist bm nb t dep idx -> forall i, (i < s_n_sample s)%nat -> exists c, f_node_confidence (f_to_node t) s i = Ok c /\ confidence_value c.
Proof.
  intros G NN. induction t as [c0 w l|rule l IHl r IHr c0 w lo]; intros dep idx H i Hi; cbn [grown_near f_to_node f_node_confidence] in *; [exists c0; split; [reflexivity|apply H]|].
  destruct H as [_ [dep' [f [_ [Er [NB [_ [_ [Gl Gr]]]]]]]]]. destruct rule as [nm th]. cbn [sp_feature sp_threshold] in *. subst nm. rewrite (split_left_ok s G NN f th i (proj1 NB) Hi). cbn [bind].
  destruct (below (fval f) th i); [apply (IHl dep' _ Gl i Hi)|apply (IHr dep' _ Gr i Hi)].
Qed.

Lemma P_C96_edge_split :
  forall sched order fln s b t dist idx nb, summing sched -> some_order order ->
  trainable s -> dt_made s b -> tb_build b s = Ok t -> tb_criterion b = Edge -> pm_labels s -> length dist = fst (shape s) ->
  idx <> [] -> (length idx <= fst (shape s))%nat -> (forall i, In i idx -> (i < fst (shape s))%nat /\ finite_num (nth i dist f0) /\ 0 < weight64 dist i) ->
  TreeSpec.total (weight64 dist) idx < 2 ^ 1000 ->
  (forall f bins, In f (s_features s) -> sm_get (dt_bins t) (feat_name f) = Ok bins -> (length bins <= nb)%nat) ->
  INR (2 * fst (shape s) + nb) <= 2 ^ 32 ->
  exists f thr, f_best_split sched order fln (dt_criterion t) (dt_bins t) s dist idx = Ok (feat_name f, thr) /\
    nearly_best (128 * INR (2 * fst (shape s) + nb) * uu) (s_features s) (dt_bins t) (label s) (weight64 dist) f thr idx.
Proof.
  intros sched order fln s b t dist idx nb Hs Ho Tr Mb Eb Ec Hpm Hd Ne Ll Hi HT HB HK. destruct (setup s b t nb Tr Mb Eb HB) as [G [NN [Hf [Ht [Hv [Hb [C1 _]]]]]]]. cbn [shape fst] in *.
  rewrite C1, Ec. apply best_near; auto. split; [exact Ne|]. split; [exact Ll|]. split; [exact Hi|exact HT].
Qed.

Lemma rows_pos dist n : length dist = n -> (forall x, In x dist -> finite_num x /\ 0 <= val x) -> filter (fun i => flt f0 (nth i dist f0)) (seq 0 n) = weighted_rows dist n.
Proof.
  intros Hd Hx. unfold weighted_rows. apply filter_ext_in'. intros i Hi. apply in_seq in Hi. assert (F : fin (nth i dist f0)) by (apply Hx, nth_In; lia). unfold weight64.
  destruct (Rlt_dec 0 (val (nth i dist f0))) as [L|L]; [apply flt_true; [reflexivity|exact F|rewrite val_f0; exact L]|]. apply not_true_is_false. intros Q. apply (flt_true f0 _ eq_refl F) in Q. rewrite val_f0 in Q. contradiction.
Qed.

Lemma total_rows dist n : length dist = n -> (forall x, In x dist -> finite_num x /\ 0 <= val x) -> TreeSpec.total (weight64 dist) (weighted_rows dist n) = FloatSpec.total dist.
Proof.
  intros Hd Hx. unfold TreeSpec.total, weighted_rows. assert (Q : forall I, (forall i, In i I -> (i < n)%nat) -> rsum (map (weight64 dist) (filter (fun i => if Rlt_dec 0 (weight64 dist i) then true else false) I)) = rsum (map (weight64 dist) I)).
  { induction I as [|i I IH]; intros HI; [reflexivity|]. cbn [filter]. destruct (Rlt_dec 0 (weight64 dist i)); cbn [map rsum]; rewrite IH by (intros; apply HI; right; assumption); [reflexivity|].
    assert (0 <= weight64 dist i) by (apply Hx, nth_In; rewrite Hd; apply HI; left; reflexivity). lra. }
  rewrite Q by (intros i Hi; apply in_seq in Hi; lia). subst n. clear. replace (map (weight64 dist) (seq 0 (length dist))) with (map val (map (fun i => nth i dist f0) (seq 0 (length dist)))) by (rewrite map_map; reflexivity). rewrite map_nth_seq. reflexivity.
Qed.

Lemma P_C96_tree_nearly_greedy :
  forall sched order fln s b t dist nb, summing sched -> some_order order ->
  trainable s -> dt_made s b -> tb_build b s = Ok t -> tb_criterion b = Edge -> pm_labels s -> length dist = fst (shape s) ->
  (forall x, In x dist -> finite_num x /\ 0 <= val x) -> (exists x, In x dist /\ 0 < val x) -> FloatSpec.total dist < 2 ^ 1000 ->
  (forall f bins, In f (s_features s) -> sm_get (dt_bins t) (feat_name f) = Ok bins -> (length bins <= nb)%nat) ->
  INR (2 * fst (shape s) + nb) <= 2 ^ 32 ->
  let tol := 128 * INR (2 * fst (shape s) + nb) * uu in let I := weighted_rows dist (fst (shape s)) in
  exists h, f_dt_produce sched order fln t s dist = Ok h /\
    nearly_greedy tol (s_features s) (dt_bins t) (label s) (weight64 dist) h (tb_depth b) I /\
    answer_edge h s dist I >= (rsum (map (fun i => weight64 dist i * label s i) I)) ^ 2 / FloatSpec.total dist - tol * FloatSpec.total dist.
Proof.
  intros sched order fln s b t dist nb Hs Ho Tr Mb Eb Ec Hpm Hd Hx [x0 [I0 P0]] HT HB HK tol I. destruct (setup s b t nb Tr Mb Eb HB) as [G [NN [Hf [Ht [Hv [Hb [C1 [C2 C3]]]]]]]]. cbn [shape fst] in *.
  unfold f_dt_produce, f_positive_rows. cbn [shape fst]. rewrite (proj2 (Nat.leb_le (s_n_sample s) (length dist))) by lia. cbn [bind]. rewrite (rows_pos dist (s_n_sample s) Hd Hx). fold I.
  assert (Hi : forall i, In i I <-> (i < s_n_sample s)%nat /\ 0 < weight64 dist i) by (intros i; unfold I, weighted_rows; rewrite filter_In, in_seq; destruct (Rlt_dec 0 (weight64 dist i)); split; intros [Q1 Q2]; split; (lia || lra || congruence || auto)).
  assert (Ne : I <> []). { destruct (In_nth dist x0 f0 I0) as [i [L E]]. intros Q. assert (In i I) as Ii by (apply Hi; split; [lia|unfold weight64; rewrite E; exact P0]). rewrite Q in Ii. destruct Ii. }
  assert (Nn : is_nil I = false) by (destruct I; [congruence|reflexivity]). rewrite Nn. cbn [negb assert_ bind]. rewrite C1, C2, Ec.
  assert (Ll : (length I <= s_n_sample s)%nat) by (unfold I, weighted_rows; eapply Nat.le_trans; [apply filter_le_len|rewrite seq_length; lia]).
  assert (U : usable s dist I). { split; [exact Ne|]. split; [exact Ll|]. split; [|unfold I; rewrite (total_rows dist _ Hd Hx); exact HT]. intros i Q. apply Hi in Q. destruct Q as [Q1 Q2]. split; [exact Q1|]. split; [apply Hx, nth_In; lia|exact Q2]. }
  destruct (tree_near sched order fln Hs Ho s dist (dt_bins t) nb G NN Hf Ht Hd Hv Hb HK Hpm (tb_depth b) I U) as [T [ET GT]]. rewrite ET. cbn [bind].
  pose proof (near_node s dist (dt_bins t) nb _ _ _ (redundant_near s dist (dt_bins t) nb T _ _ GT)) as NG. eexists. split; [reflexivity|]. split; [exact NG|].
  apply Rle_ge. rewrite <- (total_rows dist _ Hd Hx). apply (tree_edge s dist (dt_bins t) tol G NN Hpm) with (dep := tb_depth b).
  - split; [exact Ne|]. intros i Q. apply Hi in Q. exact Q.
  - exact NG.
Qed.

(** ** a weak learning guarantee *)
Lemma P_C96_edge_of_best_stump :
  forall sched order fln s b t dist nb, summing sched -> some_order order ->
  trainable s -> dt_made s b -> tb_build b s = Ok t -> tb_criterion b = Edge -> pm_labels s -> length dist = fst (shape s) ->
  (forall x, In x dist -> finite_num x /\ 0 <= val x) -> / 2 ^ 200 <= FloatSpec.total dist <= 2 ^ 200 ->
  (forall f bins, In f (s_features s) -> sm_get (dt_bins t) (feat_name f) = Ok bins -> (length bins <= nb)%nat) ->
  INR (2 * fst (shape s) + nb) <= 2 ^ 32 ->
  let tol := 128 * INR (2 * fst (shape s) + nb) * uu in let I := weighted_rows dist (fst (shape s)) in
  exists h, f_dt_produce sched order fln t s dist = Ok h /\
    (forall i, (i < fst (shape s))%nat -> exists c, f_node_confidence h s i = Ok c /\ confidence_value c) /\
    forall f th, In f (s_features s) -> offered (dt_bins t) f th ->
      answer_edge h s dist I >= (stump_edge (column f) (label s) (weight64 dist) th I) ^ 2 / FloatSpec.total dist - 12 * tol * FloatSpec.total dist.
Proof.
  intros sched order fln s b t dist nb Hs Ho Tr Mb Eb Ec Hpm Hd Hx HT HB HK tol I. destruct (setup s b t nb Tr Mb Eb HB) as [G [NN [Hf [Ht [Hv [Hb [C1 [C2 C3]]]]]]]]. cbn [shape fst] in *.
  unfold f_dt_produce, f_positive_rows. cbn [shape fst]. rewrite (proj2 (Nat.leb_le (s_n_sample s) (length dist))) by lia. cbn [bind]. rewrite (rows_pos dist (s_n_sample s) Hd Hx). fold I.
  assert (Hi : forall i, In i I <-> (i < s_n_sample s)%nat /\ 0 < weight64 dist i) by (intros i; unfold I, weighted_rows; rewrite filter_In, in_seq; destruct (Rlt_dec 0 (weight64 dist i)); split; intros [Q1 Q2]; split; (lia || lra || congruence || auto)).
  assert (TI : TreeSpec.total (weight64 dist) I = FloatSpec.total dist) by (unfold I; apply (total_rows dist _ Hd Hx)).
  assert (P200 : 0 < / 2 ^ 200) by (apply Rinv_0_lt_compat, pow_lt; lra).
  assert (Ne : I <> []) by (intros Q; rewrite Q in TI; unfold TreeSpec.total in TI; cbn [map rsum] in TI; lra).
  assert (Nn : is_nil I = false) by (destruct I; [congruence|reflexivity]). rewrite Nn. cbn [negb assert_ bind]. rewrite C1, C2, Ec.
  assert (Ll : (length I <= s_n_sample s)%nat) by (unfold I, weighted_rows; eapply Nat.le_trans; [apply filter_le_len|rewrite seq_length; lia]).
  assert (U : usable s dist I). { split; [exact Ne|]. split; [exact Ll|]. split; [|rewrite TI; eapply Rle_lt_trans; [apply HT|apply Rlt_pow; [lra|lia]]]. intros i Q. apply Hi in Q. destruct Q as [Q1 Q2]. split; [exact Q1|]. split; [apply Hx, nth_In; lia|exact Q2]. }
  destruct (tb_depth b) as [|k] eqn:Ed; [lia|].
  destruct (root_near sched order fln Hs Ho s dist (dt_bins t) nb G NN Hf Ht Hd Hv Hb HK Hpm k I U) as [T [ET [GT RT]]]; [rewrite TI; exact HT|]. rewrite ET. cbn [bind].
  pose proof (redundant_near s dist (dt_bins t) nb T _ _ GT) as GR. pose proof (near_node s dist (dt_bins t) nb _ _ _ GR) as NG. eexists. split; [reflexivity|]. split.
  - intros i Q. destruct (conf_ok s dist (dt_bins t) nb G NN _ _ _ GR i Q) as [c [E1 E2]]. exists c. split; assumption.
  - intros f th Hin Hof. apply Rle_ge. rewrite <- TI. destruct (tol_pos s dist nb Ht Hd HK I U) as [TP1 TP2]. pose proof uu_pos.
    apply (root_edge s dist (dt_bins t) tol G NN Hpm) with (dep := S k); try assumption.
    + fold tol in TP1, TP2. lra.
    + split; [exact Ne|]. intros i Q. apply Hi in Q. exact Q.
    + intros c Ec' f' t' Hf' Ht'. destruct (f_remove_redundant T) as [c' w' l'|]; [|discriminate]. specialize (RT f' t' Hf' Ht'). unfold tol. exact RT.
Qed.

(** ** a case that meets the hypotheses *)
Lemma gx_edge_case sched order fln : summing sched -> some_order order -> exists h, f_dt_produce sched order fln (gx_tree Edge) gx_sample gx_even = Ok h /\
  nearly_greedy (128 * INR (2 * 3 + 3) * uu) (s_features gx_sample) (dt_bins (gx_tree Edge)) (label gx_sample) (weight64 gx_even) h 2 (weighted_rows gx_even 3).
Proof.
  intros Hs Ho. assert (V : val (dyad 1 (-2)) = / 4 /\ fin (dyad 1 (-2)) /\ val (dyad 1 (-1)) = / 2 /\ fin (dyad 1 (-1))).
  { unfold dyad. destruct (normalize_exact 1 (-2)) as [F1 V1]; [reflexivity|lia|]. destruct (normalize_exact 1 (-1)) as [F2 V2]; [reflexivity|lia|]. rewrite V1, V2. split; [simpl; lra|]. split; [exact F1|]. split; [simpl; lra|exact F2]. }
  destruct V as [V1 [F1 [V2 F2]]]. assert (T : FloatSpec.total gx_even = 1) by (unfold gx_even; rewrite !total_cons, V1, V2; unfold FloatSpec.total; simpl; lra).
  assert (W : forall x, In x gx_even -> finite_num x /\ / 4 <= val x) by (intros x [<- |[<- |[<- |[]]]]; split; try assumption; lra).
  destruct (P_C96_tree_nearly_greedy sched order fln gx_sample (gx_builder Edge) (gx_tree Edge) gx_even 3 Hs Ho gx_trainable (gx_made Edge) (gx_built Edge)) as [h [E [N _]]].
  - reflexivity.
  - exact gx_pm.
  - reflexivity.
  - intros x Hx. destruct (W x Hx). split; [assumption|lra].
  - exists (dyad 1 (-1)). split; [right; right; left; reflexivity|lra].
  - rewrite T. apply Rlt_pow_R1; [lra|lia].
  - intros f bins [<- |[]] E. change (sm_get (dt_bins (gx_tree Edge)) _) with (Ok gx_bins : res (list bin)) in E. inversion E; subst bins. simpl. lia.
  - simpl. lra.
  - exists h. split; [exact E|exact N].
Qed.
Example C96_tree_nearly_greedy_applies : forall sched order fln, summing sched -> some_order order ->
  exists h, f_dt_produce sched order fln (gx_tree Edge) gx_sample gx_even = Ok h /\
  nearly_greedy (128 * INR (2 * 3 + 3) * uu) (s_features gx_sample) (dt_bins (gx_tree Edge)) (label gx_sample) (weight64 gx_even) h 2 (weighted_rows gx_even 3).
Proof. exact gx_edge_case. Qed.

Lemma gx_stump_case sched order fln : summing sched -> some_order order -> exists h, f_dt_produce sched order fln (gx_tree Edge) gx_sample gx_even = Ok h /\
  forall f th, In f (s_features gx_sample) -> offered (dt_bins (gx_tree Edge)) f th ->
    answer_edge h gx_sample gx_even (weighted_rows gx_even 3) >= (stump_edge (column f) (label gx_sample) (weight64 gx_even) th (weighted_rows gx_even 3)) ^ 2 / FloatSpec.total gx_even - 12 * (128 * INR (2 * 3 + 3) * uu) * FloatSpec.total gx_even.
Proof.
  intros Hs Ho. assert (V : val (dyad 1 (-2)) = / 4 /\ fin (dyad 1 (-2)) /\ val (dyad 1 (-1)) = / 2 /\ fin (dyad 1 (-1))).
  { unfold dyad. destruct (normalize_exact 1 (-2)) as [F1 V1]; [reflexivity|lia|]. destruct (normalize_exact 1 (-1)) as [F2 V2]; [reflexivity|lia|]. rewrite V1, V2. split; [simpl; lra|]. split; [exact F1|]. split; [simpl; lra|exact F2]. }
  destruct V as [V1 [F1 [V2 F2]]]. assert (T : FloatSpec.total gx_even = 1) by (unfold gx_even; rewrite !total_cons, V1, V2; unfold FloatSpec.total; simpl; lra).
  assert (W : forall x, In x gx_even -> finite_num x /\ / 4 <= val x) by (intros x [<- |[<- |[<- |[]]]]; split; try assumption; lra).
  destruct (P_C96_edge_of_best_stump sched order fln gx_sample (gx_builder Edge) (gx_tree Edge) gx_even 3 Hs Ho gx_trainable (gx_made Edge) (gx_built Edge)) as [h [E [_ N]]].
  - reflexivity.
  - exact gx_pm.
  - reflexivity.
  - intros x Hx. destruct (W x Hx). split; [assumption|lra].
  - rewrite T. assert (1 <= 2 ^ 200) by (apply pow_R1_Rle; lra). split; [|assumption]. rewrite <- Rinv_1. apply Rinv_le_contravar; lra.
  - intros f bins [<- |[]] E. change (sm_get (dt_bins (gx_tree Edge)) _) with (Ok gx_bins : res (list bin)) in E. inversion E; subst bins. simpl. lia.
  - simpl. lra.
  - exists h. split; [exact E|exact N].
Qed.
Example C96_edge_of_best_stump_applies : forall sched order fln, summing sched -> some_order order ->
  exists h, f_dt_produce sched order fln (gx_tree Edge) gx_sample gx_even = Ok h /\
  forall f th, In f (s_features gx_sample) -> offered (dt_bins (gx_tree Edge)) f th ->
    answer_edge h gx_sample gx_even (weighted_rows gx_even 3) >= (stump_edge (column f) (label gx_sample) (weight64 gx_even) th (weighted_rows gx_even 3)) ^ 2 / FloatSpec.total gx_even - 12 * (128 * INR (2 * 3 + 3) * uu) * FloatSpec.total gx_even.
Proof. exact gx_stump_case. Qed.
