(** Proofs about the regression tree learner. *)
From Coq Require Import String.
From Verif Require Import Base Spec BinSearch Feature Sample SampleSpec FeatureFacts SampleFacts Bins BinsSpec BinsProofs TreeSpec DTree TreeShape DTreeProofs DTreeSplit DTreeBest DTreeGrow DTreeOut Losses RTree RTreeSpec.
Open Scope R_scope.

Definition PG (l : list (bin * gh)) : R := rsum (map (fun q => fst (snd q)) l).
Definition PH (l : list (bin * gh)) : R := rsum (map (fun q => snd (snd q)) l).

Lemma quot_ok a b : b <> 0 -> quot a b = Ok (Some (a / b)).
Proof. intros H. unfold quot. rewrite Reqb_false by exact H. reflexivity. Qed.

Lemma score_loop_spec lambda pack : forall GL HL GR HR best thr,
  (forall k, (k < length pack)%nat -> 0 < HL + PH (firstn (S k) pack) + lambda) ->
  (forall k, (k < length pack)%nat -> 0 < HR - PH (firstn (S k) pack) + lambda \/ (HR - PH (firstn (S k) pack) + lambda = 0 /\ GR - PG (firstn (S k) pack) = 0)) ->
  let sc k := (GL + PG (firstn (S k) pack)) ^ 2 / (HL + PH (firstn (S k) pack) + lambda) + (GR - PG (firstn (S k) pack)) ^ 2 / (HR - PH (firstn (S k) pack) + lambda) in
  let ok k := (k < length pack)%nat /\ 0 < HR - PH (firstn (S k) pack) + lambda in
  exists t b, score_loop lambda pack GL HL GR HR best thr = Ok (t, b) /\ best <= b /\ (forall k, ok k -> sc k <= b) /\
    ((t = thr /\ b = best) \/ exists k, ok k /\ t = b_end (fst (nth k pack (b0, (0, 0)))) /\ b = sc k).
Proof.
  induction pack as [|[b [pg ph]] pack IH]; intros GL HL GR HR best thr H1 H2 sc ok; cbn [score_loop]; cbv zeta.
  - exists thr, best. split; [reflexivity|]. split; [lra|]. split; [intros k [Hk _]; simpl in Hk; lia|]. left. split; reflexivity.
  - assert (Eg : forall k, PG (firstn (S (S k)) ((b, (pg, ph)) :: pack)) = pg + PG (firstn (S k) pack)) by (intros k; reflexivity).
    assert (Eh : forall k, PH (firstn (S (S k)) ((b, (pg, ph)) :: pack)) = ph + PH (firstn (S k) pack)) by (intros k; reflexivity).
    assert (Eg0 : PG (firstn 1 ((b, (pg, ph)) :: pack)) = pg) by (unfold PG; simpl; lra).
    assert (Eh0 : PH (firstn 1 ((b, (pg, ph)) :: pack)) = ph) by (unfold PH; simpl; lra).
    cbn [fst snd]. pose proof (H1 0%nat ltac:(simpl; lia)) as A1. rewrite Eh0 in A1. pose proof (H2 0%nat ltac:(simpl; lia)) as A2. rewrite Eh0, Eg0 in A2.
    unfold score_term. rewrite (quot_ok _ (HL + ph + lambda)) by lra. cbn [bind].
    assert (Q1 : forall k, (k < length pack)%nat -> 0 < (HL + ph) + PH (firstn (S k) pack) + lambda).
    { intros k Hk. specialize (H1 (S k) ltac:(simpl; lia)). rewrite Eh in H1. lra. }
    assert (Q2 : forall k, (k < length pack)%nat -> 0 < (HR - ph) - PH (firstn (S k) pack) + lambda \/ ((HR - ph) - PH (firstn (S k) pack) + lambda = 0 /\ (GR - pg) - PG (firstn (S k) pack) = 0)).
    { intros k Hk. specialize (H2 (S k) ltac:(simpl; lia)). rewrite Eh, Eg in H2. destruct H2 as [H2|[H2 H2']]; [left; lra|right; lra]. }
    assert (Esc : forall k, (GL + pg + PG (firstn (S k) pack)) ^ 2 / (HL + ph + PH (firstn (S k) pack) + lambda) + (GR - pg - PG (firstn (S k) pack)) ^ 2 / (HR - ph - PH (firstn (S k) pack) + lambda) = sc (S k)).
    { intros k. unfold sc. rewrite Eg, Eh. f_equal; f_equal; f_equal; ring. }
    assert (Eok : forall k, ((k < length pack)%nat /\ 0 < HR - ph - PH (firstn (S k) pack) + lambda) <-> ok (S k)).
    { intros k. unfold ok. rewrite Eh. simpl. split; intros [A B]; (split; [lia|lra]). }
    assert (Sc0 : sc 0%nat = (GL + pg) ^ 2 / (HL + ph + lambda) + (GR - pg) ^ 2 / (HR - ph + lambda)) by (unfold sc; rewrite Eg0, Eh0; reflexivity).
    assert (Step : forall best' thr', best <= best' -> (ok 0%nat -> sc 0%nat <= best') -> ((thr' = thr /\ best' = best) \/ (ok 0%nat /\ thr' = b_end b /\ best' = sc 0%nat)) ->
      exists t bb, score_loop lambda pack (GL + pg) (HL + ph) (GR - pg) (HR - ph) best' thr' = Ok (t, bb) /\ best <= bb /\ (forall k, ok k -> sc k <= bb) /\
        ((t = thr /\ bb = best) \/ exists k, ok k /\ t = b_end (fst (nth k ((b, (pg, ph)) :: pack) (b0, (0, 0)))) /\ bb = sc k)).
    { intros best' thr' Hb Hs0 Hd. destruct (IH (GL + pg) (HL + ph) (GR - pg) (HR - ph) best' thr' Q1 Q2) as [t [bb [E [B1 [B2 B3]]]]]. cbv zeta in *.
      exists t, bb. split; [exact E|]. split; [lra|]. split.
      - intros [|k] Hk; [specialize (Hs0 Hk); lra|]. rewrite <- Esc. apply B2. apply Eok, Hk.
      - destruct B3 as [[-> ->]|[k [Hk [-> ->]]]].
        + destruct Hd as [[-> ->]|[D1 [-> ->]]]; [left; split; reflexivity|]. right. exists 0%nat. split; [exact D1|]. split; reflexivity.
        + right. exists (S k). split; [apply Eok, Hk|]. split; [reflexivity|]. apply Esc. }
    destruct A2 as [A2|[A2 A3]].
    + rewrite (quot_ok _ (HR - ph + lambda)) by lra. cbn [bind].
      assert (O0 : ok 0%nat) by (unfold ok; rewrite Eh0; split; [simpl; lia|exact A2]).
      destruct (Rltb_spec best ((GL + pg) ^ 2 / (HL + ph + lambda) + (GR - pg) ^ 2 / (HR - ph + lambda))) as [L|L].
      * apply Step; [lra| |]; rewrite Sc0; [intros _; lra|right; auto].
      * apply Step; [lra| |]; rewrite Sc0; [intros _; lra|left; auto].
    + unfold quot. rewrite Reqb_true by exact A2. rewrite Reqb_true by (rewrite A3; ring). cbn [bind].
      apply Step; [lra| |left; auto]. intros [_ H]. rewrite Eh0 in H. lra.
Qed.

Lemma gh_fold (gf hf : nat -> R) I p : fold_left (fun p i => (fst p + gf i, snd p + hf i)) I p = (fst p + total gf I, snd p + total hf I).
Proof.
  revert p. induction I as [|i I IH]; intros [a b]; simpl; [unfold total; simpl; f_equal; lra|]. rewrite IH. simpl. unfold total. simpl. f_equal; lra.
Qed.

(** splitting never lowers the score when nothing is added for the regularisation *)
Lemma frac_two a b p q : 0 < p -> 0 < q -> (a + b) ^ 2 / (p + q) <= a ^ 2 / p + b ^ 2 / q.
Proof.
  intros Hp Hq. assert (E : a ^ 2 / p + b ^ 2 / q - (a + b) ^ 2 / (p + q) = (a * q - b * p) ^ 2 / (p * q * (p + q))) by (field; lra).
  assert (0 <= (a * q - b * p) ^ 2 / (p * q * (p + q))); [|lra]. apply Rmult_le_pos; [apply pow2_ge_0|]. left. apply Rinv_0_lt_compat. repeat apply Rmult_lt_0_compat; lra.
Qed.

Section RT.
  Variables (s : sample) (g h : list R) (bm : list (string * list bin)) (lambda : R).
  Let n := s_n_sample s.
  Let gf i := nth i g 0.
  Let hf i := nth i h 0.
  Hypothesis G : good s.
  Hypothesis NN : NoDup (map feat_name (s_features s)).
  Hypothesis Hf : s_features s <> [].
  Hypothesis Hg : length g = n.
  Hypothesis Hh : length h = n.
  Hypothesis Hv : forall f i, In f (s_features s) -> (i < n)%nat -> F64MIN <= fval f i < F64MAX.
  Hypothesis Hb : forall f, In f (s_features s) -> exists bins, sm_get bm (feat_name f) = Ok bins /\ chain F64MIN F64MAX bins.
  Hypothesis Hl : 0 <= lambda.

  Definition grows (idx : list nat) : Prop := idx <> [] /\ forall i, In i idx -> (i < n)%nat /\ 0 < hf i.

  Lemma grows_pos idx I : grows idx -> incl I idx -> I <> [] -> 0 < total hf I.
  Proof. intros [_ H] HI Hne. apply total_pos'; [exact Hne|]. intros i Hi. apply H, HI, Hi. Qed.

  Lemma rt_pack_spec bins f idx : chain F64MIN F64MAX bins -> In f (s_features s) -> grows idx -> exists out e',
    rt_pack bins idx f g h = Ok out /\ F64MIN < e' <= F64MAX /\ chain F64MIN e' (map fst out) /\ out <> [] /\
    (forall i, In i idx -> F64MIN <= fval f i < e') /\
    (forall b m, In (b, m) out -> m = (total gf (filter (fun i => bin_contains b (fval f i)) idx), total hf (filter (fun i => bin_contains b (fval f i)) idx)) /\ exists i, In i idx /\ in_bin b (fval f i)) /\
    (forall b, In b bins -> exists t, In t (F64MIN :: map (fun o => b_end (fst o)) out) /\ forall i, In i idx -> (fval f i < b_end b <-> fval f i < t)) /\
    (forall b m, In (b, m) out -> exists b', In b' bins /\ forall i, In i idx -> (fval f i < b_end b <-> fval f i < b_end b')).
  Proof.
    intros C Hin [Hne HI]. unfold rt_pack.
    assert (Hcol : col_ok n f) by (pose proof (good_cols s G) as F; rewrite Forall_forall in F; apply F, Hin).
    destruct (pack_loop_spec (rt_add g h) (fun i p => (fst p + gf i, snd p + hf i)) (0, 0) bins f (fval f) F64MIN F64MAX C idx (repeat (0, 0) (length bins))) as [packs [E [L N]]].
    { intros i Hi. destruct (HI i Hi) as [L _]. split; [apply (feat_index_ok n); assumption|]. split; [apply Hv; assumption|]. intros p. unfold rt_add.
      rewrite get_ok by (rewrite Hg; exact L). cbn [bind]. rewrite get_ok by (rewrite Hh; exact L). reflexivity. }
    { apply repeat_length. }
    rewrite E. cbn [bind].
    destruct (packed (P := gh) (fun i p => (fst p + gf i, snd p + hf i)) (0, 0) gh_zero bins packs (fval f) idx F64MIN F64MAX C Hne) as [out [e' [Eo [He [Hc [Ha [Hp [Hs Hr]]]]]]]].
    { intros i Hi. apply Hv; [exact Hin|apply HI, Hi]. }
    { exact L. }
    { intros k Hk. rewrite N by exact Hk. rewrite nth_repeat_lt by exact Hk. reflexivity. }
    { intros I HII. rewrite gh_fold. cbn [fst snd]. destruct I as [|i I].
      - unfold gh_zero, total. simpl. rewrite !Reqb_true by lra. reflexivity.
      - unfold gh_zero. cbn [fst snd]. pose proof (grows_pos idx (i :: I) (conj Hne HI) HII ltac:(discriminate)) as P. rewrite (Reqb_false (0 + total hf (i :: I))) by lra. apply andb_false_r. }
    exists out, e'. split; [exact Eo|]. split; [exact He|]. split; [exact Hc|]. split.
    { intros E0. rewrite E0 in Hc. simpl in Hc. lra. }
    split; [exact Ha|]. split; [|split; [exact Hs|exact Hr]].
    intros b m Hbm. destruct (Hp b m Hbm) as [-> Hi]. split; [|exact Hi]. rewrite gh_fold. cbn [fst snd]. f_equal; lra.
  Qed.

  Notation score := (split_score gf hf lambda).

  Lemma side_score_real I : side_score gf hf lambda I = (total gf I) ^ 2 / (total hf I + lambda).
  Proof. destruct I as [|i I]; [|reflexivity]. unfold side_score, total. simpl. unfold Rdiv. ring. Qed.

  Lemma score_ext x x' t t' idx : (forall i, In i idx -> (x i < t <-> x' i < t')) -> score x t idx = score x' t' idx.
  Proof. intros H. destruct (below_filter_ext x x' t t' idx H) as [E1 E2]. unfold split_score. rewrite E1, E2. reflexivity. Qed.

  Lemma side_nonneg idx I : grows idx -> incl I idx -> 0 <= side_score gf hf lambda I.
  Proof.
    intros Hr HI. destruct I as [|i I]; [simpl; lra|]. pose proof (grows_pos idx (i :: I) Hr HI ltac:(discriminate)). unfold side_score.
    apply Rmult_le_pos; [apply pow2_ge_0|left; apply Rinv_0_lt_compat; lra].
  Qed.

  Lemma below_all (x : nat -> R) t idx : (forall i, In i idx -> x i < t) -> filter (below x t) idx = idx /\ filter (not_below x t) idx = [].
  Proof.
    induction idx as [|i I IH]; intros H; simpl; [split; reflexivity|]. destruct (IH ltac:(intros j Hj; apply H; right; exact Hj)) as [A B].
    unfold below at 1, not_below at 1. destruct (Rlt_dec (x i) t) as [L|L]; [rewrite A, B; split; reflexivity|exfalso; apply L, H; left; reflexivity].
  Qed.
  Lemma below_none (x : nat -> R) t idx : (forall i, In i idx -> t <= x i) -> filter (below x t) idx = [] /\ filter (not_below x t) idx = idx.
  Proof.
    induction idx as [|i I IH]; intros H; simpl; [split; reflexivity|]. destruct (IH ltac:(intros j Hj; apply H; right; exact Hj)) as [A B].
    unfold below at 1, not_below at 1. destruct (Rlt_dec (x i) t) as [L|L]; [pose proof (H i (or_introl eq_refl)); lra|rewrite A, B; split; reflexivity].
  Qed.

  Lemma firstn_sub {A} (l : list A) k x : In x (firstn k l) -> In x l.
  Proof. rewrite <- (firstn_skipn k l) at 2. intros H. apply in_or_app. left. exact H. Qed.

  (** one feature: the scan finds the best of the boundaries of the packed bins and of "no split" *)
  Lemma scan_spec bins f idx : chain F64MIN F64MAX bins -> sm_get bm (feat_name f) = Ok bins -> In f (s_features s) -> grows idx -> exists pack t b,
    rt_pack bins idx f g h = Ok pack /\ best_split_at pack lambda = Ok (t, b) /\
    (exists t0, offered bm f t0 /\ forall i, In i idx -> (fval f i < t <-> fval f i < t0)) /\
    (forall t', offered bm f t' -> score (fval f) t' idx <= score (fval f) t idx) /\
    ((b = score (fval f) t idx /\ side_score gf hf lambda idx <= b) \/ (b = F64MIN /\ forall t', offered bm f t' -> score (fval f) t' idx = side_score gf hf lambda idx)).
  Proof.
    intros C Eb Hin Hr. destruct (rt_pack_spec bins f idx C Hin Hr) as [out [e' [E [He [C' [Hon [Hx [Hm [Hto Hfrom]]]]]]]]].
    set (thr := fun k => b_end (fst (nth k out (b0, (0, 0))))).
    assert (Key : forall k, (k < length out)%nat ->
      PG (firstn (S k) out) = total gf (filter (below (fval f) (thr k)) idx) /\ PH (firstn (S k) out) = total hf (filter (below (fval f) (thr k)) idx)).
    { intros k Hk.
      assert (Em : forall (gg : nat -> R) (sel : gh -> R), (forall b m, In (b, m) out -> sel m = total gg (filter (fun i => bin_contains b (fval f i)) idx)) ->
        rsum (map (fun q => sel (snd q)) (firstn (S k) out)) = total gg (filter (below (fval f) (thr k)) idx)).
      { intros gg sel Hsel.
        assert (E1 : rsum (map (fun q => sel (snd q)) (firstn (S k) out)) = rsum (map (fun b => sum_where gg (fun i => bin_contains b (fval f i)) idx) (firstn (S k) (map fst out)))).
        { rewrite firstn_map, map_map. apply rsum_map_ext. intros [b m] Hbm. apply (Hsel b m). eapply firstn_sub; exact Hbm. }
        rewrite E1. rewrite (prefix_sum (fval f) gg (map fst out) F64MIN e' idx k C' (fun i Hi => proj1 (Hx i Hi))) by (rewrite map_length; exact Hk).
        rewrite (nth_map_in fst _ _ (b0, (0, 0)) b0) by exact Hk. reflexivity. }
      split; [apply (Em gf fst)|apply (Em hf snd)]; intros b m Hbm; destruct (Hm b m Hbm) as [-> _]; reflexivity. }
    set (last := (length out - 1)%nat). assert (Hlast : (last < length out)%nat) by (unfold last; destruct out; [congruence|simpl; lia]).
    assert (Elast : thr last = e').
    { unfold thr. rewrite <- (nth_map_in fst _ _ (b0, (0, 0)) b0) by exact Hlast. unfold last. rewrite <- (map_length fst out). apply (chain_last _ _ _ C'). destruct out; [congruence|discriminate]. }
    destruct (below_all (fval f) e' idx (fun i Hi => proj2 (Hx i Hi))) as [BA1 BA2].
    assert (Etot : PG out = total gf idx /\ PH out = total hf idx).
    { destruct (Key last Hlast) as [K1 K2]. rewrite Elast, BA1 in K1, K2. replace (S last) with (length out) in K1, K2 by lia. rewrite firstn_all in K1, K2. auto. }
    destruct Etot as [ETG ETH].
    assert (Lne : forall k, (k < length out)%nat -> filter (below (fval f) (thr k)) idx <> []).
    { intros k Hk E0. assert (Hin2 : In (nth k out (b0, (0, 0))) out) by (apply nth_In, Hk). unfold thr in E0. destruct (nth k out (b0, (0, 0))) as [b m]. destruct (Hm b m Hin2) as [_ [i [Hi [_ Hi2]]]].
      assert (Hc : In i (filter (below (fval f) (b_end b)) idx)) by (apply filter_In; split; [exact Hi|unfold below; destruct (Rlt_dec (fval f i) (b_end b)); [reflexivity|contradiction]]). simpl in E0. rewrite E0 in Hc. destruct Hc. }
    assert (Sub1 : forall t, incl (filter (below (fval f) t) idx) idx) by (intros t i Hi; apply filter_In in Hi; tauto).
    assert (Sub2 : forall t, incl (filter (not_below (fval f) t) idx) idx) by (intros t i Hi; apply filter_In in Hi; tauto).
    assert (HRk : forall k, (k < length out)%nat -> PH out - PH (firstn (S k) out) = total hf (filter (not_below (fval f) (thr k)) idx) /\ PG out - PG (firstn (S k) out) = total gf (filter (not_below (fval f) (thr k)) idx)).
    { intros k Hk. destruct (Key k Hk) as [K1 K2]. rewrite K1, K2, ETG, ETH. pose proof (total_two gf (fval f) (thr k) idx). pose proof (total_two hf (fval f) (thr k) idx). lra. }
    unfold best_split_at. fold (PG out) (PH out).
    destruct (score_loop_spec lambda out 0 0 (PG out) (PH out) F64MIN F64MIN) as [t [b [Es [Bb [Ball Bex]]]]].
    { intros k Hk. destruct (Key k Hk) as [_ K2]. rewrite K2. pose proof (grows_pos idx _ Hr (Sub1 (thr k)) (Lne k Hk)). lra. }
    { intros k Hk. destruct (HRk k Hk) as [K1 K2]. rewrite K1, K2. destruct (filter (not_below (fval f) (thr k)) idx) as [|i0 I0] eqn:E0.
      - unfold total. simpl. destruct (Req_EM_T lambda 0); [right; lra|left; lra].
      - left. assert (0 < total hf (i0 :: I0)); [|lra]. apply (grows_pos idx _ Hr); [rewrite <- E0; apply Sub2|discriminate]. }
    cbv zeta in Ball, Bex.
    assert (Sc : forall k, (k < length out)%nat -> (0 + PG (firstn (S k) out)) ^ 2 / (0 + PH (firstn (S k) out) + lambda) + (PG out - PG (firstn (S k) out)) ^ 2 / (PH out - PH (firstn (S k) out) + lambda) = score (fval f) (thr k) idx).
    { intros k Hk. destruct (HRk k Hk) as [K1 K2]. rewrite K1, K2. destruct (Key k Hk) as [K3 K4]. rewrite K3, K4. unfold split_score. rewrite !side_score_real. f_equal. f_equal; [f_equal; lra|lra]. }
    assert (S0 : score (fval f) F64MIN idx = side_score gf hf lambda idx).
    { destruct (below_none (fval f) F64MIN idx (fun i Hi => proj1 (Hx i Hi))) as [A B]. unfold split_score. rewrite A, B. simpl side_score at 1. lra. }
    assert (Sl : score (fval f) (thr last) idx = side_score gf hf lambda idx).
    { rewrite Elast. unfold split_score. rewrite BA1, BA2. simpl side_score at 2. lra. }
    assert (Snn : forall t', 0 <= score (fval f) t' idx).
    { intros t'. unfold split_score. pose proof (side_nonneg idx _ Hr (Sub1 t')). pose proof (side_nonneg idx _ Hr (Sub2 t')). lra. }
    pose proof F64MAX_big as BB. assert (Fneg : F64MIN < 0) by (unfold F64MIN; lra).
    (* a boundary that the scan does not score leaves all the rows on one side *)
    assert (Hdead : forall k, (k < length out)%nat -> ~ 0 < PH out - PH (firstn (S k) out) + lambda -> score (fval f) (thr k) idx = side_score gf hf lambda idx).
    { intros k Hk Hn. destruct (HRk k Hk) as [K1 _]. rewrite K1 in Hn. unfold split_score. destruct (filter (not_below (fval f) (thr k)) idx) as [|i0 I0] eqn:E0.
      - assert (EL : filter (below (fval f) (thr k)) idx = idx).
        { clear - E0. induction idx as [|i I IH]; simpl in *; [reflexivity|]. unfold not_below in E0 at 1. unfold below at 1. destruct (Rlt_dec (fval f i) (thr k)); [rewrite IH by exact E0; reflexivity|discriminate]. }
        rewrite EL. simpl side_score at 2. lra.
      - exfalso. apply Hn. assert (0 < total hf (i0 :: I0)); [|lra]. apply (grows_pos idx _ Hr); [rewrite <- E0; apply Sub2|discriminate]. }
    (* a boundary that it scores is at least as good as no split, unless lambda is positive; then "no split" is scored itself *)
    assert (Hlive : forall k, (k < length out)%nat -> 0 < PH out - PH (firstn (S k) out) + lambda -> side_score gf hf lambda idx <= b).
    { intros k Hk Hp. destruct (Req_EM_T lambda 0) as [L0|L0].
      - eapply Rle_trans; [|apply (Ball k (conj Hk Hp))]. rewrite (Sc k Hk). unfold split_score. rewrite !side_score_real.
        rewrite <- (total_two gf (fval f) (thr k) idx), <- (total_two hf (fval f) (thr k) idx). rewrite L0, !Rplus_0_r. apply frac_two.
        + apply (grows_pos idx _ Hr); [apply Sub1|apply Lne, Hk].
        + destruct (HRk k Hk) as [K1 _]. rewrite K1 in Hp. lra.
      - rewrite <- Sl. rewrite <- (Sc last Hlast). apply Ball. split; [exact Hlast|]. destruct (HRk last Hlast) as [K1 _]. rewrite K1, Elast, BA2. unfold total. simpl. lra. }
    assert (Hcand : forall t', offered bm f t' -> score (fval f) t' idx = side_score gf hf lambda idx \/ exists k, (k < length out)%nat /\ score (fval f) t' idx = score (fval f) (thr k) idx).
    { intros t' [bins' [Eb' Ht']]. rewrite Eb in Eb'. inversion Eb'; subst bins'. destruct Ht' as [<-|Ht']; [left; exact S0|].
      apply in_map_iff in Ht'. destruct Ht' as [b2 [<- Hb2]]. destruct (Hto b2 Hb2) as [t2 [Ht2 Hsep]]. rewrite (score_ext (fval f) (fval f) (b_end b2) t2 idx Hsep).
      destruct Ht2 as [<-|Ht2]; [left; exact S0|]. right. apply in_map_iff in Ht2. destruct Ht2 as [o [<- Ho]]. apply (In_nth _ _ (b0, (0, 0))) in Ho. destruct Ho as [k [Hk <-]]. exists k. split; [exact Hk|reflexivity]. }
    exists out, t, b. split; [exact E|]. split; [exact Es|].
    destruct Bex as [[-> Ebm]|[k [[Hk Hp] [Et Ebk]]]].
    - (* nothing was scored *)
      assert (Hno : forall k, (k < length out)%nat -> ~ 0 < PH out - PH (firstn (S k) out) + lambda).
      { intros k Hk Hp. pose proof (Ball k (conj Hk Hp)) as Q. rewrite (Sc k Hk) in Q. specialize (Snn (thr k)). lra. }
      assert (All : forall t', offered bm f t' -> score (fval f) t' idx = side_score gf hf lambda idx).
      { intros t' Ht'. destruct (Hcand t' Ht') as [Q|[k [Hk Q]]]; [exact Q|]. rewrite Q. apply Hdead; [exact Hk|apply Hno, Hk]. }
      split; [exists F64MIN; split; [exists bins; split; [exact Eb|left; reflexivity]|tauto]|]. split; [|right; auto].
      intros t' Ht'. rewrite (All t' Ht'), S0. lra.
    - rewrite (Sc k Hk) in Ebk. fold (thr k) in Et. pose proof (Hlive k Hk Hp) as HS. subst t.
      split; [|split; [|left; auto]].
      + assert (Hin2 : In (nth k out (b0, (0, 0))) out) by (apply nth_In, Hk). unfold thr. destruct (nth k out (b0, (0, 0))) as [b1 m]. destruct (Hfrom b1 m Hin2) as [b2 [Hb2 Hsep]].
        exists (b_end b2). split; [exists bins; split; [exact Eb|right; apply in_map, Hb2]|]. exact Hsep.
      + intros t' Ht'. rewrite <- Ebk. destruct (Hcand t' Ht') as [Q|[k' [Hk' Q]]]; [rewrite Q; exact HS|]. rewrite Q.
        destruct (Rlt_dec 0 (PH out - PH (firstn (S k') out) + lambda)) as [L|L]; [rewrite <- (Sc k' Hk'); apply Ball; auto|rewrite (Hdead k' Hk' L); exact HS].
  Qed.

  (** every feature *)
  Definition scored (f : feature) (idx : list nat) (q : R * string * R) : Prop :=
    let '(b, nm, t) := q in nm = feat_name f /\
    (exists t0, offered bm f t0 /\ forall i, In i idx -> (fval f i < t <-> fval f i < t0)) /\
    (forall t', offered bm f t' -> score (fval f) t' idx <= score (fval f) t idx) /\
    ((b = score (fval f) t idx /\ side_score gf hf lambda idx <= b) \/ (b = F64MIN /\ forall t', offered bm f t' -> score (fval f) t' idx = side_score gf hf lambda idx)).

  Lemma rt_eval_spec idx : grows idx -> forall fs, incl fs (s_features s) -> exists l, rt_eval bm g h idx lambda fs = Ok l /\ Forall2 (fun f q => scored f idx q) fs l.
  Proof.
    intros Hr fs. induction fs as [|f fs IH]; intros Hin; cbn [rt_eval].
    - exists []. split; [reflexivity|constructor].
    - destruct (Hb f (Hin f (or_introl eq_refl))) as [bins [E1 C]]. destruct (scan_spec bins f idx C E1 (Hin f (or_introl eq_refl)) Hr) as [pack [t [b [E2 [E3 H]]]]].
      rewrite E1. cbn [bind]. rewrite E2. cbn [bind]. rewrite E3. cbn [bind]. destruct IH as [l [El F]]; [intros f' Hf'; apply Hin; right; exact Hf'|]. rewrite El. cbn [bind fst snd].
      exists ((b, feat_name f, t) :: l). split; [reflexivity|]. constructor; [|exact F]. split; [reflexivity|exact H].
  Qed.

  Definition best_question (f : feature) (t : R) (idx : list nat) : Prop :=
    (exists t0, offered bm f t0 /\ forall i, In i idx -> (fval f i < t <-> fval f i < t0)) /\
    (forall f' t', In f' (s_features s) -> offered bm f' t' -> score (fval f') t' idx <= score (fval f) t idx).

  Lemma rt_best_split_spec idx : grows idx -> exists f t, rt_best_split bm s g h idx lambda = Ok (feat_name f, t) /\ In f (s_features s) /\ best_question f t idx.
  Proof.
    intros Hr. unfold rt_best_split. destruct (rt_eval_spec idx Hr (s_features s) (incl_refl _)) as [l [El F]]. rewrite El. cbn [bind].
    destruct l as [|x l]; [inversion F as [E0|]; destruct (s_features s); [congruence|discriminate]|].
    destruct (pick_max_spec l x) as [P1 P2]. destruct (pick_max x l) as [[b nm] t] eqn:Ep.
    assert (Hsel : exists f, In f (s_features s) /\ scored f idx (b, nm, t)).
    { clear - F P1. induction F as [|f q fs l' H F IH]; [destruct P1|]. destruct P1 as [->|P1]; [exists f; split; [left; reflexivity|exact H]|]. destruct (IH P1) as [f' [H1 H2]]. exists f'. split; [right; exact H1|exact H2]. }
    destruct Hsel as [f [Hfin [-> [Hoff [Hmax Hcase]]]]]. exists f, t. split; [reflexivity|]. split; [exact Hfin|]. split; [exact Hoff|].
    intros f' t' Hf' Ht'.
    assert (Hq : exists q, In q (x :: l) /\ scored f' idx q).
    { clear - F Hf'. induction F as [|f q fs l' H F IH]; [destruct Hf'|]. destruct Hf' as [->|Hf']; [exists q; split; [left; reflexivity|exact H]|]. destruct (IH Hf') as [q' [H1 H2]]. exists q'. split; [right; exact H1|exact H2]. }
    destruct Hq as [[[b' nm'] t2] [Hq [_ [_ [Hmax' Hcase']]]]]. specialize (P2 _ Hq). cbn [fst] in P2.
    pose proof F64MAX_big as BB. assert (Fneg : F64MIN < 0) by (unfold F64MIN; lra). pose proof (side_nonneg idx idx Hr (incl_refl _)) as Sn.
    destruct Hcase' as [[E1 S1]|[E1 All1]].
    - destruct Hcase as [[E2 _]|[E2 _]]; [|lra]. specialize (Hmax' t' Ht'). lra.
    - rewrite (All1 t' Ht'). destruct Hcase as [[E2 S2]|[E2 All2]]; [lra|].
      destruct (Hb f Hfin) as [bins [Eb _]]. assert (O : offered bm f F64MIN) by (exists bins; split; [exact Eb|left; reflexivity]).
      rewrite <- (All2 _ O). apply Hmax, O.
  Qed.

  Lemma root_score f idx : In f (s_features s) -> grows idx -> exists t0, offered bm f t0 /\ score (fval f) t0 idx = side_score gf hf lambda idx.
  Proof.
    intros Hin Hr. destruct (Hb f Hin) as [bins [Eb _]]. exists F64MIN. split; [exists bins; split; [exact Eb|left; reflexivity]|].
    destruct (below_none (fval f) F64MIN idx) as [A B]; [intros i Hi; apply Hv; [exact Hin|apply Hr, Hi]|]. unfold split_score. rewrite A, B. simpl side_score at 1. lra.
  Qed.

  (** ** the tree *)
  Definition leaf_val (idx : list nat) (p loss : R) : Prop := p = - total gf idx / (total hf idx + lambda) /\ loss = - (1 / 2) * (total gf idx) ^ 2 / (total hf idx + lambda).

  Lemma sum_at_total l (Hlen : length l = n) idx : (forall i, In i idx -> (i < n)%nat) -> sum_at l idx = Ok (total (fun i => nth i l 0) idx).
  Proof.
    induction idx as [|i idx IH]; intros Hi; [reflexivity|]. cbn [sum_at]. rewrite get_ok by (rewrite Hlen; apply Hi; left; reflexivity). cbn [bind].
    rewrite IH by (intros j Hj; apply Hi; right; exact Hj). reflexivity.
  Qed.
  Lemma pred_ok idx : (forall i, In i idx -> (i < n)%nat) -> total hf idx + lambda <> 0 -> exists p loss, prediction_and_loss idx g h lambda = Ok (p, loss) /\ leaf_val idx p loss.
  Proof.
    intros Hi Hp. unfold prediction_and_loss. rewrite (sum_at_total g Hg idx Hi). cbn [bind]. rewrite (sum_at_total h Hh idx Hi). cbn [bind]. rewrite Reqb_false by exact Hp.
    eexists _, _. split; [reflexivity|]. split; reflexivity.
  Qed.

  Fixpoint rdepth (t : rt_node) : nat := match t with RLeaf _ _ => 0 | RBranch _ l r _ _ => S (Nat.max (rdepth l) (rdepth r)) end.

  (** [depth]: the parameter max_depth of the call *)
  Fixpoint rtree_ok (t : rt_node) (depth : nat) (idx : list nat) : Prop :=
    match t with
    | RLeaf p loss => leaf_val idx p loss /\
        ((depth <= 1)%nat \/ loss = 0 \/ exists f t, In f (s_features s) /\ best_question f t idx /\ (filter (below (fval f) t) idx = [] \/ filter (not_below (fval f) t) idx = []))
    | RBranch rule l r p loss => leaf_val idx p loss /\ 
        exists depth' f t, depth = S depth' /\ rule = mkSplitter (feat_name f) t /\ In f (s_features s) /\ best_question f t idx /\
          filter (below (fval f) t) idx <> [] /\ filter (not_below (fval f) t) idx <> [] /\
          rtree_ok l depth' (filter (below (fval f) t) idx) /\ rtree_ok r depth' (filter (not_below (fval f) t) idx)
    end.

  Lemma grows_filter p idx : grows idx -> filter p idx <> [] -> grows (filter p idx).
  Proof. intros [_ H] Hne. split; [exact Hne|]. intros i Hi. apply filter_In in Hi. apply H. tauto. Qed.

  Lemma rt_full_tree_ok : forall depth idx, grows idx -> exists t, rt_full_tree bm s g h lambda depth idx = Ok t /\ rtree_ok t depth idx /\ (rdepth t <= depth - 1)%nat.
  Proof.
    induction depth as [|depth IH]; intros idx Hr; cbn [rt_full_tree];
      (destruct (pred_ok idx (fun i Hi => proj1 (proj2 Hr i Hi)) ltac:(pose proof (grows_pos idx idx Hr (incl_refl _) (proj1 Hr)); lra)) as [p [loss [E HL]]]; rewrite E; cbn [bind]).
    - exists (RLeaf p loss). split; [reflexivity|]. split; [|simpl; lia]. simpl. split; [exact HL|]. left. lia.
    - destruct (Reqb_spec loss 0) as [E0|E0]; [exists (RLeaf p loss); split; [reflexivity|]; split; [simpl; auto|simpl; lia]|].
      destruct (Nat.leb_spec (S depth) 1) as [L1|L1]; [exists (RLeaf p loss); split; [reflexivity|]; split; [simpl; auto|simpl; lia]|]. cbn [orb].
      destruct (rt_best_split_spec idx Hr) as [f [t [Eb [Hin Hbest]]]]. rewrite Eb. cbn [bind fst snd].
      rewrite (partition_ok s G NN f t idx Hin) by (intros i Hi; apply Hr, Hi). cbn [bind fst snd].
      destruct (filter (below (fval f) t) idx) as [|a A] eqn:EA.
      { simpl orb. exists (RLeaf p loss). split; [reflexivity|]. split; [|simpl; lia]. simpl. split; [exact HL|]. right. right. exists f, t. auto. }
      destruct (filter (not_below (fval f) t) idx) as [|b B] eqn:EB.
      { simpl orb. exists (RLeaf p loss). split; [reflexivity|]. split; [|simpl; lia]. simpl. split; [exact HL|]. right. right. exists f, t. auto. }
      simpl orb. cbv iota. rewrite <- EA, <- EB.
      assert (NA : filter (below (fval f) t) idx <> []) by (rewrite EA; discriminate). assert (NB : filter (not_below (fval f) t) idx <> []) by (rewrite EB; discriminate).
      destruct (IH _ (grows_filter _ idx Hr NA)) as [l [E1 [T1 D1]]]. destruct (IH _ (grows_filter _ idx Hr NB)) as [r [E2 [T2 D2]]].
      rewrite E1. cbn [bind]. rewrite E2. cbn [bind].
      exists (RBranch (mkSplitter (feat_name f) t) l r p loss). split; [reflexivity|]. split; [|simpl; lia].
      cbn [rtree_ok]. split; [exact HL|]. exists depth, f, t. split; [reflexivity|]. split; [reflexivity|]. auto 10.
  Qed.
End RT.
