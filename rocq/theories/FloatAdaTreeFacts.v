(** Property C97: AdaBoost over edge-criterion trees, everything in binary64. *)
From Coq Require Import ZArith List Bool Reals Lia Lra Psatz Permutation Sorting String.
From Flocq Require Import Core.Core IEEE754.BinarySingleNaN.
From Verif Require Import Base Feature FeatureFacts Sample SampleSpec SampleFacts Bins BinsSpec BinsProofs BinsFacts DTree TreeSpec TreeShape DTreeFacts Float FloatSpec FloatProofs FloatFacts FloatCheckFacts FloatVoteFacts FloatEdge FloatEdgeSpec FloatEdgeFacts FloatTree FloatTreeSpec FloatTreeProofs FloatTreeFacts FloatBestSpec FloatBestProofs FloatBestFacts FloatAda FloatAdaSpec FloatAdaProofs FloatAdaStep FloatAdaRun FloatAdaFacts FloatBoostSpec FloatBoostFacts FloatAdaTree FloatAdaTreeSpec.
Import ListNotations.
Open Scope R_scope.

Lemma answers_ok h s rows : (forall i, In i rows -> exists c, f_node_confidence h s i = Ok c) -> f_tree_answers h s rows = Ok (map (fun i => conf64 s i h) rows).
Proof.
  induction rows as [|i I IH]; intros H; cbn [f_tree_answers map]; [reflexivity|]. destruct (H i (or_introl eq_refl)) as [c E]. unfold conf64 at 1. rewrite E. cbn [bind]. rewrite IH by (intros j Hj; apply H; right; exact Hj). reflexivity.
Qed.
Lemma answers_inv h s rows conf : f_tree_answers h s rows = Ok conf -> conf = map (fun i => conf64 s i h) rows.
Proof.
  revert conf. induction rows as [|i I IH]; intros conf E; cbn [f_tree_answers map] in *; [inversion E; reflexivity|]. unfold conf64 at 1. destruct (f_node_confidence h s i) as [c|]; [|discriminate]. cbn [bind] in E.
  destruct (f_tree_answers h s I) as [cs|]; [|discriminate]. cbn [bind] in E. inversion E. rewrite (IH cs eq_refl). reflexivity.
Qed.

Lemma weighted_all dist n : length dist = n -> (forall d, In d dist -> 0 < val d) -> weighted_rows dist n = seq 0 n.
Proof.
  intros L P. unfold weighted_rows. assert (Q : forall I, (forall i, In i I -> (i < n)%nat) -> filter (fun i => if Rlt_dec 0 (weight64 dist i) then true else false) I = I).
  { induction I as [|i I IH]; intros H; cbn [filter]; [reflexivity|]. destruct (Rlt_dec 0 (weight64 dist i)) as [?|X]; [f_equal; apply IH; intros j Hj; apply H; right; exact Hj|]. exfalso. apply X. unfold weight64. apply P, nth_In. assert (Hi : (i < n)%nat) by (apply H; left; reflexivity). unfold f64 in *. rewrite L. exact Hi. }
  apply Q. intros i Hi. apply in_seq in Hi. lia.
Qed.

Lemma edge_real g W SE AE tol : 0 <= g <= 1 -> Rabs (W - 1) <= / 2 ^ 21 -> 0 <= tol <= / 2 ^ 26 -> g * W <= Rabs SE -> SE ^ 2 / W - 12 * tol * W <= AE -> g * g - / 2 ^ 20 + / 2 ^ 34 <= AE.
Proof.
  intros Hg HW Ht H1 H2. assert (C21 : / 2 ^ 21 = / 2097152) by (simpl; lra). assert (C26 : / 2 ^ 26 = / 67108864) by (simpl; lra). assert (C20 : / 2 ^ 20 = / 1048576) by (simpl; lra). assert (C34 : / 2 ^ 34 = / 17179869184) by (simpl; lra).
  rewrite C21 in HW. rewrite C26 in Ht. rewrite C20, C34. apply Rabs_le_inv in HW. assert (W0 : 0 < W) by lra. rewrite <- (pow2_abs SE) in H2.
  assert (Q1 : g * W * (g * W) <= Rabs SE ^ 2) by (replace (Rabs SE ^ 2) with (Rabs SE * Rabs SE) by ring; apply Rmult_le_compat; try assumption; apply Rmult_le_pos; lra).
  assert (Q2 : g * g * W <= Rabs SE ^ 2 / W) by (apply (proj2 (Rle_div_iff _ _ _ W0)); lra).
  assert (Q3 : tol * W <= / 67108864 * (1 + / 2097152)) by (apply Rmult_le_compat; lra). assert (G2 : 0 <= g * g <= 1) by (split; [apply Rmult_le_pos; lra|]; replace 1 with (1 * 1) by ring; apply Rmult_le_compat; lra).
  assert (Q4 : g * g * (1 - / 2097152) <= g * g * W) by (apply Rmult_le_compat_l; lra). lra.
Qed.

Section Trees.
  Variables (s : sample) (b : dt_builder) (t : dtree) (y : list f64) (g : R) (nb : nat).
  Hypothesis Tr : trainable s.
  Hypothesis Mb : dt_made s b.
  Hypothesis Eb : tb_build b s = Ok t.
  Hypothesis Ec : tb_criterion b = Edge.
  Hypothesis Pm : pm_labels s.
  Hypothesis Hy : targets64 s y.
  Hypothesis Hn : INR (fst (shape s)) <= 2 ^ 16.
  Hypothesis HB : forall f bins, In f (s_features s) -> sm_get (dt_bins t) (feat_name f) = Ok bins -> (length bins <= nb)%nat.
  Hypothesis Hnb : INR nb <= 2 ^ 19.
  Hypothesis Hg : 0 <= g <= 1.
  Hypothesis Weak : weak_stumps g s (dt_bins t).
  Local Notation n := (fst (shape s)).

  Lemma y_labels : forall x, In x y -> f_label x.
  Proof. intros x Hx. destruct Hy as [L H]. apply In_nth with (d := f0) in Hx. destruct Hx as [i [Hi <-]]. unfold f64 in *. rewrite L in Hi. destruct (H i Hi) as [F V]. split; [exact F|]. unfold finite_num, val in *. rewrite V. apply (Pm i Hi). Qed.
  Lemma n_pos : (1 <= n)%nat.
  Proof. destruct Tr as [_ [H _]]. simpl in *. lia. Qed.
  Lemma small : INR (2 * n + nb) <= 2 ^ 20.
  Proof. rewrite plus_INR, mult_INR. change (INR 2) with (1 + 1). simpl (2 ^ 20). simpl (2 ^ 16) in Hn. simpl (2 ^ 19) in Hnb. lra. Qed.

  Lemma tree_round sched order fln dist : summing sched -> some_order order -> inv y dist ->
    exists h conf, f_dt_produce sched order fln t s dist = Ok h /\ f_tree_answers h s (seq 0 n) = Ok conf /\ length conf = length y /\ bounded_conf conf /\
      forall e, f_edge y conf dist e -> g * g - / 2 ^ 20 <= val e /\ Rabs (val e - answer_edge h s dist (seq 0 n)) <= / 2 ^ 34.
  Proof.
    intros Hs Ho Iv. pose proof Iv as [Ld [Fd Sd]]. destruct Hy as [Ly Vy]. assert (Ld' : length dist = n) by (unfold f64 in *; congruence). assert (T74 : 0 < / 2 ^ 1074) by (apply Rinv_0_lt_compat, pow_lt; lra).
    assert (Pd : forall d, In d dist -> 0 < val d) by (intros d Hd; destruct (Fd d Hd) as [_ Q]; lra).
    assert (WT : / 2 <= FloatSpec.total dist <= 2). { apply Rabs_le_inv in Sd. assert (C21 : / 2 ^ 21 = / 2097152) by (simpl; lra). rewrite C21 in Sd. unfold val in *. lra. }
    destruct (P_C96_edge_of_best_stump sched order fln s b t dist nb Hs Ho Tr Mb Eb Ec Pm Ld') as [h [E [Cv Be]]].
    - intros x Hx. destruct (Fd x Hx) as [Q1 Q2]. split; [exact Q1|]. specialize (Pd x Hx). lra.
    - destruct WT as [A B]. split.
      + eapply Rle_trans; [|exact A]. apply Rinv_le_contravar; [lra|]. replace 2 with (2 ^ 1) at 1 by ring. apply Rle_pow; [lra|lia].
      + eapply Rle_trans; [exact B|]. replace 2 with (2 ^ 1) at 1 by ring. apply Rle_pow; [lra|lia].
    - exact HB.
    - eapply Rle_trans; [exact small|]. apply Rle_pow; [lra|lia].
    - exists h, (map (fun i => conf64 s i h) (seq 0 n)). split; [exact E|]. split; [apply answers_ok; intros i Hi; apply in_seq in Hi; destruct (Cv i) as [c [Q _]]; [lia|]; exists c; exact Q|].
      assert (Lc : length (map (fun i => conf64 s i h) (seq 0 n)) = length y) by (rewrite map_length, seq_length; unfold f64 in *; congruence). split; [exact Lc|].
      assert (Bc : bounded_conf (map (fun i => conf64 s i h) (seq 0 n))). { intros c Hc. apply in_map_iff in Hc. destruct Hc as [i [<- Hi]]. apply in_seq in Hi. destruct (Cv i) as [c [Q1 [Q2 Q3]]]; [lia|]. unfold conf64. rewrite Q1. split; [exact Q2|]. apply Rabs_le. exact Q3. }
      split; [exact Bc|]. intros e He.
      assert (Hn' : INR (length y) <= 2 ^ 16) by (unfold f64 in *; rewrite Ly; exact Hn). assert (N1 : (1 <= length y)%nat) by (pose proof n_pos; unfold f64 in *; lia).
      destruct (edge_ok y y_labels N1 Hn' dist _ e Iv Lc Bc He) as [Fe Ee]. set (AE := rsum _) in Ee.
      assert (EA : answer_edge h s dist (weighted_rows dist n) = AE).
      { rewrite (weighted_all dist n Ld' Pd). unfold answer_edge, AE. replace (seq 0 (length y)) with (seq 0 n) by (unfold f64 in *; congruence). apply rsum_map_ext. intros i Hi. apply in_seq in Hi.
        destruct (margin_nth y y_labels N1 _ i Lc Bc) as [_ [V _]]; [unfold f64 in *; lia|]. rewrite V. destruct (Vy i) as [_ V2]; [lia|]. rewrite V2. unfold weight64, answer64.
        assert (NC : nth i (map (fun i => conf64 s i h) (seq 0 n)) f0 = conf64 s i h). { rewrite nth_indep with (d' := conf64 s 0 h) by (rewrite map_length, seq_length; lia). rewrite (map_nth (fun i => conf64 s i h)), seq_nth by lia. reflexivity. }
        rewrite NC. unfold conf64. destruct (Cv i) as [c [Q _]]; [lia|]. rewrite Q. ring. }
      set (W := FloatSpec.total dist) in *. assert (W0 : 0 < W) by lra.
      assert (TW : TreeSpec.total (weight64 dist) (seq 0 n) = W). { rewrite <- (weighted_all dist n Ld' Pd). apply total_rows; [exact Ld'|]. intros x Hx. destruct (Fd x Hx) as [Q1 Q2]. split; [exact Q1|]. specialize (Pd x Hx). lra. }
      destruct (Weak (fun i => weight64 dist i / W)) as [f [th [Hf [Ho' Hst]]]].
      { intros i. apply Rmult_le_pos; [|left; apply Rinv_0_lt_compat, W0]. unfold weight64. destruct (Nat.lt_ge_cases i (length dist)) as [L|L]; [left; apply Pd, nth_In, L|]. rewrite nth_overflow by exact L. rewrite val_f0. lra. }
      { replace (TreeSpec.total (fun i => weight64 dist i / W) (seq 0 n)) with (TreeSpec.total (weight64 dist) (seq 0 n) / W); [rewrite TW; field; lra|]. unfold TreeSpec.total. generalize (seq 0 n). intros I. induction I as [|i I IH]; cbn [map rsum]; [field; lra|]. rewrite <- IH. field. lra. }
      assert (SH : stump_edge (column f) (label s) (fun i => weight64 dist i / W) th (seq 0 n) = stump_edge (column f) (label s) (weight64 dist) th (seq 0 n) / W).
      { unfold stump_edge. generalize (seq 0 n). intros I. induction I as [|i I IH]; cbn [map rsum]; [field; lra|]. rewrite IH. field. lra. }
      rewrite SH in Hst. specialize (Be f th Hf Ho'). rewrite (weighted_all dist n Ld' Pd) in Be, EA. rewrite EA in Be. set (SE := stump_edge (column f) (label s) (weight64 dist) th (seq 0 n)) in *.
      assert (GW : g * W <= Rabs SE). { unfold Rdiv in Hst. rewrite Rabs_mult in Hst. rewrite (Rabs_pos_eq (/ W)) in Hst by (left; apply Rinv_0_lt_compat, W0). apply (proj1 (Rle_div_iff _ _ _ W0)) in Hst. exact Hst. }
      assert (TL : 0 <= 128 * INR (2 * n + nb) * uu <= / 2 ^ 26). { pose proof small as SM. pose proof (pos_INR (2 * n + nb)) as P0. unfold uu. assert (C53 : / 2 ^ 53 = / 2 ^ 20 * / 2 ^ 33) by (rewrite <- Rinv_mult, <- pow_add; reflexivity). assert (P33 : 0 < / 2 ^ 33) by (apply Rinv_0_lt_compat, pow_lt; lra). assert (P20 : 0 < / 2 ^ 20) by (apply Rinv_0_lt_compat, pow_lt; lra). rewrite C53. split; [repeat apply Rmult_le_pos; lra|].
        apply Rle_trans with (128 * 2 ^ 20 * (/ 2 ^ 20 * / 2 ^ 33)); [apply Rmult_le_compat_r; [apply Rmult_le_pos; lra|]; lra|]. right. simpl. field. }
      pose proof (edge_real g W SE AE _ Hg Sd TL GW ltac:(apply Rge_le, Be)) as ER. rewrite EA. split; [|exact Ee]. apply Rabs_le_inv in Ee. unfold val in *. lra.
  Qed.

  Variables (fexp fln : f64 -> f64).
  Hypothesis Hexp : precise_exp fexp.
  Hypothesis Hln : precise_ln fln.
  Local Notation gam' := (g * g - / 2 ^ 20).
  Definition rows_of (p : f64 * f_node) : f64 * list f64 := (fst p, map (fun i => conf64 s i (snd p)) (seq 0 n)).

  Lemma run_maps hist dist : f_ada_tree_run fexp fln mild_edge t s y hist dist -> f_ada_run fexp fln (good_round gam') y (map rows_of hist) dist.
  Proof.
    assert (Hn' : INR (length y) <= 2 ^ 16) by (destruct Hy as [Ly _]; unfold f64 in *; rewrite Ly; exact Hn). assert (N1 : (1 <= length y)%nat) by (destruct Hy as [Ly _]; pose proof n_pos; unfold f64 in *; lia).
    intros H. induction H as [|hist dist sched order h conf e ix d' H IH Hs Ho Ep Ea He Pf Mi Asc Eu]; [apply far_start|]. rewrite map_app. cbn [map].
    assert (Iv : inv y dist) by (apply (run_inv fexp fln Hexp Hln y y_labels N1 Hn' (map rows_of hist)), (run_weaken fexp fln (good_round gam')); [intros c0 e0 [Q _]; exact Q|exact IH]).
    destruct (tree_round sched order fln dist Hs Ho Iv) as [h' [conf' [E1 [E2 [Lc [Bc Hge]]]]]]. rewrite E1 in Ep. inversion Ep; subst h'. rewrite E2 in Ea. inversion Ea; subst conf'.
    replace (rows_of (f_ada_weight fln e, h)) with (f_ada_weight fln e, conf) by (unfold rows_of; cbn [fst snd]; f_equal; apply (answers_inv h s), E2).
    apply (far_round fexp fln (good_round gam') y (map rows_of hist) dist conf e ix d'); try assumption. split; [split; assumption|]. apply Hge, He.
  Qed.
End Trees.

Lemma slices_map {A B} (q : A -> B) (ws : list f64) (hs : list A) v : f_from_slices ws (map q hs) = Ok v -> exists v', f_from_slices ws hs = Ok v' /\ v = (fst v', map q (snd v')).
Proof.
  unfold f_from_slices. assert (E : forall ws hs, filter (fun p => flt f0 (fst p)) (combine ws (map q hs)) = map (fun p : f64 * A => (fst p, q (snd p))) (filter (fun p => flt f0 (fst p)) (combine ws hs))).
  { clear. induction ws as [|w ws IH]; intros [|h hs]; cbn [combine map filter]; try reflexivity. cbn [fst]. rewrite IH. destruct (flt f0 w); reflexivity. }
  rewrite E, !map_map. cbn [fst snd]. replace (map (fun x : f64 * A => fst x) _) with (map fst (filter (fun p : f64 * A => flt f0 (fst p)) (combine ws hs))) by reflexivity.
  destruct (f_normalize _) as [w|]; [|discriminate]. cbn [bind]. intros H. inversion H. eexists. split; [reflexivity|]. cbn [fst snd]. rewrite map_map. reflexivity.
Qed.

Lemma P_C97_training_error :
  forall fexp fln s b t y g nb hist dist, precise_exp fexp -> precise_ln fln ->
  trainable s -> dt_made s b -> tb_build b s = Ok t -> tb_criterion b = Edge -> pm_labels s -> targets64 s y -> INR (fst (shape s)) <= 2 ^ 16 ->
  (forall f bins, In f (s_features s) -> sm_get (dt_bins t) (feat_name f) = Ok bins -> (length bins <= nb)%nat) -> INR nb <= 2 ^ 19 ->
  / 2 ^ 9 <= g <= 1 -> weak_stumps g s (dt_bins t) ->
  f_ada_tree_run fexp fln mild_edge t s y hist dist -> hist <> [] -> rsum (map (fun p => Rabs (val (fst p))) hist) <= 256 -> INR (length hist) <= 2 ^ 30 ->
  let gamma := g * g - / 2 ^ 20 in
  exists v, f_from_slices (map fst hist) (map snd hist) = Ok v /\
    INR (wrong_rows s v) <= INR (fst (shape s)) * (sqrt (1 - gamma * gamma) + / 2 ^ 14) ^ length hist * (1 + / 2 ^ 20).
Proof.
  intros fexp fln s b t y g nb hist dist He Hl Tr Mb Eb Ec Pm Hy Hn HB Hnb Hg Weak H Ne Sp Tn gamma. assert (G0 : 0 <= g <= 1) by (assert (0 < / 2 ^ 9) by (apply Rinv_0_lt_compat, pow_lt; lra); lra).
  pose proof (run_maps s b t y g nb Tr Mb Eb Ec Pm Hy Hn HB Hnb G0 Weak fexp fln He Hl hist dist H) as RM. fold gamma in RM. pose proof Hy as [Ly Vy].
  assert (GG : / 2 ^ 40 <= gamma <= 1). { unfold gamma. assert (A : / 2 ^ 9 * / 2 ^ 9 <= g * g) by (assert (0 < / 2 ^ 9) by (apply Rinv_0_lt_compat, pow_lt; lra); apply Rmult_le_compat; lra). assert (B : g * g <= 1 * 1) by (apply Rmult_le_compat; lra). assert (C : / 2 ^ 40 + / 2 ^ 20 <= / 2 ^ 9 * / 2 ^ 9) by (simpl; lra). assert (0 < / 2 ^ 20) by (apply Rinv_0_lt_compat, pow_lt; lra). lra. }
  assert (F1 : map fst (map (rows_of s) hist) = map fst hist) by (rewrite map_map; reflexivity).
  assert (F2 : map snd (map (rows_of s) hist) = map (fun h => map (fun i => conf64 s i h) (seq 0 (fst (shape s)))) (map snd hist)) by (rewrite !map_map; reflexivity).
  destruct (P_C93_training_error fexp fln y gamma (map (rows_of s) hist) dist He Hl (y_labels s y Pm Hy)) as [v [Ev M]].
  - unfold f64 in *. rewrite Ly. apply (n_pos s Tr).
  - unfold f64 in *. rewrite Ly. exact Hn.
  - exact GG.
  - exact RM.
  - intros Q. apply map_eq_nil in Q. exact (Ne Q).
  - rewrite map_map. exact Sp.
  - rewrite map_length. exact Tn.
  - rewrite F1, F2 in Ev. destruct (slices_map _ _ _ _ Ev) as [v' [Ev' Ef]]. exists v'. split; [exact Ev'|]. rewrite map_length in M. subst v.
    assert (WR : wrong_rows s v' = mistakes y (fst v', map (fun h => map (fun i => conf64 s i h) (seq 0 (fst (shape s)))) (snd v'))).
    { unfold wrong_rows, mistakes. replace (seq 0 (length y)) with (seq 0 (fst (shape s))) by (unfold f64 in *; congruence). f_equal. apply filter_ext_in'. intros i Hi. apply in_seq in Hi. destruct (Vy i) as [_ V]; [lia|]. rewrite V.
      assert (PE : f_predict (fun h => nth i h f0) (fst v', map (fun h => map (fun i => conf64 s i h) (seq 0 (fst (shape s)))) (snd v')) = f_predict (conf64 s i) v').
      { unfold f_predict, f_confidence. cbn [fst snd]. rewrite map_map. replace (map (fun x => nth i (map (fun i0 => conf64 s i0 x) (seq 0 (fst (shape s)))) f0) (snd v')) with (map (conf64 s i) (snd v')); [reflexivity|]. apply map_ext. intros h. symmetry.
        rewrite nth_indep with (d' := conf64 s 0 h) by (rewrite map_length, seq_length; lia). rewrite (map_nth (fun i => conf64 s i h)), seq_nth by lia. reflexivity. }
      rewrite PE. reflexivity. }
    rewrite WR. eapply Rle_trans; [exact M|]. right. unfold f64 in *. rewrite Ly. reflexivity.
Qed.

Lemma P_C97_no_mistakes :
  forall fexp fln s b t y g nb hist dist, precise_exp fexp -> precise_ln fln ->
  trainable s -> dt_made s b -> tb_build b s = Ok t -> tb_criterion b = Edge -> pm_labels s -> targets64 s y -> INR (fst (shape s)) <= 2 ^ 16 ->
  (forall f bins, In f (s_features s) -> sm_get (dt_bins t) (feat_name f) = Ok bins -> (length bins <= nb)%nat) -> INR nb <= 2 ^ 19 ->
  / 2 ^ 9 <= g <= 1 -> weak_stumps g s (dt_bins t) ->
  f_ada_tree_run fexp fln mild_edge t s y hist dist -> hist <> [] -> rsum (map (fun p => Rabs (val (fst p))) hist) <= 256 -> INR (length hist) <= 2 ^ 30 ->
  let gamma := g * g - / 2 ^ 20 in
  INR (fst (shape s)) * (sqrt (1 - gamma * gamma) + / 2 ^ 14) ^ length hist * (1 + / 2 ^ 20) < 1 ->
  exists v, f_from_slices (map fst hist) (map snd hist) = Ok v /\ forall i, (i < fst (shape s))%nat -> IZR (f_predict (conf64 s i) v) = label s i.
Proof.
  intros fexp fln s b t y g nb hist dist He Hl Tr Mb Eb Ec Pm Hy Hn HB Hnb Hg Weak H Ne Sp Tn gamma B.
  destruct (P_C97_training_error fexp fln s b t y g nb hist dist He Hl Tr Mb Eb Ec Pm Hy Hn HB Hnb Hg Weak H Ne Sp Tn) as [v [Ev M]]. exists v. split; [exact Ev|]. fold gamma in M.
  assert (Z : wrong_rows s v = 0%nat). { destruct (wrong_rows s v) as [|k]; [reflexivity|]. rewrite S_INR in M. pose proof (pos_INR k). lra. }
  intros i Hi. unfold wrong_rows in Z. apply length_zero_iff_nil in Z. destruct (Req_EM_T (IZR (f_predict (conf64 s i) v)) (label s i)) as [Q|Q]; [exact Q|]. exfalso.
  assert (I : In i (filter (fun i => if Req_EM_T (IZR (f_predict (conf64 s i) v)) (label s i) then false else true) (seq 0 (fst (shape s))))).
  { apply filter_In. split; [apply in_seq; lia|]. destruct (Req_EM_T (IZR (f_predict (conf64 s i) v)) (label s i)); [contradiction|reflexivity]. }
  rewrite Z in I. destruct I.
Qed.

(** ** every round succeeds, and has an edge *)
Lemma P_C97_round_succeeds :
  forall fexp fln s b t y g nb hist dist sched order, precise_exp fexp -> precise_ln fln -> summing sched -> some_order order ->
  trainable s -> dt_made s b -> tb_build b s = Ok t -> tb_criterion b = Edge -> pm_labels s -> targets64 s y -> INR (fst (shape s)) <= 2 ^ 16 ->
  (forall f bins, In f (s_features s) -> sm_get (dt_bins t) (feat_name f) = Ok bins -> (length bins <= nb)%nat) -> INR nb <= 2 ^ 19 ->
  0 <= g <= 1 -> weak_stumps g s (dt_bins t) -> f_ada_tree_run fexp fln mild_edge t s y hist dist ->
  exists h conf, f_dt_produce sched order fln t s dist = Ok h /\ f_tree_answers h s (seq 0 (fst (shape s))) = Ok conf /\
    forall e, f_edge y conf dist e -> finite_num e /\ g * g - / 2 ^ 20 <= val e /\ Rabs (val e - answer_edge h s dist (seq 0 (fst (shape s)))) <= / 2 ^ 34 /\
      (mild_edge e -> (exists ix, f_ascending (f_ada_logs fln (f_ada_weight fln e) (f_margins y conf) dist) ix) /\
        forall ix, f_ascending (f_ada_logs fln (f_ada_weight fln e) (f_margins y conf) dist) ix ->
          exists dist', f_ada_update fexp fln ix (f_ada_weight fln e) (f_margins y conf) dist = Ok dist' /\ f_ada_tree_run fexp fln mild_edge t s y (hist ++ [(f_ada_weight fln e, h)]) dist').
Proof.
  intros fexp fln s b t y g nb hist dist sched order He Hl Hs Ho Tr Mb Eb Ec Pm Hy Hn HB Hnb Hg Weak H.
  pose proof (run_maps s b t y g nb Tr Mb Eb Ec Pm Hy Hn HB Hnb Hg Weak fexp fln He Hl hist dist H) as RM. pose proof Hy as [Ly Vy]. pose proof (y_labels s y Pm Hy) as YL.
  assert (Hn' : INR (length y) <= 2 ^ 16) by (unfold f64 in *; rewrite Ly; exact Hn). assert (N1 : (1 <= length y)%nat) by (pose proof (n_pos s Tr); unfold f64 in *; lia).
  assert (RM' : f_ada_run fexp fln mild_round y (map (rows_of s) hist) dist) by (apply (run_weaken fexp fln (good_round (g * g - / 2 ^ 20))); [intros c0 e0 [Q _]; exact Q|exact RM]).
  pose proof (run_inv fexp fln He Hl y YL N1 Hn' _ _ RM') as Iv.
  destruct (tree_round s b t y g nb Tr Mb Eb Ec Pm Hy Hn HB Hnb Hg Weak sched order fln dist Hs Ho Iv) as [h [conf [E1 [E2 [Lc [Bc Hge]]]]]]. exists h, conf. split; [exact E1|]. split; [exact E2|].
  intros e Ed. destruct (edge_ok y YL N1 Hn' dist conf e Iv Lc Bc Ed) as [Fe _]. split; [exact Fe|]. split; [apply Hge, Ed|]. split; [apply Hge, Ed|]. intros Mi. destruct (P_C92_no_round_panics fexp fln y _ dist conf e He Hl YL N1 Hn' RM' Lc Ed (conj Bc Mi)) as [X U]. split; [exact X|].
  intros ix Hix. destruct (U ix Hix) as [d' Ed']. exists d'. split; [exact Ed'|]. apply (fat_round fexp fln mild_edge t s y hist dist sched order h conf e ix d'); try assumption.
  unfold f_perfect. apply not_true_is_false. intros Q. unfold mild_edge in Mi. destruct f1_spec as [F1 V1]. destruct (fabs_spec e Fe) as [Fa Va]. apply (fle_true f1 _ F1 Fa) in Q. rewrite V1, Va in Q. assert (0 < / 2 ^ 10) by (apply Rinv_0_lt_compat, pow_lt; lra). lra.
Qed.

(** ** three rows that no stump separates *)
Definition at_sample : sample := from_dataframe [("a"%string, [0; 1; 3])] 3 [1; -1; 1].
Definition at_builder : dt_builder := mkDTB [("a"%string, 3%nat)] 1 Edge.
Definition at_tree : dtree := mkDTree [("a"%string, gx_bins)] Edge 1.
Definition at_y : list f64 := [f1; f_minus1; f1].
Lemma at_trainable : trainable at_sample.
Proof.
  pose proof F64MAX_big as B. split; [|split; [|split; [|split; [|split]]]].
  - apply made_dataframe. intros p [<-|[]]. reflexivity.
  - simpl. lia.
  - simpl. discriminate.
  - simpl. constructor; [intros []|constructor].
  - reflexivity.
  - intros f x [<-|[]] Hx. unfold moderate. destruct Hx as [<-|[<-|[<-|[]]]]; rewrite Rabs_pos_eq; lra.
Qed.
Lemma at_made : dt_made at_sample at_builder.
Proof.
  assert (E : tb_new at_sample = mkDTB [("a"%string, 3%nat)] 2 Entropy).
  { unfold tb_new. change (s_features at_sample) with [gx_feature]. cbn [map]. rewrite gx_distinct. reflexivity. }
  pose proof (dm_new at_sample) as M. rewrite E in M. apply (dm_criterion _ _ Edge) in M. apply (dm_depth _ _ 1 at_builder M). reflexivity.
Qed.
Lemma at_built : tb_build at_builder at_sample = Ok at_tree.
Proof. unfold tb_build, at_builder. change (s_features at_sample) with [gx_feature]. cbn [cut_all]. change (sm_get _ (feat_name gx_feature)) with (Ok 3%nat : res nat). cbn [bind]. rewrite gx_cut. reflexivity. Qed.
Lemma at_pm : pm_labels at_sample.
Proof. intros i Hi. simpl in *. destruct i as [|[|[|i]]]; auto; lia. Qed.
Lemma at_targets : targets64 at_sample at_y.
Proof.
  destruct f1_spec as [F1 V1]. destruct minus1_spec as [Fm Vm]. split; [reflexivity|]. intros i Hi. simpl in Hi. destruct i as [|[|[|i]]]; [split; [exact F1|exact V1]|split; [exact Fm|exact Vm]|split; [exact F1|exact V1]|lia].
Qed.
Lemma at_nb : forall f bins, In f (s_features at_sample) -> sm_get (dt_bins at_tree) (feat_name f) = Ok bins -> (length bins <= 3)%nat.
Proof. intros f bins [<- |[]] E. change (sm_get (dt_bins at_tree) _) with (Ok gx_bins : res (list bin)) in E. inversion E; subst bins. simpl. lia. Qed.
Lemma at_columns : column gx_feature 0 = 0 /\ column gx_feature 1 = 1 /\ column gx_feature 2 = 3.
Proof. repeat split. Qed.
Lemma at_weak : weak_stumps (1 / 3) at_sample (dt_bins at_tree).
Proof.
  intros d Hd. change (fst (shape at_sample)) with 3%nat. unfold TreeSpec.total. cbn [seq map rsum]. intros HT. pose proof F64MAX_big as BM. assert (D0 := Hd 0%nat). assert (D1 := Hd 1%nat). assert (D2 := Hd 2%nat). destruct at_columns as [C0 [C1 C2]].
  assert (SE : forall th, stump_edge (column gx_feature) (label at_sample) d th [0; 1; 2]%nat = d 0%nat * stump th 0 + (d 1%nat * (-1 * stump th 1) + (d 2%nat * stump th 3 + 0))).
  { intros th. unfold stump_edge. cbn [map rsum]. rewrite C0, C1, C2. change (label at_sample 0) with 1. change (label at_sample 1) with (-1). change (label at_sample 2) with 1. ring. }
  assert (ST : forall th v, (v < th -> stump th v = -1) /\ (th <= v -> stump th v = 1)) by (intros th v; unfold stump; destruct (Rlt_dec v th); split; intros; lra).
  assert (OF : forall th, In th (F64MIN :: map b_end gx_bins) -> offered (dt_bins at_tree) gx_feature th) by (intros th Q; exists gx_bins; split; [reflexivity|exact Q]).
  destruct (Rle_lt_dec (1 / 3) (d 0%nat - d 1%nat + d 2%nat)) as [A|A]; [|destruct (Rle_lt_dec (1 / 3) (d 0%nat + d 1%nat - d 2%nat)) as [B|B]].
  - exists gx_feature, F64MIN. split; [left; reflexivity|]. split; [apply OF; left; reflexivity|]. rewrite SE, !(proj2 (ST F64MIN _)) by (unfold F64MIN; lra). eapply Rle_trans; [|apply RRle_abs]. lra.
  - exists gx_feature, 1. split; [left; reflexivity|]. split; [apply OF; right; left; reflexivity|]. rewrite SE, (proj1 (ST 1 0)), !(proj2 (ST 1 _)) by lra. rewrite <- Rabs_Ropp. eapply Rle_trans; [|apply RRle_abs]. lra.
  - exists gx_feature, 2. split; [left; reflexivity|]. split; [apply OF; right; right; left; reflexivity|]. rewrite SE, (proj1 (ST 2 0)), (proj1 (ST 2 1)), (proj2 (ST 2 3)) by lra. eapply Rle_trans; [|apply RRle_abs]. lra.
Qed.
Lemma at_leaf tol bm y' d h idx : nearly_greedy tol (s_features at_sample) bm y' d h 0 idx -> exists c, h = FLf c /\ -1 <= val c <= 1.
Proof. destruct h as [c|rule l r]; cbn [nearly_greedy]; intros H; [exists c; split; [reflexivity|apply H]|]. destruct H as [dep' [f [E _]]]. discriminate. Qed.
Lemma at_edge tol u dist h : 0 < u -> (forall i, (i < 3)%nat -> weight64 dist i = u) -> nearly_greedy tol (s_features at_sample) (dt_bins at_tree) (label at_sample) (weight64 dist) h 1 [0; 1; 2]%nat ->
  Rabs (answer_edge h at_sample dist [0; 1; 2]%nat) <= u.
Proof.
  intros U0 Wu H. assert (K : forall c, -1 <= c <= 1 -> Rabs (u * c) <= u) by (intros c Hc; rewrite Rabs_mult, (Rabs_pos_eq u) by lra; rewrite <- (Rmult_1_r u) at 2; apply Rmult_le_compat_l; [lra|apply Rabs_le; exact Hc]).
  assert (L1 : forall c, answer_edge (FLf c) at_sample dist [0; 1; 2]%nat = u * val c /\ answer_edge (FLf c) at_sample dist [0]%nat = u * val c /\ answer_edge (FLf c) at_sample dist [1; 2]%nat = 0 /\ answer_edge (FLf c) at_sample dist [0; 1]%nat = 0 /\ answer_edge (FLf c) at_sample dist [2]%nat = u * val c).
  { intros c. unfold answer_edge, answer64. cbn [map rsum f_node_confidence]. rewrite !Wu by lia. change (label at_sample 0) with 1. change (label at_sample 1) with (-1). change (label at_sample 2) with 1. repeat split; ring. }
  destruct h as [c|rule l r]; cbn [nearly_greedy] in H.
  - destruct H as [_ [Hc _]]. destruct (L1 c) as [-> _]. apply K, Hc.
  - destruct H as [dep' [f [E1 [Er [NB [Nl [Nr [Gl Gr]]]]]]]]. injection E1 as <-. destruct (at_leaf _ _ _ _ _ _ Gl) as [c1 [-> H1]]. destruct (at_leaf _ _ _ _ _ _ Gr) as [c2 [-> H2]]. destruct rule as [nm th]. cbn [sp_feature sp_threshold] in *. subst nm.
    assert (Ef : f = gx_feature) by (destruct (proj1 NB) as [<- |[]]; reflexivity). pose proof at_trainable as [M [_ [_ [ND _]]]]. pose proof (made_good at_sample M) as G.
    rewrite (branch_edge at_sample dist G ND f th (FLf c1) (FLf c2) [0; 1; 2]%nat (proj1 NB)) by (intros i Hi; simpl in *; lia). subst f. destruct at_columns as [C0 [C1 C2]].
    cbn [filter] in *. unfold below, not_below in *. rewrite C0, C1, C2 in *.
    destruct (L1 c1) as [A1 [A2 [A3 [A4 A5]]]]. destruct (L1 c2) as [B1 [B2 [B3 [B4 B5]]]].
    destruct (Rlt_dec 0 th), (Rlt_dec 1 th), (Rlt_dec 3 th); cbn [negb] in *; try lra; try congruence.
    + rewrite A4, B5, Rplus_0_l. apply K, H2.
    + rewrite A2, B3, Rplus_0_r. apply K, H1.
Qed.

Lemma ex_C97 : exists fexp fln hist dist, precise_exp fexp /\ precise_ln fln /\ trainable at_sample /\ dt_made at_sample at_builder /\ tb_build at_builder at_sample = Ok at_tree /\ tb_criterion at_builder = Edge /\
  pm_labels at_sample /\ targets64 at_sample at_y /\ weak_stumps (1 / 3) at_sample (dt_bins at_tree) /\ f_ada_tree_run fexp fln mild_edge at_tree at_sample at_y hist dist /\ length hist = 1%nat /\
  rsum (map (fun p => Rabs (val (fst p))) hist) <= 256.
Proof.
  destruct P_C92_platform as [fexp [fln [He [Hl _]]]]. exists fexp, fln.
  assert (Hs : summing fsum) by (intros l; exists (FLeaf l); split; [apply Permutation_refl|reflexivity]). assert (Ho : some_order (fun m => m)) by (intros m; apply Permutation_refl).
  pose proof (fat_start fexp fln mild_edge at_tree at_sample at_y) as S0. change (length at_y) with 3%nat in S0.
  destruct (P_C97_round_succeeds fexp fln at_sample at_builder at_tree at_y (1 / 3) 3 [] (f_uniform 3) fsum (fun m => m) He Hl Hs Ho at_trainable at_made at_built eq_refl at_pm at_targets) as [h [conf [E1 [E2 HE]]]].
  - simpl. lra.
  - exact at_nb.
  - simpl. lra.
  - lra.
  - exact at_weak.
  - exact S0.
  - assert (N1 : (1 <= length at_y)%nat) by (simpl; lia). assert (Hn' : INR (length at_y) <= 2 ^ 16) by (simpl; lra).
    destruct (uni_facts at_y N1 Hn') as [Fu [_ [k [Bk Vu]]]]. change (length at_y) with 3%nat in Fu, Vu. set (u0 := fdiv f1 (f_of_usize 3)) in *.
    assert (C50 : / 2 ^ 50 <= / 1000) by (simpl; lra). apply Rabs_le_inv in Bk. assert (Bu : 3 / 10 <= val u0 <= 4 / 10) by (change (val u0) with (B2R u0) in *; rewrite Vu; replace (INR 3) with 3 by (simpl; lra); split; lra).
    assert (Tu : FloatSpec.total (f_uniform 3) = val u0 + (val u0 + (val u0 + 0))) by reflexivity.
    destruct (P_C96_tree_nearly_greedy fsum (fun m => m) fln at_sample at_builder at_tree (f_uniform 3) 3 Hs Ho at_trainable at_made at_built eq_refl at_pm) as [h' [E1' [NG _]]].
    + reflexivity.
    + intros x [<- |[<- |[<- |[]]]]; (split; [exact Fu|apply Rle_trans with (3 / 10); [lra|exact (proj1 Bu)]]).
    + exists u0. split; [left; reflexivity|apply Rlt_le_trans with (3 / 10); [lra|exact (proj1 Bu)]].
    + rewrite Tu. apply Rle_lt_trans with (4 / 10 + (4 / 10 + (4 / 10 + 0))); [repeat apply Rplus_le_compat; first [exact (proj2 Bu)|lra]|]. apply Rlt_trans with (2 ^ 1); [simpl; lra|apply Rlt_pow; [lra|lia]].
    + exact at_nb.
    + simpl. lra.
    + rewrite E1 in E1'. injection E1' as <-. change (tb_depth at_builder) with 1%nat in NG. change (fst (shape at_sample)) with 3%nat in NG, HE. rewrite (weighted_all (f_uniform 3) 3) in NG; [|reflexivity|intros d [<- |[<- |[<- |[]]]]; apply Rlt_le_trans with (3 / 10); (lra || exact (proj1 Bu))].
      assert (AE : Rabs (answer_edge h at_sample (f_uniform 3) [0; 1; 2]%nat) <= val u0). { apply (at_edge (128 * INR (2 * 3 + 3) * uu)); [apply Rlt_le_trans with (3 / 10); [lra|exact (proj1 Bu)]| |exact NG]. intros i Hi. destruct i as [|[|[|i]]]; try reflexivity. lia. }
      set (e := fsum (f_products (f_margins at_y conf) (f_uniform 3))). assert (Ee : f_edge at_y conf (f_uniform 3) e) by (exists (FLeaf (f_products (f_margins at_y conf) (f_uniform 3))); split; reflexivity).
      destruct (HE e Ee) as [Fe [_ [Ne Mi]]]. change (seq 0 3) with [0; 1; 2]%nat in Ne. assert (Me : mild_edge e). { unfold mild_edge. assert (C34 : / 2 ^ 34 <= / 1000) by (simpl; lra). assert (C10 : / 2 ^ 10 = / 1024) by (simpl; lra). rewrite C10. assert (AE' := Rle_trans _ _ _ AE (proj2 Bu)). apply Rabs_le_inv in AE'. apply Rabs_le_inv in Ne. apply Rabs_le. lra. }
      destruct (Mi Me) as [[ix Hix] U]. destruct (U ix Hix) as [d' [_ R1]]. exists [(f_ada_weight fln e, h)], d'. repeat (split; [first [assumption|exact at_trainable|exact at_made|exact at_built|exact at_pm|exact at_targets|exact at_weak|reflexivity]|]).
      cbn [map rsum fst]. rewrite Rplus_0_r. eapply Rle_trans; [apply (weight_ok fln Hl e Fe Me)|lra].
Qed.
(** ** Example: three rows labelled 1, -1, 1 from left to right, trees of depth 1: a round in f64 happens, and the theorems apply *)
Example C97_nonvacuous : exists fexp fln hist dist, precise_exp fexp /\ precise_ln fln /\ trainable at_sample /\ dt_made at_sample at_builder /\ tb_build at_builder at_sample = Ok at_tree /\ tb_criterion at_builder = Edge /\
  pm_labels at_sample /\ targets64 at_sample at_y /\ weak_stumps (1 / 3) at_sample (dt_bins at_tree) /\ f_ada_tree_run fexp fln mild_edge at_tree at_sample at_y hist dist /\ length hist = 1%nat /\
  rsum (map (fun p => Rabs (val (fst p))) hist) <= 256.
Proof. exact ex_C97. Qed.
