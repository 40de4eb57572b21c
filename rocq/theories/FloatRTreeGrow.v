(** Leaves, the choice among the features and the whole regression tree in binary64. *)
From Coq Require Import ZArith List Bool Reals Lia Lra Psatz Permutation String.
From Flocq Require Import Core.Core IEEE754.BinarySingleNaN Relative Plus_error Mult_error.
From Verif Require Import Base Feature FeatureFacts Sample SampleSpec SampleFacts Bins BinsSpec BinsProofs BinsFacts DTree TreeSpec TreeShape DTreeProofs DTreeOut DTreeSplit DTreeBest DTreeGrow RTree RTreeSpec RTreeProofs Float FloatSpec FloatProofs FloatFacts FloatCheckFacts FloatProjectProofs FloatProjectMain FloatEdgeFacts FloatMadaProofs FloatTree FloatTreeSpec FloatTreeProofs FloatPackProofs FloatGrowProofs FloatGrowthProofs FloatBestProofs FloatBestFeature FloatBestGrow FloatRTree FloatRTreeSpec FloatRTreeNum FloatRTreeTerm FloatRTreeScan FloatRTreeFeature.
Import ListNotations.
Open Scope R_scope.
Local Notation rtotal := TreeSpec.total.

Lemma rnd_back x : Rabs x <= 2 * (Rabs (rnd x) + eta0).
Proof.
  pose proof (rnd_near x) as H. pose proof uu_pos. pose proof uu_small. pose proof (Rabs_pos x) as P. assert (T : Rabs x <= Rabs (rnd x) + Rabs (rnd x - x)). { replace x with (rnd x - (rnd x - x)) at 1 by ring. eapply Rle_trans; [apply Rabs_triang|]. rewrite Rabs_Ropp. lra. }
  assert (uu * Rabs x <= / 9007199254740992 * Rabs x) by (apply Rmult_le_compat_r; lra). pose proof eta_nonneg. lra.
Qed.
Lemma mhalf_spec : fin f_mhalf /\ val f_mhalf = - / 2.
Proof. destruct (normalize_exact (-1) (-1)) as [F V]; [vm_compute; reflexivity|lia|]. split; [exact F|]. unfold f_mhalf. rewrite V. simpl. lra. Qed.
Lemma fopp_fin (v : f64) : fin v -> fin (fopp v).
Proof. intros H. unfold fopp. destruct v; try discriminate; reflexivity. Qed.

Section Grow.
  Variables (sched : list f64 -> f64).
  Hypothesis Hs : summing sched.
  Variables (s : sample) (g : list f64) (r : nat -> R) (bm : list (string * list bin)) (B lam : R) (lambda : f64).
  Local Notation n := (s_n_sample s).
  Local Notation h := (repeat f1 n).
  Hypothesis G : good s.
  Hypothesis NN : NoDup (map feat_name (s_features s)).
  Hypothesis Hf : s_features s <> [].
  Hypothesis Hg : length g = n.
  Hypothesis Hv : forall f i, In f (s_features s) -> (i < n)%nat -> F64MIN <= fval f i < F64MAX.
  Hypothesis Hb : forall f, In f (s_features s) -> exists bins, sm_get bm (feat_name f) = Ok bins /\ chain F64MIN F64MAX bins.
  Hypothesis B0 : / 2 ^ 400 <= B <= 2 ^ 400.
  Hypothesis Fl : fin lambda.
  Hypothesis Vl : val lambda = lam.
  Hypothesis L0 : / 2 ^ 20 <= lam <= 2 ^ 100.
  Local Notation rows_ok := (rows_ok s g r B).
  Local Notation om idx := (/ 2 ^ 26 * (INR (length idx) * B ^ 2)).
  Local Notation score f t idx := (split_score r one lam (column f) t idx).

  Lemma eval_near idx : rows_ok idx -> forall fs, (forall f, In f fs -> In f (s_features s)) -> exists l, f_rt_eval sched bm g h idx lambda fs = Ok l /\ length l = length fs /\
    (forall q, In q l -> fin (fst (fst q)) /\ exists f, In f fs /\ snd (fst q) = feat_name f /\ (exists t0, offered bm f t0 /\ forall i, In i idx -> (column f i < snd q <-> column f i < t0)) /\
      val (fst (fst q)) <= score f (snd q) idx + om idx) /\
    (forall f t', In f fs -> offered bm f t' -> exists q, In q l /\ score f t' idx <= val (fst (fst q)) + om idx).
  Proof.
    intros U. induction fs as [|f fs IH]; intros Hi; [exists []; split; [reflexivity|split; [reflexivity|split; [intros q []|intros f t' []]]]|].
    destruct (scan_near sched Hs s g r bm B lam lambda G Hg Hv Hb B0 Fl Vl L0 f idx (Hi f (or_introl eq_refl)) U) as [bins [pack [t [b [E1 [E2 [E3 [E4 [E5 [E6 E7]]]]]]]]]]. destruct IH as [l [El [Ll [H1 H2]]]]; [intros; apply Hi; right; assumption|].
    cbn [f_rt_eval]. rewrite E1. cbn [bind]. rewrite E2. cbn [bind]. rewrite E3. rewrite El. cbn [bind]. eexists. split; [reflexivity|]. split; [simpl; lia|]. cbn [fst snd]. split.
    - intros q [<- |Hq]; cbn [fst snd].
      + split; [exact E4|]. exists f. split; [left; reflexivity|]. split; [reflexivity|]. split; [exact E5|exact E6].
      + destruct (H1 q Hq) as [A [g0 [B1 B2]]]. split; [exact A|]. exists g0. split; [right; exact B1|exact B2].
    - intros f' t' [<- |Hf'] Ht'; [eexists; split; [left; reflexivity|apply E7, Ht']|]. destruct (H2 f' t' Hf' Ht') as [q [Q1 Q2]]. exists q. split; [right; exact Q1|exact Q2].
  Qed.

  Lemma split_near idx : rows_ok idx -> exists f t, f_rt_best_split sched bm s g h idx lambda = Ok (feat_name f, t) /\ nearly_best_score (/ 2 ^ 24 * INR (length idx) * B ^ 2) r lam (s_features s) bm f t idx.
  Proof.
    intros U. unfold f_rt_best_split. destruct (eval_near idx U (s_features s) (fun f H => H)) as [l [E [L [H1 H2]]]]. rewrite E. cbn [bind].
    destruct l as [|x t]; [destruct (s_features s); [congruence|discriminate]|].
    match goal with |- context [existsb ?g ?l] => assert (Ex : existsb g l = false) end.
    { apply not_true_is_false. intros Q. apply existsb_exists in Q. destruct Q as [q [Q1 Q2]]. destruct (H1 q Q1) as [Q3 _]. exact (eq_true_false_abs _ Q2 (fin_num _ Q3)). }
    rewrite Ex, andb_false_r. pose proof (pick_max_in t x) as Ir. pose proof (pick_max_le t x (fun q Hq => proj1 (H1 q Hq))) as Mx. set (m := f_pick_max x t) in *.
    destruct (H1 m Ir) as [_ [f [F1 [F2 [F3 F4]]]]]. exists f, (snd m). split; [destruct m as [[a nm] th]; cbn [fst snd] in *; rewrite F2; reflexivity|]. split; [exact F1|]. split; [exact F3|].
    intros f' t' Hf' Ht'. destruct (H2 f' t' Hf' Ht') as [q [Q1 Q2]]. specialize (Mx q Q1).
    assert (NB : 0 <= INR (length idx) * B ^ 2) by (apply Rmult_le_pos; [apply pos_INR|apply pow2_ge_0]). rewrite (Rmult_assoc (/ 2 ^ 24)). assert (E26 : / 2 ^ 26 = / 67108864) by (f_equal; simpl; lra). assert (E24 : / 2 ^ 24 = / 16777216) by (f_equal; simpl; lra). rewrite E26 in *. rewrite E24.
    eapply Rle_trans; [exact Q2|]. eapply Rle_trans; [apply Rplus_le_compat_r; exact Mx|]. eapply Rle_trans; [apply Rplus_le_compat_r; exact F4|]. lra.
  Qed.

  Lemma f_at (l : list f64) idx : length l = n -> (forall i, In i idx -> (i < n)%nat) -> f_weights_at l idx = Ok (map (fun i => nth i l f0) idx).
  Proof.
    intros Hl. induction idx as [|i idx IH]; intros H; [reflexivity|]. cbn [f_weights_at]. rewrite f_get_ok by (rewrite Hl; apply H; left; reflexivity). cbn [bind]. rewrite IH by (intros; apply H; right; assumption). reflexivity.
  Qed.

  Definition leaf_near (idx : list nat) (c : f64) : Prop := fin c /\ Rabs (val c - - rtotal r idx / (INR (length idx) + lam)) <= / 2 ^ 30 * B * (INR (length idx) / (INR (length idx) + lam)).

  Lemma info_ok idx : rows_ok idx -> exists pred loss, f_prediction_and_loss sched idx g h lambda = Ok (pred, loss) /\ leaf_near idx pred /\ (feq loss f0 = true -> Rabs (rtotal r idx) <= / 2 ^ 30 * B * INR (length idx)).
  Proof.
    intros [Hne [HL HI]]. unfold f_prediction_and_loss. rewrite (f_at g idx Hg) by (intros i Hi; apply HI, Hi). cbn [bind]. rewrite (f_at h idx (repeat_length f1 n)) by (intros i Hi; apply HI, Hi). cbn [bind].
    pose proof (Bp B B0) as Bp. pose proof (lam_pos lam L0) as Lp. pose proof uu_pos as Up. pose proof uu_small as Us. pose proof eta_nonneg as E0.
    assert (N1 : 1 <= INR (length idx)) by (change 1 with (INR 1); apply le_INR; destruct idx; [congruence|simpl; lia]).
    destruct (near_sum g r B B0 sched idx Hs HL (fun i Hi => proj2 (HI i Hi))) as [FG EG].
    assert (CH : cnt (length idx) (sched (map (fun i => nth i h f0) idx))).
    { apply sched_whole; [exact Hs| | |eapply Rle_lt_trans; [exact HL|]; apply Rlt_pow; [lra|lia]].
      - intros x Hx. apply in_map_iff in Hx. destruct Hx as [i [<- Hi]]. exists 1%nat. rewrite h_nth by (apply HI, Hi). destruct f1_spec as [F V]. split; [exact F|exact V].
      - unfold FloatSpec.total. rewrite map_map, <- (total_one idx). apply rsum_map_ext. intros i Hi. rewrite h_nth by (apply HI, Hi). destruct f1_spec as [_ V]. exact V. }
    destruct CH as [FH VH]. set (Gs := sched (map (fun i => nth i g f0) idx)) in *. set (H := sched (map (fun i => nth i h f0) idx)) in *. clearbody Gs H. set (N := INR (length idx)) in *. set (T := rtotal r idx) in *.
    assert (TB : Rabs T <= B * N) by (apply (rtotal_bound g r B); intros i Hi; apply HI, Hi).
    assert (BN : 0 < B * N) by (apply Rmult_lt_0_compat; lra). assert (S0 : 0 < N + lam) by lra.
    assert (S101 : N + lam <= 2 ^ 101). { replace (2 ^ 101) with (2 ^ 100 + 2 ^ 100) by (replace 101%nat with (1 + 100)%nat by reflexivity; rewrite pow_add, pow_1; ring). assert (2 ^ 16 <= 2 ^ 100) by (apply Rle_pow; [lra|lia]). lra. }
    destruct (fadd_rnd H lambda FH Fl) as [Fs [_ [e [He Es]]]]; [rewrite VH, Vl, Rabs_pos_eq by (fold N; lra); fold N; eapply Rle_trans; [exact S101|]; apply Rle_pow; [lra|lia]|].
    rewrite VH, Vl in Es. fold N in Es. set (S := fadd H lambda) in *. clearbody S.
    assert (SV : 0 < val S <= 2 ^ 102). { rewrite Es. apply Rabs_le_inv in He. replace (2 ^ 102) with (2 ^ 101 * 2) by (replace 102%nat with (101 + 1)%nat by reflexivity; rewrite pow_add, pow_1; reflexivity). split; [apply Rmult_lt_0_compat; lra|apply Rmult_le_compat; lra]. }
    assert (G2 : Rabs (val Gs) <= 2 * (B * N)). { rewrite u34 in EG. replace (/ 17179869184 * B * N) with (/ 17179869184 * (B * N)) in EG by ring. apply Rabs_le_inv in EG. apply Rabs_le_inv in TB. apply Rabs_le. lra. }
    assert (BNb : B * N <= 2 ^ 416). { replace 416%nat with (400 + 16)%nat by reflexivity. rewrite pow_add. apply Rmult_le_compat; lra. }
    assert (BNl : / 2 ^ 400 <= B * N). { assert (0 < / 2 ^ 400) by (apply Rinv_0_lt_compat, pow_lt; lra). apply Rle_trans with (B * 1); [lra|apply Rmult_le_compat_l; lra]. }
    eexists; eexists. split; [reflexivity|]. split.
    - (* the prediction *)
      set (M := 2 * (B * N) / (N + lam)).
      assert (uE : eta0 <= uu * (2 * (B * N)) / 4 * / 2 ^ 101).
      { eapply Rle_trans; [apply (eta_below 560); lia|]. replace (uu * (2 * (B * N)) / 4 * / 2 ^ 101) with (uu * / 2 * / 2 ^ 101 * (B * N)) by field. apply Rle_trans with (/ 2 ^ 155 * / 2 ^ 400); [rewrite inv_pow_mult; apply inv_pow_le; lia|].
        replace (uu * / 2 * / 2 ^ 101) with (/ 2 ^ 155). 2:{ unfold uu. replace (/ 2) with (/ 2 ^ 1) by (simpl; lra). rewrite !inv_pow_mult. reflexivity. }
        apply Rmult_le_compat_l; [left; apply Rinv_0_lt_compat, pow_lt; lra|exact BNl]. }
      assert (I101 : / 2 ^ 101 <= 1) by (replace 1 with (/ 2 ^ 0) by (simpl; lra); apply inv_pow_le; lia). assert (I101p : 0 < / 2 ^ 101) by (apply Rinv_0_lt_compat, pow_lt; lra). assert (uB : 0 < uu * (2 * (B * N)) / 4) by (apply Rdiv_lt_0_compat; [apply Rmult_lt_0_compat|]; lra).
      assert (IS : / 2 ^ 101 <= / (N + lam)) by (apply Rinv_le_contravar; lra). assert (ISp : 0 < / (N + lam)) by (apply Rinv_0_lt_compat; lra).
      destruct (quotient_near (- val Gs) (N + lam) M (val (fopp Gs)) (val S)) as [D1 D2].
      + exact S0.
      + unfold M. unfold Rdiv. rewrite Rabs_mult, Rabs_Ropp, (Rabs_pos_eq (/ (N + lam))) by lra. apply Rmult_le_compat_r; lra.
      + unfold M. replace (uu * (2 * (B * N) / (N + lam)) / 4) with (uu * (2 * (B * N)) / 4 * / (N + lam)) by (field; lra). unfold Rdiv at 1. apply Rmult_le_compat_r; [lra|]. eapply Rle_trans; [exact uE|]. rewrite <- (Rmult_1_r (uu * (2 * (B * N)) / 4)) at 2. apply Rmult_le_compat_l; lra.
      + unfold M. replace (uu * (2 * (B * N) / (N + lam)) / 4) with (uu * (2 * (B * N)) / 4 * / (N + lam)) by (field; lra). eapply Rle_trans; [exact uE|]. apply Rmult_le_compat_l; lra.
      + unfold fopp. rewrite fopp_val. replace (- val Gs - - val Gs) with 0 by ring. rewrite Rabs_R0. pose proof (Rabs_pos (- val Gs)). apply Rplus_le_le_0_compat; [apply Rmult_le_pos; lra|lra].
      + exists e. split; [exact He|exact Es].
      + destruct (fdiv_spec (fopp Gs) S (fopp_fin Gs FG)) as [Fd Vd]; [lra| |].
        { eapply Rle_lt_trans; [exact D2|]. unfold M. apply Rle_lt_trans with (2 * (2 * 2 ^ 416 * 2 ^ 20)).
          - apply Rmult_le_compat_l; [lra|]. unfold Rdiv. apply Rmult_le_compat; [lra|lra|lra|]. rewrite <- (Rinv_inv (2 ^ 20)). apply Rinv_le_contravar; [apply Rinv_0_lt_compat, pow_lt; lra|]. lra.
          - replace (2 * (2 * 2 ^ 416 * 2 ^ 20)) with (2 ^ (1 + (1 + 416 + 20))) by (rewrite !pow_add, pow_1; ring). apply Rlt_pow; [lra|simpl; lia]. }
        split; [exact Fd|]. rewrite Vd. set (X := B * (N / (N + lam))). assert (X0 : 0 < X) by (unfold X, Rdiv; rewrite <- Rmult_assoc; apply Rmult_lt_0_compat; lra).
        assert (EM : M = 2 * X) by (unfold M, X, Rdiv; ring). rewrite EM in D1.
        assert (D3 : Rabs (- val Gs / (N + lam) - - T / (N + lam)) <= / 2 ^ 34 * X).
        { replace (- val Gs / (N + lam) - - T / (N + lam)) with (- (val Gs - T) * / (N + lam)) by (field; lra). rewrite Rabs_mult, Rabs_Ropp, (Rabs_pos_eq (/ (N + lam))) by lra. replace (/ 2 ^ 34 * X) with (/ 2 ^ 34 * B * N * / (N + lam)) by (unfold X, Rdiv; ring). apply Rmult_le_compat_r; [lra|exact EG]. }
        rewrite (Rmult_assoc (/ 2 ^ 30)). fold X. rewrite u34 in D3. assert (E30 : / 2 ^ 30 = / 1073741824) by (f_equal; simpl; lra). rewrite E30. assert (UX : uu * X <= / 9007199254740992 * X) by (apply Rmult_le_compat_r; lra).
        match type of D1 with Rabs (?q - ?w) <= _ => match goal with |- Rabs (_ - ?z) <= _ => apply Rle_trans with (Rabs ((q - w) + (w - z))); [right; f_equal; ring|] end end.
        eapply Rle_trans; [apply Rabs_triang|]. eapply Rle_trans; [apply Rplus_le_compat; [exact D1|exact D3]|]. fold N. fold X. clear -X0 UX. lra.
    - (* the loss *)
      intros Q. assert (GsS : Rabs (val Gs) <= / 2 ^ 34 * (B * N)).
      { assert (F2 : Rabs (val Gs * val Gs) <= 2 ^ 834).
        { rewrite Rabs_mult. replace (2 ^ 834) with ((2 * 2 ^ 416) * (2 * 2 ^ 416)) by (replace 834%nat with ((1 + 416) + (1 + 416))%nat by reflexivity; rewrite !pow_add, pow_1; reflexivity). apply Rmult_le_compat; try apply Rabs_pos; lra. }
        destruct (fmul_rnd Gs Gs FG FG) as [Fm1 Vm1]; [eapply Rle_trans; [exact F2|]; apply Rle_pow; [lra|lia]|]. pose proof (rnd_back (val Gs * val Gs)) as R1. pose proof (rnd_near (val Gs * val Gs)) as R1'. rewrite <- Vm1 in R1, R1'. destruct mhalf_spec as [Fh Vh].
        set (m1 := fmul Gs Gs) in *. clearbody m1.
        assert (M1 : Rabs (val m1) <= 2 ^ 836). { assert (T1 : Rabs (val m1) <= Rabs (val Gs * val Gs) + Rabs (val m1 - val Gs * val Gs)). { replace (val m1) with (val Gs * val Gs + (val m1 - val Gs * val Gs)) at 1 by ring. apply Rabs_triang. }
          assert (uu * Rabs (val Gs * val Gs) <= 1 * Rabs (val Gs * val Gs)) by (apply Rmult_le_compat_r; [apply Rabs_pos|lra]). pose proof eta0_small. assert (1 <= 2 ^ 834) by (apply pow_R1_Rle; lra). replace (2 ^ 836) with (4 * 2 ^ 834) by (replace 836%nat with (2 + 834)%nat by reflexivity; rewrite pow_add; simpl (2 ^ 2); ring). assert (/ 2 ^ 100 <= 1) by (replace 1 with (/ 2 ^ 0) by (simpl; lra); apply inv_pow_le; lia). lra. }
        destruct (fmul_rnd f_mhalf m1 Fh Fm1) as [Fm2 Vm2]; [rewrite Vh, Rabs_mult, (Rabs_left (- / 2)) by lra; apply Rle_trans with (2 ^ 836); [pose proof (Rabs_pos (val m1)); lra|apply Rle_pow; [lra|lia]]|].
        pose proof (rnd_back (val f_mhalf * val m1)) as R2. pose proof (rnd_near (val f_mhalf * val m1)) as R2'. rewrite <- Vm2, Vh in R2, R2'. rewrite Rabs_mult, (Rabs_left (- / 2)) in R2, R2' by lra. set (m2 := fmul f_mhalf m1) in *. clearbody m2.
        assert (M2 : Rabs (val m2) <= 2 ^ 838). { assert (T1 : Rabs (val m2) <= Rabs (- / 2 * val m1) + Rabs (val m2 - - / 2 * val m1)). { replace (val m2) with (- / 2 * val m1 + (val m2 - - / 2 * val m1)) at 1 by ring. apply Rabs_triang. } rewrite Rabs_mult, (Rabs_left (- / 2)) in T1 by lra.
          assert (uu * (- - / 2 * Rabs (val m1)) <= 1 * Rabs (val m1)) by (apply Rmult_le_compat; pose proof (Rabs_pos (val m1)); lra). pose proof eta0_small. assert (1 <= 2 ^ 836) by (apply pow_R1_Rle; lra). replace (2 ^ 838) with (4 * 2 ^ 836) by (replace 838%nat with (2 + 836)%nat by reflexivity; rewrite pow_add; simpl (2 ^ 2); ring). assert (/ 2 ^ 100 <= 1) by (replace 1 with (/ 2 ^ 0) by (simpl; lra); apply inv_pow_le; lia). lra. }
        assert (SL : / 2 ^ 21 <= val S). { rewrite Es. apply Rabs_le_inv in He. replace (/ 2 ^ 21) with (/ 2 ^ 20 * / 2 ^ 1) by (rewrite inv_pow_mult; reflexivity). apply Rmult_le_compat; try (left; apply Rinv_0_lt_compat, pow_lt; lra); [lra|]. rewrite pow_1. lra. }
        assert (IS : / val S <= 2 ^ 21) by (rewrite <- (Rinv_inv (2 ^ 21)); apply Rinv_le_contravar; [apply Rinv_0_lt_compat, pow_lt; lra|exact SL]). assert (ISp : 0 < / val S) by (apply Rinv_0_lt_compat; lra).
        destruct (fdiv_spec m2 S Fm2) as [Fd Vd]; [lra| |].
        { unfold Rdiv. rewrite Rabs_mult, (Rabs_pos_eq (/ val S)) by lra. apply Rle_lt_trans with (2 ^ 838 * 2 ^ 21); [apply Rmult_le_compat; try lra; apply Rabs_pos|]. rewrite <- pow_add. apply Rlt_pow; [lra|simpl; lia]. }
        apply (feq_val _ _ Fd fin_f0) in Q. rewrite val_f0, Vd in Q. pose proof (rnd_back (val m2 / val S)) as R3. rewrite Q, Rabs_R0, Rplus_0_l in R3. unfold Rdiv in R3. rewrite Rabs_mult, (Rabs_pos_eq (/ val S)) in R3 by lra.
        assert (M2s : Rabs (val m2) <= 2 ^ 103 * eta0).
        { apply (Rmult_le_compat_r (val S)) in R3; [|lra]. rewrite Rmult_assoc, Rinv_l, Rmult_1_r in R3 by lra. eapply Rle_trans; [exact R3|]. replace (2 ^ 103 * eta0) with (2 * eta0 * 2 ^ 102) by (replace 103%nat with (1 + 102)%nat by reflexivity; rewrite pow_add, pow_1; ring). apply Rmult_le_compat_l; lra. }
        assert (P103 : 1 <= 2 ^ 103) by (apply pow_R1_Rle; lra). assert (E1 : eta0 <= 2 ^ 103 * eta0) by (rewrite <- (Rmult_1_l eta0) at 1; apply Rmult_le_compat_r; lra).
        assert (G2' : Rabs (val Gs) ^ 2 <= 2 ^ 109 * eta0). { rewrite pow2_abs. replace (val Gs ^ 2) with (val Gs * val Gs) by ring. eapply Rle_trans; [apply Rle_abs|]. replace (2 ^ 109 * eta0) with (64 * (2 ^ 103 * eta0)) by (replace 109%nat with (6 + 103)%nat by reflexivity; rewrite pow_add; simpl (2 ^ 6); ring). lra. }
        destruct (Rle_dec (Rabs (val Gs)) (/ 2 ^ 34 * (B * N))) as [L|L]; [exact L|]. exfalso. apply Rnot_le_lt in L.
        assert (I434 : 0 < / 2 ^ 434) by (apply Rinv_0_lt_compat, pow_lt; lra). assert (L' : / 2 ^ 434 <= / 2 ^ 34 * (B * N)). { replace 434%nat with (34 + 400)%nat by reflexivity. rewrite <- inv_pow_mult. apply Rmult_le_compat_l; [left; apply Rinv_0_lt_compat, pow_lt; lra|exact BNl]. }
        assert (Q2 : / 2 ^ 868 < Rabs (val Gs) ^ 2). { replace (/ 2 ^ 868) with (/ 2 ^ 434 * / 2 ^ 434) by (rewrite inv_pow_mult; reflexivity). replace (Rabs (val Gs) ^ 2) with (Rabs (val Gs) * Rabs (val Gs)) by ring. apply Rmult_le_0_lt_compat; lra. }
        assert (Q3 : 2 ^ 109 * eta0 <= / 2 ^ 868). { apply Rle_trans with (2 ^ 109 * / 2 ^ 977); [apply Rmult_le_compat_l; [apply pow_le; lra|apply eta_below; lia]|]. right. replace 977%nat with (109 + 868)%nat by reflexivity. rewrite pow_add. field; apply pow_nonzero; lra. }
        lra. }
      rewrite (Rmult_assoc (/ 2 ^ 34)) in EG. rewrite (Rmult_assoc (/ 2 ^ 30)). rewrite u34 in *. assert (E30 : / 2 ^ 30 = / 1073741824) by (f_equal; simpl; lra). rewrite E30.
      apply Rabs_le_inv in EG. apply Rabs_le_inv in GsS. apply Rabs_le. split; lra.
  Qed.

  Lemma filter_col f t idx : In f (s_features s) -> (forall i, In i idx -> (i < n)%nat) -> filter (below (fval f) t) idx = filter (below (column f) t) idx /\ filter (not_below (fval f) t) idx = filter (not_below (column f) t) idx.
  Proof.
    intros Hin Hi. destruct (below_filter_ext (fval f) (column f) t t idx) as [E1 E2]; [|split; assumption]. intros i H. rewrite (column_f s G f i Hin) by (apply Hi, H). tauto.
  Qed.

  Lemma tree_ok depth : forall idx, rows_ok idx -> exists t, f_rt_full_tree sched bm s g h lambda depth idx = Ok t /\ nearly_greedy_reg B r lam (s_features s) bm t depth idx.
  Proof.
    induction depth as [|depth IH]; intros idx F; pose proof F as [_ [_ R]]; destruct (info_ok idx F) as [c [loss [E [[V1 V2] Z]]]]; cbn [f_rt_full_tree]; rewrite E; cbn [bind].
    - eexists. split; [reflexivity|]. split; [exact V1|]. split; [exact V2|]. left. lia.
    - destruct (feq loss f0) eqn:El; cbn [orb].
      { eexists. split; [reflexivity|]. split; [exact V1|]. split; [exact V2|]. right. left. apply Z. reflexivity. }
      destruct (Nat.leb (S depth) 1) eqn:Ed.
      { eexists. split; [reflexivity|]. split; [exact V1|]. split; [exact V2|]. left. apply Nat.leb_le in Ed. exact Ed. }
      destruct (split_near idx F) as [f [t [Eb NB]]]. rewrite Eb. cbn [bind fst snd]. assert (Hin : In f (s_features s)) by apply NB.
      rewrite (partition_ok s G NN f t idx Hin) by (intros i Hi; apply R, Hi). cbn [bind fst snd]. destruct (filter_col f t idx Hin) as [-> ->]; [intros i Hi; apply R, Hi|].
      destruct (filter (below (column f) t) idx) as [|a A] eqn:EA.
      { eexists. split; [reflexivity|]. split; [exact V1|]. split; [exact V2|]. right. right. exists f, t. split; [exact NB|]. right. intros i Hi. destruct (Rlt_dec (column f i) t) as [Q|Q]; [|lra]. exfalso. assert (I : In i (filter (below (column f) t) idx)) by (apply filter_In; split; [exact Hi|unfold below; destruct (Rlt_dec (column f i) t); [reflexivity|contradiction]]). rewrite EA in I. destruct I. }
      destruct (filter (not_below (column f) t) idx) as [|b Bl] eqn:EB.
      { eexists. split; [reflexivity|]. split; [exact V1|]. split; [exact V2|]. right. right. exists f, t. split; [exact NB|]. left. intros i Hi. destruct (Rlt_dec (column f i) t) as [Q|Q]; [exact Q|]. exfalso. assert (I : In i (filter (not_below (column f) t) idx)) by (apply filter_In; split; [exact Hi|unfold not_below; destruct (Rlt_dec (column f i) t); [contradiction|reflexivity]]). rewrite EB in I. destruct I. }
      cbn [is_nil orb]. rewrite <- EA, <- EB. destruct (IH (filter (below (column f) t) idx)) as [l [El' Gl]]; [apply rows_filter; [exact F|rewrite EA; discriminate]|].
      destruct (IH (filter (not_below (column f) t) idx)) as [rr [Er Gr]]; [apply rows_filter; [exact F|rewrite EB; discriminate]|]. rewrite El'. cbn [bind]. rewrite Er. cbn [bind].
      eexists. split; [reflexivity|]. cbn [nearly_greedy_reg sp_feature sp_threshold]. exists depth, f. split; [reflexivity|]. split; [reflexivity|]. split; [exact NB|]. rewrite EA, EB in *. split; [discriminate|]. split; [discriminate|]. split; assumption.
  Qed.
End Grow.
