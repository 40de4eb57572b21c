(** One feature and one node of the regression tree in binary64. *)
From Coq Require Import ZArith List Bool Reals Lia Lra Psatz Permutation String.
From Flocq Require Import Core.Core IEEE754.BinarySingleNaN Relative Plus_error Mult_error.
From Verif Require Import Base Feature FeatureFacts Sample SampleSpec SampleFacts Bins BinsSpec BinsProofs BinsFacts DTree TreeSpec TreeShape DTreeProofs DTreeOut DTreeSplit DTreeBest DTreeGrow RTree RTreeSpec RTreeProofs Float FloatSpec FloatProofs FloatFacts FloatCheckFacts FloatProjectProofs FloatEdgeFacts FloatMadaProofs FloatTree FloatTreeSpec FloatTreeProofs FloatPackProofs FloatGrowProofs FloatGrowthProofs FloatBestProofs FloatBestFeature FloatBestGrow FloatRTree FloatRTreeSpec FloatRTreeNum FloatRTreeTerm FloatRTreeScan BinsPack.
Import ListNotations.
Open Scope R_scope.
Local Notation rtotal := TreeSpec.total.

Lemma side_real (g : nat -> R) lam I : side_score g one lam I = (rtotal g I) ^ 2 / (INR (length I) + lam).
Proof.
  assert (E : rtotal one I = INR (length I)) by (unfold rtotal, one; rewrite rsum_const; ring).
  destruct I as [|i I]; [unfold side_score, rtotal; simpl; unfold Rdiv; ring|]. unfold side_score. rewrite E. reflexivity.
Qed.
Lemma sscore_ext (g : nat -> R) lam x x' t t' idx : (forall i, In i idx -> (x i < t <-> x' i < t')) -> split_score g one lam x t idx = split_score g one lam x' t' idx.
Proof. intros H. destruct (below_filter_ext x x' t t' idx H) as [E1 E2]. unfold split_score. rewrite E1, E2. reflexivity. Qed.
Lemma gh_ffold (g h : list f64) I : forall p, fold_left (fun p i => (fadd (fst p) (nth i g f0), fadd (snd p) (nth i h f0))) I p = (fold_left fadd (map (fun i => nth i g f0) I) (fst p), fold_left fadd (map (fun i => nth i h f0) I) (snd p)).
Proof. induction I as [|i I IH]; intros [a b]; cbn [fold_left map fst snd]; [reflexivity|]. apply IH. Qed.
Lemma ones_fold I : forall k a, cnt k a -> INR (k + length I) < 2 ^ 53 -> cnt (k + length I) (fold_left fadd (map (fun _ : nat => f1) I) a).
Proof.
  induction I as [|i I IH]; intros k a C H; cbn [map fold_left length] in *; [rewrite Nat.add_0_r; exact C|]. rewrite <- Nat.add_succ_comm in *. replace (S k) with (k + 1)%nat in * by lia. apply IH; [|exact H].
  apply cnt_add; [exact C|destruct f1_spec as [F V]; split; [exact F|exact V]|]. eapply Rle_lt_trans; [|exact H]. apply le_INR. lia.
Qed.

Lemma rsum_scal {A} c (f : A -> R) l : rsum (map (fun x => c * f x) l) = c * rsum (map f l).
Proof. induction l as [|a l IH]; cbn [map rsum]; [ring|]. rewrite IH. ring. Qed.

Section Node.
  Variables (sched : list f64 -> f64).
  Hypothesis Hs : summing sched.
  Variables (s : sample) (g : list f64) (r : nat -> R) (bm : list (string * list bin)) (B lam : R) (lambda : f64).
  Local Notation n := (s_n_sample s).
  Local Notation h := (repeat f1 n).
  Hypothesis G : good s.
  Hypothesis NN : NoDup (map feat_name (s_features s)).
  Hypothesis Hf : s_features s <> [].
  Hypothesis Hg : length g = n.
  Hypothesis Hv : forall f i, In f (s_features s) -> (i < n)%nat -> F64MIN <= fval f i < F64MAX.
  Hypothesis Hb : forall f, In f (s_features s) -> exists bins, sm_get bm (feat_name f) = Ok bins /\ chain F64MIN F64MAX bins.
  Hypothesis B0 : / 2 ^ 400 <= B <= 2 ^ 400.
  Hypothesis Fl : fin lambda.
  Hypothesis Vl : val lambda = lam.
  Hypothesis L0 : / 2 ^ 20 <= lam <= 2 ^ 100.

  Definition rows_ok (idx : list nat) : Prop := idx <> [] /\ INR (length idx) <= 2 ^ 16 /\ forall i, In i idx -> (i < n)%nat /\ near_row g r B i.

  Lemma rows_filter p idx : rows_ok idx -> filter p idx <> [] -> rows_ok (filter p idx).
  Proof.
    intros [_ [L R]] Nf. split; [exact Nf|]. split; [eapply Rle_trans; [apply le_INR, filter_len|exact L]|]. intros i Hi. apply R. apply filter_In in Hi. apply Hi.
  Qed.
  Lemma fcol f : In f (s_features s) -> col_ok n f.
  Proof. intros H. pose proof (good_cols s G) as F. rewrite Forall_forall in F. apply F, H. Qed.
  Lemma column_f f i : In f (s_features s) -> (i < n)%nat -> column f i = fval f i.
  Proof. intros Hin Hi. unfold column. rewrite (feat_index_ok n f i (fcol f Hin) Hi). reflexivity. Qed.
  Lemma h_nth i : (i < n)%nat -> nth i h f0 = f1.
  Proof. intros Hi. apply nth_repeat_lt, Hi. Qed.
  Lemma small16 x : x <= 2 ^ 16 -> x < 2 ^ 53.
  Proof. intros H. eapply Rle_lt_trans; [exact H|]. apply Rlt_pow; [lra|lia]. Qed.
  Lemma h_sum I : (forall i, In i I -> (i < n)%nat) -> INR (length I) <= 2 ^ 16 -> cnt (length I) (fsum (map (fun i => nth i h f0) I)).
  Proof.
    intros H L. unfold fsum. rewrite (map_ext_in _ (fun _ => f1)) by (intros i Hi; apply h_nth, H, Hi). apply (ones_fold I 0 f0 cnt_0). apply small16, L.
  Qed.

  Local Notation inb f b idx := (filter (fun i => bin_contains b (fval f i)) idx).

  Lemma f_pack_spec bins f idx : chain F64MIN F64MAX bins -> In f (s_features s) -> rows_ok idx -> exists out e',
    f_rt_pack bins idx f g h = Ok out /\ F64MIN < e' <= F64MAX /\ chain F64MIN e' (map fst out) /\ out <> [] /\
    (forall i, In i idx -> F64MIN <= fval f i < e') /\
    (forall b m, In (b, m) out -> m = (fsum (map (fun i => nth i g f0) (inb f b idx)), fsum (map (fun i => nth i h f0) (inb f b idx))) /\ exists i, In i idx /\ in_bin b (fval f i)) /\
    (forall b, In b bins -> exists t, In t (F64MIN :: map (fun o => b_end (fst o)) out) /\ forall i, In i idx -> (fval f i < b_end b <-> fval f i < t)) /\
    (forall b m, In (b, m) out -> exists b', In b' bins /\ forall i, In i idx -> (fval f i < b_end b <-> fval f i < b_end b')).
  Proof.
    intros C Hin [Hne [HL HI]]. unfold f_rt_pack.
    destruct (pack_loop_spec (f_rt_add g h) (fun i p => (fadd (fst p) (nth i g f0), fadd (snd p) (nth i h f0))) (f0, f0) bins f (fval f) F64MIN F64MAX C idx (repeat (f0, f0) (length bins))) as [packs [E [L N]]].
    { intros i Hi. destruct (HI i Hi) as [Li _]. split; [apply (feat_index_ok n); [apply fcol, Hin|exact Li]|]. split; [apply Hv; assumption|]. intros p. unfold f_rt_add.
      rewrite f_get_ok by (unfold f64 in *; rewrite Hg; exact Li). cbn [bind]. rewrite f_get_ok by (rewrite repeat_length; exact Li). reflexivity. }
    { apply repeat_length. }
    rewrite E. cbn [bind].
    destruct (packed_by (P := f64 * f64) (fun i p => (fadd (fst p) (nth i g f0), fadd (snd p) (nth i h f0))) (f0, f0) f_gh_zero bins packs (fval f) idx F64MIN F64MAX C Hne) as [out [e' [Eo [He [Hc [Ha [Hp [Hs' Hr]]]]]]]].
    { intros i Hi. apply Hv; [exact Hin|apply HI, Hi]. }
    { exact L. }
    { intros k Hk. rewrite N by exact Hk. rewrite nth_repeat_lt by exact Hk. reflexivity. }
    { intros k Hk. cbv beta. rewrite gh_ffold. cbn [fst snd]. assert (HII : incl (inb f (nth k bins b0) idx) idx) by (intros i Hi; apply filter_In in Hi; tauto). assert (LI := filter_len (fun i => bin_contains (nth k bins b0) (fval f i)) idx).
      destruct (inb f (nth k bins b0) idx) as [|i I]; [vm_compute; reflexivity|].
      destruct (h_sum (i :: I)) as [Fh Vh]; [intros j Hj; apply HI, HII, Hj|eapply Rle_trans; [apply le_INR, LI|exact HL]|].
      unfold f_gh_zero. cbn [fst snd]. fold (fsum (map (fun j => nth j h f0) (i :: I))). apply andb_false_intro2. apply not_true_is_false. intros Q. apply feq_val in Q; [|exact Fh|apply fin_f0]. rewrite Vh, val_f0 in Q. change 0 with (INR 0) in Q. apply INR_eq in Q. discriminate Q. }
    exists out, e'. split; [exact Eo|]. split; [exact He|]. split; [exact Hc|]. split.
    { intros E0. rewrite E0 in Hc. simpl in Hc. lra. }
    split; [exact Ha|]. split; [|split; [exact Hs'|exact Hr]].
    intros b m Hbm. destruct (Hp b m Hbm) as [-> Hi]. split; [|exact Hi]. cbv beta. rewrite gh_ffold. reflexivity.
  Qed.

  Local Notation om idx := (/ 2 ^ 26 * (INR (length idx) * B ^ 2)).
  Local Notation score f t idx := (split_score r one lam (column f) t idx).

  Lemma total_one I : rtotal one I = INR (length I).
  Proof. unfold rtotal, one. rewrite rsum_const. ring. Qed.
  Lemma rtotal_bound I : (forall i, In i I -> near_row g r B i) -> Rabs (rtotal r I) <= B * INR (length I).
  Proof. intros H. unfold rtotal. rewrite <- rsum_const. apply rsum_bound. intros i Hi. apply (H i Hi). Qed.

  Lemma scan_near f idx : In f (s_features s) -> rows_ok idx -> exists bins pack t b, sm_get bm (feat_name f) = Ok bins /\ f_rt_pack bins idx f g h = Ok pack /\ f_best_split_at sched pack lambda = (t, b) /\ fin b /\
    (exists t0, offered bm f t0 /\ forall i, In i idx -> (column f i < t <-> column f i < t0)) /\ val b <= score f t idx + om idx /\ forall t', offered bm f t' -> score f t' idx <= val b + om idx.
  Proof.
    intros Hin Hr. pose proof Hr as [Hne [HL HI]]. destruct (Hb f Hin) as [bins [Eb C]]. destruct (f_pack_spec bins f idx C Hin Hr) as [out [e' [E [He [C' [Hon [Hx [Hm [Hto Hfrom]]]]]]]]].
    pose proof (Bp B B0) as Bp. pose proof (lam_pos lam L0) as Lp. pose proof uu_pos as Up. pose proof uu_small as Us. set (N := length idx) in *.
    assert (N1 : (1 <= N)%nat) by (unfold N; destruct idx; [congruence|simpl; lia]). assert (NR : 1 <= INR N) by (change 1 with (INR 1); apply le_INR, N1).
    set (ge := fun b => rtotal r (inb f b idx)). set (ke := fun b => length (inb f b idx)).
    set (thr := fun k => b_end (fst (nth k out b_))).
    assert (Hsub : forall p : nat -> bool, forall i, In i (filter p idx) -> In i idx) by (intros p i Hi; apply filter_In in Hi; tauto).
    assert (Near : forall q, In q out -> near_pack B ge ke q).
    { intros [b m] Hq. destruct (Hm b m Hq) as [-> _]. unfold near_pack. cbn [fst snd]. assert (Lb : INR (length (inb f b idx)) <= 2 ^ 16) by (eapply Rle_trans; [apply le_INR, filter_len|exact HL]).
      destruct (near_sum g r B B0 fsum (inb f b idx) fsum_summing Lb) as [F1 E1]; [intros i Hi; apply HI; eapply Hsub, Hi|]. split; [exact F1|]. split; [exact E1|]. split; [apply h_sum; [intros i Hi; apply HI; eapply Hsub, Hi|exact Lb]|]. apply rtotal_bound. intros i Hi. apply HI. eapply Hsub, Hi. }
    assert (Kreal : forall l, INR (ksum ke l) = rsum (map (fun q => INR (ke (fst q))) l)).
    { induction l as [|q l IH]; [reflexivity|]. change (ksum ke (q :: l)) with (ke (fst q) + ksum ke l)%nat. cbn [map rsum]. rewrite plus_INR, IH. reflexivity. }
    assert (Key : forall k, (k < length out)%nat -> gsum ge (firstn (S k) out) = rtotal r (filter (below (fval f) (thr k)) idx) /\ ksum ke (firstn (S k) out) = length (filter (below (fval f) (thr k)) idx)).
    { intros k Hk. assert (Em : forall (gg : nat -> R), rsum (map (fun q => rtotal gg (inb f (fst q) idx)) (firstn (S k) out)) = rtotal gg (filter (below (fval f) (thr k)) idx)).
      { intros gg. assert (E1 : rsum (map (fun q => rtotal gg (inb f (fst q) idx)) (firstn (S k) out)) = rsum (map (fun b => sum_where gg (fun i => bin_contains b (fval f i)) idx) (firstn (S k) (map fst out)))).
        { rewrite firstn_map, map_map. reflexivity. }
        rewrite E1. rewrite (prefix_sum (fval f) gg (map fst out) F64MIN e' idx k C' (fun i Hi => proj1 (Hx i Hi))) by (rewrite map_length; exact Hk).
        rewrite (nth_map_in fst _ _ b_ b0) by exact Hk. reflexivity. }
      split; [apply (Em r)|]. apply INR_eq. rewrite Kreal, <- total_one, <- (Em one). apply rsum_map_ext. intros q _. unfold ke. rewrite total_one. reflexivity. }
    set (last := (length out - 1)%nat). assert (Hlast : (last < length out)%nat) by (unfold last; destruct out; [congruence|simpl; lia]).
    assert (Elast : thr last = e').
    { unfold thr. rewrite <- (nth_map_in fst _ _ b_ b0) by exact Hlast. unfold last. rewrite <- (map_length fst out). apply (chain_last _ _ _ C'). destruct out; [congruence|discriminate]. }
    destruct (below_all (fval f) e' idx (fun i Hi => proj2 (Hx i Hi))) as [BA1 BA2].
    assert (Etot : gsum ge out = rtotal r idx /\ ksum ke out = N).
    { destruct (Key last Hlast) as [K1 K2]. rewrite Elast, BA1 in K1, K2. replace (S last) with (length out) in K1, K2 by lia. rewrite firstn_all in K1, K2. auto. }
    destruct Etot as [ETG ETH].
    assert (Lout : INR (length out) <= INR N).
    { rewrite <- ETH, Kreal, <- (Rmult_1_l (INR (length out))), <- (rsum_const 1 out). apply rsum_map_le. intros [b m] Hq. destruct (Hm b m Hq) as [_ [i [Hi Hi2]]]. cbn [fst]. unfold ke. change 1 with (INR 1). apply le_INR.
      assert (Q : In i (inb f b idx)) by (apply filter_In; split; [exact Hi|apply bin_contains_spec, Hi2]). destruct (inb f b idx); [destruct Q|simpl; lia]. }
    (* the score of a boundary *)
    assert (Sc : forall k, (k < length out)%nat -> bscore lam ge ke 0 (gsum ge out) 0 (ksum ke out) out k = split_score r one lam (fval f) (thr k) idx).
    { intros k Hk. unfold bscore. destruct (Key k Hk) as [-> ->]. rewrite ETG, ETH. unfold split_score. rewrite !side_real. rewrite Rplus_0_l, Nat.add_0_l.
      pose proof (total_two r (fval f) (thr k) idx) as T1. pose proof (total_two one (fval f) (thr k) idx) as T2. rewrite !total_one in T2.
      replace (rtotal r idx - rtotal r (filter (below (fval f) (thr k)) idx)) with (rtotal r (filter (not_below (fval f) (thr k)) idx)) by lra.
      rewrite minus_INR by (unfold N; apply filter_len). replace (INR N - INR (length (filter (below (fval f) (thr k)) idx))) with (INR (length (filter (not_below (fval f) (thr k)) idx))) by (unfold N in *; lra). reflexivity. }
    (* the totals *)
    assert (CT : cnt N (sched (map (fun q => snd (snd q)) out))).
    { apply sched_whole; [exact Hs| | |apply small16, HL].
      - intros x Hq. apply in_map_iff in Hq. destruct Hq as [q [<- Hq]]. exists (ke (fst q)). apply (Near q Hq).
      - unfold FloatSpec.total. rewrite map_map, <- ETH, Kreal. apply rsum_map_ext. intros q Hq. apply (Near q Hq). }
    assert (BN : 0 < B * INR N) by (apply Rmult_lt_0_compat; lra). assert (HL' := HL). rewrite p16 in HL'.
    set (l := map (fun q => fst (snd q)) out).
    assert (Sz : size l <= 2 * (B * INR N)).
    { unfold size, l. rewrite map_map, <- ETH, Kreal. rewrite <- Rmult_assoc, <- rsum_scal. apply rsum_map_le. intros q Hq. destruct (Near q Hq) as [_ [Q1 [_ Q2]]].
      assert (0 <= B * INR (ke (fst q))) by (apply Rmult_le_pos; [lra|apply pos_INR]). rewrite u34 in Q1. apply Rabs_le_inv in Q1. apply Rabs_le_inv in Q2. apply Rabs_le. lra. }
    assert (Df : Rabs (FloatSpec.total l - gsum ge out) <= / 2 ^ 34 * (B * INR N)).
    { unfold FloatSpec.total, gsum, l. rewrite map_map, rsum_diff, <- ETH, Kreal. rewrite <- Rmult_assoc, <- rsum_scal. apply rsum_bound. intros q Hq. apply (Near q Hq). }
    assert (Few : few (length l)) by (unfold few, l; rewrite map_length; eapply Rle_trans; [exact Lout|]; eapply Rle_trans; [exact HL|]; apply Rle_pow; [lra|lia]).
    destruct (sched_err sched l Hs) as [FT AT].
    { intros x Hq. unfold l in Hq. apply in_map_iff in Hq. destruct Hq as [q [<- Hq]]. apply (Near q Hq). }
    { exact Few. }
    { eapply Rle_lt_trans; [exact Sz|]. apply Rle_lt_trans with (2 * (2 ^ 400 * 2 ^ 16)); [apply Rmult_le_compat_l; [lra|]; apply Rmult_le_compat; lra|].
      replace (2 * (2 ^ 400 * 2 ^ 16)) with (2 ^ 417); [apply Rlt_pow; [lra|lia]|]. replace 417%nat with (1 + (400 + 16))%nat by reflexivity. rewrite !pow_add, pow_1. reflexivity. }
    assert (Ge : gam (length l) <= 131072 * uu).
    { destruct (gam_few (length l) Few) as [G1 _]. unfold l in *. rewrite map_length in *. eapply Rle_trans; [exact G1|]. assert (INR (length out) * uu <= 65536 * uu) by (apply Rmult_le_compat_r; lra). lra. }
    assert (ET : Rabs (val (sched l) - gsum ge out) <= 3 / 2 * / 2 ^ 34 * (B * INR N)).
    { assert (A2 : gam (length l) * size l <= 131072 * uu * (2 * (B * INR N))). { apply Rmult_le_compat; [apply gam_nonneg| |exact Ge|exact Sz]. unfold size. apply rsum_nonneg. intros x Hq. apply in_map_iff in Hq. destruct Hq as [z [<- _]]. apply Rabs_pos. }
      apply Rabs_le_inv in AT. apply Rabs_le_inv in Df. rewrite u34 in *. set (X := B * INR N) in *. assert (UX : uu * X <= / 9007199254740992 * X) by (apply Rmult_le_compat_r; lra). apply Rabs_le. split; lra. }
    destruct f_MIN_spec as [FM VM].
    destruct (loop_near B lam lambda B0 Fl Vl L0 ge ke N N1 HL out f0 f0 (sched l) (sched (map (fun q => snd (snd q)) out)) f_MIN F64MIN 0 0%nat (3 / 2 * / 2 ^ 34 * (B * INR N)) Near FM fin_f0 FT cnt_0) as [t [b [L1 [L2 [L3 [L4 L5]]]]]].
    { rewrite ETH. exact CT. }
    { rewrite ETH. reflexivity. }
    { rewrite Rabs_R0. simpl. lra. }
    { rewrite val_f0, Rminus_0_r, Rabs_R0. rewrite u34. lra. }
    { exact ET. }
    { rewrite u34. lra. }
    { rewrite ETH, u34. assert (E32 : / 2 ^ 32 = / 4294967296) by (f_equal; simpl; lra). rewrite E32. set (X := B * INR N) in *. replace (/ 17179869184 * B * INR N) with (/ 17179869184 * X) by (unfold X; ring). replace (/ 4294967296 * B * INR N) with (/ 4294967296 * X) by (unfold X; ring).
      assert (UX : uu * X <= / 9007199254740992 * X) by (apply Rmult_le_compat_r; lra). assert (UX0 : 0 <= uu * X) by (apply Rmult_le_pos; lra). assert (INR (length out) * (4 * uu * X) <= 65536 * (4 * uu * X)) by (apply Rmult_le_compat_r; lra). lra. }
    assert (Cf : forall t idx', (forall i, In i idx' -> In i idx) -> split_score r one lam (fval f) t idx' = score f t idx').
    { intros t0 idx' Hi'. apply sscore_ext. intros i Hi. rewrite (column_f f i Hin) by (apply HI, Hi', Hi). tauto. }
    assert (Om : om idx <= 2 ^ 999).
    { fold N. apply Rle_trans with (1 * (2 ^ 16 * 2 ^ 800)); [|rewrite Rmult_1_l, <- pow_add; apply Rle_pow; [lra|simpl; lia]]. destruct (B2 B B0) as [_ B2']. apply Rmult_le_compat; [left; apply Rinv_0_lt_compat, pow_lt; lra|apply Rmult_le_pos; [lra|apply pow2_ge_0]|simpl; lra|]. apply Rmult_le_compat; [lra|apply pow2_ge_0|exact HL|exact B2']. }
    assert (Snn : forall k, (k < length out)%nat -> 0 <= bscore lam ge ke 0 (gsum ge out) 0 (ksum ke out) out k).
    { intros k Hk. rewrite (Sc k Hk). unfold split_score. rewrite !side_real. assert (Q : forall I, 0 <= rtotal r I ^ 2 / (INR (length I) + lam)) by (intros I; apply Rmult_le_pos; [apply pow2_ge_0|]; left; apply Rinv_0_lt_compat; pose proof (pos_INR (length I)); lra). apply Rplus_le_le_0_compat; apply Q. }
    exists bins, out, t, b. split; [exact Eb|]. split; [exact E|]. split; [exact L1|]. split; [exact L2|].
    destruct L5 as [[_ E5]|[k [Hk [Et Ebk]]]].
    { exfalso. specialize (L4 0%nat ltac:(lia)). specialize (Snn 0%nat ltac:(lia)). rewrite E5 in L4. fold N in Om. assert (Q : 2 ^ 1000 = 2 * 2 ^ 999) by (replace 1000%nat with (1 + 999)%nat by reflexivity; rewrite pow_add, pow_1; reflexivity). assert (0 < 2 ^ 999) by (apply pow_lt; lra). lra. }
    split; [|split].
    - assert (Hin2 : In (nth k out b_) out) by (apply nth_In, Hk). subst t. destruct (nth k out b_) as [b1 m]. destruct (Hfrom b1 m Hin2) as [b2 [Hb2 Hsep]].
      exists (b_end b2). split; [exists bins; split; [exact Eb|right; apply in_map, Hb2]|]. intros i Hi. rewrite (column_f f i Hin) by (apply HI, Hi). apply Hsep, Hi.
    - rewrite (Sc k Hk) in Ebk. fold (thr k) in Et. subst t. rewrite <- Cf by tauto. apply Rabs_le_inv in Ebk. fold N. lra.
    - assert (S0 : split_score r one lam (fval f) F64MIN idx = side_score r one lam idx).
      { destruct (below_none (fval f) F64MIN idx (fun i Hi => proj1 (Hx i Hi))) as [A A']. unfold split_score. rewrite A, A'. simpl side_score at 1. lra. }
      assert (Sl : split_score r one lam (fval f) (thr last) idx = side_score r one lam idx).
      { rewrite Elast. unfold split_score. rewrite BA1, BA2. simpl side_score at 2. lra. }
      assert (All : forall k, (k < length out)%nat -> split_score r one lam (fval f) (thr k) idx <= val b + om idx) by (intros k' Hk'; rewrite <- (Sc k' Hk'); apply L4, Hk').
      intros t' [bins' [Eb' Ht']]. rewrite <- Cf by tauto. rewrite Eb in Eb'. inversion Eb'; subst bins'. destruct Ht' as [<-|Ht']; [rewrite S0, <- Sl; apply All, Hlast|].
      apply in_map_iff in Ht'. destruct Ht' as [b2 [<- Hb2]]. destruct (Hto b2 Hb2) as [t2 [Ht2 Hsep]]. rewrite (sscore_ext r lam (fval f) (fval f) (b_end b2) t2 idx Hsep).
      destruct Ht2 as [<-|Ht2]; [rewrite S0, <- Sl; apply All, Hlast|]. apply in_map_iff in Ht2. destruct Ht2 as [o [<- Ho]]. apply (In_nth _ _ b_) in Ho. destruct Ho as [k' [Hk' <-]]. apply All, Hk'.
  Qed.
End Node.
