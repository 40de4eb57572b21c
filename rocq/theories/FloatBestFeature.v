(** The edge criterion in binary64 on one feature: the chosen threshold is nearly the best one. *)
From Coq Require Import ZArith List Bool Reals Lia Lra Psatz Permutation String.
From Flocq Require Import Core.Core IEEE754.BinarySingleNaN Relative Plus_error Mult_error.
From Verif Require Import Base Feature FeatureFacts Bins BinsSpec BinsProofs DTree TreeSpec DTreeProofs DTreeSplit DTreeBest Float FloatSpec FloatProofs FloatFacts FloatCheckFacts FloatEdgeFacts FloatTree FloatTreeSpec FloatTreeProofs FloatPackProofs FloatGrowProofs FloatBestProofs.
Import ListNotations.
Open Scope R_scope.

Lemma filter_len {A} (p : A -> bool) l : (length (filter p l) <= length l)%nat.
Proof. induction l as [|a l IH]; simpl; [lia|]. destruct (p a); simpl; lia. Qed.

Section FeatureF.
  Variables (sched : list f64 -> f64) (order : flw -> flw) (bins : list bin) (f : feature) (y : list R) (dist : list f64) (x : nat -> R) (e : R) (idx : list nat).
  Local Notation d := (fun i => nth i dist f0).
  Local Notation dr := (fun i => val (nth i dist f0)).
  Local Notation lab := (fun i => as_int 32 (nth i y 0)).
  Local Notation N := (length idx).
  Local Notation W := (rtotal dr idx).
  Local Notation K := (2 * length idx + length bins)%nat.
  Hypothesis Hs : summing sched.
  Hypothesis Ho : some_order order.
  Hypothesis C : chain F64MIN e bins.
  Hypothesis Hne : idx <> [].
  Hypothesis Hr : forall i, In i idx -> feat_index f i = Ok (x i) /\ F64MIN <= x i < e /\ (i < length y)%nat /\ (i < length dist)%nat /\ fin (nth i dist f0) /\ 0 < val (nth i dist f0).
  Hypothesis Hl : forall i, In i idx -> lab i = 1%Z \/ lab i = (-1)%Z.
  Hypothesis HN : INR (2 * N + length bins) <= 2 ^ 32.
  Hypothesis HD : W < 2 ^ 1000.

  Lemma dr_pos : forall i, In i idx -> 0 < dr i.
  Proof. intros i Hi. apply Hr, Hi. Qed.
  Lemma WW_pos : 0 < W.
  Proof. apply total_pos'; [exact Hne|exact dr_pos]. Qed.
  Lemma sub_total I : (forall i, In i I -> In i idx) -> (exists p, I = filter p idx) -> 0 <= rtotal dr I <= W.
  Proof.
    intros Hi [p ->]. unfold rtotal. split.
    - apply rsum_nonneg. intros v Hv. apply in_map_iff in Hv. destruct Hv as [i [<- Hv]]. left. apply dr_pos, Hi, Hv.
    - clear Hi Hne HN HD. pose proof dr_pos as P. clear Hr Hl. induction idx as [|i I IH]; cbn [filter map rsum]; [lra|]. assert (0 < dr i) by (apply P; left; reflexivity).
      assert (Q : rsum (map dr (filter p I)) <= rsum (map dr I)) by (apply IH; intros j Hj; apply P; right; exact Hj). destruct (p i); cbn [map rsum]; lra.
  Qed.

  Lemma sub_rel p : rel N (ffold lab d (filter p idx)) (histo lab dr (filter p idx)).
  Proof.
    pose proof (filter_len p idx) as L. apply (rel_le (length (filter p idx))); [exact L|]. apply histo_rel.
    - intros i Hi. apply filter_In in Hi. destruct Hi as [Hi _]. destruct (Hr i Hi) as [_ [_ [_ [_ [F P]]]]]. split; [exact F|lra].
    - eapply Rle_trans; [apply le_INR|exact HN]. lia.
    - assert (Q : rtotal dr (filter p idx) <= W) by (apply sub_total; [intros i Hi; apply filter_In in Hi; tauto|exists p; reflexivity]). unfold rtotal in Q. 
      assert (B : 2 ^ 1000 <= 2 ^ 1020) by (apply Rle_pow; [lra|lia]). eapply Rle_lt_trans; [exact Q|]. eapply Rlt_le_trans; [exact HD|exact B].
  Qed.

  Lemma ffold_nil I : is_nil (ffold lab d I) = match I with [] => true | _ => false end.
  Proof.
    destruct I as [|i I]; [reflexivity|]. unfold ffold. cbn [fold_left]. assert (H : forall I m, m <> [] -> fold_left (fun m i => f_lw_add m (lab i) (d i)) I m <> []).
    { clear. induction I as [|i I IH]; intros m Hm; cbn [fold_left]; [exact Hm|]. apply IH. destruct m as [|[a v] m]; [congruence|]. cbn [f_lw_add]. destruct (Z.eqb a (lab i)); discriminate. }
    specialize (H I (f_lw_add [] (lab i) (d i)) ltac:(discriminate)). destruct (fold_left _ I _); [congruence|reflexivity].
  Qed.

  Lemma histo_total I : lw_total (histo lab dr I) = rtotal dr I.
  Proof. destruct (histo_spec lab dr I) as [_ [_ [_ [D _]]]]. exact D. Qed.
  Lemma rel_len k m r : rel k m r -> length m = length r.
  Proof. intros H. induction H; simpl; congruence. Qed.

  (** the packed bins *)
  Lemma f_pack_spec : exists tot out0 e',
    f_dt_pack sched order bins idx f y dist = Ok (map (fun bp : bin * flw => (fst bp, order (map (fun zw => (fst zw, fdiv (snd zw) tot)) (snd bp)))) out0) /\ acc K tot W /\
    F64MIN < e' <= e /\ chain F64MIN e' (map fst out0) /\ out0 <> [] /\ (length out0 <= length bins)%nat /\
    (forall i, In i idx -> F64MIN <= x i < e') /\
    (forall b m, In (b, m) out0 -> m = ffold lab d (filter (fun i => bin_contains b (x i)) idx)) /\
    (forall b, In b bins -> exists t, In t (F64MIN :: map (fun o => b_end (fst o)) out0) /\ forall i, In i idx -> (x i < b_end b <-> x i < t)) /\
    (forall b m, In (b, m) out0 -> exists b', In b' bins /\ forall i, In i idx -> (x i < b_end b <-> x i < b_end b')).
  Proof.
    unfold f_dt_pack.
    destruct (pack_loop_spec (f_dt_add y dist) (fun i p => f_lw_add p (lab i) (d i)) [] bins f x F64MIN e C idx (repeat [] (length bins))) as [packs [E [L Nn]]].
    { intros i Hi. destruct (Hr i Hi) as [E1 [E2 [E3 [E4 _]]]]. split; [exact E1|]. split; [exact E2|]. intros p. unfold f_dt_add. unfold get_, f_get. rewrite (nth_error_nth' y 0 E3). cbn [bind]. rewrite (nth_error_nth' dist f0 E4). reflexivity. }
    { rewrite repeat_length. reflexivity. }
    unfold flw in *. rewrite E. cbn [bind].
    assert (N' : forall k, (k < length bins)%nat -> nth k packs [] = ffold lab d (filter (fun i => bin_contains (nth k bins b0) (x i)) idx)).
    { intros k Hk. rewrite Nn by exact Hk. rewrite nth_repeat_lt by exact Hk. reflexivity. }
    assert (Hne2 : bins <> []).
    { intros E0. destruct idx as [|i ?] eqn:Ei; [congruence|]. destruct (Hr i (or_introl eq_refl)) as [_ [H _]]. rewrite E0 in C. simpl in C. lra. }
    pose proof WW_pos as W0. set (tot := sched (map (fun m => sched (map snd m)) packs)).
    assert (At : acc K tot W).
    { assert (Et : rsum (map (fun b => rtotal dr (filter (fun i => bin_contains b (x i)) idx)) bins) = W).
      { unfold rtotal. apply (all_sum x dr bins F64MIN e idx C Hne2). intros i Hi. apply Hr, Hi. }
      rewrite <- Et. unfold tot. assert (Lp : length (map (fun m => sched (map snd m)) packs) = length bins) by (rewrite map_length; exact L). rewrite <- Lp. apply sched_acc; [exact Hs| |rewrite Lp; exact HN|].
      2:{ rewrite Et. assert (B : 2 ^ 1000 <= 2 ^ 1020) by (apply Rle_pow; [lra|lia]). eapply Rlt_le_trans; [exact HD|exact B]. }
      assert (M1 : map (fun m => sched (map snd m)) packs = map (fun k => sched (map snd (nth k packs []))) (seq 0 (length bins))) by (rewrite <- L, <- (map_map (fun k => nth k packs []) (fun m => sched (map snd m))), map_nth_seq; reflexivity).
      assert (M2 : forall F : bin -> R, map F bins = map (fun k => F (nth k bins b0)) (seq 0 (length bins))) by (intros F; rewrite <- (map_map (fun k => nth k bins b0) F), map_nth_seq; reflexivity).
      rewrite M1, M2. assert (Hseq : forall k, In k (seq 0 (length bins)) -> (k < length bins)%nat) by (intros k Hk; apply in_seq in Hk; lia).
      clear M1 M2. induction (seq 0 (length bins)) as [|k l IH]; cbn [map]; [constructor|]. constructor; [|apply IH; intros; apply Hseq; right; assumption].
      assert (Hk : (k < length bins)%nat) by (apply Hseq; left; reflexivity). rewrite N' by exact Hk. set (pr := fun i => bin_contains (nth k bins b0) (x i)).
      pose proof (sub_rel pr) as Rl. rewrite <- histo_total. unfold lw_total.
      assert (Lf : (length (ffold lab d (filter pr idx)) <= N)%nat).
      { rewrite (rel_len _ _ _ Rl). assert (Q : forall I, (length (histo lab dr I) <= length I)%nat).
        { intros I. unfold histo. assert (Q : forall r, (length (fold_left (fun m i => lw_add m (lab i) (dr i)) I r) <= length r + length I)%nat).
          { clear. induction I as [|i I IH]; intros r; cbn [fold_left length]; [lia|]. eapply Nat.le_trans; [apply IH|]. assert (length (lw_add r (lab i) (dr i)) <= S (length r))%nat; [|lia]. clear. induction r as [|[a v] r IH]; cbn [lw_add length]; [lia|]. destruct (Z.eqb a (lab i)); cbn [length]; lia. }
          apply Q. }
        eapply Nat.le_trans; [apply Q|apply filter_len]. }
      apply (acc_le (N + length (map snd (ffold lab d (filter pr idx))))); [rewrite map_length; lia|].
      apply sched_acc; [exact Hs| | |].
      - clear -Rl. induction Rl as [|p q m r [_ A] Rl IH]; cbn [map]; constructor; assumption.
      - rewrite map_length. eapply Rle_trans; [apply le_INR|exact HN]. lia.
      - fold (lw_total (histo lab dr (filter pr idx))). rewrite histo_total. assert (B : 2 ^ 1000 <= 2 ^ 1020) by (apply Rle_pow; [lra|lia]).
        assert (Q : rtotal dr (filter pr idx) <= W) by (apply sub_total; [intros i Hi; apply filter_In in Hi; tauto|exists pr; reflexivity]). eapply Rle_lt_trans; [exact Q|]. eapply Rlt_le_trans; [exact HD|exact B]. }
    assert (Pt : flt f0 tot = true).
    { destruct At as [Ft [_ A]]. apply flt_true; [reflexivity|exact Ft|]. rewrite val_f0. unfold approx in A. apply Rabs_le_inv in A. pose proof (gam_30 _ HN). assert (/ 2 ^ 20 <= 1 / 2) by (simpl; lra). assert (gam K * W <= 1 / 2 * W) by (apply Rmult_le_compat_r; lra). lra. }
    rewrite Pt. cbn [assert_ bind].
    destruct (packed (P:=list (Z * f64)) (fun i p => f_lw_add p (lab i) (d i)) [] is_nil bins packs x idx F64MIN e C Hne) as [out [e' [Eo [He [Hc [Ha [Hp [Hs' Hr']]]]]]]].
    { intros i Hi. apply Hr, Hi. }
    { exact L. }
    { exact N'. }
    { intros I _. apply ffold_nil. }
    rewrite Eo. cbn [bind]. exists tot, out, e'. split; [reflexivity|]. split; [exact At|]. split; [exact He|]. split; [exact Hc|]. split.
    { intros ->. simpl in Hc. lra. }
    split; [apply (remove_sub _ _ _ _ Eo)|]. split; [exact Ha|]. split; [|split; [exact Hs'|exact Hr']].
    intros b m Hin. apply (Hp _ _ Hin).
  Qed.

  Lemma eta_tiny : eta0 <= / 2 ^ 65 * uu.
  Proof. unfold eta0, uu. rewrite <- Rinv_mult, <- pow_add. change (65 + 53)%nat with 118%nat. rewrite <- two_pow, <- bpow_opp. apply bpow_le. lia. Qed.

  Lemma entry_le p q : In q (histo lab dr (filter p idx)) -> 0 <= snd q <= W.
  Proof.
    intros Hq. assert (P : forall q, In q (histo lab dr (filter p idx)) -> 0 < snd q) by (apply histo_pos; intros i Hi; apply filter_In in Hi; apply dr_pos, Hi).
    split; [left; apply P, Hq|]. assert (T : rtotal dr (filter p idx) <= W) by (apply sub_total; [intros i Hi; apply filter_In in Hi; tauto|exists p; reflexivity]).
    rewrite <- histo_total in T. eapply Rle_trans; [|exact T]. unfold lw_total. apply (rsum_in_le (map snd (histo lab dr (filter p idx)))); [|apply in_map, Hq].
    intros v Hv. apply in_map_iff in Hv. destruct Hv as [q' [<- Hq']]. left. apply P, Hq'.
  Qed.

  Lemma near_scaled p tot : acc K tot W -> Forall2 (near (4 * gam K)) (map (fun zw => (fst zw, fdiv (snd zw) tot)) (ffold lab d (filter p idx))) (scale W (histo lab dr (filter p idx))).
  Proof.
    intros At. pose proof (sub_rel p) as Rl. pose proof (entry_le p) as Le. unfold scale.
    assert (K1 : (1 <= K)%nat) by (destruct idx; [congruence|simpl; lia]). pose proof WW_pos as W0.
    induction Rl as [|q r l l' [E A] Rl IH]; cbn [map]; constructor.
    - assert (B : 0 <= snd r <= W) by (apply Le; left; reflexivity). assert (A' : acc K (snd q) (snd r)) by (apply (acc_le N); [lia|exact A]).
      destruct (div_near K (snd q) tot (snd r) W K1 HN A' At W0 (proj2 B)) as [F D]. split; [exact E|]. cbn [fst snd]. split; [exact F|]. split; [|exact D].
      apply Rmult_le_pos; [apply B|left; apply Rinv_0_lt_compat, W0].
    - apply IH. intros r' Hr'. apply Le. right. exact Hr'.
  Qed.

  Lemma keys_label p q : In q (ffold lab d (filter p idx)) -> fst q = 1%Z \/ fst q = (-1)%Z.
  Proof.
    intros Hq. pose proof (sub_rel p) as Rl.
    assert (Ex : exists r, In r (histo lab dr (filter p idx)) /\ fst r = fst q).
    { clear -Rl Hq. induction Rl as [|q' r l l' [E A] Rl IH]; [destruct Hq|]. destruct Hq as [<- |Hq]; [exists r; split; [left; reflexivity|symmetry; exact E]|]. destruct (IH Hq) as [r' [R1 R2]]. exists r'. split; [right; exact R1|exact R2]. }
    destruct Ex as [r [R1 R2]]. rewrite <- R2. destruct (histo_spec lab dr (filter p idx)) as [_ [Kk _]]. assert (Hz : In (fst r) (keys (histo lab dr (filter p idx)))) by (apply in_map, R1).
    apply Kk in Hz. destruct Hz as [i [Hi <-]]. apply filter_In in Hi. apply Hl, Hi.
  Qed.

  Lemma edge_abs p : Rabs (pack_edge (scale W (histo lab dr (filter p idx)))) <= lw_total (scale W (histo lab dr (filter p idx))).
  Proof.
    pose proof WW_pos as W0. rewrite scale_edge, scale_total, histo_total. destruct (histo_spec lab dr (filter p idx)) as [_ [_ [_ [_ E]]]]. rewrite E.
    unfold Rdiv. rewrite Rabs_mult, (Rabs_pos_eq (/ W)) by (left; apply Rinv_0_lt_compat, W0). apply Rmult_le_compat_r; [left; apply Rinv_0_lt_compat, W0|].
    unfold rtotal. assert (Q : forall i, In i (filter p idx) -> 0 < dr i /\ (lab i = 1%Z \/ lab i = (-1)%Z)) by (intros i Hi; apply filter_In in Hi; split; [apply dr_pos, Hi|apply Hl, Hi]).
    clear E. induction (filter p idx) as [|i I IH]; cbn [map rsum]; [rewrite Rabs_R0; lra|]. destruct (Q i (or_introl eq_refl)) as [Q1 Q2]. eapply Rle_trans; [apply Rabs_triang|].
    apply Rplus_le_compat; [|apply IH; intros j Hj; apply Q; right; exact Hj]. destruct Q2 as [-> | ->]; rewrite Rabs_mult, (Rabs_pos_eq (val _)) by lra; [rewrite Rabs_R1|rewrite (Rabs_left (-1)) by lra]; lra.
  Qed.

  Lemma sum_near g tau (ps : list (bin * flw)) rs : 0 <= g -> 0 <= tau -> Forall2 (bin_near sched g tau) ps rs -> 
    Rabs (ftotal (map (fun bp => f_pack_edge sched (snd bp)) ps) - PE rs) <= 6 * g * TT rs + INR (length rs) * tau /\ size (map (fun bp => f_pack_edge sched (snd bp)) ps) <= TT rs + 6 * g * TT rs + INR (length rs) * tau /\
    finite_all (map (fun bp => f_pack_edge sched (snd bp)) ps).
  Proof.
    intros G0 T0 H. induction H as [|p q ps rs [_ [F [A B]]] H IH].
    - unfold ftotal, size, PE, TT. simpl. rewrite Rminus_0_r, Rabs_R0. split; [lra|]. split; [lra|]. intros v [].
    - destruct IH as [I1 [I2 I3]]. cbn [map length]. rewrite S_INR. unfold PE, TT, ftotal, size in *. cbn [map rsum]. split; [|split].
      + match goal with |- Rabs (?a + ?b - (?c + ?e)) <= _ => replace (a + b - (c + e)) with ((a - c) + (b - e)) by ring end. eapply Rle_trans; [apply Rabs_triang|]. lra.
      + assert (Rabs (val (f_pack_edge sched (snd p))) <= lw_total (snd q) + (6 * g * lw_total (snd q) + tau)). { replace (val (f_pack_edge sched (snd p))) with (pack_edge (snd q) + (val (f_pack_edge sched (snd p)) - pack_edge (snd q))) by ring. eapply Rle_trans; [apply Rabs_triang|]. lra. }
        lra.
      + intros v [<- |Hv]; [exact F|apply I3, Hv].
  Qed.

  Lemma f_edge_choice : exists pack t b, f_dt_pack sched order bins idx f y dist = Ok pack /\ f_split_by_edge sched pack = (t, b) /\ fin b /\
    (exists t0, In t0 (F64MIN :: map b_end bins) /\ forall i, In i idx -> (x i < t <-> x i < t0)) /\
    val b <= Rabs (stump_edge x (fun i => IZR (lab i)) dr t idx) / W + 27 * gam K /\
    forall t', In t' (F64MIN :: map b_end bins) -> Rabs (stump_edge x (fun i => IZR (lab i)) dr t' idx) / W <= val b + 27 * gam K.
  Proof.
    destruct f_pack_spec as [tot [out0 [e' [Ep [At [He [Hc [Hon [Lo [Ha [Hm [Hs1 Hs2]]]]]]]]]]]]. pose proof WW_pos as W0.
    set (out := map _ out0) in Ep. set (g := gam K) in *. pose proof (gam_30 _ HN) as G1. fold g in G1. pose proof (gam_nonneg K) as G0. fold g in G0.
    set (rout := map (fun bp : bin * flw => (fst bp, scale W (histo lab dr (filter (fun i => bin_contains (fst bp) (x i)) idx)))) out0).
    set (tau := 2 * (INR N * eta0)). pose proof eta0_pos as Ee. assert (S20 : / 2 ^ 20 <= 1 / 100) by (simpl; lra).
    assert (T0 : 0 <= tau) by (unfold tau; pose proof (pos_INR N); assert (0 <= INR N * eta0) by (apply Rmult_le_pos; lra); lra).
    assert (HNN : INR N <= 2 ^ 32) by (eapply Rle_trans; [apply le_INR|exact HN]; lia).
    assert (Mf : map fst rout = map fst out0) by (unfold rout; rewrite map_map; reflexivity).
    assert (Me : map (fun o => b_end (fst o)) rout = map (fun o => b_end (fst o)) out0) by (unfold rout; rewrite map_map; reflexivity).
    assert (Lr : length rout = length out0) by (unfold rout; apply map_length).
    assert (Hc' : chain F64MIN e' (map fst rout)) by (rewrite Mf; exact Hc).
    assert (Hon' : rout <> []) by (intros Q; apply Hon; apply (f_equal (@length _)) in Q; rewrite Lr in Q; destruct out0; [reflexivity|discriminate]).
    assert (Hm' : forall b m, In (b, m) rout -> m = scale W (histo lab dr (filter (fun i => bin_contains b (x i)) idx))).
    { intros b m Hin. unfold rout in Hin. apply in_map_iff in Hin. destruct Hin as [[b2 p] [Eb Hin]]. simpl in Eb. inversion Eb; subst. reflexivity. }
    assert (Twh : TT rout = 1) by (exact (T_whole x dr lab idx rout e' Hc' Hon' Hne Ha dr_pos Hm')).
    assert (TTge : forall q, In q rout -> lw_total (snd q) <= 1).
    { intros q Hq. rewrite <- Twh. unfold TT. apply (rsum_in_le (map (fun q => lw_total (snd q)) rout)); [|apply (in_map (fun q => lw_total (snd q))), Hq].
      intros v Hv. apply in_map_iff in Hv. destruct Hv as [[b m] [<- Hq']]. cbn [snd]. rewrite (Hm' b m Hq'). eapply Rle_trans; [apply Rabs_pos|apply edge_abs]. }
    assert (BN : Forall2 (bin_near sched g tau) out rout).
    { unfold out, rout. assert (Hm2 : forall b m, In (b, m) out0 -> m = ffold lab d (filter (fun i => bin_contains b (x i)) idx) /\ lw_total (scale W (histo lab dr (filter (fun i => bin_contains b (x i)) idx))) <= 1).
      { intros b m Hin. split; [apply Hm, Hin|]. apply (TTge (b, scale W (histo lab dr (filter (fun i => bin_contains b (x i)) idx)))). unfold rout. apply in_map_iff. exists (b, m). split; [reflexivity|exact Hin]. }
      clear -Hm2 At W0 Hs Ho G0 G1 HNN Hne Hr Hl HN HD. induction out0 as [|[b m] l IH]; cbn [map fst snd]; [constructor|]. constructor; [|apply IH; intros; apply Hm2; right; assumption].
      destruct (Hm2 b m (or_introl eq_refl)) as [-> HT]. set (p := fun i => bin_contains b (x i)) in *. split; [reflexivity|]. cbn [fst snd].
      pose proof (near_scaled p tot At) as Ns. fold g in Ns.
      assert (LL : (length (map (fun zw : Z * f64 => (fst zw, fdiv (snd zw) tot)) (ffold lab d (filter p idx))) <= N)%nat).
      { rewrite map_length. assert (Q : forall I m, (length (fold_left (fun m i => f_lw_add m (lab i) (d i)) I m) <= length m + length I)%nat).
        { clear. induction I as [|i I IH]; intros r; cbn [fold_left length]; [lia|]. eapply Nat.le_trans; [apply IH|]. assert (length (f_lw_add r (lab i) (d i)) <= S (length r))%nat; [|lia]. clear. induction r as [|[a v] r IH]; cbn [f_lw_add length]; [lia|]. destruct (Z.eqb a (lab i)); cbn [length]; lia. }
        unfold ffold. eapply Nat.le_trans; [apply Q|]. simpl. apply filter_len. }
      destruct (bin_edge sched order g _ _ N Hs Ho Ns) as [F A].
      - intros q Hq. apply in_map_iff in Hq. destruct Hq as [q' [<- Hq']]. cbn [fst]. apply (keys_label p), Hq'.
      - exact HT.
      - exact LL.
      - exact HNN.
      - split; [|exact G1]. apply gam_le. lia.
      - split; [exact F|]. split; [exact A|apply edge_abs]. }
    assert (NT : INR (length rout) * tau <= g).
    { apply Rle_trans with uu.
      - rewrite Lr. apply Rle_trans with (2 ^ 32 * (2 * (2 ^ 32 * (/ 2 ^ 65 * uu)))).
        + apply Rmult_le_compat; [apply pos_INR|exact T0|eapply Rle_trans; [apply le_INR, Lo|]; eapply Rle_trans; [apply le_INR|exact HN]; lia|]. unfold tau. apply Rmult_le_compat_l; [lra|]. apply Rmult_le_compat; [apply pos_INR|lra|exact HNN|apply eta_tiny].
        + right. replace (2 ^ 65) with (2 ^ 32 * (2 * 2 ^ 32)) by (simpl; lra). field.
      - eapply Rle_trans; [|apply gam_ge]. pose proof uu_pos. assert (1 <= INR K) by (change 1 with (INR 1); apply le_INR; destruct idx; [congruence|simpl; lia]). nra. }
    assert (UN : uu * INR (length rout) <= g). { rewrite Rmult_comm, Lr. eapply Rle_trans; [apply gam_ge|]. apply gam_le. lia. }
    destruct (sum_near g tau out rout G0 T0 BN) as [S1 [S2 S3]]. rewrite Twh in S1, S2.
    unfold f_split_by_edge in *. set (fpe := map (fun bp : bin * flw => f_pack_edge sched (snd bp)) out) in *.
    assert (Lf : length fpe = length out0) by (unfold fpe, out; rewrite !map_length; reflexivity).
    destruct (sched_err sched fpe Hs S3) as [F A].
    { rewrite Lf. unfold few. eapply Rle_trans; [apply le_INR, Lo|]. eapply Rle_trans; [apply (le_INR _ K); lia|]. eapply Rle_trans; [exact HN|]. apply Rle_pow; [lra|lia]. }
    { assert (B8 : 8 <= 2 ^ 1023) by (replace 8 with (2 ^ 3) by (simpl; lra); apply Rle_pow; [lra|lia]). generalize dependent (2 ^ 1023). intros; lra. }
    set (edge := sched fpe) in *.
    assert (Ad : Rabs (val edge - PE rout) <= 9 * g).
    { replace (val edge - PE rout) with ((val edge - ftotal fpe) + (ftotal fpe - PE rout)) by ring. eapply Rle_trans; [apply Rabs_triang|].
      assert (gam (length fpe) * size fpe <= g * 2) by (apply Rmult_le_compat; [apply gam_nonneg|apply size_nonneg|apply gam_le; lia|lra]). lra. }
    assert (P1 : Rabs (PE rout) <= 1).
    { rewrite <- Twh. unfold PE, TT. clear -BN. induction BN as [|p q ps rs [_ [_ [_ B]]] H IH]; cbn [map rsum]; [rewrite Rabs_R0; lra|]. eapply Rle_trans; [apply Rabs_triang|]. lra. }
    destruct (fabs_spec edge F) as [FA VA].
    pose proof (edge_loop_near sched g tau G0 T0 out rout BN edge (PE rout) (fabs edge) F64MIN (9 * g) (27 * g) F Ad ltac:(rewrite Twh; lra) ltac:(rewrite Twh; lra) ltac:(lra) FA) as LS.
    cbv zeta in LS. destruct (f_edge_loop sched out edge (fabs edge) F64MIN) as [t b] eqn:El. cbn [fst snd] in LS. destruct LS as [L1 [L2 [L3 L4]]]. rewrite VA in L2.
    assert (Ew : PE rout = rsum (map (fun i => IZR (lab i) * dr i) idx) / W) by (unfold PE; apply (whole_fun x dr lab idx rout e' Hc' Hon' Ha Hm' pack_edge _ (F_edge dr lab idx))).
    assert (Ek : forall k, (k < length rout)%nat -> Rabs (PE rout - 2 * PE (firstn (S k) rout)) = Rabs (stump_edge x (fun i => IZR (lab i)) dr (thr rout k) idx) / W).
    { intros k Hk. rewrite Ew. unfold PE. rewrite (prefix_fun x dr lab idx rout e' Hc' Ha Hm' pack_edge _ (F_edge dr lab idx) k Hk). rewrite stump_edge_sum.
      match goal with |- Rabs ?a = Rabs ?b / W => replace a with (b * / W) by (unfold Rdiv; ring) end. rewrite Rabs_mult, (Rabs_pos_eq (/ W)) by (left; apply Rinv_0_lt_compat, W0). reflexivity. }
    assert (E0 : Rabs (PE rout) = Rabs (stump_edge x (fun i => IZR (lab i)) dr F64MIN idx) / W).
    { rewrite Ew, stump_edge_sum. unfold sum_where. rewrite (first_below x idx e' Ha). cbn [map rsum].
      match goal with |- Rabs ?a = Rabs ?b / W => replace a with (b * / W) by (unfold Rdiv; ring) end. rewrite Rabs_mult, (Rabs_pos_eq (/ W)) by (left; apply Rinv_0_lt_compat, W0). reflexivity. }
    assert (Cl : Rabs (Rabs (val edge) - Rabs (PE rout)) <= 9 * g) by (eapply Rle_trans; [apply Rabs_triang_inv2|exact Ad]). apply Rabs_le_inv in Cl.
    exists out, t, b. split; [exact Ep|]. split; [exact El|]. split; [exact L1|]. split; [|split].
    - destruct L4 as [[-> _]|[k [Hk [-> _]]]]; [exists F64MIN; split; [left; reflexivity|intros; tauto]|].
      destruct (nth k rout (b0, [])) as [bb mm] eqn:En. assert (Hin : In (bb, mm) rout) by (rewrite <- En; apply nth_In, Hk). unfold rout in Hin. apply in_map_iff in Hin. destruct Hin as [[b2 p] [Eb Hin]]. cbn [fst] in Eb. inversion Eb; subst bb.
      destruct (Hs2 _ _ Hin) as [b' [B1 B2]]. exists (b_end b'). split; [right; apply in_map, B1|exact B2].
    - destruct L4 as [[-> ->]|[k [Hk [-> Q]]]]; [rewrite <- E0, VA; lra|]. fold (thr rout k). rewrite <- (Ek k Hk). exact Q.
    - intros t' Ht'. assert (Main : forall t1, In t1 (F64MIN :: map (fun o => b_end (fst o)) out0) -> Rabs (stump_edge x (fun i => IZR (lab i)) dr t1 idx) / W <= val b + 27 * g).
      { intros t1 [<- |Ht]; [rewrite <- E0; lra|]. rewrite <- Me in Ht. apply in_map_iff in Ht. destruct Ht as [o [<- Ho']]. apply (In_nth _ _ (b0, [])) in Ho'. destruct Ho' as [k [Hk <-]]. specialize (L3 k Hk). rewrite (Ek k Hk) in L3. exact L3. }
      destruct Ht' as [<- |Ht']; [apply Main; left; reflexivity|]. apply in_map_iff in Ht'. destruct Ht' as [bb [<- Hb]]. destruct (Hs1 bb Hb) as [t1 [T1 T2]].
      assert (Eq : stump_edge x (fun i => IZR (lab i)) dr (b_end bb) idx = stump_edge x (fun i => IZR (lab i)) dr t1 idx).
      { unfold stump_edge. apply rsum_map_ext. intros i Hi. f_equal. f_equal. unfold stump. specialize (T2 i Hi). destruct (Rlt_dec (x i) (b_end bb)), (Rlt_dec (x i) t1); tauto. }
      rewrite Eq. apply Main, T1.
  Qed.
End FeatureF.
