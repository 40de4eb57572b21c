(** The projection without a cap (nu = 1) in binary64 *)
From Coq Require Import ZArith List Bool Reals Lia Lra Psatz Permutation.
From Flocq Require Import Core.Core IEEE754.BinarySingleNaN Relative Plus_error.
From Verif Require Import Base SortLib Float FloatSpec FloatProofs FloatFacts FloatCheckFacts FloatProject FloatProjectSpec FloatProjectProofs.
Import ListNotations.
Open Scope R_scope.

Lemma fopp_val (v : f64) : val (Bopp v) = - val v.
Proof. apply B2R_Bopp. Qed.

Section Main.
  Variables (fexp fln : f64 -> f64).
  Hypothesis Hexp : accurate_exp fexp.
  Hypothesis Hln : accurate_ln fln.
  Variables (x : list f64) (M : R).
  Local Notation n := (length x).
  Local Notation xi i := (nth i x f0).
  Hypothesis Fx : forall d, In d x -> fin d /\ Rabs (val d) <= M.
  Hypothesis Hn : INR n * (M + 64) <= 2 ^ 30.

  Lemma f_proj_rest_spec log_xi rest dist :
    NoDup (map fst rest) -> (forall j, In j (map fst rest) -> (j < length dist)%nat) ->
    length (f_proj_rest fexp log_xi rest dist) = length dist /\
    (forall j, In j (map fst rest) -> nth j (f_proj_rest fexp log_xi rest dist) f0 = fexp (fadd log_xi (nth j dist f0))) /\
    (forall j, ~ In j (map fst rest) -> nth j (f_proj_rest fexp log_xi rest dist) f0 = nth j dist f0).
  Proof.
    revert dist; induction rest as [|[i ls] rest IH]; intros dist Hnd Hr; simpl in *.
    - split; [reflexivity|]. split; [intros j []|reflexivity].
    - inversion Hnd as [|? ? Hni Hnd']; subst.
      destruct (IH (upd i (fexp (fadd log_xi (nth i dist f0))) dist) Hnd') as [H1 [H2 H3]].
      { intros j Hj. rewrite upd_length. apply Hr; right; exact Hj. }
      rewrite upd_length in H1. split; [exact H1|]. split.
      + intros j [<-|Hj].
        * etransitivity; [apply H3; exact Hni|]. apply upd_nth_same. apply Hr; left; reflexivity.
        * etransitivity; [apply H2; exact Hj|]. rewrite upd_nth_other; [reflexivity|]. intros ->; contradiction.
      + intros j Hj. etransitivity; [apply H3; tauto|]. apply upd_nth_other. tauto.
  Qed.

  Lemma f_logsums_length ix : length (f_logsums fexp fln x ix) = length ix.
  Proof.
    induction ix as [|i ix IH]; [reflexivity|]. rewrite logsums_cons. unfold f_logsum_step at 1. destruct (f_logsums fexp fln x ix); simpl in *; lia.
  Qed.
  Lemma fst_logsums ix : map fst (combine ix (f_logsums fexp fln x ix)) = ix.
  Proof.
    assert (Q : forall (A B : Type) (l : list A) (m : list B), length m = length l -> map fst (combine l m) = l).
    { intros A B. induction l as [|a l IH]; intros [|b m] E; try reflexivity; try discriminate E. cbn. rewrite IH; [reflexivity|]. simpl in E. lia. }
    apply Q, f_logsums_length.
  Qed.

  Lemma f_project_uncapped : x <> [] -> exists dist, f_project fexp fln f1 x = Ok dist /\ length dist = n /\
    forall i, (i < n)%nat -> finite_num (nth i dist f0) /\ 0 <= val (nth i dist f0) <= 1 /\ Rabs (val (nth i dist f0) - softmax x i) <= / 2 ^ 19 * softmax x i + / 2 ^ 50.
  Proof.
    intros Nx. assert (N0 : (0 < n)%nat) by (destruct x; [congruence|simpl; lia]). pose proof (M_pos x M Fx N0) as MP. destruct (M_small x M Fx Hn N0) as [Ms Ns].
    destruct f1_spec as [F1 V1]. unfold f_project.
    assert (E0 : andb (Nat.ltb 1 n) (existsb is_nan x) = false).
    { apply andb_false_iff. right. apply Bool.not_true_iff_false. intros Q. apply existsb_exists in Q. destruct Q as [d [Q1 Q2]]. destruct (Fx d Q1) as [Q3 _]. apply fin_num' in Q3. exact (eq_true_false_abs _ Q2 Q3). }
    rewrite E0. clear E0. cbv zeta. set (ix := f_sorted_indices x). assert (P : Permutation ix (seq 0 n)) by apply Permutation_sym, isort_perm || apply isort_perm.
    assert (Nd : NoDup ix) by (apply (Permutation_NoDup (Permutation_sym P)), seq_NoDup).
    assert (Ix : forall j, In j ix <-> (j < n)%nat). { intros j. split; intros Q; [apply (Permutation_in _ P) in Q; apply in_seq in Q; lia|apply (Permutation_in _ (Permutation_sym P)); apply in_seq; lia]. }
    assert (Lx : length ix = n) by (rewrite (Permutation_length P); apply seq_length).
    assert (SX : rsum (map (fun i => exp (val (xi i))) ix) = rsum (map (fun d => exp (val d)) x)).
    { rewrite (rsum_perm _ (map (fun i => exp (val (xi i))) (seq 0 n))) by (apply Permutation_map, P). rewrite <- (map_map (fun i => xi i) (fun d => exp (val d))), map_nth_seq. reflexivity. }
    clearbody ix. destruct ix as [|i0 ix]; [simpl in Lx; lia|].
    destruct (logsum_ok fexp fln Hexp Hln x M Fx Hn ix i0 Nd) as [v [Ev [Fv [Lv Av]]]]; [intros j Hj; apply Ix, Hj|].
    destruct (S_bounds x M Fx (i0 :: ix)) as [SP SB]; [discriminate|intros j Hj; apply Ix, Hj|]. pose proof (ln_count (i0 :: ix) ltac:(discriminate) ltac:(rewrite Lx; exact Ns)) as LC.
    rewrite SX in *. set (Z := rsum (map (fun d => exp (val d)) x)) in *.
    rewrite Ev. cbn [combine f_proj_loop].
    assert (A1 : fsub f1 (fmul (fdiv f1 f1) (f_of_usize 0)) = f1) by (apply B2SF_inj; vm_compute; reflexivity). rewrite A1.
    destruct (proj2 Hln f1 F1 V1) as [Fl Vl].
    assert (Lm : INR (length ix) * (/ 2 ^ 51 * (M + 40)) <= / 2 ^ 21).
    { apply Rle_trans with (INR n * (/ 2 ^ 51 * (M + 64))).
      - assert (I51 : 0 < / 2 ^ 51) by (apply Rinv_0_lt_compat, pow_lt; lra). apply Rmult_le_compat; [apply pos_INR|nra|apply le_INR; simpl in Lx; lia|nra].
      - replace (INR n * (/ 2 ^ 51 * (M + 64))) with (/ 2 ^ 51 * (INR n * (M + 64))) by ring. apply Rle_trans with (/ 2 ^ 51 * 2 ^ 30); [apply Rmult_le_compat_l; [left; apply Rinv_0_lt_compat, pow_lt; lra|exact Hn]|]. simpl. lra. }
    assert (Bv : Rabs (val v) <= M + 25). { assert (Rabs (val v - ln Z) <= / 2) by (eapply Rle_trans; [exact Av|]; eapply Rle_trans; [exact Lm|]; simpl; lra). apply Rabs_le. apply Rabs_le_inv in H. lra. }
    assert (Big : 2 ^ 40 <= 2 ^ 1000) by (apply Rle_pow; [lra|lia]). assert (P30 : 2 ^ 30 * 1024 = 2 ^ 40) by (simpl; lra).
    destruct (fsub_rnd (fln f1) v Fl Fv) as [Fq [Vq _]]. { rewrite Vl, Rminus_0_l, Rabs_Ropp. lra. }
    rewrite Vl, Rminus_0_l in Vq. pose proof (fopp_val v) as Vo. rewrite <- Vo in Vq. rewrite rnd_val, Vo in Vq. set (lx := fsub (fln f1) v) in *. clearbody lx.
    (* the exponent of entry j *)
    assert (T : forall j, (j < n)%nat -> fin (fadd lx (xi j)) /\ val (fadd lx (xi j)) <= 0 /\ Rabs (val (fadd lx (xi j)) - (val (xi j) - ln Z)) <= / 2 ^ 20).
    { intros j Hj. destruct (Fx (xi j) (nth_In _ _ Hj)) as [Fj Bj]. specialize (Lv j (proj2 (Ix j) Hj)). 
      assert (Bs : Rabs (val lx + val (xi j)) <= 2 * M + 25). { eapply Rle_trans; [apply Rabs_triang|]. rewrite Vq, Rabs_Ropp. lra. }
      destruct (fadd_rnd lx (xi j) Fq Fj) as [Fa [Va [e [He Ee]]]]; [lra|]. split; [exact Fa|]. split.
      - rewrite Va. rewrite <- val_f0, <- (rnd_val f0), val_f0. apply rnd_mono. rewrite Vq. lra.
      - pose proof (err_form _ _ _ Ee He) as EF. rewrite Vq in *. replace (val (fadd lx (xi j)) - (val (xi j) - ln Z)) with ((val (fadd lx (xi j)) - (- val v + val (xi j))) + (ln Z - val v)) by ring.
        eapply Rle_trans; [apply Rabs_triang|]. rewrite (Rabs_minus_sym (ln Z)). assert (uu * Rabs (- val v + val (xi j)) <= uu * (2 * M + 25)) by (apply Rmult_le_compat_l; [left; apply uu_pos|exact Bs]).
        assert (uu * (2 * M + 25) <= / 2 ^ 21). { rewrite uu53. apply Rle_trans with (/ 2 ^ 53 * (2 * 2 ^ 30)); [apply Rmult_le_compat_l; [left; apply Rinv_0_lt_compat, pow_lt; lra|lra]|simpl; lra]. }
        assert (/ 2 ^ 20 = / 2 ^ 21 + / 2 ^ 21) by (simpl; lra). lra. }
    destruct (T i0 (proj1 (Ix i0) (or_introl eq_refl))) as [Fa [Na _]].
    assert (St : fle (fadd (fadd lx (xi i0)) (fln f1)) f0 = true).
    { destruct (Fx (xi i0)) as [Fj Bj]; [apply nth_In, Ix; left; reflexivity|].
      destruct (fadd_rnd (fadd lx (xi i0)) (fln f1) Fa Fl) as [Fb [Vb _]].
      - rewrite Vl, Rplus_0_r. destruct (fadd_rnd lx (xi i0) Fq Fj) as [_ [_ [e [He Ee]]]].
        + eapply Rle_trans; [apply Rabs_triang|]. rewrite Vq, Rabs_Ropp. lra.
        + pose proof (err_form _ _ _ Ee He) as EF. assert (Rabs (val lx + val (xi i0)) <= 2 * M + 25) by (eapply Rle_trans; [apply Rabs_triang|]; rewrite Vq, Rabs_Ropp; lra).
          pose proof uu_small as Us. pose proof uu_pos as Up. assert (uu * Rabs (val lx + val (xi i0)) <= 1 * (2 * M + 25)) by (apply Rmult_le_compat; try lra; apply Rabs_pos).
          replace (val (fadd lx (xi i0))) with ((val (fadd lx (xi i0)) - (val lx + val (xi i0))) + (val lx + val (xi i0))) by ring. eapply Rle_trans; [apply Rabs_triang|]. lra.
      - apply fle_true; [exact Fb|apply fin_f0|]. rewrite Vb, Vl, Rplus_0_r, rnd_val, val_f0. exact Na. }
    rewrite St. inversion Nd as [|? ? Ni Nd']; subst.
    set (d0 := upd i0 (fexp (fadd lx (xi i0))) x).
    destruct (f_proj_rest_spec lx (combine ix (f_logsums fexp fln x ix)) d0) as [L1 [L2 L3]].
    { rewrite fst_logsums. exact Nd'. }
    { rewrite fst_logsums. intros j Hj. unfold d0. rewrite upd_length. apply Ix. right; exact Hj. }
    rewrite fst_logsums in L2, L3. assert (Ld : length d0 = n) by apply upd_length. rewrite Ld in L1.
    set (dist := f_proj_rest fexp lx (combine ix (f_logsums fexp fln x ix)) d0) in *.
    assert (D : forall j, (j < n)%nat -> nth j dist f0 = fexp (fadd lx (xi j))).
    { intros j Hj. apply Ix in Hj. destruct Hj as [<- |Hj].
      - etransitivity; [apply L3; exact Ni|]. apply upd_nth_same, Ix. left; reflexivity.
      - etransitivity; [apply L2; exact Hj|]. unfold d0. rewrite upd_nth_other; [reflexivity|]. intros ->; contradiction. }
    clearbody dist. clear L2 L3.
    assert (R : forall i, (i < n)%nat -> finite_num (nth i dist f0) /\ 0 <= val (nth i dist f0) <= 1 /\ Rabs (val (nth i dist f0) - softmax x i) <= / 2 ^ 19 * softmax x i + / 2 ^ 50).
    { intros j Hj. rewrite (D j Hj). destruct (T j Hj) as [Fj [Nj Aj]]. destruct (Hexp _ Fj Nj) as [Fe [Be Ae]]. split; [exact Fe|]. split; [exact Be|].
      set (t := val (fadd lx (xi j))) in *. set (dl := t - (val (xi j) - ln Z)) in *.
      assert (Et : exp t = softmax x j * exp dl). { unfold softmax. fold Z. replace t with (val (xi j) + - ln Z + dl) by (unfold dl; ring). rewrite !exp_plus, exp_Ropp, exp_ln by exact SP. unfold Rdiv. reflexivity. }
      assert (SPj : 0 < softmax x j) by (unfold softmax; fold Z; apply Rdiv_lt_0_compat; [apply exp_pos|exact SP]).
      assert (Es : Rabs (exp dl - 1) <= / 2 ^ 19). { eapply Rle_trans; [apply exp_small; eapply Rle_trans; [exact Aj|simpl; lra]|]. apply Rle_trans with (2 * / 2 ^ 20); [lra|simpl; lra]. }
      replace (val (fexp (fadd lx (xi j))) - softmax x j) with ((val (fexp (fadd lx (xi j))) - exp t) + softmax x j * (exp dl - 1)) by (rewrite Et; ring).
      eapply Rle_trans; [apply Rabs_triang|]. rewrite Rabs_mult, (Rabs_pos_eq (softmax x j)) by lra. assert (softmax x j * Rabs (exp dl - 1) <= softmax x j * / 2 ^ 19) by (apply Rmult_le_compat_l; lra). lra. }
    exists dist. split; [|split; [exact L1|exact R]].
    (* the check *)
    rewrite (P_C78_accepts dist f1); [reflexivity| | | | | |].
    - intros d Hd. apply In_nth with (d := f0) in Hd. destruct Hd as [j [Hj <-]]. apply R. lia.
    - exact F1.
    - rewrite L1. eapply Rle_trans; [exact Ns|]. apply Rle_pow; [lra|lia].
    - rewrite V1, L1. split; [lra|]. change 1 with (INR 1). apply le_INR. lia.
    - intros d Hd. apply In_nth with (d := f0) in Hd. destruct Hd as [j [Hj <-]]. rewrite V1, Rinv_1. apply R. lia.
    - assert (Q : forall l, (forall i, In i l -> (i < n)%nat) -> Rabs (rsum (map (fun i => val (nth i dist f0)) l) - rsum (map (softmax x) l)) <= / 2 ^ 19 * rsum (map (softmax x) l) + INR (length l) * / 2 ^ 50).
      { clear -R. induction l as [|i l IH]; intros Hl; [simpl; rewrite Rminus_0_r, Rabs_R0; lra|]. cbn [map length]. rewrite S_INR.
        destruct (R i (Hl i (or_introl eq_refl))) as [_ [_ Q]]. specialize (IH (fun j Hj => Hl j (or_intror Hj))). cbn [rsum].
        set (a := rsum (map (fun i0 => val (nth i0 dist f0)) l)) in *. set (b := rsum (map (softmax x) l)) in *.
        replace (val (nth i dist f0) + a - (softmax x i + b)) with ((val (nth i dist f0) - softmax x i) + (a - b)) by ring. eapply Rle_trans; [apply Rabs_triang|]. rewrite Rmult_plus_distr_l, Rmult_plus_distr_r. lra. }
      specialize (Q (seq 0 n)). rewrite seq_length in Q.
      assert (S1 : rsum (map (softmax x) (seq 0 n)) = 1).
      { unfold softmax. fold Z. rewrite (rsum_map_ext _ (fun i => / Z * exp (val (xi i)))) by (intros; unfold Rdiv; ring). rewrite rsum_map_mult.
        rewrite <- (map_map (fun i => xi i) (fun d => exp (val d))). rewrite map_nth_seq. fold Z. apply Rinv_l. apply Rgt_not_eq, SP. }
      rewrite S1 in Q. unfold total. rewrite <- (map_nth_seq f0 dist), map_map, L1. eapply Rle_trans; [apply Q; intros i Hi; apply in_seq in Hi; destruct Hi as [_ Hi]; exact Hi|].
      assert (INR n * / 2 ^ 50 <= 2 ^ 24 * / 2 ^ 50) by (apply Rmult_le_compat_r; [left; apply Rinv_0_lt_compat, pow_lt; lra|exact Ns]). assert (/ 2 ^ 19 * 1 + 2 ^ 24 * / 2 ^ 50 <= 9 / 10 ^ 6) by (simpl; lra). lra.
  Qed.
End Main.
