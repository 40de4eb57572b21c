(** One round of gradient boosting with the squared loss in binary64, with its rounding errors. *)
From Coq Require Import ZArith List Bool Reals Lia Lra Psatz Permutation String.
From Flocq Require Import Core.Core IEEE754.BinarySingleNaN Relative Plus_error Mult_error.
From Verif Require Import Base Float FloatSpec FloatProofs FloatFacts FloatCheckFacts FloatProjectProofs FloatEdgeFacts FloatMadaProofs FloatTree FloatTreeSpec FloatTreeProofs FloatGrowProofs FloatBestProofs FloatRTree FloatRTreeNum FloatRTreeTerm FloatGBM FloatGBMSpec.
Import ListNotations.
Open Scope R_scope.
Local Notation ftotal := FloatSpec.total.

Lemma fsum_summing : summing fsum.
Proof. intros l. exists (FLeaf l). split; [apply Permutation_refl|reflexivity]. Qed.
Lemma size_cons x l : size (x :: l) = Rabs (val x) + size l. Proof. reflexivity. Qed.
Lemma total_size l : Rabs (ftotal l) <= size l.
Proof. induction l as [|x l IH]; [unfold ftotal, size; simpl; rewrite Rabs_R0; lra|]. rewrite total_cons, size_cons. eapply Rle_trans; [apply Rabs_triang|]. lra. Qed.

Lemma sum_near l : finite_all l -> INR (length l) <= 2 ^ 16 -> size l <= 2 ^ 500 -> fin (fsum l) /\ Rabs (val (fsum l) - ftotal l) <= / 2 ^ 36 * size l.
Proof.
  intros F N S. assert (W : few (length l)) by (unfold few; eapply Rle_trans; [exact N|]; apply Rle_pow; [lra|lia]).
  destruct (sched_err fsum l fsum_summing F W) as [A B]; [eapply Rle_lt_trans; [exact S|]; apply Rlt_pow; [lra|lia]|]. split; [exact A|]. eapply Rle_trans; [exact B|]. apply Rmult_le_compat_r; [apply size_nonneg|].
  destruct (gam_few _ W) as [G _]. eapply Rle_trans; [exact G|]. apply Rle_trans with (2 * (2 ^ 16 * uu)); [apply Rmult_le_compat_l; [lra|]; apply Rmult_le_compat_r; [apply Rlt_le, uu_pos|exact N]|]. unfold uu. simpl. lra.
Qed.

Section Coef.
  Variables y q : list f64.
  Local Notation A := (size y).
  Local Notation Y := (ftotal y).
  Local Notation Q := (ftotal q).
  Hypothesis Fy : finite_all y.
  Hypothesis Ny : INR (length y) <= 2 ^ 16.
  Hypothesis Ay : / 2 ^ 400 <= A <= 2 ^ 400.
  Hypothesis Nq : length q = length y.
  Hypothesis Sq : steady q.

  Lemma coef_near : exists c, f_best_l2 y q = Ok c /\ fin c /\ Rabs (val c * Q - Y) <= / 2 ^ 19 * A /\ Rabs (val c) * size q <= 2 ^ 17 * A.
  Proof.
    destruct Sq as [Fq [Kq [Q1 Q2]]]. assert (P400 : 0 < / 2 ^ 400) by (apply Rinv_0_lt_compat, pow_lt; lra). assert (P5 : 2 ^ 400 <= 2 ^ 500) by (apply Rle_pow; [lra|lia]).
    destruct (sum_near y Fy Ny ltac:(lra)) as [FY EY].
    assert (SQ : size q <= 2 ^ 500). { eapply Rle_trans; [exact Kq|]. apply Rle_trans with (2 ^ 16 * 2 ^ 400); [apply Rmult_le_compat_l; [left; apply pow_lt; lra|exact Q2]|]. rewrite <- pow_add. apply Rle_pow; [lra|lia]. }
    destruct (sum_near q Fq ltac:(rewrite Nq; exact Ny) SQ) as [FQ EQ]. assert (EQ2 : Rabs (val (fsum q) - Q) <= / 2 ^ 20 * Rabs Q).
    { eapply Rle_trans; [exact EQ|]. apply Rle_trans with (/ 2 ^ 36 * (2 ^ 16 * Rabs Q)); [apply Rmult_le_compat_l; [left; apply Rinv_0_lt_compat, pow_lt; lra|exact Kq]|]. rewrite <- Rmult_assoc. apply Rmult_le_compat_r; [apply Rabs_pos|]. simpl. lra. }
    clear EQ SQ. assert (Y0 : Rabs Y <= A) by apply total_size. set (yh := val (fsum y)) in *. set (qh := val (fsum q)) in *.
    assert (NQ : Q <> 0) by (intros Z; rewrite Z, Rabs_R0 in Q1; lra). set (d := (qh - Q) / Q). assert (Ed : qh = Q * (1 + d)) by (unfold d; field; exact NQ).
    assert (Hd : Rabs d <= / 2 ^ 20). { unfold d, Rdiv. rewrite Rabs_mult, Rabs_inv. apply Rdiv_le_iff; [apply Rabs_pos_lt, NQ|exact EQ2]. }
    assert (D20 : / 2 ^ 20 = / 1048576) by (simpl; lra). rewrite D20 in *. apply Rabs_le_inv in Hd. assert (Nqh : qh <> 0) by (rewrite Ed; apply Rmult_integral_contrapositive; split; [exact NQ|lra]).
    assert (D36 : / 2 ^ 36 <= / 1048576) by (simpl; lra). assert (D19 : / 2 ^ 19 = / 524288) by (simpl; lra). assert (A0 : 0 < A) by lra.
    assert (EY2 : Rabs (yh - Y) <= / 2 ^ 36 * A) by exact EY. clear EY. assert (D36' : / 2 ^ 36 * A <= / 8388608 * A) by (apply Rmult_le_compat_r; [lra|simpl; lra]).
    assert (YH : Rabs yh <= (1 + / 8388608) * A). { replace yh with (Y + (yh - Y)) by ring. eapply Rle_trans; [apply Rabs_triang|]. lra. }
    (* the quotient *)
    set (r := yh / qh). assert (Er : r * Q = yh / (1 + d)) by (unfold r; rewrite Ed; field; split; [lra|exact NQ]).
    assert (I0 : 0 < / (1 + d)) by (apply Rinv_0_lt_compat; lra). assert (I1 : / (1 + d) <= 1 + / 1000000) by (apply (Rmult_le_reg_r (1 + d)); [lra|]; rewrite Rinv_l by lra; lra). assert (I2 : 1 - / 1000000 <= / (1 + d)) by (apply (Rmult_le_reg_r (1 + d)); [lra|]; rewrite Rinv_l by lra; lra).
    assert (RQ : Rabs (r * Q - yh) <= / 1000000 * Rabs yh). { rewrite Er. replace (yh / (1 + d) - yh) with (yh * (/ (1 + d) - 1)) by (unfold Rdiv; ring). rewrite Rabs_mult, Rmult_comm. apply Rmult_le_compat_r; [apply Rabs_pos|]. apply Rabs_le. lra. }
    assert (RQ2 : Rabs r * Rabs Q <= 2 * A). { rewrite <- Rabs_mult. replace (r * Q) with (r * Q - yh + yh) by ring. eapply Rle_trans; [apply Rabs_triang|]. lra. }
    assert (Rb : Rabs r < 2 ^ 1023).
    { apply Rle_lt_trans with (2 ^ 900); [|apply Rlt_pow; [lra|lia]]. apply (Rmult_le_reg_r (Rabs Q)); [lra|]. eapply Rle_trans; [exact RQ2|]. apply Rle_trans with (2 ^ 900 * / 2 ^ 400); [|apply Rmult_le_compat_l; [left; apply pow_lt; lra|exact Q1]].
      replace 900%nat with (400 + 500)%nat by reflexivity. rewrite pow_add. replace (2 ^ 400 * 2 ^ 500 * / 2 ^ 400) with (2 ^ 500) by (field; apply pow_nonzero; lra). apply Rle_trans with (2 * 2 ^ 400); [lra|]. replace (2 * 2 ^ 400) with (2 ^ 401) by reflexivity. apply Rle_pow; [lra|lia]. }
    destruct (fdiv_spec (fsum y) (fsum q) FY Nqh Rb) as [Fc Vc]. exists (fdiv (fsum y) (fsum q)). split.
    { unfold f_best_l2. assert (E : feq (fsum q) f0 = false). { unfold feq. rewrite Beqb_correct by (auto; apply fin_f0). rewrite Req_bool_false; [reflexivity|]. fold qh. rewrite val_f0. exact Nqh. } rewrite E. reflexivity. }
    split; [exact Fc|]. set (c := val (fdiv (fsum y) (fsum q))) in *. pose proof (rnd_near r) as RN. fold yh qh r in Vc. rewrite <- Vc in RN.
    assert (CR : Rabs (c - r) * Rabs Q <= / 4000000 * A).
    { apply Rle_trans with ((uu * Rabs r + eta0) * Rabs Q); [apply Rmult_le_compat_r; [apply Rabs_pos|exact RN]|]. rewrite Rmult_plus_distr_r, Rmult_assoc.
      assert (U1 : uu * (Rabs r * Rabs Q) <= uu * (2 * A)) by (apply Rmult_le_compat_l; [apply Rlt_le, uu_pos|exact RQ2]). assert (U2 : uu <= / 80000000) by (unfold uu; simpl; lra). assert (U3 : uu * (2 * A) <= / 80000000 * (2 * A)) by (apply Rmult_le_compat_r; [lra|exact U2]).
      assert (E1 : eta0 * Rabs Q <= / 8000000 * A).
      { apply Rle_trans with (/ 2 ^ 1000 * 2 ^ 400); [apply Rmult_le_compat; [apply eta_nonneg|apply Rabs_pos|apply eta_below; lia|exact Q2]|]. replace (/ 2 ^ 1000 * 2 ^ 400) with (/ 2 ^ 200 * / 2 ^ 400) by (change 1000%nat with (400 + (200 + 400))%nat; rewrite !(pow_add 2); field; repeat split; apply pow_nonzero; lra).
        apply Rmult_le_compat; [left; apply Rinv_0_lt_compat, pow_lt; lra|left; exact P400| |apply Ay]. apply Rle_trans with (/ 2 ^ 23); [apply inv_pow_le; lia|simpl; lra]. }
      lra. }
    assert (MAIN : Rabs (c * Q - Y) <= / 2 ^ 19 * A).
    { replace (c * Q - Y) with ((c - r) * Q + (r * Q - yh) + (yh - Y)) by ring. eapply Rle_trans; [apply Rabs_triang|]. eapply Rle_trans; [apply Rplus_le_compat_r, Rabs_triang|]. rewrite (Rabs_mult (c - r) Q), D19. lra. }
    split; [exact MAIN|]. apply Rle_trans with (Rabs c * (2 ^ 16 * Rabs Q)); [apply Rmult_le_compat_l; [apply Rabs_pos|exact Kq]|].
    assert (CQ : Rabs c * Rabs Q <= 2 * A). { rewrite <- Rabs_mult. replace (c * Q) with (c * Q - Y + Y) by ring. eapply Rle_trans; [apply Rabs_triang|]. rewrite D19 in MAIN. lra. }
    replace (Rabs c * (2 ^ 16 * Rabs Q)) with (2 ^ 16 * (Rabs c * Rabs Q)) by ring. apply Rle_trans with (2 ^ 16 * (2 * A)); [apply Rmult_le_compat_l; [left; apply pow_lt; lra|exact CQ]|]. right. simpl. ring.
  Qed.
End Coef.

(** one update *)
Lemma step_near c x q : fin c -> fin x -> fin q -> Rabs (val x) <= 2 ^ 900 -> Rabs (val c * val q) <= 2 ^ 900 ->
  fin (fadd x (fmul c q)) /\ Rabs (val (fadd x (fmul c q)) - (val x + val c * val q)) <= uu * Rabs (val x) + 3 * uu * Rabs (val c * val q) + 2 * eta0.
Proof.
  intros Fc Fx Fq Bx Bm. assert (P9 : 2 ^ 900 < 2 ^ 1023) by (apply Rlt_pow; [lra|lia]). destruct (fmul_spec c q Fc Fq ltac:(lra)) as [Fm Em]. pose proof uu_pos as Up. pose proof uu_small as Us. pose proof eta_nonneg as E0. pose proof eta0_small as E1.
  assert (E2 : eta0 <= 1) by (apply (Rle_trans _ _ _ E1); rewrite <- Rinv_1; apply Rinv_le_contravar; [lra|apply pow_R1_Rle; lra]).
  set (m := val (fmul c q)) in *. set (w := val c * val q) in *. assert (Mb : Rabs m <= (1 + uu) * Rabs w + eta0) by (replace m with (m - w + w) by ring; eapply Rle_trans; [apply Rabs_triang|]; lra).
  assert (W0 : 0 <= Rabs w) by apply Rabs_pos. assert (P1 : 1 <= 2 ^ 900) by (apply pow_R1_Rle; lra).
  destruct (fadd_rnd x (fmul c q) Fx Fm) as [F [_ [e [He V]]]].
  { fold m. eapply Rle_trans; [apply Rabs_triang|]. apply Rle_trans with (4 * 2 ^ 900). - assert (MW : (1 + uu) * Rabs w <= 2 * 2 ^ 900) by (apply Rmult_le_compat; lra). clear - Bx MW Mb E2 P1 W0. revert Bx MW P1. generalize (2 ^ 900). intros. lra. - replace (4 * 2 ^ 900) with (2 ^ 902) by (change 902%nat with (2 + 900)%nat; rewrite pow_add; simpl (2 ^ 2); ring). apply Rle_pow; [lra|lia]. }
  split; [exact F|]. rewrite V. fold m. set (v := val x) in *. replace ((v + m) * (1 + e) - (v + w)) with (e * (v + m) + (m - w)) by ring. eapply Rle_trans; [apply Rabs_triang|]. rewrite Rabs_mult.
  assert (J : Rabs e * Rabs (v + m) <= uu * (Rabs v + ((1 + uu) * Rabs w + eta0))) by (apply Rmult_le_compat; try apply Rabs_pos; [exact He|]; eapply Rle_trans; [apply Rabs_triang|]; lra).
  assert (J2 : uu * ((1 + uu) * Rabs w + eta0) <= 2 * uu * Rabs w + eta0). { rewrite Rmult_plus_distr_l. assert (uu * eta0 <= 1 * eta0) by (apply Rmult_le_compat_r; lra). assert (uu * ((1 + uu) * Rabs w) <= uu * (2 * Rabs w)) by (apply Rmult_le_compat_l; [lra|]; apply Rmult_le_compat_r; lra). lra. }
  rewrite Rmult_plus_distr_l in J. lra.
Qed.

Lemma update_near c : fin c -> forall p q, length p = length q -> finite_all p -> finite_all q -> size p <= 2 ^ 900 -> Rabs (val c) * size q <= 2 ^ 900 ->
  let p' := f_gbm_update c p q in let err := uu * size p + 3 * uu * (Rabs (val c) * size q) + 2 * INR (length p) * eta0 in
  length p' = length p /\ finite_all p' /\ Rabs (ftotal p' - (ftotal p + val c * ftotal q)) <= err /\ size p' <= size p + Rabs (val c) * size q + err.
Proof.
  intros Fc. induction p as [|x p IH]; intros [|z q] L Fp Fq Bp Bq; try discriminate; cbv zeta.
  - unfold f_gbm_update, ftotal, size. simpl. rewrite !Rmult_0_r, !Rplus_0_r, Rmult_0_l, Rminus_0_r, Rabs_R0. split; [reflexivity|]. split; [intros u []|]. split; lra.
  - change (f_gbm_update c (x :: p) (z :: q)) with (fadd x (fmul c z) :: f_gbm_update c p q). rewrite !size_cons in *. rewrite !total_cons. pose proof (size_nonneg p) as S1. pose proof (size_nonneg q) as S2. pose proof (Rabs_pos (val x)) as X0. pose proof (Rabs_pos (val z)) as Z0. pose proof (Rabs_pos (val c)) as C0.
    rewrite Rmult_plus_distr_l in Bq. assert (T1 : 0 <= Rabs (val c) * Rabs (val z)) by (apply Rmult_le_pos; assumption). assert (T2 : 0 <= Rabs (val c) * size q) by (apply Rmult_le_pos; assumption).
    destruct (IH q ltac:(simpl in L; lia) ltac:(intros u Hu; apply Fp; right; exact Hu) ltac:(intros u Hu; apply Fq; right; exact Hu) ltac:(lra) ltac:(lra)) as [L' [F' [E' B']]].
    destruct (step_near c x z Fc (Fp x (or_introl eq_refl)) (Fq z (or_introl eq_refl)) ltac:(lra) ltac:(rewrite Rabs_mult; lra)) as [Fn En]. rewrite Rabs_mult in En. cbn [length]. rewrite S_INR.
    set (n := val (fadd x (fmul c z))) in *. set (tp := ftotal (f_gbm_update c p q)) in *. set (sp := size (f_gbm_update c p q)) in *. clearbody n tp sp.
    split; [rewrite L'; reflexivity|]. split; [intros u [<- |Hu]; [exact Fn|apply F', Hu]|].
    set (a := Rabs (val c) * Rabs (val z)) in *. set (b := Rabs (val c) * size q) in *. replace (Rabs (val c) * (Rabs (val z) + size q)) with (a + b) by (unfold a, b; ring).
    set (w := val c * val z) in *. assert (Wa : Rabs w = a) by (unfold w, a; apply Rabs_mult). split.
    + replace (n + tp - (val x + ftotal p + val c * (val z + ftotal q))) with ((n - (val x + w)) + (tp - (ftotal p + val c * ftotal q))) by (unfold w; ring). eapply Rle_trans; [apply Rabs_triang|]. eapply Rle_trans; [apply Rplus_le_compat; [exact En|exact E']|]. right. ring.
    + assert (Nb : Rabs n <= Rabs (val x) + a + (uu * Rabs (val x) + 3 * uu * a + 2 * eta0)). { replace n with (n - (val x + w) + (val x + w)) by ring. eapply Rle_trans; [apply Rabs_triang|]. pose proof (Rabs_triang (val x) w) as TR. rewrite Wa in TR. lra. }
      eapply Rle_trans; [apply Rplus_le_compat; [exact Nb|exact B']|]. right. ring.
Qed.
