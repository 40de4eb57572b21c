(** One term of the score of a split, in binary64. *)
From Coq Require Import ZArith List Bool Reals Lia Lra Psatz Permutation String.
From Flocq Require Import Core.Core IEEE754.BinarySingleNaN Relative Plus_error Mult_error.
From Verif Require Import Base TreeSpec Float FloatSpec FloatProofs FloatFacts FloatCheckFacts FloatProjectProofs FloatEdgeFacts FloatMadaProofs FloatTree FloatTreeSpec FloatGrowProofs FloatGrowthProofs FloatBestProofs FloatBestFeature FloatBestGrow FloatRTree FloatRTreeNum.
Import ListNotations.
Open Scope R_scope.

Lemma rnd_near x : Rabs (rnd x - x) <= uu * Rabs x + eta0.
Proof.
  destruct (err_mult x) as [e [h [He [Hh E]]]]. rewrite E. replace (x * (1 + e) + h - x) with (e * x + h) by ring. eapply Rle_trans; [apply Rabs_triang|]. rewrite Rabs_mult.
  fold eta0 in Hh. apply Rplus_le_compat; [apply Rmult_le_compat_r; [apply Rabs_pos|exact He]|exact Hh].
Qed.
Lemma eta_below k : (k <= 1075)%nat -> eta0 <= / 2 ^ k.
Proof.
  intros H. unfold eta0. rewrite <- two_pow, <- bpow_opp. apply bpow_le. lia.
Qed.
Lemma eta_nonneg : 0 <= eta0. Proof. unfold eta0. apply bpow_ge_0. Qed.
Lemma inv_pow_le a b : (a <= b)%nat -> / 2 ^ b <= / 2 ^ a.
Proof. intros H. apply Rinv_le_contravar; [apply pow_lt; lra|apply Rle_pow; [lra|exact H]]. Qed.
Lemma inv_pow_mult a b : / 2 ^ a * / 2 ^ b = / 2 ^ (a + b).
Proof. rewrite pow_add, Rinv_mult. reflexivity. Qed.

(** the inverse of a rounded positive number *)
Lemma inv_round S e : 0 < S -> Rabs e <= uu -> exists e', Rabs e' <= 2 * uu /\ / (S * (1 + e)) = / S * (1 + e').
Proof.
  intros HS He. pose proof uu_pos. pose proof uu_small. apply Rabs_le_inv in He. exists (/ (1 + e) - 1). split.
  - replace (/ (1 + e) - 1) with (- e / (1 + e)) by (field; lra). apply Rabs_le. split.
    + apply Rle_div_iff; [lra|]. nra.
    + apply Rdiv_le_iff; [lra|]. nra.
  - field. lra.
Qed.

(** a quotient of nearby numbers: T = P / S, the numerator has relative error uu and absolute error eta0, the denominator relative error uu *)
Lemma quotient_near P S M m s : 0 < S -> Rabs (P / S) <= M -> eta0 / S <= uu * M / 4 -> eta0 <= uu * M / 4 ->
  Rabs (m - P) <= uu * Rabs P + eta0 -> (exists e, Rabs e <= uu /\ s = S * (1 + e)) -> Rabs (rnd (m / s) - P / S) <= 8 * uu * M /\ Rabs (m / s) <= 2 * M.
Proof.
  intros HS HM E1 E2 Hm [e [He ->]]. destruct (inv_round S e HS He) as [e' [He' Ei]]. pose proof uu_pos as Up. pose proof uu_small as Us. assert (HI : 0 < / S) by (apply Rinv_0_lt_compat, HS).
  assert (M0 : 0 <= M) by (eapply Rle_trans; [apply Rabs_pos|exact HM]). set (T := P / S) in *. set (x := m / S).
  assert (X1 : Rabs (x - T) <= uu * M + uu * M / 4).
  { unfold x, T. replace (m / S - P / S) with ((m - P) * / S) by (unfold Rdiv; ring). rewrite Rabs_mult, (Rabs_pos_eq (/ S)) by lra.
    eapply Rle_trans; [apply Rmult_le_compat_r; [lra|exact Hm]|]. rewrite Rmult_plus_distr_r. apply Rplus_le_compat; [|exact E1].
    rewrite Rmult_assoc. apply Rmult_le_compat_l; [lra|]. rewrite <- (Rabs_pos_eq (/ S)) at 1 by lra. rewrite <- Rabs_mult. exact HM. }
  assert (Eq : m / (S * (1 + e)) = x * (1 + e')). { unfold x, Rdiv. rewrite Ei. ring. }
  rewrite Eq. set (z := x * (1 + e')). assert (UM : uu * M <= / 9007199254740992 * M) by (apply Rmult_le_compat_r; lra). assert (UM0 : 0 <= uu * M) by (apply Rmult_le_pos; lra).
  apply Rabs_le_inv in X1. apply Rabs_le_inv in HM. assert (X2 : Rabs x <= 3 / 2 * M) by (apply Rabs_le; lra).
  assert (Z1 : Rabs (z - x) <= 3 * (uu * M)).
  { unfold z. replace (x * (1 + e') - x) with (e' * x) by ring. rewrite Rabs_mult. eapply Rle_trans; [apply Rmult_le_compat; [apply Rabs_pos|apply Rabs_pos|exact He'|exact X2]|]. lra. }
  apply Rabs_le_inv in Z1. apply Rabs_le_inv in X2. assert (Z2 : Rabs z <= 2 * M) by (apply Rabs_le; lra). split; [|exact Z2].
  pose proof (rnd_near z) as R. assert (R2 : uu * Rabs z <= uu * (2 * M)) by (apply Rmult_le_compat_l; lra). apply Rabs_le_inv in R. apply Rabs_le. lra.
Qed.

Section Term.
  Variables (B lam : R) (lambda : f64).
  Hypothesis B0 : / 2 ^ 400 <= B <= 2 ^ 400.
  Hypothesis Fl : fin lambda.
  Hypothesis Vl : val lambda = lam.
  Hypothesis L0 : / 2 ^ 20 <= lam <= 2 ^ 100.

  Lemma Bp : 0 < B. Proof. assert (0 < / 2 ^ 400) by (apply Rinv_0_lt_compat, pow_lt; lra). lra. Qed.
  Lemma lam_pos : 0 < lam. Proof. assert (0 < / 2 ^ 20) by (apply Rinv_0_lt_compat, pow_lt; lra). lra. Qed.
  Lemma B2 : / 2 ^ 800 <= B ^ 2 <= 2 ^ 800.
  Proof.
    pose proof Bp. assert (0 < / 2 ^ 400) by (apply Rinv_0_lt_compat, pow_lt; lra). replace (/ 2 ^ 800) with (/ 2 ^ 400 * / 2 ^ 400) by (rewrite inv_pow_mult; reflexivity). replace (2 ^ 800) with (2 ^ 400 * 2 ^ 400) by (rewrite <- pow_add; reflexivity).
    replace (B ^ 2) with (B * B) by ring. split; apply Rmult_le_compat; lra.
  Qed.

  (** in exact arithmetic *)
  Lemma square_near G G' k N : 0 <= k -> 1 <= N <= 2 ^ 16 -> Rabs G <= B * k -> k <= N -> Rabs (G' - G) <= / 2 ^ 32 * B * N ->
    Rabs (G' ^ 2 / (k + lam) - G ^ 2 / (k + lam)) <= 3 / 2 * / 2 ^ 28 * (N * B ^ 2) /\ G' ^ 2 / (k + lam) <= 2 * (N * B ^ 2).
  Proof.
    intros K0 N1 HG HN HD. pose proof Bp as Bp. pose proof lam_pos as Lp. rewrite p16 in N1. set (d := G' - G) in *. assert (S0 : 0 < k + lam) by lra.
    assert (E32 : / 2 ^ 32 = / 4294967296) by (f_equal; simpl; lra). assert (E28 : / 2 ^ 28 = / 268435456) by (f_equal; simpl; lra). assert (E20 : / 2 ^ 20 = / 1048576) by (f_equal; simpl; lra). rewrite E32 in HD. rewrite E20 in L0. rewrite E28.
    assert (BN : 0 < B * N) by (apply Rmult_lt_0_compat; lra). assert (Bk : 0 <= B * k) by (apply Rmult_le_pos; lra).
    assert (D1 : Rabs d * (2 * (B * k)) / (k + lam) <= 2 * / 4294967296 * (N * B ^ 2)).
    { apply Rdiv_le_iff; [exact S0|]. apply Rle_trans with (/ 4294967296 * B * N * (2 * (B * k))); [apply Rmult_le_compat_r; [lra|exact HD]|].
      replace (/ 4294967296 * B * N * (2 * (B * k))) with (2 * / 4294967296 * (N * B ^ 2) * k) by ring. apply Rmult_le_compat_l; [|lra]. apply Rmult_le_pos; [lra|]. apply Rmult_le_pos; [lra|apply pow2_ge_0]. }
    assert (D2 : Rabs d * Rabs d / (k + lam) <= / 268435456 * (N * B ^ 2)).
    { apply Rdiv_le_iff; [exact S0|]. apply Rle_trans with ((/ 4294967296 * B * N) * (/ 4294967296 * B * N)); [apply Rmult_le_compat; try apply Rabs_pos; exact HD|].
      apply Rle_trans with (/ 268435456 * (N * B ^ 2) * / 1048576); [|apply Rmult_le_compat_l; [|lra]; apply Rmult_le_pos; [lra|]; apply Rmult_le_pos; [lra|apply pow2_ge_0]].
      replace (/ 4294967296 * B * N * (/ 4294967296 * B * N)) with (/ 18446744073709551616 * N * (N * B ^ 2)) by field. replace (/ 268435456 * (N * B ^ 2) * / 1048576) with (/ 281474976710656 * (N * B ^ 2)) by field.
      apply Rmult_le_compat_r; [apply Rmult_le_pos; [lra|apply pow2_ge_0]|lra]. }
    assert (NB : 0 <= N * B ^ 2) by (apply Rmult_le_pos; [lra|apply pow2_ge_0]).
    assert (Q : Rabs (G' ^ 2 / (k + lam) - G ^ 2 / (k + lam)) <= 3 / 2 * / 268435456 * (N * B ^ 2)).
    { replace (G' ^ 2 / (k + lam) - G ^ 2 / (k + lam)) with (d * (2 * G + d) / (k + lam)) by (unfold d; field; lra). unfold Rdiv at 1. rewrite !Rabs_mult, (Rabs_pos_eq (/ (k + lam))) by (left; apply Rinv_0_lt_compat; lra).
      apply Rle_trans with (Rabs d * (2 * (B * k) + Rabs d) * / (k + lam)).
      - apply Rmult_le_compat_r; [left; apply Rinv_0_lt_compat; lra|]. apply Rmult_le_compat_l; [apply Rabs_pos|]. eapply Rle_trans; [apply Rabs_triang|]. rewrite Rabs_mult, (Rabs_pos_eq 2) by lra. lra.
      - rewrite Rmult_plus_distr_l, Rmult_plus_distr_r. unfold Rdiv in D1, D2. lra. }
    split; [exact Q|]. apply Rabs_le_inv in Q.
    assert (T : G ^ 2 / (k + lam) <= N * B ^ 2).
    { apply Rdiv_le_iff; [exact S0|]. rewrite <- (pow2_abs G). apply Rle_trans with ((B * k) ^ 2); [apply pow_incr; split; [apply Rabs_pos|exact HG]|]. replace ((B * k) ^ 2) with (B ^ 2 * (k * k)) by ring. replace (N * B ^ 2 * (k + lam)) with (B ^ 2 * (N * (k + lam))) by ring. apply Rmult_le_compat_l; [apply pow2_ge_0|]. nra. }
    lra.
  Qed.

  (** the computed term *)
  Lemma term_near G' H' G k N : fin G' -> cnt k H' -> 1 <= N <= 2 ^ 16 -> INR k <= N -> Rabs G <= B * INR k -> Rabs (val G' - G) <= / 2 ^ 32 * B * N ->
    fin (f_score_term G' H' lambda) /\ Rabs (val (f_score_term G' H' lambda) - G ^ 2 / (INR k + lam)) <= 5 / 3 * / 2 ^ 28 * (N * B ^ 2).
  Proof.
    intros FG [FH VH] HN Hk HG HD. pose proof Bp as Bp. pose proof lam_pos as Lp. pose proof B2 as B2. pose proof (pos_INR k) as K0. pose proof uu_pos as Up. pose proof uu_small as Us.
    destruct (square_near G (val G') (INR k) N K0 HN HG Hk HD) as [Q1 Q2]. set (M := 2 * (N * B ^ 2)) in *.
    assert (C20 : 0 < / 2 ^ 20) by (apply Rinv_0_lt_compat, pow_lt; lra).
    assert (P800 : 0 < / 2 ^ 800) by (apply Rinv_0_lt_compat, pow_lt; lra).
    assert (NB : / 2 ^ 800 <= N * B ^ 2 <= 2 ^ 816). { split; [apply Rle_trans with (1 * B ^ 2); [lra|apply Rmult_le_compat_r; lra]|]. replace 816%nat with (16 + 800)%nat by reflexivity. rewrite pow_add. apply Rmult_le_compat; lra. }
    assert (eM : eta0 <= uu * M / 4 /\ eta0 * 2 ^ 20 <= uu * M / 4).
    { assert (Q : / 2 ^ 855 <= uu * M / 4).
      { unfold M. replace (uu * (2 * (N * B ^ 2)) / 4) with (uu * / 2 * (N * B ^ 2)) by field. unfold uu. replace (/ 2 ^ 53 * / 2) with (/ 2 ^ 54) by (replace (/ 2) with (/ 2 ^ 1) by (simpl; lra); rewrite inv_pow_mult; reflexivity).
        apply Rle_trans with (/ 2 ^ 54 * / 2 ^ 800); [rewrite inv_pow_mult; apply inv_pow_le; lia|]. apply Rmult_le_compat_l; [left; apply Rinv_0_lt_compat, pow_lt; lra|lra]. }
      split; [eapply Rle_trans; [apply (eta_below 855); lia|exact Q]|]. eapply Rle_trans; [|exact Q]. apply Rle_trans with (/ 2 ^ 875 * 2 ^ 20); [apply Rmult_le_compat_r; [apply pow_le; lra|apply eta_below; lia]|].
      right. replace 875%nat with (855 + 20)%nat by reflexivity. rewrite pow_add. field; apply pow_nonzero; lra. }
    destruct eM as [eM1 eM2].
    assert (G2 : val G' * val G' < 2 ^ 1000).
    { assert (val G' * val G' = val G' ^ 2) by ring. rewrite H. apply (Rmult_le_compat_r (INR k + lam)) in Q2; [|lra]. unfold Rdiv in Q2. rewrite Rmult_assoc, Rinv_l, Rmult_1_r in Q2 by lra.
      eapply Rle_lt_trans; [exact Q2|]. apply Rle_lt_trans with (2 * 2 ^ 816 * (2 ^ 16 + 2 ^ 100)); [unfold M; apply Rmult_le_compat; lra|].
      apply Rle_lt_trans with (2 * 2 ^ 816 * (2 * 2 ^ 100)); [apply Rmult_le_compat_l; [apply Rmult_le_pos; [lra|apply pow_le; lra]|]; assert (2 ^ 16 <= 2 ^ 100) by (apply Rle_pow; [lra|lia]); lra|].
      replace (2 * 2 ^ 816 * (2 * 2 ^ 100)) with (2 ^ (1 + 816 + 1 + 100)) by (rewrite !pow_add, pow_1; ring). apply Rlt_pow; [lra|simpl; lia]. }
    assert (P1000 : 2 ^ 1000 < 2 ^ 1023) by (apply Rlt_pow; [lra|lia]).
    destruct (fmul_spec G' G' FG FG) as [Fm Em]; [rewrite Rabs_pos_eq by nra; generalize dependent (2 ^ 1023); intros; lra|].
    assert (SB : INR k + lam <= 2 ^ 1000). { apply Rle_trans with (2 * 2 ^ 100); [assert (2 ^ 16 <= 2 ^ 100) by (apply Rle_pow; [lra|lia]); lra|]. replace (2 * 2 ^ 100) with (2 ^ 101) by (replace 101%nat with (1 + 100)%nat by reflexivity; rewrite pow_add, pow_1; reflexivity). apply Rle_pow; [lra|lia]. }
    destruct (fadd_rnd H' lambda FH Fl) as [Fs [_ [e [He Es]]]]; [rewrite VH, Vl, Rabs_pos_eq by lra; exact SB|]. rewrite VH, Vl in Es.
    destruct (quotient_near (val G' ^ 2) (INR k + lam) M (val (fmul G' G')) (val (fadd H' lambda))) as [D1 D2].
    - lra.
    - rewrite Rabs_pos_eq; [exact Q2|]. apply Rmult_le_pos; [apply pow2_ge_0|left; apply Rinv_0_lt_compat; lra].
    - eapply Rle_trans; [|exact eM2]. unfold Rdiv. apply Rmult_le_compat_l; [apply eta_nonneg|]. rewrite <- (Rinv_inv (2 ^ 20)). apply Rinv_le_contravar; lra.
    - exact eM1.
    - replace (val G' ^ 2) with (val G' * val G') by ring. exact Em.
    - exists e. split; [exact He|exact Es].
    - unfold f_score_term. destruct (fdiv_spec (fmul G' G') (fadd H' lambda) Fm) as [Fd Vd].
      + rewrite Es. apply Rabs_le_inv in He. apply Rgt_not_eq, Rmult_lt_0_compat; lra.
      + eapply Rle_lt_trans; [exact D2|]. unfold M. apply Rle_lt_trans with (2 * (2 * 2 ^ 816)); [lra|]. replace (2 * (2 * 2 ^ 816)) with (2 ^ 818) by (replace 818%nat with (1 + (1 + 816))%nat by reflexivity; rewrite !pow_add, pow_1; ring). apply Rlt_pow; [lra|lia].
      + split; [exact Fd|]. rewrite Vd. apply Rabs_le_inv in D1. apply Rabs_le_inv in Q1. unfold M in *. set (Z := N * B ^ 2) in *. assert (Z0 : 0 <= Z) by lra.
        assert (uu * Z <= / 9007199254740992 * Z) by (apply Rmult_le_compat_r; lra). assert (E28 : / 2 ^ 28 = / 268435456) by (f_equal; simpl; lra). rewrite E28 in *. apply Rabs_le. set (q := rnd _) in *. clearbody q. clear -D1 Q1 H Z0. split; lra.
  Qed.
End Term.
