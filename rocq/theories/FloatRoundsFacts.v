(** C103: the round limits of the boosters in binary64 *)
From Coq Require Import ZArith List Bool Reals Lia Lra Psatz.
From Flocq Require Import Core.Core IEEE754.BinarySingleNaN.
From Verif Require Import Base Float FloatSpec FloatProofs FloatFacts FloatCheckFacts FloatSplit FloatSplitFacts FloatProjectProofs FloatEdge FloatEdgeFacts FloatMedian FloatMedianFacts FloatTree FloatAdaSpec FloatAdaProofs FloatAdaRun FloatAdaFacts FloatSmooth FloatSmoothSpec FloatSmoothFacts FloatMada FloatMadaProofs FloatRTreeTerm FloatGrowProofs FloatRounds FloatRoundsSpec FloatRoundsProofs.
Import ListNotations.
Open Scope R_scope.

Lemma inv_1 k : / 2 ^ k <= 1.
Proof. rewrite <- Rinv_1. apply Rinv_le_contravar; [lra|apply pow_R1_Rle; lra]. Qed.
Lemma eta_uu : eta0 <= / 2 ^ 460 * (uu * uu) /\ eta0 <= / 2 ^ 1000.
Proof. split; [|unfold eta0; rewrite <- two_pow, <- bpow_opp; apply bpow_le; lia]. unfold eta0, uu. apply Rle_trans with (/ 2 ^ 1000); [rewrite <- two_pow, <- bpow_opp; apply bpow_le; lia|]. replace (/ 2 ^ 460 * (/ 2 ^ 53 * / 2 ^ 53)) with (/ 2 ^ 566) by (rewrite <- !Rinv_mult, <- !pow_add; reflexivity). apply Rinv_le_contravar; [apply pow_lt; lra|apply Rle_pow; [lra|lia]]. Qed.
Lemma small_count k : (k <= 8)%nat -> fin (f_of_usize k) /\ val (f_of_usize k) = INR k.
Proof. intros H. apply of_usize_spec. apply Rle_lt_trans with (INR 8); [apply le_INR, H|simpl; lra]. Qed.
Lemma ln_upto (n : nat) : some_examples n -> 0 <= ln (INR n) <= 2 ^ 53 /\ 1 <= INR n.
Proof. intros [H1 H2]. assert (1 <= INR n) by (apply (le_INR 1 n) in H1; simpl in H1; lra). split; [|assumption]. split; [rewrite <- ln_1; apply ln_le; lra|]. assert (ln (INR n) <= INR n - 1) by (apply ln_le_sub; lra). lra. Qed.

Section Logs.
  Variable fln : f64 -> f64.
  Hypothesis Hln : precise_ln fln.

  Lemma ln_count (n : nat) : some_examples n -> fin (fln (f_of_usize n)) /\ 0 <= val (fln (f_of_usize n)) <= 2 ^ 55 /\ near (val (fln (f_of_usize n))) (ln (INR n)) 2 eta0.
  Proof.
    intros Hn. destruct (ln_upto n Hn) as [[L0 LU] N1]. destruct (of_usize_spec n (proj2 Hn)) as [Fn Vn]. destruct (Hln (f_of_usize n) Fn) as [Fl [P E]]; [rewrite Vn; lra|]. rewrite Vn in *.
    assert (E0 : / 2 ^ 1075 = eta0) by (unfold eta0; change (-1075)%Z with (- Z.of_nat 1075)%Z; rewrite bpow_opp, two_pow; reflexivity). rewrite E0, (Rabs_pos_eq (ln (INR n))) in E by exact L0. destruct eta_uu as [_ T]. assert (/ 2 ^ 1000 <= 1) by (apply inv_1).
    split; [exact Fl|]. split; [split; [apply P; lra|]|].
    - apply Rabs_le_inv in E. assert (/ 2 ^ 52 * ln (INR n) <= 1 * ln (INR n)) by (apply Rmult_le_compat_r; [lra|simpl; lra]). assert (1 <= 2 ^ 53) by (apply pow_R1_Rle; lra). replace (2 ^ 55) with (4 * 2 ^ 53) by (change 55%nat with (2 + 53)%nat; rewrite pow_add; lra). lra.
    - unfold near. replace (2 * uu) with (/ 2 ^ 52) by (unfold uu; simpl; lra). exact E.
  Qed.

  Lemma ln_ratio (nu : f64) (n : nat) : some_examples n -> capping nu n ->
    fin (fln (fdiv (f_of_usize n) nu)) /\ 0 <= val (fln (fdiv (f_of_usize n) nu)) <= 2 ^ 55 /\ 0 <= ln (INR n / val nu) /\ near (val (fln (fdiv (f_of_usize n) nu))) (ln (INR n / val nu)) 2 (21 / 10 * uu).
  Proof.
    intros Hn [Fu [U1 U2]]. destruct (ln_upto n Hn) as [[L0 LU] N1]. destruct (of_usize_spec n (proj2 Hn)) as [Fn Vn]. set (q := INR n / val nu). assert (Q1 : 1 <= q) by (apply Rle_div_iff; lra). assert (Q2 : q <= INR n) by (apply Rdiv_le_iff; [lra|]; nra). destruct Hn as [_ N2].
    destruct (fdiv_spec (f_of_usize n) nu Fn) as [Fq Vq]; [lra|rewrite Vn; fold q; rewrite Rabs_pos_eq by lra; apply Rlt_trans with (2 ^ 53); [lra|apply Rlt_pow; [lra|lia]]|]. rewrite Vn in Vq. fold q in Vq.
    assert (R1 : rel (val (fdiv (f_of_usize n) nu)) q (102 / 100)). { rewrite Vq. apply (rel_weaken _ _ (0 + 1 + / 50)); [lra|]. apply rel_rnd; [lra| |apply rel_0]. rewrite Rabs_pos_eq by lra. eapply Rle_trans; [|exact Q1]. rewrite <- Rinv_1. apply Rinv_le_contravar; [lra|apply pow_R1_Rle; lra]. }
    assert (R0 : 1 <= val (fdiv (f_of_usize n) nu)). { rewrite Vq. destruct f1_spec as [_ V1]. rewrite <- V1, <- (rnd_val f1). apply rnd_mono. rewrite V1. exact Q1. }
    destruct (rel_pos _ _ _ R1) as [_ B2]; [lra|lra|]. set (z := fdiv (f_of_usize n) nu) in *. destruct (Hln z Fq) as [Fl [P E]]; [lra|]. specialize (P R0).
    assert (L : Rabs (ln (val z) - ln q) <= 204 / 100 * uu). { destruct R1 as [k [Hk Ek]]. pose proof uu_num as UN. assert (K2 : Rabs k <= / 2) by (eapply Rle_trans; [exact Hk|rewrite UN; lra]). assert (Hk' := K2). apply Rabs_le_inv in Hk'. rewrite Ek, ln_mult by lra. replace (ln q + ln (1 + k) - ln q) with (ln (1 + k)) by ring. pose proof (ln_near k K2). lra. }
    assert (Lq : 0 <= ln q <= 2 ^ 53). { split; [rewrite <- ln_1; apply ln_le; lra|]. assert (ln q <= q - 1) by (apply ln_le_sub; lra). lra. }
    assert (Lz : 0 <= ln (val z)) by (rewrite <- ln_1; apply ln_le; lra). rewrite (Rabs_pos_eq (ln (val z))) in E by exact Lz. replace (/ 2 ^ 52) with (2 * uu) in E by (unfold uu; simpl; lra).
    assert (E0 : / 2 ^ 1075 = eta0) by (unfold eta0; change (-1075)%Z with (- Z.of_nat 1075)%Z; rewrite bpow_opp, two_pow; reflexivity). rewrite E0 in E.
    assert (EU : eta0 <= / 100 * uu). { destruct eta_uu as [T _]. eapply Rle_trans; [exact T|]. replace (/ 2 ^ 460 * (uu * uu)) with ((/ 2 ^ 460 * uu) * uu) by ring. apply Rmult_le_compat_r; [left; apply uu_pos|]. apply Rle_trans with (1 * uu); [apply Rmult_le_compat_r; [left; apply uu_pos|]|rewrite uu_num; lra]. rewrite <- Rinv_1. apply Rinv_le_contravar; [lra|apply pow_R1_Rle; lra]. }
    assert (UU : uu * uu <= / 1000 * uu) by (apply Rmult_le_compat_r; [left; apply uu_pos|rewrite uu_num; lra]). pose proof uu_pos as U0. apply Rabs_le_inv in L. apply Rabs_le_inv in E.
    assert (LZ : 2 * uu * ln (val z) <= 2 * uu * (ln q + 204 / 100 * uu)) by (apply Rmult_le_compat_l; lra). assert (UQ : 2 * uu * ln q <= 1 * ln q) by (apply Rmult_le_compat_r; [lra|rewrite uu_num; lra]). 
    split; [exact Fl|]. split; [split; [exact P|]|split; [apply Lq|]].
    - assert (1 <= 2 ^ 53) by (apply pow_R1_Rle; lra). replace (2 ^ 55) with (4 * 2 ^ 53) by (change 55%nat with (2 + 53)%nat; rewrite pow_add; lra). assert (uu <= / 1000) by (rewrite uu_num; lra). lra.
    - unfold near. apply Rabs_le. lra.
  Qed.

  Lemma scaled k (l : f64) L s : (k <= 8)%nat -> fin l -> 0 <= val l <= 2 ^ 55 -> 0 <= L -> 0 <= s -> near (val l) L 2 s ->
    fin (fmul (f_of_usize k) l) /\ 0 <= val (fmul (f_of_usize k) l) <= 2 ^ 100 /\ near (val (fmul (f_of_usize k) l)) (INR k * L) (302 / 100) (1001 / 1000 * (INR k * s) + eta0).
  Proof.
    intros Hk Fl Bl HL Hs N. destruct (small_count k Hk) as [Fk Vk]. assert (K0 : 0 <= INR k <= 8) by (split; [apply pos_INR|apply le_INR in Hk; simpl in Hk; lra]).
    assert (B : 0 <= INR k * val l <= 2 ^ 58). { split; [apply Rmult_le_pos; lra|]. replace (2 ^ 58) with (8 * 2 ^ 55) by (change 58%nat with (3 + 55)%nat; rewrite pow_add; simpl; lra). apply Rmult_le_compat; lra. }
    destruct (fmul_rnd (f_of_usize k) l Fk Fl) as [Fm Vm]. { rewrite Vk, Rabs_pos_eq by lra. apply (pow_1000 58); [lia|lra]. } rewrite Vk in Vm. split; [exact Fm|]. rewrite Vm. split.
    - split; [apply rnd_nonneg; lra|]. pose proof (rnd_near (INR k * val l)) as R1. rewrite Rabs_pos_eq with (x := INR k * val l) in R1 by lra. apply Rabs_le_inv in R1. destruct eta_uu as [_ T]. assert (/ 2 ^ 1000 <= 1) by (apply inv_1).
      assert (uu * (INR k * val l) <= 1 * (INR k * val l)) by (apply Rmult_le_compat_r; [lra|rewrite uu_num; lra]). apply Rle_trans with (4 * 2 ^ 58); [assert (1 <= 2 ^ 58) by (apply pow_R1_Rle; lra); lra|]. replace (4 * 2 ^ 58) with (2 ^ 60) by (change 60%nat with (2 + 58)%nat; rewrite pow_add; simpl (2 ^ 2); lra). apply Rle_pow; [lra|lia].
    - apply (near_weaken _ _ (2 + 1 + / 50) (1001 / 1000 * (INR k * s) + eta0)); [apply Rmult_le_pos; lra|lra|lra|]. apply near_rnd; [apply Rmult_le_pos; lra|lra|apply Rmult_le_pos; lra|]. apply near_scale; [lra|exact N].
  Qed.
End Logs.

Lemma usual_wide (tol : f64) : usual_tolerance tol -> fin tol /\ / 2 ^ 101 <= val tol <= 2 ^ 100 /\ 0 < val tol.
Proof.
  intros [Ft [L U]]. assert (P : 0 < / 2 ^ 100) by (apply Rinv_0_lt_compat, pow_lt; lra). split; [exact Ft|]. split; [|lra]. split; [|exact U]. eapply Rle_trans; [|exact L]. apply Rinv_le_contravar; [apply pow_lt; lra|apply Rle_pow; [lra|lia]].
Qed.
(** absolute errors of the size of the smallest positive number *)
Lemma tiny_abs (t c : R) : / 2 ^ 101 <= t -> 0 <= c <= 100 -> c * eta0 / t ^ 2 + eta0 <= / 2 ^ 100.
Proof.
  intros Ht Hc. assert (P : 0 < / 2 ^ 101) by (apply Rinv_0_lt_compat, pow_lt; lra). assert (T : / 2 ^ 202 <= t ^ 2) by (replace (/ 2 ^ 202) with ((/ 2 ^ 101) ^ 2) by (rewrite pow_inv, <- pow_mult; reflexivity); apply pow_incr; lra).
  destruct eta_uu as [_ E]. pose proof eta0_pos as E0. assert (P2 : 0 < / 2 ^ 202) by (apply Rinv_0_lt_compat, pow_lt; lra).
  assert (A : c * eta0 / t ^ 2 <= / 2 ^ 791). { apply Rdiv_le_iff; [lra|]. apply Rle_trans with (2 ^ 7 * / 2 ^ 1000); [apply Rmult_le_compat; simpl (2 ^ 7); lra|]. apply Rle_trans with (/ 2 ^ 791 * / 2 ^ 202); [|apply Rmult_le_compat_l; [left; apply Rinv_0_lt_compat, pow_lt; lra|exact T]].
    right. rewrite <- Rinv_mult, <- pow_add. change 1000%nat with (7 + (791 + 202))%nat. rewrite (pow_add _ 7), Rinv_mult, <- Rmult_assoc, Rinv_r, Rmult_1_l by (apply pow_nonzero; lra). reflexivity. }
  assert (B : / 2 ^ 791 <= / 2 ^ 101) by (apply Rinv_le_contravar; [apply pow_lt; lra|apply Rle_pow; [lra|lia]]). assert (C : / 2 ^ 1000 <= / 2 ^ 101) by (apply Rinv_le_contravar; [apply pow_lt; lra|apply Rle_pow; [lra|lia]]).
  replace (/ 2 ^ 100) with (2 * / 2 ^ 101); [lra|]. change 101%nat with (S 100). rewrite <- (tech_pow_Rmult 2 100). field.
Qed.
Lemma pow2_pos (t : R) : 0 < t -> 0 < t ^ 2. Proof. intros H. apply pow_lt, H. Qed.
Lemma unit_50 : 8 * uu = / 2 ^ 50 /\ 32 * uu = / 2 ^ 48. Proof. unfold uu. split; simpl; lra. Qed.

(** ** Limits that depend on the number of examples and the tolerance *)

Lemma P_C103_adaboost :
  forall fln umax (tol : f64) (n : nat), precise_ln fln -> usual_tolerance tol -> some_examples n ->
  let X := ln (INR n) / val tol ^ 2 in
  rounded_down umax (f_ada_rounds fln umax tol n) X (/ 2 ^ 50 * X + / 2 ^ 100).
Proof.
  intros fln umax tol n Hl Ht Hn X. destruct (usual_wide tol Ht) as [Ft [Wt Pt]]. destruct (ln_count fln Hl n Hn) as [Fl [Bl Nl]]. destruct (ln_upto n Hn) as [[L0 _] _]. pose proof eta0_pos as E0. pose proof (pow2_pos _ Pt) as P2.
  destruct (quotient (fln (f_of_usize n)) tol (ln (INR n)) 2 eta0 Fl) as [Fq [Q0 Nq]]; [split; [lra|eapply Rle_trans; [apply Bl|apply Rle_pow; [lra|lia]]]|exact Ft|exact Wt|exact L0|lra|lra|exact Nl|].
  assert (X0 : 0 <= X) by (apply div_nonneg; assumption). apply down_near; [exact Fq|exact Q0|]. destruct unit_50 as [<- _]. fold X in Nq.
  assert (NW : near (val (fdiv (fln (f_of_usize n)) (f_square tol))) X 8 (/ 2 ^ 100)); [|exact NW].
  apply (near_weaken _ _ (2 + 21 / 10) (1003 / 1000 * (eta0 / val tol ^ 2) + eta0)); [exact X0|lra| |exact Nq]. pose proof (tiny_abs (val tol) (1003 / 1000) (proj1 Wt)). lra.
Qed.

Lemma P_C103_adaboostv :
  forall fln umax (tol : f64) (n : nat), precise_ln fln -> usual_tolerance tol -> some_examples n ->
  let X := 2 * ln (INR n) / val tol ^ 2 in
  rounded_down umax (f_adav_rounds fln umax tol n) X (/ 2 ^ 50 * X + / 2 ^ 100).
Proof.
  intros fln umax tol n Hl Ht Hn X. destruct (usual_wide tol Ht) as [Ft [Wt Pt]]. destruct (ln_count fln Hl n Hn) as [Fl [Bl Nl]]. destruct (ln_upto n Hn) as [[L0 _] _]. pose proof eta0_pos as E0. pose proof (pow2_pos _ Pt) as P2.
  destruct (scaled 2 (fln (f_of_usize n)) (ln (INR n)) eta0) as [Fm [Bm Nm]]; [lia|exact Fl|exact Bl|exact L0|lra|exact Nl|]. change (INR 2) with 2 in Nm. set (num := fmul (f_of_usize 2) (fln (f_of_usize n))) in *.
  destruct (quotient num tol (2 * ln (INR n)) (302 / 100) (1001 / 1000 * (2 * eta0) + eta0) Fm Bm Ft Wt) as [Fq [Q0 Nq]]; [lra|lra|lra|exact Nm|].
  assert (X0 : 0 <= X) by (apply div_nonneg; lra). apply down_near; [exact Fq|exact Q0|]. destruct unit_50 as [<- _]. fold X in Nq.
  assert (NW : near (val (fdiv num (f_square tol))) X 8 (/ 2 ^ 100)); [|exact NW].
  eapply near_weaken; [exact X0| | |exact Nq]; [lra|]. pose proof (tiny_abs (val tol) (1003 / 1000 * (3002 / 1000)) (proj1 Wt)) as TA. replace (1003 / 1000 * ((1001 / 1000 * (2 * eta0) + eta0) / val tol ^ 2)) with (1003 / 1000 * (3002 / 1000) * eta0 / val tol ^ 2) by (field; lra). apply TA. lra.
Qed.

Lemma P_C103_madaboost :
  forall umax (tol : f64) (n : nat), usual_tolerance tol -> some_examples n ->
  let X := (INR n - 1) / val tol ^ 2 in
  rounded_up umax (f_mada_rounds umax tol n) X (/ 2 ^ 50 * X + / 2 ^ 100).
Proof.
  intros umax tol n Ht Hn X. destruct (usual_wide tol Ht) as [Ft [Wt Pt]]. destruct (ln_upto n Hn) as [_ N1]. pose proof eta0_pos as E0. pose proof (pow2_pos _ Pt) as P2. destruct (of_usize_spec n (proj2 Hn)) as [Fn Vn]. destruct f1_spec as [F1 V1]. destruct Hn as [_ N2].
  destruct (fsub_rnd (f_of_usize n) f1 Fn F1) as [Fs [Vs _]]. { rewrite Vn, V1, Rabs_pos_eq by lra. apply (pow_1000 53); [lia|lra]. } rewrite Vn, V1 in Vs. set (num := fsub (f_of_usize n) f1) in *.
  assert (Nm : near (val num) (INR n - 1) (102 / 100) eta0). { rewrite Vs. eapply near_weaken; [| | |apply (near_rnd _ (INR n - 1) 0 0)]; try lra. unfold near. rewrite Rminus_eq_0, Rabs_R0. lra. }
  assert (Bm : 0 <= val num <= 2 ^ 100). { rewrite Vs. split; [apply rnd_nonneg; lra|]. pose proof (rnd_near (INR n - 1)) as R1. rewrite Rabs_pos_eq with (x := INR n - 1) in R1 by lra. apply Rabs_le_inv in R1. destruct eta_uu as [_ T]. pose proof (inv_1 1000). assert (uu * (INR n - 1) <= 1 * (INR n - 1)) by (apply Rmult_le_compat_r; [lra|rewrite uu_num; lra]).
    apply Rle_trans with (4 * 2 ^ 53); [assert (1 <= 2 ^ 53) by (apply pow_R1_Rle; lra); lra|]. replace (4 * 2 ^ 53) with (2 ^ 55) by (change 55%nat with (2 + 53)%nat; rewrite pow_add; simpl (2 ^ 2); lra). apply Rle_pow; [lra|lia]. }
  destruct (quotient num tol (INR n - 1) (102 / 100) eta0 Fs Bm Ft Wt) as [Fq [Q0 Nq]]; [lra|lra|lra|exact Nm|].
  assert (X0 : 0 <= X) by (apply div_nonneg; lra). apply up_near; [exact Fq|exact Q0|]. destruct unit_50 as [<- _]. fold X in Nq.
  assert (NW : near (val (fdiv num (f_square tol))) X 8 (/ 2 ^ 100)); [|exact NW].
  eapply near_weaken; [exact X0| | |exact Nq]; [lra|]. pose proof (tiny_abs (val tol) (1003 / 1000) (proj1 Wt)). lra.
Qed.

(** ** Limits that also depend on the capping parameter *)

Lemma capped (k : nat) fln (tol nu : f64) (n : nat) : (1 <= k <= 8)%nat -> precise_ln fln -> fin tol -> / 2 ^ 101 <= val tol <= 2 ^ 100 -> some_examples n -> capping nu n ->
  let q := fdiv (fmul (f_of_usize k) (fln (fdiv (f_of_usize n) nu))) (f_square tol) in
  let X := INR k * ln (INR n / val nu) / val tol ^ 2 in
  fin q /\ 0 <= val q /\ 0 <= X /\ Rabs (val q - X) <= / 2 ^ 50 * X + / 2 ^ 48 / val tol ^ 2.
Proof.
  intros Hk Hl Ft Wt Hn Hu q X. assert (P : 0 < / 2 ^ 101) by (apply Rinv_0_lt_compat, pow_lt; lra). assert (Pt : 0 < val tol) by lra. pose proof (pow2_pos _ Pt) as P2. destruct (ln_ratio fln Hl nu n Hn Hu) as [Fl [Bl [L0 Nl]]]. pose proof eta0_pos as E0. pose proof uu_pos as U0.
  assert (K0 : 1 <= INR k <= 8) by (split; [apply (le_INR 1 k), Hk|destruct Hk as [_ Hk]; apply le_INR in Hk; simpl in Hk; lra]). assert (KL : 0 <= INR k * ln (INR n / val nu)) by (apply Rmult_le_pos; lra).
  destruct (scaled k (fln (fdiv (f_of_usize n) nu)) (ln (INR n / val nu)) (21 / 10 * uu)) as [Fm [Bm Nm]]; [lia|exact Fl|exact Bl|exact L0|lra|exact Nl|]. set (num := fmul (f_of_usize k) (fln (fdiv (f_of_usize n) nu))) in *.
  assert (S0 : 0 <= INR k * (21 / 10 * uu) <= 168 / 10 * uu) by (split; [apply Rmult_le_pos; lra|]; replace (168 / 10 * uu) with (8 * (21 / 10 * uu)) by field; apply Rmult_le_compat_r; lra).
  destruct (quotient num tol (INR k * ln (INR n / val nu)) (302 / 100) (1001 / 1000 * (INR k * (21 / 10 * uu)) + eta0) Fm Bm Ft Wt) as [Fq [Q0 Nq]]; [exact KL|lra|lra|exact Nm|]. fold X in Nq. fold q in Fq, Q0, Nq.
  assert (X0 : 0 <= X) by (apply div_nonneg; lra). split; [exact Fq|]. split; [exact Q0|]. split; [exact X0|]. destruct unit_50 as [<- <-].
  assert (NW : near (val q) X 8 (32 * uu / val tol ^ 2)); [|exact NW]. eapply near_weaken; [exact X0| | |exact Nq]; [lra|].
  assert (EU : eta0 <= / 100 * uu). { destruct eta_uu as [T _]. eapply Rle_trans; [exact T|]. replace (/ 2 ^ 460 * (uu * uu)) with ((/ 2 ^ 460 * uu) * uu) by ring. apply Rmult_le_compat_r; [lra|]. apply Rle_trans with (1 * uu); [apply Rmult_le_compat_r; [lra|apply inv_1]|rewrite uu_num; lra]. }
  assert (EW : eta0 <= uu / val tol ^ 2). { apply Rle_div_iff; [lra|]. destruct eta_uu as [T _]. assert (T2 : val tol ^ 2 <= 2 ^ 200) by (replace (2 ^ 200) with ((2 ^ 100) ^ 2) by (rewrite <- pow_mult; reflexivity); apply pow_incr; lra).
    apply Rle_trans with (/ 2 ^ 460 * (uu * uu) * 2 ^ 200); [apply Rmult_le_compat; lra|]. replace (/ 2 ^ 460 * (uu * uu) * 2 ^ 200) with (/ 2 ^ 260 * uu * uu). - apply Rle_trans with (1 * uu); [|lra]. apply Rmult_le_compat_r; [lra|]. apply Rle_trans with (1 * 1); [apply Rmult_le_compat; [left; apply Rinv_0_lt_compat, pow_lt; lra|lra|apply inv_1|rewrite uu_num; lra]|lra].
    - change 460%nat with (260 + 200)%nat. rewrite pow_add. field. }
  assert (I : 0 < / val tol ^ 2) by (apply Rinv_0_lt_compat; lra). unfold Rdiv in EW |- *. set (iv := / val tol ^ 2) in *. clearbody iv.
  apply Rle_trans with (1003 / 1000 * ((1001 / 1000 * (168 / 10 * uu) + / 100 * uu) * iv) + uu * iv); [|assert (0 <= uu * iv) by (apply Rmult_le_pos; lra); lra]. apply Rplus_le_compat; [|exact EW]. apply Rmult_le_compat_l; [lra|]. apply Rmult_le_compat_r; lra.
Qed.

Lemma P_C103_softboost :
  forall fln umax (tol nu : f64) (n : nat), precise_ln fln -> usual_tolerance tol -> some_examples n -> capping nu n ->
  let X := 2 * ln (INR n / val nu) / val tol ^ 2 in
  rounded_up umax (f_soft_rounds fln umax tol nu n) X (/ 2 ^ 50 * X + / 2 ^ 48 / val tol ^ 2).
Proof.
  intros fln umax tol nu n Hl Ht Hn Hu X. destruct (usual_wide tol Ht) as [Ft [Wt Pt]]. destruct (capped 2 fln tol nu n ltac:(lia) Hl Ft Wt Hn Hu) as [Fq [Q0 [_ E]]]. apply up_near; assumption.
Qed.

Lemma INR8 : INR 8 = 8. Proof. simpl. lra. Qed.
Lemma INR4 : INR 4 = 4. Proof. simpl. lra. Qed.

Lemma P_C103_cerlpboost_mlpboost :
  forall fln umax (tol nu : f64) (n : nat), precise_ln fln -> usual_tolerance tol -> some_examples n -> capping nu n ->
  let X := 8 * ln (INR n / val nu) / (val tol / 2) ^ 2 in
  rounded_up umax (f_cerlp_rounds fln umax tol nu n) X (/ 2 ^ 50 * X + / 2 ^ 48 / (val tol / 2) ^ 2).
Proof.
  intros fln umax tol nu n Hl Ht Hn Hu X. destruct (half_tol_spec tol Ht) as [Fh [Vh Wh]]. destruct (capped 8 fln (f_half_tol tol) nu n ltac:(lia) Hl Fh Wh Hn Hu) as [Fq [Q0 [_ E]]]. rewrite Vh, INR8 in E. apply up_near; assumption.
Qed.

Lemma fmax_spec (a b : f64) : fin a -> fin b -> fin (f_max a b) /\ val (f_max a b) = Rmax (val a) (val b).
Proof.
  intros Fa Fb. unfold f_max. assert (Na : is_nan a = false) by (destruct a; try discriminate; reflexivity). assert (Nb : is_nan b = false) by (destruct b; try discriminate; reflexivity). rewrite Na, Nb.
  destruct (flt a b) eqn:E.
  - apply (flt_true a b Fa Fb) in E. rewrite Rmax_right by lra. split; [exact Fb|reflexivity].
  - assert (~ val a < val b) by (intros X; apply (flt_true a b Fa Fb) in X; congruence). rewrite Rmax_left by lra. split; [exact Fa|reflexivity].
Qed.
Lemma max_near a A b B e : Rabs (a - A) <= e -> Rabs (b - B) <= e -> Rabs (Rmax a b - Rmax A B) <= e.
Proof. intros H K. apply Rabs_le_inv in H. apply Rabs_le_inv in K. apply Rabs_le. unfold Rmax. destruct (Rle_dec a b), (Rle_dec A B); lra. Qed.

Lemma P_C103_erlpboost :
  forall fln umax (tol nu : f64) (n : nat), precise_ln fln -> usual_tolerance tol -> some_examples n -> capping nu n ->
  let X := Rmax (4 / (val tol / 2)) (8 * ln (INR n / val nu) / (val tol / 2) ^ 2) in
  rounded_up umax (f_erlp_rounds fln umax tol nu n) X (/ 2 ^ 50 * X + / 2 ^ 48 / (val tol / 2) ^ 2).
Proof.
  intros fln umax tol nu n Hl Ht Hn Hu X. destruct (half_tol_spec tol Ht) as [Fh [Vh Wh]]. destruct (capped 8 fln (f_half_tol tol) nu n ltac:(lia) Hl Fh Wh Hn Hu) as [Fq [Q0 [Y0 E]]]. rewrite Vh, INR8 in E, Y0. rewrite Vh in Wh.
  set (h := val tol / 2) in *. assert (P : 0 < / 2 ^ 101) by (apply Rinv_0_lt_compat, pow_lt; lra). assert (Ph : 0 < h) by lra. pose proof (pow2_pos h Ph) as P2. pose proof uu_pos as U0. destruct (small_count 4) as [F4 V4]; [lia|]. rewrite INR4 in V4. set (ht := f_half_tol tol) in *.
  assert (Z0 : 0 <= 4 / h) by (apply div_nonneg; lra). assert (Z1 : 4 / h <= 2 ^ 103). { apply Rdiv_le_iff; [lra|]. apply Rle_trans with (2 ^ 103 * / 2 ^ 101); [right|apply Rmult_le_compat_l; [apply pow_le; lra|lra]]. change 103%nat with (2 + 101)%nat. rewrite pow_add, Rmult_assoc, Rinv_r by (apply pow_nonzero; lra). simpl. lra. }
  destruct (fdiv_spec (f_of_usize 4) ht F4) as [Fz Vz]; [lra|rewrite V4, Vh, Rabs_pos_eq by lra; eapply Rle_lt_trans; [exact Z1|apply Rlt_pow; [lra|lia]]|]. rewrite V4, Vh in Vz.
  assert (Ez : Rabs (val (fdiv (f_of_usize 4) ht) - 4 / h) <= / 2 ^ 50 * (4 / h) + / 2 ^ 48 / h ^ 2).
  { rewrite Vz. pose proof (rnd_near (4 / h)) as R1. rewrite (Rabs_pos_eq (4 / h)) in R1 by lra. eapply Rle_trans; [exact R1|]. destruct unit_50 as [<- <-]. assert (0 <= uu * (4 / h)) by (apply Rmult_le_pos; lra).
    assert (eta0 <= 32 * uu / h ^ 2); [|lra]. apply Rle_div_iff; [lra|]. destruct eta_uu as [_ T]. assert (T2 : h ^ 2 <= 2 ^ 200) by (replace (2 ^ 200) with ((2 ^ 100) ^ 2) by (rewrite <- pow_mult; reflexivity); apply pow_incr; lra). pose proof eta0_pos.
    apply Rle_trans with (/ 2 ^ 1000 * 2 ^ 200); [apply Rmult_le_compat; lra|]. replace (/ 2 ^ 1000 * 2 ^ 200) with (/ 2 ^ 800); [|change 1000%nat with (800 + 200)%nat; rewrite pow_add; field]. apply Rle_trans with uu; [|lra]. unfold uu. apply Rinv_le_contravar; [apply pow_lt; lra|apply Rle_pow; [lra|lia]]. }
  destruct (fmax_spec _ _ Fz Fq) as [Fm Vm]. unfold f_erlp_rounds. fold ht. apply up_near; [exact Fm|rewrite Vm; eapply Rle_trans; [exact Q0|apply Rmax_r]|]. rewrite Vm. unfold X. set (B := 8 * ln (INR n / val nu) / h ^ 2) in *. assert (P50 : 0 < / 2 ^ 50) by (apply Rinv_0_lt_compat, pow_lt; lra).
  apply max_near; [eapply Rle_trans; [exact Ez|]|eapply Rle_trans; [exact E|]]; apply Rplus_le_compat_r, Rmult_le_compat_l; [lra|apply Rmax_l|lra|apply Rmax_r].
Qed.

Lemma rel_mult a A c b B d : 0 <= c <= 100 -> 0 <= d <= 100 -> rel a A c -> rel b B d -> rel (a * b) (A * B) (c + d + / 100).
Proof.
  intros Hc Hd [k [Hk ->]] [j [Hj ->]]. exists (k + j + k * j). split; [|ring]. pose proof uu_num as UN. pose proof uu_pos as U0. eapply Rle_trans; [apply Rabs_triang|]. replace ((c + d + / 100) * uu) with (c * uu + d * uu + / 100 * uu) by ring. apply Rplus_le_compat; [eapply Rle_trans; [apply Rabs_triang|lra]|].
  rewrite Rabs_mult. apply Rle_trans with (c * uu * (d * uu)); [apply Rmult_le_compat; try apply Rabs_pos; assumption|]. replace (c * uu * (d * uu)) with (c * d * uu * uu) by ring. apply Rmult_le_compat_r; [lra|]. assert (c * d <= 100 * 100) by (apply Rmult_le_compat; lra). apply Rle_trans with (100 * 100 * uu); [apply Rmult_le_compat_r; lra|rewrite UN; lra].
Qed.
Lemma below_500 (k : nat) a : (k <= 500)%nat -> / 2 ^ k <= a -> / 2 ^ 500 <= Rabs a.
Proof. intros K H. assert (0 < / 2 ^ k) by (apply Rinv_0_lt_compat, pow_lt; lra). rewrite Rabs_pos_eq by lra. eapply Rle_trans; [|exact H]. apply Rinv_le_contravar; [apply pow_lt; lra|apply Rle_pow; [lra|exact K]]. Qed.

(** ** SmoothBoost *)

Lemma P_C103_smoothboost :
  forall umax (kappa gamma : f64), accepted kappa gamma -> / 2 ^ 100 <= val kappa -> / 2 ^ 100 <= val gamma ->
  let X := 2 / (val kappa * val gamma ^ 2 * sqrt (1 - val gamma)) in
  rounded_up umax (f_sb_rounds umax kappa gamma) X (/ 2 ^ 50 * X).
Proof.
  intros umax kappa gamma Acc HK HG X. destruct (params kappa gamma Acc) as [FG [BG [FK BK]]]. destruct f1_spec as [F1 V1]. pose proof uu_num as UN. pose proof uu_pos as U0. assert (P1 : 0 < / 2 ^ 100) by (apply Rinv_0_lt_compat, pow_lt; lra).
  assert (WG : / 2 ^ 101 <= val gamma <= 2 ^ 100). { split; [eapply Rle_trans; [|exact HG]; apply Rinv_le_contravar; [apply pow_lt; lra|apply Rle_pow; [lra|lia]]|]. assert (1 <= 2 ^ 100) by (apply pow_R1_Rle; lra). lra. }
  destruct (square_spec gamma FG WG) as [Fs [Rs [L2 _]]]. set (g := val gamma) in *. set (k := val kappa) in *. set (sq := f_square gamma) in *.
  assert (G2 : / 2 ^ 200 <= g ^ 2 <= 1). { split; [replace (/ 2 ^ 200) with ((/ 2 ^ 100) ^ 2) by (rewrite pow_inv, <- pow_mult; reflexivity); apply pow_incr; lra|]. rewrite <- (pow1 2). apply pow_incr. lra. }
  assert (KG : / 2 ^ 300 <= k * g ^ 2 <= 1). { split; [|rewrite <- (Rmult_1_l 1); apply Rmult_le_compat; lra]. replace (/ 2 ^ 300) with (/ 2 ^ 100 * / 2 ^ 200) by (rewrite <- Rinv_mult, <- pow_add; reflexivity). assert (0 < / 2 ^ 200) by (apply Rinv_0_lt_compat, pow_lt; lra). apply Rmult_le_compat; lra. }
  assert (P300 : 0 < / 2 ^ 300) by (apply Rinv_0_lt_compat, pow_lt; lra). assert (P200 : 0 < / 2 ^ 200) by (apply Rinv_0_lt_compat, pow_lt; lra). destruct (rel_pos _ _ _ Rs) as [S1 S2]; [lra|lra|].
  destruct (fmul_rnd kappa sq FK Fs) as [Fp Vp]. { fold k. rewrite Rabs_pos_eq by (apply Rmult_le_pos; lra). apply (pow_1000 1); [lia|]. simpl. assert (k * val sq <= 1 * val sq) by (apply Rmult_le_compat_r; lra). lra. } fold k in Vp. set (p := fmul kappa sq) in *.
  assert (Rp : rel (val p) (k * g ^ 2) (205 / 100)). { rewrite Vp. apply (rel_weaken _ _ (102 / 100 + 1 + / 50)); [lra|]. apply rel_rnd; [lra|apply (below_500 300); [lia|apply KG]|apply rel_scale, Rs]. }
  destruct (rel_pos _ _ _ Rp) as [Q1 Q2]; [lra|lra|].
  destruct (fsub_rnd f1 gamma F1 FG) as [Ft [_ [d [Hd Ed]]]]; [rewrite V1; fold g; rewrite Rabs_pos_eq by lra; apply (pow_1000 1); [lia|simpl; lra]|]. rewrite V1 in Ed. fold g in Ed. set (t := fsub f1 gamma) in *.
  assert (Rt : rel (val t) (1 - g) (101 / 100)) by (rewrite Ed; apply (rel_weaken _ _ (0 + 1 + / 100)); [lra|apply rel_comp; [lra|exact Hd|apply rel_0]]). destruct (rel_pos _ _ _ Rt) as [T1 T2]; [lra|lra|].
  destruct (fsqrt_spec t Ft) as [Fr Vr]; [lra|]. set (sg := sqrt (1 - g)) in *. assert (SG : 7 / 10 <= sg <= 1). { unfold sg. split; [|rewrite <- sqrt_1 at 2; apply sqrt_le_1_alt; lra]. replace (7 / 10) with (sqrt ((7 / 10) * (7 / 10))) by (apply sqrt_square; lra). apply sqrt_le_1_alt. lra. }
  assert (Rr : rel (val (fsqrt t)) sg (204 / 100)). { rewrite Vr. apply (rel_weaken _ _ (101 / 100 + 1 + / 50)); [lra|]. apply rel_rnd; [lra|apply (below_500 1); [lia|simpl; lra]|]. apply rel_sqrt; [lra|lra|exact Rt]. }
  destruct (rel_pos _ _ _ Rr) as [W1 W2]; [lra|lra|]. set (r := fsqrt t) in *.
  destruct (fmul_rnd p r Fp Fr) as [Fm Vm]. { rewrite Rabs_pos_eq by (apply Rmult_le_pos; lra). apply (pow_1000 2); [lia|]. simpl. assert (val p * val r <= 2 * 2) by (apply Rmult_le_compat; lra). lra. } set (dn := fmul p r) in *. set (D := k * g ^ 2 * sg) in *.
  assert (DB : / 2 ^ 301 <= D <= 1). { unfold D. split; [|rewrite <- (Rmult_1_l 1); apply Rmult_le_compat; lra]. apply Rle_trans with (/ 2 ^ 300 * / 2); [right; rewrite <- Rinv_mult; f_equal; change 301%nat with (300 + 1)%nat; rewrite pow_add, pow_1; reflexivity|apply Rmult_le_compat; lra]. }
  assert (P301 : 0 < / 2 ^ 301) by (apply Rinv_0_lt_compat, pow_lt; lra).
  assert (Rm : rel (val dn) D (514 / 100)). { rewrite Vm. apply (rel_weaken _ _ (205 / 100 + 204 / 100 + / 100 + 1 + / 50)); [lra|]. apply rel_rnd; [lra|apply (below_500 301); [lia|apply DB]|apply rel_mult; try lra; assumption]. }
  destruct (rel_pos _ _ _ Rm) as [M1 M2]; [lra|lra|]. destruct (small_count 2) as [F2 V2]; [lia|]. change (INR 2) with 2 in V2.
  destruct (fdiv_spec (f_of_usize 2) dn F2) as [Fq Vq]; [lra| |]. { rewrite V2. assert (0 <= 2 / val dn) by (apply div_nonneg; lra). rewrite Rabs_pos_eq by assumption. apply Rle_lt_trans with (2 ^ 303); [|apply Rlt_pow; [lra|lia]]. apply Rdiv_le_iff; [lra|]. apply Rle_trans with (2 ^ 303 * (/ 2 ^ 301 / 2)); [right|apply Rmult_le_compat_l; [apply pow_le; lra|lra]]. change 303%nat with (2 + 301)%nat. rewrite pow_add. set (pw := 2 ^ 301). assert (pw <> 0) by (apply pow_nonzero; lra). simpl. field. assumption. }
  rewrite V2 in Vq. assert (EX : X = 2 / D) by reflexivity. clearbody X. assert (XB : 2 <= X) by (rewrite EX; apply Rle_div_iff; lra).
  assert (Rq : rel (2 / val dn) X (516 / 100)). { rewrite EX. apply (rel_weaken _ _ (0 + 514 / 100 + / 100)); [lra|]. apply rel_div; [lra|lra|lra|apply rel_0|exact Rm]. }
  unfold f_sb_rounds. fold sq t. fold r p. fold dn. apply up_near; [exact Fq|rewrite Vq; apply rnd_nonneg, div_nonneg; lra|]. rewrite Vq.
  assert (NR : near (rnd (2 / val dn)) X (516 / 100 + 1 + / 50) (1001 / 1000 * 0 + eta0)). { apply near_rnd; [lra|lra|lra|]. unfold near. destruct Rq as [j [Hj ->]]. replace (X * (1 + j) - X) with (j * X) by ring. rewrite Rabs_mult, (Rabs_pos_eq X) by lra. apply Rle_trans with (516 / 100 * uu * X); [apply Rmult_le_compat_r; lra|lra]. }
  unfold near in NR. eapply Rle_trans; [exact NR|]. destruct unit_50 as [<- _]. assert (EU : eta0 <= uu * X). { destruct eta_uu as [T _]. eapply Rle_trans; [exact T|]. apply Rle_trans with (1 * (uu * 1)); [apply Rmult_le_compat; [left; apply Rinv_0_lt_compat, pow_lt; lra|apply Rmult_le_pos; lra|apply inv_1|apply Rmult_le_compat_l; [lra|rewrite UN; lra]]|]. rewrite Rmult_1_l. apply Rmult_le_compat_l; lra. }
  assert (0 <= uu * X) by (apply Rmult_le_pos; lra). lra.
Qed.

(** ** The tolerance of a booster that is not given one *)

Lemma default_tol_spec (n : nat) : (1 <= n)%nat -> INR n + 1 < 2 ^ 53 -> fin (f_default_tol n) /\ rel (val (f_default_tol n)) (1 / (INR n + 1)) (102 / 100) /\ usual_tolerance (f_default_tol n).
Proof.
  intros Hn HB. assert (N1 : 1 <= INR n) by (apply (le_INR 1 n) in Hn; simpl in Hn; lra). destruct (of_usize_spec n) as [Fn Vn]; [lra|]. destruct f1_spec as [F1 V1]. destruct (fadd_rnd (f_of_usize n) f1 Fn F1) as [Fa [Va _]]; [rewrite Vn, V1, Rabs_pos_eq by lra; apply (pow_1000 53); [lia|lra]|]. rewrite Vn, V1 in Va.
  assert (E : rnd (INR n + 1) = INR n + 1). { destruct (of_usize_spec (S n)) as [FS VS]; [rewrite S_INR; exact HB|]. rewrite <- S_INR, <- VS. apply rnd_val. } rewrite E in Va. unfold f_default_tol. set (a := fadd (f_of_usize n) f1) in *.
  assert (Q : / 2 ^ 53 <= 1 / (INR n + 1) <= 1). { split; [apply Rle_div_iff; [lra|]; apply Rle_trans with (/ 2 ^ 53 * 2 ^ 53); [apply Rmult_le_compat_l; [left; apply Rinv_0_lt_compat, pow_lt; lra|lra]|rewrite Rinv_l by (apply pow_nonzero; lra); lra]|apply Rdiv_le_iff; lra]. }
  assert (P53 : 0 < / 2 ^ 53) by (apply Rinv_0_lt_compat, pow_lt; lra).
  destruct (fdiv_spec f1 a F1) as [Fd Vd]; [lra|rewrite V1, Va, Rabs_pos_eq by lra; apply Rle_lt_trans with (2 ^ 0); [simpl; lra|apply Rlt_pow; [lra|lia]]|]. rewrite V1, Va in Vd. split; [exact Fd|].
  assert (R1 : rel (val (fdiv f1 a)) (1 / (INR n + 1)) (102 / 100)) by (rewrite Vd; apply (rel_weaken _ _ (0 + 1 + / 50)); [lra|apply rel_rnd; [lra|apply (below_500 53); [lia|apply Q]|apply rel_0]]). split; [exact R1|]. split; [exact Fd|]. destruct (rel_pos _ _ _ R1) as [B1 B2]; [lra|lra|].
  split; [|apply Rle_trans with (2 ^ 1); [rewrite pow_1; lra|apply Rle_pow; [lra|lia]]]. apply Rle_trans with (/ 2 ^ 53 / 2); [|lra]. apply Rle_trans with (/ 2 ^ 54); [apply Rinv_le_contravar; [apply pow_lt; lra|apply Rle_pow; [lra|lia]]|simpl; lra].
Qed.
Lemma default_formula A t x : 0 <= A -> 0 < x -> rel t (1 / x) (102 / 100) -> Rabs (A / t ^ 2 - A * x ^ 2) <= 3 * uu * (A * x ^ 2).
Proof.
  intros HA Hx [k [Hk ->]]. pose proof uu_num as UN. assert (Hk' : Rabs k <= / 1000000) by (eapply Rle_trans; [exact Hk|rewrite UN; lra]). apply Rabs_le_inv in Hk'. pose proof uu_pos as U0.
  replace (A / (1 / x * (1 + k)) ^ 2 - A * x ^ 2) with (- ((2 + k) * k / (1 + k) ^ 2) * (A * x ^ 2)) by (field; split; lra). assert (AX : 0 <= A * x ^ 2) by (apply Rmult_le_pos; [exact HA|apply pow_le; lra]). rewrite Rabs_mult, Rabs_Ropp, (Rabs_pos_eq (A * x ^ 2)) by exact AX. apply Rmult_le_compat_r; [exact AX|].
  assert (S : 99 / 100 <= (1 + k) ^ 2) by (simpl; nra). unfold Rdiv. rewrite !Rabs_mult, Rabs_inv, (Rabs_pos_eq (2 + k)), (Rabs_pos_eq ((1 + k) ^ 2)) by lra. change ((2 + k) * Rabs k * / (1 + k) ^ 2) with ((2 + k) * Rabs k / (1 + k) ^ 2). apply Rdiv_le_iff; [lra|]. apply Rle_trans with (21 / 10 * (102 / 100 * uu)); [apply Rmult_le_compat; try apply Rabs_pos; lra|]. nra.
Qed.
Lemma down_move umax m X Y e d : Rabs (X - Y) <= d -> rounded_down umax m X e -> rounded_down umax m Y (e + d).
Proof. intros H [A B]. pose proof (min_near _ _ (INR umax) _ H). unfold rounded_down. lra. Qed.
Lemma up_move umax m X Y e d : Rabs (X - Y) <= d -> rounded_up umax m X e -> rounded_up umax m Y (e + d).
Proof. intros H [A B]. pose proof (min_near _ _ (INR umax) _ H). unfold rounded_up. lra. Qed.
Lemma down_weaken umax m X e e' : e <= e' -> rounded_down umax m X e -> rounded_down umax m X e'.
Proof. unfold rounded_down. lra. Qed.
Lemma up_weaken umax m X e e' : e <= e' -> rounded_up umax m X e -> rounded_up umax m X e'.
Proof. unfold rounded_up. lra. Qed.
Lemma default_err Y X : 0 <= Y -> Rabs (X - Y) <= 3 * uu * Y -> / 2 ^ 50 * X + / 2 ^ 100 + 3 * uu * Y <= / 2 ^ 49 * Y + / 2 ^ 100.
Proof.
  intros HY H. apply Rabs_le_inv in H. destruct unit_50 as [<- _]. replace (/ 2 ^ 49) with (16 * uu) by (unfold uu; simpl; lra). pose proof uu_num as UN. pose proof uu_pos as U0. assert (UY : 0 <= uu * Y) by (apply Rmult_le_pos; lra).
  assert (8 * uu * X <= 8 * uu * (Y + 3 * uu * Y)) by (apply Rmult_le_compat_l; lra). assert (uu * (uu * Y) <= / 1000 * (uu * Y)) by (apply Rmult_le_compat_r; [exact UY|rewrite UN; lra]). lra.
Qed.

Lemma P_C103_default_tolerance :
  forall fln umax (n : nat), precise_ln fln -> (1 <= n)%nat -> INR n + 1 < 2 ^ 53 ->
  let X := ln (INR n) * (INR n + 1) ^ 2 in
  let Y := (INR n - 1) * (INR n + 1) ^ 2 in
  rounded_down umax (f_ada_rounds fln umax (f_default_tol n) n) X (/ 2 ^ 49 * X + / 2 ^ 100) /\
  rounded_up umax (f_mada_rounds umax (f_default_tol n) n) Y (/ 2 ^ 49 * Y + / 2 ^ 100).
Proof.
  intros fln umax n Hl Hn HB X Y. destruct (default_tol_spec n Hn HB) as [Ft [Rt Ut]]. assert (Sn : some_examples n) by (split; [exact Hn|lra]). destruct (ln_upto n Sn) as [[L0 _] N1]. assert (P2 : 0 < (INR n + 1) ^ 2) by (apply pow_lt; lra).
  split.
  - pose proof (default_formula (ln (INR n)) _ (INR n + 1) L0 ltac:(lra) Rt) as D. fold X in D. eapply down_weaken; [|eapply down_move; [exact D|apply (P_C103_adaboost fln umax _ n Hl Ut Sn)]]. apply default_err; [apply Rmult_le_pos; lra|exact D].
  - pose proof (default_formula (INR n - 1) _ (INR n + 1) ltac:(lra) ltac:(lra) Rt) as D. fold Y in D. eapply up_weaken; [|eapply up_move; [exact D|apply (P_C103_madaboost umax _ n Ut Sn)]]. apply default_err; [apply Rmult_le_pos; lra|exact D].
Qed.

(** ** Tolerances that vanish, and tolerances that are no numbers *)

Lemma tiny_zero (x : f64) : fin x -> Rabs (val x) < bpow radix2 (-1074) -> exists s, x = B754_zero s.
Proof.
  intros Fx H. destruct x as [s|s| |s m e B]; try discriminate; [exists s; reflexivity|]. exfalso. pose proof (abs_B2R_ge_emin 53 1024 (B754_finite s m e B) eq_refl) as G. change (SpecFloat.emin 53 1024) with (-1074)%Z in G. apply (Rlt_irrefl (bpow radix2 (-1074))). eapply Rle_lt_trans; [exact G|exact H].
Qed.
Lemma eta_twice : bpow radix2 (-1074) = 2 * eta0.
Proof. unfold eta0. change (-1074)%Z with (1 + -1075)%Z. rewrite bpow_plus. reflexivity. Qed.
Lemma half_power a : a <= / 2 ^ 540 -> a / 2 <= / 2 ^ 541.
Proof. intros H. change 541%nat with (S 540). rewrite <- tech_pow_Rmult, Rinv_mult. lra. Qed.
Lemma vanishing_square (t : f64) : vanishing t -> f_square t = B754_zero false.
Proof.
  intros [Ft Ht]. assert (P : 0 < / 2 ^ 540) by (apply Rinv_0_lt_compat, pow_lt; lra). assert (S : Rabs (val t * val t) <= / 2 ^ 1080). { rewrite Rabs_mult. replace (/ 2 ^ 1080) with (/ 2 ^ 540 * / 2 ^ 540) by (rewrite <- Rinv_mult, <- pow_add; reflexivity). apply Rmult_le_compat; try apply Rabs_pos; assumption. }
  assert (B : / 2 ^ 1080 <= / 32 * eta0). { unfold eta0. change (-1075)%Z with (- Z.of_nat 1075)%Z. rewrite bpow_opp, two_pow. replace (/ 2 ^ 1080) with (/ 2 ^ 5 * / 2 ^ 1075) by (rewrite <- Rinv_mult, <- pow_add; reflexivity). simpl (2 ^ 5). lra. }
  pose proof eta0_pos as E0. destruct (fmul_rnd t t Ft Ft) as [Fm Vm]. { eapply Rle_trans; [exact S|]. apply Rle_trans with 1; [apply inv_1|apply pow_R1_Rle; lra]. }
  destruct (tiny_zero (fmul t t) Fm) as [s Es]. { rewrite Vm, eta_twice. pose proof (rnd_near (val t * val t)) as R1. replace (rnd (val t * val t)) with (val t * val t + (rnd (val t * val t) - val t * val t)) by ring. eapply Rle_lt_trans; [apply Rabs_triang|]. pose proof (Rabs_pos (val t * val t)). assert (uu * Rabs (val t * val t) <= 1 * Rabs (val t * val t)) by (apply Rmult_le_compat_r; [lra|rewrite uu_num; lra]). lra. }
  unfold f_square. rewrite Es. f_equal. pose proof (Bmult_correct 53 1024 _ _ mode_NE t t) as C. rewrite Rlt_bool_true in C.
  - destruct C as [_ [_ C]]. unfold fmul in Es. rewrite Es in C. specialize (C eq_refl). cbn in C. rewrite C. destruct (Bsign t); reflexivity.
  - change (Rabs (rnd (val t * val t)) < bpow radix2 1024). rewrite <- Vm, Es. change (val (B754_zero s)) with 0. rewrite Rabs_R0. apply bpow_gt_0.
Qed.
Lemma vanishing_half (t : f64) : vanishing t -> vanishing (f_half_tol t).
Proof.
  intros [Ft Ht]. destruct (small_count 2) as [F2 V2]; [lia|]. change (INR 2) with 2 in V2. pose proof (inv_1 540). pose proof eta0_pos as E0. pose proof uu_num as UN. pose proof (Rabs_pos (val t)) as T0.
  assert (AH : Rabs (val t / 2) = Rabs (val t) / 2) by (unfold Rdiv; rewrite Rabs_mult, (Rabs_pos_eq (/ 2)) by lra; reflexivity).
  destruct (fdiv_spec t (f_of_usize 2) Ft) as [Fd Vd]; [lra|rewrite V2, AH; apply Rle_lt_trans with (2 ^ 0); [simpl; lra|apply Rlt_pow; [lra|lia]]|]. rewrite V2 in Vd. split; [exact Fd|]. unfold f_half_tol. rewrite Vd.
  pose proof (rnd_near (val t / 2)) as R1. replace (rnd (val t / 2)) with (val t / 2 + (rnd (val t / 2) - val t / 2)) by ring. eapply Rle_trans; [apply Rabs_triang|]. rewrite AH in *. assert (uu * (Rabs (val t) / 2) <= / 2 * (Rabs (val t) / 2)) by (apply Rmult_le_compat_r; [lra|rewrite UN; lra]).
  destruct eta_uu as [_ T]. assert (/ 2 ^ 1000 <= / 2 ^ 542) by (apply Rinv_le_contravar; [apply pow_lt; lra|apply Rle_pow; [lra|lia]]). assert (/ 2 ^ 542 = / 4 * / 2 ^ 540) by (change 542%nat with (2 + 540)%nat; rewrite pow_add, Rinv_mult; simpl (2 ^ 2); lra). lra.
Qed.
Lemma div_by_zero (x : f64) : fin x -> 0 < val x -> fdiv x (B754_zero false) = B754_infinity false.
Proof. intros Fx Px. destruct x as [s|s| |[] m e B]; try discriminate; [cbn in Px; lra| |reflexivity]. exfalso. apply (Rlt_irrefl 0). eapply Rlt_trans; [exact Px|]. apply F2R_lt_0. reflexivity. Qed.
Lemma max_infinite (x : f64) : f_max x (B754_infinity false) = B754_infinity false.
Proof. unfold f_max. destruct x as [s|[]| |s m e B]; reflexivity. Qed.
Lemma scaled_pos k (l : f64) : (1 <= k <= 8)%nat -> fin l -> / 4 <= val l <= 2 ^ 55 -> fin (fmul (f_of_usize k) l) /\ 0 < val (fmul (f_of_usize k) l).
Proof.
  intros Hk Fl Bl. destruct (small_count k) as [Fk Vk]; [lia|]. assert (K0 : 1 <= INR k <= 8) by (split; [apply (le_INR 1 k), Hk|destruct Hk as [_ Hk]; apply le_INR in Hk; simpl in Hk; lra]).
  assert (B : / 4 <= INR k * val l <= 2 ^ 58). { split; [replace (/ 4) with (1 * / 4) by lra; apply Rmult_le_compat; lra|]. replace (2 ^ 58) with (8 * 2 ^ 55) by (change 58%nat with (3 + 55)%nat; rewrite pow_add; simpl; lra). apply Rmult_le_compat; lra. }
  destruct (fmul_rnd (f_of_usize k) l Fk Fl) as [Fm Vm]. { rewrite Vk, Rabs_pos_eq by lra. apply (pow_1000 58); [lia|lra]. } rewrite Vk in Vm. split; [exact Fm|]. rewrite Vm. pose proof (rnd_near (INR k * val l)) as R1. rewrite (Rabs_pos_eq (INR k * val l)) in R1 by lra. apply Rabs_le_inv in R1.
  destruct eta_uu as [_ T]. assert (/ 2 ^ 1000 <= / 2 ^ 10) by (apply Rinv_le_contravar; [apply pow_lt; lra|apply Rle_pow; [lra|lia]]). assert (/ 2 ^ 10 <= / 100) by (simpl; lra). assert (uu * (INR k * val l) <= / 2 * (INR k * val l)) by (apply Rmult_le_compat_r; [lra|rewrite uu_num; lra]). lra.
Qed.
Lemma ln_half : / 2 <= ln 2. Proof. apply ln_lt_2 || (left; apply ln_lt_2). Qed.

Lemma P_C103_vanishing_tolerance :
  forall fln umax (tol nu : f64) (n : nat), precise_ln fln -> vanishing tol -> (2 <= n)%nat -> INR n < 2 ^ 53 -> capping nu n -> 2 * val nu <= INR n ->
  f_ada_rounds fln umax tol n = umax /\ f_adav_rounds fln umax tol n = umax /\ f_mada_rounds umax tol n = umax /\
  f_soft_rounds fln umax tol nu n = umax /\ f_cerlp_rounds fln umax tol nu n = umax /\ f_erlp_rounds fln umax tol nu n = umax.
Proof.
  intros fln umax tol nu n Hl Hv Hn HB Hu H2. assert (Sn : some_examples n) by (split; [lia|exact HB]). assert (N2 : 2 <= INR n) by (apply (le_INR 2 n) in Hn; exact Hn). pose proof (vanishing_square tol Hv) as Es. pose proof (vanishing_square _ (vanishing_half tol Hv)) as Eh.
  destruct eta_uu as [_ T]. assert (T10 : / 2 ^ 1000 <= / 2 ^ 10) by (apply Rinv_le_contravar; [apply pow_lt; lra|apply Rle_pow; [lra|lia]]). assert (S10 : / 2 ^ 10 <= / 100) by (simpl; lra). pose proof uu_num as UN. pose proof uu_pos as U0.
  destruct (ln_count fln Hl n Sn) as [Fl [Bl Nl]]. assert (L2 : / 2 <= ln (INR n)) by (eapply Rle_trans; [apply ln_half|apply ln_le; lra]). assert (Pl : / 4 <= val (fln (f_of_usize n))). { unfold near in Nl. apply Rabs_le_inv in Nl. assert (2 * uu * ln (INR n) <= / 8 * ln (INR n)) by (apply Rmult_le_compat_r; [lra|rewrite UN; lra]). lra. }
  destruct (ln_ratio fln Hl nu n Sn Hu) as [Fr [Br [_ Nr]]]. assert (Q2 : 2 <= INR n / val nu) by (apply Rle_div_iff; [destruct Hu; lra|lra]). assert (R2 : / 2 <= ln (INR n / val nu)) by (eapply Rle_trans; [apply ln_half|apply ln_le; lra]).
  assert (Pr : / 4 <= val (fln (fdiv (f_of_usize n) nu))). { unfold near in Nr. apply Rabs_le_inv in Nr. assert (2 * uu * ln (INR n / val nu) <= / 8 * ln (INR n / val nu)) by (apply Rmult_le_compat_r; [lra|rewrite UN; lra]). lra. }
  destruct (scaled_pos 2 _ ltac:(lia) Fl (conj Pl (proj2 Bl))) as [Fa Pa]. destruct (scaled_pos 2 _ ltac:(lia) Fr (conj Pr (proj2 Br))) as [Fb Pb]. destruct (scaled_pos 8 _ ltac:(lia) Fr (conj Pr (proj2 Br))) as [Fc Pc].
  destruct (of_usize_spec n HB) as [Fn Vn]. destruct f1_spec as [F1 V1]. destruct (fsub_rnd (f_of_usize n) f1 Fn F1) as [Fs [Vs _]]. { rewrite Vn, V1, Rabs_pos_eq by lra. apply (pow_1000 53); [lia|lra]. } rewrite Vn, V1 in Vs.
  assert (Ps : 0 < val (fsub (f_of_usize n) f1)). { rewrite Vs. apply Rlt_le_trans with (rnd (val f1)); [rewrite rnd_val, V1; lra|]. apply rnd_mono. rewrite V1. lra. }
  unfold f_ada_rounds, f_adav_rounds, f_mada_rounds, f_soft_rounds, f_cerlp_rounds, f_erlp_rounds. rewrite Es, Eh. rewrite !div_by_zero by first [assumption|lra]. rewrite max_infinite. repeat split.
Qed.

Lemma P_C103_no_number :
  forall fln umax (tol nu : f64) (n : nat), tol = nan_num ->
  f_ada_rounds fln umax tol n = 0%nat /\ f_adav_rounds fln umax tol n = 0%nat /\ f_mada_rounds umax tol n = 0%nat /\
  f_soft_rounds fln umax tol nu n = 0%nat /\ f_cerlp_rounds fln umax tol nu n = 0%nat /\ f_erlp_rounds fln umax tol nu n = 0%nat.
Proof.
  intros fln umax tol nu n ->. assert (D : forall x : f64, fdiv x B754_nan = B754_nan) by (intros []; reflexivity).
  unfold f_ada_rounds, f_adav_rounds, f_mada_rounds, f_soft_rounds, f_cerlp_rounds, f_erlp_rounds. change (f_half_tol nan_num) with nan_num. change (f_square nan_num) with nan_num. change nan_num with (B754_nan : f64). rewrite !D. repeat split.
Qed.

Lemma P_C103_one_example :
  forall fln umax (tol : f64), precise_ln fln ->
  f_ada_rounds fln umax tol 1 = 0%nat /\ f_adav_rounds fln umax tol 1 = 0%nat /\ f_mada_rounds umax tol 1 = 0%nat.
Proof.
  intros fln umax tol Hl. destruct (Hl (f_of_usize 1)) as [Fl [_ E]]; [apply f1_spec|destruct f1_spec as [_ V1]; change (f_of_usize 1) with f1; rewrite V1; lra|].
  assert (Z : exists s, fln (f_of_usize 1) = B754_zero s). { apply tiny_zero; [exact Fl|]. destruct f1_spec as [_ V1]. change (f_of_usize 1) with f1 in *. rewrite V1, ln_1, Rabs_R0, Rmult_0_r, Rplus_0_l, Rminus_0_r in E. eapply Rle_lt_trans; [exact E|]. rewrite eta_twice. replace (/ 2 ^ 1075) with eta0; [pose proof eta0_pos; lra|]. unfold eta0. change (-1075)%Z with (- Z.of_nat 1075)%Z. rewrite bpow_opp, two_pow. reflexivity. }
  destruct Z as [s Es]. unfold f_ada_rounds, f_adav_rounds, f_mada_rounds. rewrite Es. assert (E2 : exists s', fmul (f_of_usize 2) (B754_zero s) = B754_zero s') by (destruct s; [exists true|exists false]; reflexivity). destruct E2 as [s2 ->].
  assert (E3 : fsub (f_of_usize 1) f1 = B754_zero false) by (apply B2SF_inj; vm_compute; reflexivity). rewrite E3. set (d := f_square tol). clearbody d. assert (Q : forall b, f_sat_usize umax (fdiv (B754_zero b) d) = 0%nat /\ f_sat_usize umax (f_ceil (fdiv (B754_zero b) d)) = 0%nat) by (intros b; destruct d as [[]|[]| |[] m e B], b; split; reflexivity).
  split; [apply Q|]. split; [apply Q|apply Q].
Qed.

(** ** The limit can be one round short of the formula *)

Lemma sat_finite umax (x : f64) : is_finite_strict x = true -> f_sat_usize umax x = Nat.min umax (Z.to_nat (Btrunc x)).
Proof. destruct x as [s|s| |s m e H]; intros X; [discriminate X|discriminate X|discriminate X|reflexivity]. Qed.
Lemma P_C103_one_round_short :
  forall umax, (9 <= umax)%nat ->
  f_mada_rounds umax (f_default_tol 2) 2 = 9%nat /\ 9 < (INR 2 - 1) / val (f_default_tol 2) ^ 2.
Proof.
  intros umax Hu. split.
  - unfold f_mada_rounds. assert (E : f_ceil (fdiv (fsub (f_of_usize 2) f1) (f_square (f_default_tol 2))) = f_of_usize 9) by (apply B2SF_inj; vm_compute; reflexivity). rewrite E.
    rewrite sat_finite by (vm_compute; reflexivity). assert (B : Btrunc (f_of_usize 9) = 9%Z) by (vm_compute; reflexivity). rewrite B. change (Z.to_nat 9) with 9%nat. apply Nat.min_r. exact Hu.
  - assert (E : f_default_tol 2 = binary_normalize 53 1024 eq_refl eq_refl mode_NE 6004799503160661 (-54) false) by (apply B2SF_inj; vm_compute; reflexivity). destruct (normalize_exact 6004799503160661 (-54)) as [_ V]; [vm_compute; reflexivity|lia|]. rewrite E, V. change (-54)%Z with (- Z.of_nat 54)%Z. rewrite bpow_opp, two_pow. change (INR 2) with 2. set (v := IZR 6004799503160661 * / 2 ^ 54). assert (V0 : 0 < v ^ 2) by (unfold v; simpl; lra). assert (V9 : 9 * v ^ 2 < 2 - 1) by (unfold v; simpl; lra). apply (Rmult_lt_reg_r (v ^ 2)); [exact V0|]. unfold Rdiv. rewrite Rmult_assoc, Rinv_l by lra. lra.
Qed.

(** four examples, tolerance one half, no capping: all the limits at once *)
Lemma ex_C103 : exists fln, precise_ln fln /\ usual_tolerance f_half /\ some_examples 4 /\ capping f1 4 /\
  (exists tol, vanishing tol /\ 2 * val f1 <= INR 4) /\ accepted sb_kappa sb_gamma /\ / 2 ^ 100 <= val sb_kappa /\ / 2 ^ 100 <= val sb_gamma /\ f_mada_rounds 1000 f_half 4 = 12%nat.
Proof.
  destruct P_C92_platform as [fexp [fln [_ [C _]]]]. exists fln. split; [exact C|]. destruct half_spec as [Fh Vh]. destruct f1_spec as [F1 V1]. assert (P99 : / 2 ^ 100 <= / 2 ^ 6) by (apply Rinv_le_contravar; [apply pow_lt; lra|apply Rle_pow; [lra|lia]]). assert (S6 : / 2 ^ 6 <= / 60) by (simpl; lra). destruct sb_consts as [[FG VG] [[FK VK] _]].
  split; [split; [exact Fh|rewrite Vh; split; [lra|apply Rle_trans with (2 ^ 0); [simpl; lra|apply Rle_pow; [lra|lia]]]]|]. split; [split; [lia|rewrite INR4; apply Rle_lt_trans with (2 ^ 2); [simpl; lra|apply Rlt_pow; [lra|lia]]]|]. split; [split; [exact F1|rewrite V1, INR4; lra]|].
  split; [exists f0; split; [split; [reflexivity|rewrite val_f0, Rabs_R0; left; apply Rinv_0_lt_compat, pow_lt; lra]|rewrite V1, INR4; lra]|]. split; [exact sb_accepted|]. split; [rewrite VK; lra|]. split; [rewrite VG; lra|]. vm_compute. reflexivity.
Qed.
Example C103_nonvacuous : exists fln, precise_ln fln /\ usual_tolerance f_half /\ some_examples 4 /\ capping f1 4 /\
  (exists tol, vanishing tol /\ 2 * val f1 <= INR 4) /\ accepted sb_kappa sb_gamma /\ / 2 ^ 100 <= val sb_kappa /\ / 2 ^ 100 <= val sb_gamma /\ f_mada_rounds 1000 f_half 4 = 12%nat.
Proof. exact ex_C103. Qed.
