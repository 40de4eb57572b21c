(** Roundings of exponentials and logarithms of particular numbers *)
From Coq Require Import ZArith List Bool Reals Lia Lra Psatz.
From Flocq Require Import Core.Core IEEE754.BinarySingleNaN.
From Verif Require Import Base Float FloatSpec FloatProofs FloatFacts FloatCheckFacts FloatProjectSpec ExpBounds.
Import ListNotations.
Open Scope R_scope.

Local Notation fx := (FLT_exp (-1074) 53).
Lemma nearest_rnd r : nearest64 r = rnd r. Proof. reflexivity. Qed.

Section Mant.
  Variables (m e : Z).
  Hypothesis Hm : (2 ^ 52 <= m < 2 ^ 53)%Z.
  Hypothesis He : (-1074 <= e)%Z.
  Lemma me_format : generic_format radix2 fx (IZR m * bpow radix2 e).
  Proof. apply generic_format_FLT. exists (Float radix2 m e); [reflexivity|cbn [Fnum]; rewrite Z.abs_eq by lia; change (Zpower radix2 53) with (2 ^ 53)%Z; lia|exact He]. Qed.
  Lemma me_ulp : ulp radix2 fx (IZR m * bpow radix2 e) = bpow radix2 e.
  Proof.
    assert (P : 0 < IZR m) by (apply IZR_lt; lia). assert (B := bpow_gt_0 radix2 e).
    rewrite ulp_neq_0 by (apply Rgt_not_eq; apply Rmult_lt_0_compat; assumption). f_equal. unfold cexp.
    rewrite (mag_unique_pos radix2 _ (53 + e)).
    - unfold FLT_exp. lia.
    - replace (53 + e - 1)%Z with (52 + e)%Z by lia. rewrite !bpow_plus. change (bpow radix2 52) with (IZR (2 ^ 52)). change (bpow radix2 53) with (IZR (2 ^ 53)).
      split; [apply Rmult_le_compat_r; [lra|apply IZR_le; lia]|apply Rmult_lt_compat_r; [lra|apply IZR_lt; lia]].
  Qed.
  Lemma me_succ : succ radix2 fx (IZR m * bpow radix2 e) = (IZR m + 1) * bpow radix2 e.
  Proof. rewrite succ_eq_pos by (apply Rmult_le_pos; [apply IZR_le; lia|apply bpow_ge_0]). rewrite me_ulp. ring. Qed.
End Mant.

Lemma rnd_above m e r : (2 ^ 52 < m < 2 ^ 53)%Z -> (-1074 <= e)%Z -> (IZR m - / 2) * bpow radix2 e < r -> IZR m * bpow radix2 e <= nearest64 r.
Proof.
  intros Hm He H. unfold nearest64. apply round_N_ge_midp; [typeclasses eauto|apply me_format; lia|].
  assert (S : succ radix2 fx (IZR (m - 1) * bpow radix2 e) = IZR m * bpow radix2 e) by (rewrite me_succ by lia; rewrite minus_IZR; ring).
  rewrite <- S, pred_succ by (try typeclasses eauto; apply me_format; lia). rewrite S, minus_IZR. lra.
Qed.
Lemma rnd_below m e r : (2 ^ 52 <= m < 2 ^ 53)%Z -> (-1074 <= e)%Z -> r < (IZR m + / 2) * bpow radix2 e -> nearest64 r <= IZR m * bpow radix2 e.
Proof.
  intros Hm He H. unfold nearest64. apply round_N_le_midp; [typeclasses eauto|apply me_format; lia|]. rewrite me_succ by lia. lra.
Qed.
Lemma rnd_at m e r : (2 ^ 52 < m < 2 ^ 53)%Z -> (-1074 <= e)%Z -> (IZR m - / 2) * bpow radix2 e < r < (IZR m + / 2) * bpow radix2 e -> nearest64 r = IZR m * bpow radix2 e.
Proof. intros Hm He [H1 H2]. apply Rle_antisym; [apply rnd_below; [lia|exact He|exact H2]|apply rnd_above; assumption]. Qed.

Lemma b53 : bpow radix2 (-53) = / 9007199254740992. Proof. change (-53)%Z with (- Z.of_nat 53)%Z. rewrite bpow_opp, two_pow. simpl. lra. Qed.

(** exp of - 3582009729985367 / 2^53 is within half a unit in the last place of 43/64 *)
Lemma exp_t : nearest64 (exp (- (3582009729985367 / 9007199254740992))) = 43 / 64.
Proof.
  replace (43 / 64) with (IZR 6051711999279104 * bpow radix2 (-53)) by (rewrite b53; lra). apply rnd_at; [lia|lia|]. rewrite b53. rewrite exp_Ropp.
  assert (U : exp (3582009729985367 / 9007199254740992) <= 90071992547409920 / 60517119992791039) by (apply (exp_below 3582009729985367 9007199254740992 18); [lia|lia|lia|lia|vm_compute; reflexivity]).
  assert (L : 90071992547409920 / 60517119992791040 <= exp (3582009729985367 / 9007199254740992)) by (apply (exp_above 3582009729985367 9007199254740992 18); [lia|lia|lia|vm_compute; reflexivity]).
  pose proof (exp_pos (3582009729985367 / 9007199254740992)) as P. set (y := exp (3582009729985367 / 9007199254740992)) in *. clearbody y. clear - U L P. split.
  - apply Rmult_lt_reg_r with y; [exact P|]. rewrite Rinv_l by lra. lra.
  - apply Rmult_lt_reg_r with y; [exact P|]. rewrite Rinv_l by lra. lra.
Qed.

(** the logarithm of 107/64 is within half a unit in the last place of 4629211786305344 / 2^53 *)
Lemma ln_nu : nearest64 (ln (107 / 64)) = 4629211786305344 / 9007199254740992.
Proof.
  replace (4629211786305344 / 9007199254740992) with (IZR 4629211786305344 * bpow radix2 (-53)) by (rewrite b53; lra). apply rnd_at; [lia|lia|]. rewrite b53.
  assert (E1 : (IZR 4629211786305344 - / 2) * / 9007199254740992 = 9258423572610687 / 18014398509481984) by lra.
  assert (E2 : (IZR 4629211786305344 + / 2) * / 9007199254740992 = 9258423572610689 / 18014398509481984) by lra.
  assert (U : exp (9258423572610687 / 18014398509481984) <= 106999999999999994650 / 64000000000000000000) by (apply (exp_below 9258423572610687 18014398509481984 18); [lia|lia|lia|lia|vm_compute; reflexivity]).
  assert (L : 107000000000000001070 / 64000000000000000000 <= exp (9258423572610689 / 18014398509481984)) by (apply (exp_above 9258423572610689 18014398509481984 18); [lia|lia|lia|vm_compute; reflexivity]).
  rewrite E1, E2. rewrite <- (ln_exp (9258423572610687 / 18014398509481984)) at 1. rewrite <- (ln_exp (9258423572610689 / 18014398509481984)). split; apply ln_increasing; try apply exp_pos; lra.
Qed.

(** exp of the negation of that number rounds to at least 5387483666387136 / 2^53, the number after the rounding of 64/107 *)
Lemma exp_L : 5387483666387136 / 9007199254740992 <= nearest64 (exp (- (4629211786305344 / 9007199254740992))).
Proof.
  replace (5387483666387136 / 9007199254740992) with (IZR 5387483666387136 * bpow radix2 (-53)) by (rewrite b53; lra). apply rnd_above; [lia|lia|]. rewrite b53. rewrite exp_Ropp.
  assert (U : exp (4629211786305344 / 9007199254740992) <= 18014398509481983819856014905180160 / 10774967332774271000000000000000000) by (apply (exp_below 4629211786305344 9007199254740992 18); [lia|lia|lia|lia|vm_compute; reflexivity]).
  pose proof (exp_pos (4629211786305344 / 9007199254740992)) as P. set (y := exp (4629211786305344 / 9007199254740992)) in *. clearbody y. clear - U P.
  apply Rmult_lt_reg_r with y; [exact P|]. rewrite Rinv_l by lra. lra.
Qed.
