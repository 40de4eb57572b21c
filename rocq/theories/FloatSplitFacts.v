(** Property C86: the sizes of the training and test parts of cross validation in binary64. *)
From Coq Require Import ZArith List Bool Reals Lia Lra Psatz.
From Flocq Require Import Core.Core IEEE754.BinarySingleNaN Relative Plus_error.
From Verif Require Import Base Float FloatSpec FloatProofs FloatFacts FloatCheckFacts FloatSplit.
Import ListNotations.
Open Scope R_scope.

Local Notation fmt := (generic_format radix2 (FLT_exp (3 - 1024 - 53) 53)).

Lemma format_int k : INR k <= 2 ^ 53 -> fmt (INR k).
Proof.
  intros H. destruct H as [H|H].
  - destruct (of_usize_spec k H) as [_ V]. rewrite <- V. apply format_val.
  - rewrite H. replace (2 ^ 53) with (bpow radix2 53) by (rewrite <- two_pow; reflexivity). apply generic_format_bpow. unfold FLT_exp. simpl. lia.
Qed.

(** the product of a ratio below one and a row count *)
Lemma product r n : fin r -> 0 < val r < 1 -> INR n < 2 ^ 53 ->
  (fin (fmul r (f_of_usize n)) /\ val (fmul r (f_of_usize n)) = rnd (val r * INR n)) /\
  (fin (fmul (f_of_usize n) r) /\ val (fmul (f_of_usize n) r) = rnd (val r * INR n)).
Proof.
  intros Fr Hr Hn. destruct (of_usize_spec n Hn) as [Fn Vn]. pose proof (pos_INR n).
  assert (B : Rabs (rnd (val r * INR n)) < bpow radix2 1024).
  { assert (0 <= rnd (val r * INR n)) by (rewrite <- (round_0 radix2 (FLT_exp (3 - 1024 - 53) 53) ZnearestE); apply rnd_mono; nra).
    rewrite Rabs_pos_eq by assumption. apply Rle_lt_trans with (rnd (INR n)); [apply rnd_mono; nra|].
    rewrite <- Vn, rnd_val, Vn. eapply Rlt_trans; [exact Hn|]. rewrite <- (two_pow 53). apply bpow_lt. simpl. lia. }
  split.
  - pose proof (Bmult_correct 53 1024 _ _ mode_NE r (f_of_usize n)) as C. rewrite Vn in C. rewrite Rlt_bool_true in C by exact B.
    destruct C as [C1 [C2 _]]. split; [|exact C1]. unfold fmul. rewrite C2, Fr, Fn. reflexivity.
  - pose proof (Bmult_correct 53 1024 _ _ mode_NE (f_of_usize n) r) as C. rewrite Vn in C. rewrite (Rmult_comm (INR n)) in C. rewrite Rlt_bool_true in C by exact B.
    destruct C as [C1 [C2 _]]. split; [|exact C1]. unfold fmul. rewrite C2, Fr, Fn. reflexivity.
Qed.

Lemma trunc_spec x : 0 <= val x -> INR (f_as_usize x) <= val x < INR (f_as_usize x) + 1.
Proof.
  intros H. unfold f_as_usize. pose proof (Btrunc_correct 53 1024 _ x) as C.
  assert (E : Btrunc x = Zfloor (val x)).
  { apply eq_IZR. rewrite C. unfold round, F2R, scaled_mantissa, cexp, FIX_exp. simpl. rewrite !Rmult_1_r. rewrite Ztrunc_floor by exact H. reflexivity. }
  rewrite E. rewrite INR_IZR_INZ, Z2Nat.id by (apply Zfloor_lub; exact H). split; [apply Zfloor_lb|apply Zfloor_ub].
Qed.

Lemma nat_between k m x : INR k <= x < INR k + 1 -> INR m <= x < INR m + 1 -> k = m.
Proof. intros H1 H2. assert (k < S m)%nat by (apply INR_lt; rewrite S_INR; lra). assert (m < S k)%nat by (apply INR_lt; rewrite S_INR; lra). lia. Qed.

(** the general fact: truncating the rounded product gives the floor of the exact product, or one more when the product
    lies just below the next integer *)
Lemma trunc_round x k m : 0 <= x -> INR k <= x < INR k + 1 -> INR k + 1 <= 2 ^ 53 -> INR m <= rnd x < INR m + 1 ->
  m = k \/ (m = S k /\ INR m - x <= uu * x).
Proof.
  intros Hx Hk Hb Hm.
  assert (L : INR k <= rnd x). { assert (F : fmt (INR k)) by (apply format_int; lra). rewrite <- (round_generic radix2 (FLT_exp (3 - 1024 - 53) 53) ZnearestE (INR k) F). apply rnd_mono. lra. }
  assert (U : rnd x <= INR k + 1).
  { rewrite <- S_INR in *. assert (F : fmt (INR (S k))) by (apply format_int; exact Hb). rewrite <- (round_generic radix2 (FLT_exp (3 - 1024 - 53) 53) ZnearestE (INR (S k)) F). apply rnd_mono. lra. }
  destruct (Rle_lt_or_eq_dec _ _ U) as [U1|U1].
  - left. apply (nat_between m k (rnd x)); lra.
  - right. assert (E : m = S k) by (apply (nat_between m (S k) (rnd x)); [exact Hm|rewrite S_INR; lra]). split; [exact E|]. subst m. rewrite S_INR, <- U1.
    assert (N : /2 <= x).
    { apply Rnot_lt_le. intros X. assert (F : fmt (/ 2)) by (change (/ 2) with (bpow radix2 (-1)); apply generic_format_bpow; unfold FLT_exp; simpl; lia).
      assert (rnd x <= / 2) by (rewrite <- (round_generic radix2 (FLT_exp (3 - 1024 - 53) 53) ZnearestE (/ 2) F); apply rnd_mono; lra). pose proof (pos_INR k). lra. }
    pose proof (relative_error_N_FLT radix2 (3 - 1024 - 53) 53 eq_refl (fun z => negb (Z.even z)) x) as Er.
    assert (Hl : bpow radix2 (3 - 1024 - 53 + 53 - 1) <= Rabs x).
    { rewrite Rabs_pos_eq by lra. apply Rle_trans with (bpow radix2 (-1)); [apply bpow_le; lia|]. change (bpow radix2 (-1)) with (/ 2). exact N. }
    specialize (Er Hl). rewrite (Rabs_pos_eq x) in Er by lra. change (round radix2 (FLT_exp (3 - 1024 - 53) 53) (Znearest (fun z => negb (Z.even z))) x) with (rnd x) in Er.
    apply Rle_trans with (Rabs (rnd x - x)); [apply RRle_abs|]. eapply Rle_trans; [exact Er|]. rewrite <- uu_bpow.
    replace (-53 + 1)%Z with (-52)%Z by reflexivity. change (-52)%Z with (1 + -53)%Z. rewrite bpow_plus. change (Z.opp 53) with (-53)%Z. change (bpow radix2 1) with 2. right. field.
Qed.

Lemma ratio_below r : fin r -> val r < 1 -> val r <= 1 - uu.
Proof.
  intros Fr Hr. assert (F1 : fmt 1) by (change 1 with (bpow radix2 0); apply generic_format_bpow; unfold FLT_exp; simpl; lia).
  pose proof (pred_ge_gt radix2 (FLT_exp (3 - 1024 - 53) 53) (val r) 1 (format_val r) F1 Hr) as P.
  change 1 with (bpow radix2 0) in P at 1. rewrite pred_bpow in P. unfold FLT_exp in P. change (Z.max (0 - 53) (3 - 1024 - 53)) with (-53)%Z in P. rewrite uu_bpow in P. exact P.
Qed.

(** the rounded product stays below the row count *)
Lemma product_below r n : fin r -> 0 < val r < 1 -> (1 <= n)%nat -> INR n < 2 ^ 53 -> rnd (val r * INR n) < INR n.
Proof.
  intros Fr Hr Hn Hb. pose proof (ratio_below r Fr (proj2 Hr)) as R1. apply le_INR in Hn. simpl in Hn.
  assert (F : fmt (INR n)) by (apply format_int; lra).
  set (u := pred radix2 (FLT_exp (3 - 1024 - 53) 53) (INR n)).
  assert (Fu : fmt u) by (apply generic_format_pred; [typeclasses eauto|exact F]).
  assert (Su : succ radix2 (FLT_exp (3 - 1024 - 53) 53) u = INR n) by (apply succ_pred; [typeclasses eauto|exact F]).
  assert (Hu : / 2 <= u).
  { apply pred_ge_gt; [typeclasses eauto| |exact F|lra]. change (/ 2) with (bpow radix2 (-1)). apply generic_format_bpow. unfold FLT_exp. simpl. lia. }
  assert (Lu : u < INR n) by (apply pred_lt_id; lra).
  apply Rle_lt_trans with u; [|exact Lu].
  apply (round_N_le_midp radix2 (FLT_exp (3 - 1024 - 53) 53)); [exact Fu|]. rewrite Su.
  assert (Ul : ulp radix2 (FLT_exp (3 - 1024 - 53) 53) u <= u * (2 * uu)).
  { eapply Rle_trans; [apply ulp_FLT_le|].
    - rewrite Rabs_pos_eq by lra. apply Rle_trans with (bpow radix2 (-1)); [apply bpow_le; lia|]. change (bpow radix2 (-1)) with (/ 2). exact Hu.
    - rewrite Rabs_pos_eq by lra. change (1 - 53)%Z with (1 + -53)%Z. rewrite bpow_plus, uu_bpow. change (bpow radix2 1) with 2. right. ring. }
  assert (Eu : INR n = u + ulp radix2 (FLT_exp (3 - 1024 - 53) 53) u) by (rewrite <- Su; apply succ_eq_pos; lra).
  pose proof uu_pos. nra.
Qed.

(** ** train_ratio(r) accepts exactly the numbers strictly between 0 and 1, NaN and infinities are refused; the training part then
    has floor(r n) rows, or one more when r n is within a relative 2^-53 of the next integer; at least one row is left to test *)
Lemma P_C86_train_size_partial :
  forall (n : nat) (r : f64), INR n < 2 ^ 53 ->
  (finite_num r /\ 0 < val r < 1 ->
     exists m, f_train_ratio n r = Ok m /\ ((1 <= n)%nat -> (m < n)%nat) /\
       exists k, INR k <= val r * INR n < INR k + 1 /\ (m = k \/ (m = S k /\ INR m - val r * INR n <= uu * (val r * INR n)))) /\
  (~ (finite_num r /\ 0 < val r < 1) -> f_train_ratio n r = Panic AssertFailed).
Proof.
  intros n r Hn. destruct f1_spec as [F1 V1]. split.
  - intros [Fr Hr]. unfold f_train_ratio. rewrite (proj2 (flt_true f0 r fin_f0 Fr)) by (rewrite val_f0; lra).
    rewrite (proj2 (flt_true r f1 Fr F1)) by lra. cbn [andb assert_ bind]. eexists. split; [reflexivity|].
    destruct (product r n Fr Hr Hn) as [[Fp Vp] _]. pose proof (pos_INR n).
    assert (P0 : 0 <= val r * INR n) by nra.
    assert (Q0 : 0 <= rnd (val r * INR n)) by (rewrite <- (round_0 radix2 (FLT_exp (3 - 1024 - 53) 53) ZnearestE); apply rnd_mono; exact P0).
    pose proof (trunc_spec (fmul r (f_of_usize n)) ltac:(rewrite Vp; exact Q0)) as T. rewrite Vp in T.
    split. { intros H1. pose proof (product_below r n Fr Hr H1 Hn). apply INR_lt. lra. }
    exists (Z.to_nat (Zfloor (val r * INR n))).
    assert (K : INR (Z.to_nat (Zfloor (val r * INR n))) <= val r * INR n < INR (Z.to_nat (Zfloor (val r * INR n))) + 1).
    { rewrite INR_IZR_INZ, Z2Nat.id by (apply Zfloor_lub; exact P0). split; [apply Zfloor_lb|apply Zfloor_ub]. }
    split; [exact K|]. apply (trunc_round (val r * INR n)); [exact P0|exact K| |exact T].
    destruct n as [|n'].
    + assert (O : 1 <= 2 ^ 53) by (apply pow_R1_Rle; lra). change (INR 0) with 0 in *. rewrite Rmult_0_r in *. generalize dependent (2 ^ 53). intros big. intros. lra.
    + set (k := Z.to_nat (Zfloor (val r * INR (S n')))) in *. rewrite <- S_INR. apply Rle_trans with (INR (S n')); [apply le_INR|lra].
      assert (LK : INR k < INR (S n')) by (assert (0 < INR (S n')) by (apply lt_0_INR; lia); nra). apply INR_lt in LK. lia.
  - intros H. unfold f_train_ratio. destruct (flt f0 r && flt r f1) eqn:E; [|reflexivity]. exfalso. apply H. apply andb_true_iff in E. destruct E as [E1 E2].
    assert (Fr : fin r). { destruct r as [s|s| |s m e b]; [reflexivity| |discriminate E1|reflexivity]. destruct s; [discriminate E1|]. unfold flt, Bltb in E2. revert E2. pose proof F1 as F1'. destruct f1; [discriminate|discriminate|discriminate|discriminate]. }
    split; [exact Fr|]. apply flt_true in E1; [|exact fin_f0|exact Fr]. apply flt_true in E2; [|exact Fr|exact F1]. rewrite val_f0 in E1. lra.
Qed.

Lemma eight_spec : fin f_eight_tenths /\ val f_eight_tenths = 4 / 5 * (1 + uu / 2).
Proof.
  destruct (normalize_exact 7205759403792794 (-53)) as [F V]; [vm_compute; reflexivity|lia|]. split; [exact F|]. unfold f_eight_tenths. rewrite V, uu_bpow. unfold uu. simpl. lra.
Qed.

(** ** without train_ratio the training part has exactly floor(4 n / 5) rows, in binary64 as in exact arithmetic, for up to 2^50 rows *)
Lemma P_C86_default_exact :
  forall n : nat, INR n <= 2 ^ 50 -> f_default_train_size n = (4 * n / 5)%nat.
Proof.
  intros n Hn. destruct eight_spec as [Fe Ve]. pose proof uu_pos. pose proof uu_small. pose proof (pos_INR n).
  assert (Hb : INR n < 2 ^ 53) by (eapply Rle_lt_trans; [exact Hn|]; apply Rlt_pow; [lra|lia]).
  assert (Hu : INR n * uu <= / 8). { unfold uu. apply (Rmult_le_compat_r (/ 2 ^ 53)) in Hn; [|left; apply Rinv_0_lt_compat, pow_lt; lra]. eapply Rle_trans; [exact Hn|]. simpl. lra. }
  assert (Hr : 0 < val f_eight_tenths < 1) by (rewrite Ve; lra).
  destruct (product f_eight_tenths n Fe Hr Hb) as [_ [Fp Vp]]. unfold f_default_train_size.
  assert (P0 : 0 <= val f_eight_tenths * INR n) by nra.
  assert (Q0 : 0 <= rnd (val f_eight_tenths * INR n)) by (rewrite <- (round_0 radix2 (FLT_exp (3 - 1024 - 53) 53) ZnearestE); apply rnd_mono; exact P0).
  pose proof (trunc_spec (fmul (f_of_usize n) f_eight_tenths) ltac:(rewrite Vp; exact Q0)) as T. rewrite Vp in T.
  set (k := (4 * n / 5)%nat). pose proof (Nat.div_mod (4 * n) 5 ltac:(lia)) as D. fold k in D. pose proof (Nat.mod_upper_bound (4 * n) 5 ltac:(lia)) as M.
  set (j := (4 * n mod 5)%nat) in *. assert (DR : 4 * INR n = 5 * INR k + INR j) by (replace 4 with (INR 4) by (simpl; lra); replace 5 with (INR 5) by (simpl; lra); rewrite <- !mult_INR, <- plus_INR; f_equal; exact D).
  assert (MR : INR j <= 4) by (replace 4 with (INR 4) by (simpl; lra); apply le_INR; lia). pose proof (pos_INR j).
  assert (X : val f_eight_tenths * INR n = INR k + INR j / 5 + 2 / 5 * (INR n * uu)) by (rewrite Ve; nra).
  assert (K : INR k <= val f_eight_tenths * INR n < INR k + 1) by nra.
  assert (Kb : INR k + 1 <= 2 ^ 53).
  { assert (INR k <= INR n) by lra. assert (2 ^ 50 + 1 <= 2 ^ 53) by (simpl; lra). lra. }
  destruct (trunc_round _ k _ P0 K Kb T) as [E|[E1 E2]]; [exact E|]. exfalso. rewrite E1, S_INR, X in E2.
  assert (XX : INR k + INR j / 5 + 2 / 5 * (INR n * uu) <= INR n) by (rewrite <- X; rewrite Ve; nra).
  assert (uu * (INR k + INR j / 5 + 2 / 5 * (INR n * uu)) <= INR n * uu) by nra. nra.
Qed.

Lemma p29_spec : fin f_29_percent /\ val f_29_percent = 5224175567749775 / 18014398509481984.
Proof.
  destruct (normalize_exact 5224175567749775 (-54)) as [F V]; [vm_compute; reflexivity|lia|]. split; [exact F|]. unfold f_29_percent. rewrite V.
  change (-54)%Z with (- Z.of_nat 54)%Z. rewrite bpow_opp, two_pow. simpl. lra.
Qed.

(** ** the size can be one less than the fraction the user wrote: of 100 rows, train_ratio(0.29) trains on 28, not 29
    (0.29 is the binary64 number nearest to 29/100, which lies below it) *)
Lemma P_C86_percentage_refuted :
  exists (n : nat) (r : f64), finite_num r /\
    (forall x : f64, finite_num x -> Rabs (val r - 29 / 100) <= Rabs (val x - 29 / 100)) /\
    29 / 100 * INR n = INR 29 /\ f_train_ratio n r = Ok 28%nat.
Proof.
  exists 100%nat, f_29_percent. destruct p29_spec as [Fr Vr]. split; [exact Fr|]. split.
  { intros x Fx. apply Rnot_lt_le. intros L. pose proof (format_val x) as Gx. pose proof (format_val f_29_percent) as Gr. rewrite Vr in *.
    set (d := / 18014398509481984). set (r := 5224175567749775 / 18014398509481984) in *.
    assert (Er : r = 29 / 100 - 9 / 25 * d) by (unfold r, d; lra). assert (Hd : 0 < d) by (unfold d; lra).
    rewrite (Rabs_left (r - 29 / 100)) in L by lra.
    assert (B : r < val x < r + d) by (unfold Rabs in L; destruct (Rcase_abs (val x - 29 / 100)); lra).
    pose proof (succ_le_lt radix2 (FLT_exp (3 - 1024 - 53) 53) r (val x) Gr Gx (proj1 B)) as S.
    rewrite succ_eq_pos in S by (unfold r; lra). rewrite ulp_neq_0 in S by (unfold r; lra). unfold cexp in S.
    rewrite (mag_unique radix2 r (-1)) in S.
    - unfold FLT_exp in S. change (Z.max (-1 - 53) (3 - 1024 - 53)) with (- Z.of_nat 54)%Z in S. rewrite bpow_opp, two_pow in S.
      replace (/ 2 ^ 54) with d in S by (unfold d; simpl; lra). lra.
    - rewrite Rabs_pos_eq by (unfold r; lra). change (bpow radix2 (-1 - 1)) with (/ 4). change (bpow radix2 (-1)) with (/ 2). unfold r. lra. }
  split; [simpl; lra|reflexivity].
Qed.

(** ** Example: the hypotheses of the theorems hold for 0.29 and 100 rows *)
Example C86_hypotheses_met : finite_num f_29_percent /\ 0 < val f_29_percent < 1 /\ INR 100 < 2 ^ 53 /\ INR 100 <= 2 ^ 50.
Proof. destruct p29_spec as [F V]. split; [exact F|]. rewrite V. split; [lra|]. split; simpl; lra. Qed.
