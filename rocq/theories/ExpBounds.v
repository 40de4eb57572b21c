(** Rational bounds for the exponential, checked by computation *)
From Coq Require Import ZArith Reals Lia Lra Factorial.
From Verif Require Import Base.
Open Scope R_scope.

(** fixed point: terms [P * (a/b)^k / k!] rounded down, or up *)
Fixpoint lo_term (P a b : Z) (k : nat) : Z := match k with O => P | S k' => lo_term P a b k' * a / (b * Z.of_nat (S k')) end%Z.
Fixpoint hi_term (P a b : Z) (k : nat) : Z := match k with O => P | S k' => hi_term P a b k' * a / (b * Z.of_nat (S k')) + 1 end%Z.
Fixpoint zsum (f : nat -> Z) (k : nat) : Z := match k with O => f O | S k' => zsum f k' + f (S k') end%Z.

Lemma div_low x y : (0 < y)%Z -> IZR (x / y) <= IZR x / IZR y.
Proof. intros H. assert (0 < IZR y) by (apply IZR_lt, H). apply Rmult_le_reg_r with (IZR y); [assumption|]. unfold Rdiv. rewrite Rmult_assoc, Rinv_l, Rmult_1_r by lra. rewrite <- mult_IZR. apply IZR_le. rewrite Z.mul_comm. apply Z.mul_div_le, H. Qed.
Lemma div_high x y : (0 < y)%Z -> IZR x / IZR y <= IZR (x / y + 1).
Proof. intros H. assert (0 < IZR y) by (apply IZR_lt, H). apply Rmult_le_reg_r with (IZR y); [assumption|]. unfold Rdiv. rewrite Rmult_assoc, Rinv_l, Rmult_1_r by lra. rewrite <- mult_IZR. apply IZR_le. pose proof (Z.mul_succ_div_gt x y H). lia. Qed.

Section Terms.
  Variables (P a b : Z).
  Hypothesis HP : (0 < P)%Z.
  Hypothesis Ha : (0 <= a)%Z.
  Hypothesis Hb : (0 < b)%Z.
  Local Notation q := (IZR a / IZR b).
  Lemma q_pos : 0 <= q. Proof. apply Rmult_le_pos; [apply IZR_le, Ha|left; apply Rinv_0_lt_compat, IZR_lt, Hb]. Qed.
  Lemma term_next k : / INR (fact (S k)) * q ^ S k = (/ INR (fact k) * q ^ k) * (IZR a / (IZR b * INR (S k))).
  Proof. change (fact (S k)) with (S k * fact k)%nat. rewrite mult_INR. change (q ^ S k) with (q * q ^ k). assert (INR (S k) <> 0) by (apply not_0_INR; lia). assert (IZR b <> 0) by (apply Rgt_not_eq, IZR_lt, Hb). pose proof (INR_fact_neq_0 k). field. auto. Qed.
  Lemma den_pos k : (0 < b * Z.of_nat (S k))%Z. Proof. apply Z.mul_pos_pos; lia. Qed.
  Lemma den_R k : IZR (b * Z.of_nat (S k)) = IZR b * INR (S k). Proof. rewrite mult_IZR, <- INR_IZR_INZ. reflexivity. Qed.
  Lemma fac_pos k : 0 <= IZR a / (IZR b * INR (S k)).
  Proof. apply Rmult_le_pos; [apply IZR_le, Ha|]. left. apply Rinv_0_lt_compat. rewrite <- den_R. apply IZR_lt, den_pos. Qed.
  Lemma lo_term_R k : IZR (lo_term P a b k) <= IZR P * (/ INR (fact k) * q ^ k).
  Proof.
    induction k as [|k IH]; [simpl; lra|]. cbn [lo_term]. eapply Rle_trans; [apply div_low, den_pos|]. rewrite mult_IZR, den_R, term_next. replace (IZR (lo_term P a b k) * IZR a / (IZR b * INR (S k))) with (IZR (lo_term P a b k) * (IZR a / (IZR b * INR (S k)))) by (unfold Rdiv; ring).
    rewrite <- Rmult_assoc. apply Rmult_le_compat_r; [apply fac_pos|exact IH].
  Qed.
  Lemma hi_term_R k : IZR P * (/ INR (fact k) * q ^ k) <= IZR (hi_term P a b k).
  Proof.
    induction k as [|k IH]; [simpl; lra|]. cbn [hi_term]. eapply Rle_trans; [|apply div_high, den_pos]. rewrite mult_IZR, den_R, term_next. replace (IZR (hi_term P a b k) * IZR a / (IZR b * INR (S k))) with (IZR (hi_term P a b k) * (IZR a / (IZR b * INR (S k)))) by (unfold Rdiv; ring).
    rewrite <- Rmult_assoc. apply Rmult_le_compat_r; [apply fac_pos|exact IH].
  Qed.
  Lemma lo_sum_R k : IZR (zsum (lo_term P a b) k) <= IZR P * sum_f_R0 (fun k => / INR (fact k) * q ^ k) k.
  Proof. induction k as [|k IH]; [simpl; lra|]. cbn [zsum sum_f_R0]. rewrite plus_IZR, Rmult_plus_distr_l. apply Rplus_le_compat; [exact IH|apply lo_term_R]. Qed.
  Lemma hi_sum_R k : IZR P * sum_f_R0 (fun k => / INR (fact k) * q ^ k) k <= IZR (zsum (hi_term P a b) k).
  Proof. induction k as [|k IH]; [simpl; lra|]. cbn [zsum sum_f_R0]. rewrite plus_IZR, Rmult_plus_distr_l. apply Rplus_le_compat; [exact IH|apply hi_term_R]. Qed.
End Terms.

Lemma exp_series y : infinite_sum (fun k => / INR (fact k) * y ^ k) (exp y).
Proof. unfold exp. destruct (exist_exp y) as [e H]. exact H. Qed.

Lemma series_ge f l n : infinite_sum f l -> (forall k, 0 <= f k) -> sum_f_R0 f n <= l.
Proof.
  intros H P. destruct (Rle_or_lt (sum_f_R0 f n) l) as [L|L]; [exact L|exfalso]. destruct (H (sum_f_R0 f n - l)) as [N HN]; [lra|]. specialize (HN (N + n)%nat ltac:(lia)).
  assert (Mo : forall k, sum_f_R0 f n <= sum_f_R0 f (k + n)) by (intros k; induction k as [|k IH]; [simpl; lra|]; cbn [Nat.add sum_f_R0]; specialize (P (S (k + n))); lra).
  specialize (Mo N). unfold R_dist in HN. rewrite Rabs_pos_eq in HN; lra.
Qed.
Lemma series_le f l n : infinite_sum f l -> (forall k, (n <= k)%nat -> 2 * f (S k) <= f k) -> (forall k, 0 <= f k) -> l <= sum_f_R0 f n + f n.
Proof.
  intros H P N0. destruct (Rle_or_lt l (sum_f_R0 f n + f n)) as [L|L]; [exact L|exfalso]. destruct (H (l - (sum_f_R0 f n + f n))) as [N HN]; [lra|]. specialize (HN (N + n)%nat ltac:(lia)).
  assert (Mo : forall k, sum_f_R0 f (k + n) + f (k + n)%nat <= sum_f_R0 f n + f n) by (intros k; induction k as [|k IH]; [simpl; lra|]; cbn [Nat.add sum_f_R0]; specialize (P (k + n)%nat ltac:(lia)); lra).
  specialize (Mo N). specialize (N0 (N + n)%nat). unfold R_dist in HN. rewrite Rabs_left in HN; lra.
Qed.

Lemma term_pos y k : 0 <= y -> 0 <= / INR (fact k) * y ^ k.
Proof. intros H. apply Rmult_le_pos; [left; apply Rinv_0_lt_compat, INR_fact_lt_0|apply pow_le, H]. Qed.

Lemma exp_lower_sum y n : 0 <= y -> sum_f_R0 (fun k => / INR (fact k) * y ^ k) n <= exp y.
Proof. intros H. apply series_ge; [apply exp_series|]. intros k. apply term_pos, H. Qed.
Lemma exp_upper_sum y n : (1 <= n)%nat -> 0 <= y <= 1 -> exp y <= sum_f_R0 (fun k => / INR (fact k) * y ^ k) n + / INR (fact n) * y ^ n.
Proof.
  intros Hn H. apply (series_le (fun k => / INR (fact k) * y ^ k)); [apply exp_series| |intros k; apply term_pos, H].
  intros k Hk. change (fact (S k)) with (S k * fact k)%nat. rewrite mult_INR, Rinv_mult. change (y ^ S k) with (y * y ^ k). pose proof (term_pos y k (proj1 H)) as T.
  assert (I : / INR (S k) <= / 2) by (apply Rinv_le_contravar; [lra|]; change 2 with (INR 2); apply le_INR; lia). assert (0 < / INR (S k)) by (apply Rinv_0_lt_compat, lt_0_INR; lia).
  replace (2 * (/ INR (S k) * / INR (fact k) * (y * y ^ k))) with ((2 * (/ INR (S k) * y)) * (/ INR (fact k) * y ^ k)) by ring.
  rewrite <- (Rmult_1_l (/ INR (fact k) * y ^ k)) at 2. apply Rmult_le_compat_r; [exact T|]. nra.
Qed.

(** the forms that are used: exp (a/b) against c/d, by computation with integers at scale 2^90 *)
Definition below_test (a b : Z) (n : nat) (c d : Z) : bool := ((zsum (hi_term (2 ^ 90) a b) n + hi_term (2 ^ 90) a b n) * d <=? c * 2 ^ 90)%Z.
Definition above_test (a b : Z) (n : nat) (c d : Z) : bool := (c * 2 ^ 90 <=? zsum (lo_term (2 ^ 90) a b) n * d)%Z.
Lemma exp_below a b n c d : (1 <= n)%nat -> (0 <= a <= b)%Z -> (0 < b)%Z -> (0 < d)%Z -> below_test a b n c d = true -> exp (IZR a / IZR b) <= IZR c / IZR d.
Proof.
  intros Hn [Ha Hab] Hb Hd H. apply Z.leb_le in H. apply IZR_le in H. rewrite !mult_IZR, plus_IZR in H. assert (B0 : 0 < IZR b) by (apply IZR_lt, Hb). assert (D0 : 0 < IZR d) by (apply IZR_lt, Hd).
  assert (Q : 0 <= IZR a / IZR b <= 1). { split; [apply q_pos; assumption|]. apply Rmult_le_reg_r with (IZR b); [exact B0|]. unfold Rdiv. rewrite Rmult_assoc, Rinv_l, Rmult_1_r, Rmult_1_l by lra. apply IZR_le, Hab. }
  assert (HP : (0 < 2 ^ 90)%Z) by reflexivity. pose proof (hi_sum_R (2 ^ 90) a b Ha Hb n) as S1. pose proof (hi_term_R (2 ^ 90) a b Ha Hb n) as S2.
  assert (P0 : 0 < IZR (2 ^ 90)) by (apply IZR_lt, HP). generalize dependent (IZR (2 ^ 90)). intros P H S1 S2 P0. pose proof (exp_upper_sum _ n Hn Q) as U.
  apply Rmult_le_reg_r with (IZR d); [exact D0|]. unfold Rdiv at 2. rewrite Rmult_assoc, Rinv_l, Rmult_1_r by lra. apply Rmult_le_reg_r with P; [exact P0|].
  eapply Rle_trans; [|exact H]. rewrite Rmult_assoc, (Rmult_comm (IZR d)), <- Rmult_assoc. apply Rmult_le_compat_r; [lra|]. apply (Rmult_le_compat_r P) in U; lra.
Qed.
Lemma exp_above a b n c d : (0 <= a)%Z -> (0 < b)%Z -> (0 < d)%Z -> above_test a b n c d = true -> IZR c / IZR d <= exp (IZR a / IZR b).
Proof.
  intros Ha Hb Hd H. apply Z.leb_le in H. apply IZR_le in H. rewrite !mult_IZR in H. assert (D0 : 0 < IZR d) by (apply IZR_lt, Hd).
  assert (HP : (0 < 2 ^ 90)%Z) by reflexivity. pose proof (lo_sum_R (2 ^ 90) a b Ha Hb n) as S1. assert (P0 : 0 < IZR (2 ^ 90)) by (apply IZR_lt, HP). generalize dependent (IZR (2 ^ 90)). intros P H S1 P0.
  pose proof (exp_lower_sum (IZR a / IZR b) n (q_pos a b Ha Hb)) as U.
  apply Rmult_le_reg_r with (IZR d); [exact D0|]. unfold Rdiv at 1. rewrite Rmult_assoc, Rinv_l, Rmult_1_r by lra. apply Rmult_le_reg_r with P; [exact P0|].
  eapply Rle_trans; [exact H|]. rewrite Rmult_assoc, (Rmult_comm (IZR d)), <- Rmult_assoc. apply Rmult_le_compat_r; [lra|]. apply (Rmult_le_compat_r P) in U; lra.
Qed.
