(** Rounding error of the operations of Float.v *)
From Coq Require Import ZArith List Bool Reals Lia Lra Psatz.
From Flocq Require Import Core.Core IEEE754.BinarySingleNaN Relative Plus_error.
From Verif Require Import Base Float FloatSpec.
Import ListNotations.
Open Scope R_scope.

Notation fin x := (@is_finite 53 1024 x = true).
Notation rnd := (round radix2 (SpecFloat.fexp 53 1024) (round_mode mode_NE)).

Lemma two_pow n : bpow radix2 (Z.of_nat n) = 2 ^ n.
Proof. rewrite bpow_powerRZ, <- pow_powerRZ. reflexivity. Qed.
Lemma uu_bpow : bpow radix2 (-53) = uu.
Proof. unfold uu. change (-53)%Z with (- Z.of_nat 53)%Z. rewrite bpow_opp, two_pow. reflexivity. Qed.
Lemma uu_pos : 0 < uu. Proof. unfold uu. apply Rinv_0_lt_compat, pow_lt. lra. Qed.
Lemma uu_small : uu <= / 9007199254740992. Proof. unfold uu. simpl. lra. Qed.

Lemma format_val x : generic_format radix2 (FLT_exp (3 - 1024 - 53) 53) (val x).
Proof. apply (generic_format_B2R 53 1024). Qed.

Lemma rnd_add x y : exists e, Rabs e <= uu /\ rnd (val x + val y) = (val x + val y) * (1 + e).
Proof.
  destruct (FLT_plus_error_N_ex radix2 (3 - 1024 - 53) 53 (fun z => negb (Z.even z)) (val x) (val y) (format_val x) (format_val y)) as [e [He E]].
  exists e. split; [|exact E]. eapply Rle_trans; [exact He|]. unfold u_ro.
  assert (Q : / 2 * bpow radix2 (- (53) + 1) = uu) by (rewrite <- uu_bpow; simpl; lra). rewrite Q. pose proof uu_pos.
  unfold Rdiv. rewrite <- (Rmult_1_r uu) at 3. apply Rmult_le_compat_l; [lra|]. rewrite <- Rinv_1 at 2. apply Rinv_le_contravar; lra.
Qed.

Lemma big_1024 : bpow radix2 1024 = 2 * 2 ^ 1023.
Proof. change 1024%Z with (Z.of_nat 1024). rewrite two_pow. reflexivity. Qed.

Lemma fadd_spec x y : fin x -> fin y -> Rabs (val x + val y) * (1 + uu) < bpow radix2 1024 ->
  fin (fadd x y) /\ exists e, Rabs e <= uu /\ val (fadd x y) = (val x + val y) * (1 + e).
Proof.
  intros Fx Fy Hb. destruct (rnd_add x y) as [e [He E]]. unfold fadd.
  pose proof (Bplus_correct 53 1024 _ _ mode_NE x y Fx Fy) as C. rewrite Rlt_bool_true in C.
  - destruct C as [C1 [C2 _]]. split; [exact C2|]. exists e. split; [exact He|]. rewrite C1. exact E.
  - rewrite E. rewrite Rabs_mult. eapply Rle_lt_trans; [|exact Hb]. apply Rmult_le_compat_l; [apply Rabs_pos|].
    eapply Rle_trans; [apply Rabs_triang|]. rewrite Rabs_R1. lra.
Qed.

Lemma fadd_zero_r x y : fin x -> fin y -> val y = 0 -> fin (fadd x y) /\ val (fadd x y) = val x.
Proof.
  intros Fx Fy Hy. unfold fadd. pose proof (Bplus_correct 53 1024 _ _ mode_NE x y Fx Fy) as C. rewrite Hy, Rplus_0_r in C.
  rewrite round_generic in C by (try typeclasses eauto; apply (generic_format_B2R 53 1024)). rewrite Rlt_bool_true in C by (apply abs_B2R_lt_emax). tauto.
Qed.
Lemma fadd_zero_l x y : fin x -> fin y -> val x = 0 -> fin (fadd x y) /\ val (fadd x y) = val y.
Proof.
  intros Fx Fy Hy. unfold fadd. pose proof (Bplus_correct 53 1024 _ _ mode_NE x y Fx Fy) as C. rewrite Hy, Rplus_0_l in C.
  rewrite round_generic in C by (try typeclasses eauto; apply (generic_format_B2R 53 1024)). rewrite Rlt_bool_true in C by (apply abs_B2R_lt_emax). tauto.
Qed.

Lemma gam_0 : gam 0 = 0. Proof. unfold gam. simpl. ring. Qed.
Lemma gam_nonneg n : 0 <= gam n.
Proof. unfold gam. pose proof uu_pos. assert (1 <= (1 + uu) ^ n) by (apply pow_R1_Rle; lra). lra. Qed.
Lemma gam_le n m : (n <= m)%nat -> gam n <= gam m.
Proof. intros L. unfold gam. pose proof uu_pos. assert ((1 + uu) ^ n <= (1 + uu) ^ m) by (apply Rle_pow; [lra|exact L]). lra. Qed.
Lemma gam_S n : gam (S n) = (1 + gam n) * (1 + uu) - 1.
Proof. unfold gam. simpl. ring. Qed.

(** a value [s] that approximates the sum [S] of numbers of total size [A] with at most [k] roundings *)
Definition approx (k : nat) (s S A : R) : Prop := Rabs (s - S) <= gam k * A.

Lemma approx_le k m s S A : (k <= m)%nat -> 0 <= A -> approx k s S A -> approx m s S A.
Proof. unfold approx. intros L HA H. eapply Rle_trans; [exact H|]. apply Rmult_le_compat_r; [exact HA|apply gam_le, L]. Qed.

Lemma approx_size k s S A : Rabs S <= A -> approx k s S A -> Rabs s <= (1 + gam k) * A.
Proof. unfold approx. intros HS H. replace s with (S + (s - S)) by ring. eapply Rle_trans; [apply Rabs_triang|]. lra. Qed.

Lemma approx_add k s1 S1 A1 s2 S2 A2 e : Rabs S1 <= A1 -> Rabs S2 <= A2 -> approx k s1 S1 A1 -> approx k s2 S2 A2 -> Rabs e <= uu ->
  approx (S k) ((s1 + s2) * (1 + e)) (S1 + S2) (A1 + A2).
Proof.
  unfold approx. intros B1 B2 H1 H2 He. pose proof uu_pos. pose proof (gam_nonneg k).
  replace ((s1 + s2) * (1 + e) - (S1 + S2)) with ((1 + e) * ((s1 - S1) + (s2 - S2)) + e * (S1 + S2)) by ring.
  eapply Rle_trans; [apply Rabs_triang|]. rewrite !Rabs_mult.
  assert (Q1 : Rabs (1 + e) <= 1 + uu) by (eapply Rle_trans; [apply Rabs_triang|]; rewrite Rabs_R1; lra).
  assert (Q2 : Rabs (s1 - S1 + (s2 - S2)) <= gam k * (A1 + A2)) by (eapply Rle_trans; [apply Rabs_triang|]; lra).
  assert (Q3 : Rabs (S1 + S2) <= A1 + A2) by (eapply Rle_trans; [apply Rabs_triang|]; lra).
  assert (T1 : Rabs (1 + e) * Rabs (s1 - S1 + (s2 - S2)) <= (1 + uu) * (gam k * (A1 + A2))) by (apply Rmult_le_compat; auto using Rabs_pos).
  assert (T2 : Rabs e * Rabs (S1 + S2) <= uu * (A1 + A2)) by (apply Rmult_le_compat; auto using Rabs_pos).
  rewrite gam_S. lra.
Qed.

Lemma size_nonneg l : 0 <= size l.
Proof. unfold size. apply rsum_nonneg. intros x Hx. apply in_map_iff in Hx. destruct Hx as [y [<- _]]. apply Rabs_pos. Qed.
Lemma total_size l : Rabs (total l) <= size l.
Proof. induction l as [|x l IH]; unfold total, size in *; simpl; [rewrite Rabs_R0; lra|]. eapply Rle_trans; [apply Rabs_triang|]. lra. Qed.
Lemma total_app l m : total (l ++ m) = total l + total m. Proof. unfold total. rewrite map_app, rsum_app. reflexivity. Qed.
Lemma size_app l m : size (l ++ m) = size l + size m. Proof. unfold size. rewrite map_app, rsum_app. reflexivity. Qed.

Lemma fold_sum c : forall (a : f64) (k : nat) S A, fin a -> Rabs S <= A -> approx k (val a) S A -> finite_all c ->
  (1 + gam (k + length c)) * (A + size c) < bpow radix2 1024 ->
  fin (fold_left fadd c a) /\ approx (k + length c) (val (fold_left fadd c a)) (S + total c) (A + size c).
Proof.
  induction c as [|x c IH]; intros a k S A Fa HS Ha Fc Hb; cbn [fold_left length].
  - split; [exact Fa|]. unfold total, size. simpl. rewrite !Rplus_0_r, Nat.add_0_r. exact Ha.
  - assert (Fx : fin x) by (apply Fc; left; reflexivity). assert (HA : 0 <= A) by (eapply Rle_trans; [apply Rabs_pos|exact HS]).
    assert (Ex : size (x :: c) = Rabs (val x) + size c) by reflexivity. assert (Et : total (x :: c) = val x + total c) by reflexivity.
    pose proof (size_nonneg c) as Sc. pose proof uu_pos as Up. pose proof (Rabs_pos (val x)) as Px. cbn [length] in Hb. rewrite Ex in Hb.
    assert (Bd : Rabs (val a + val x) * (1 + uu) < bpow radix2 1024).
    { eapply Rle_lt_trans; [|exact Hb]. pose proof (approx_size _ _ _ _ HS Ha) as Sz. pose proof (gam_nonneg k) as Gk.
      assert (G1 : (1 + gam k) * (1 + uu) <= 1 + gam (k + Datatypes.S (length c))) by (replace ((1 + gam k) * (1 + uu)) with (1 + gam (Datatypes.S k)) by (rewrite gam_S; ring); apply Rplus_le_compat_l, gam_le; lia).
      assert (Rabs (val a + val x) <= (1 + gam k) * (A + Rabs (val x))) by (eapply Rle_trans; [apply Rabs_triang|]; nra).
      apply Rle_trans with ((1 + gam k) * (A + Rabs (val x)) * (1 + uu)); [apply Rmult_le_compat_r; lra|].
      replace ((1 + gam k) * (A + Rabs (val x)) * (1 + uu)) with ((1 + gam k) * (1 + uu) * (A + Rabs (val x))) by ring. apply Rmult_le_compat; try lra. apply Rmult_le_pos; lra. }
    destruct (fadd_spec a x Fa Fx Bd) as [Ff [e [He E]]].
    assert (Ap : approx (Datatypes.S k) (val (fadd a x)) (S + val x) (A + Rabs (val x))).
    { rewrite E. apply approx_add; auto; try lra. unfold approx. rewrite Rminus_diag_eq, Rabs_R0 by reflexivity. apply Rmult_le_pos; [apply gam_nonneg|apply Rabs_pos]. }
    destruct (IH (fadd a x) (Datatypes.S k) (S + val x) (A + Rabs (val x)) Ff) as [R1 R2]; auto.
    + eapply Rle_trans; [apply Rabs_triang|]. lra.
    + intros z Hz. apply Fc. right; exact Hz.
    + rewrite Nat.add_succ_comm. rewrite Rplus_assoc. exact Hb.
    + split; [exact R1|]. rewrite Ex, Et, <- Nat.add_succ_comm, <- !Rplus_assoc. exact R2.
Qed.

Lemma val_f0 : val f0 = 0. Proof. reflexivity. Qed.
Lemma fin_f0 : fin f0. Proof. reflexivity. Qed.

Lemma fsum_spec c : finite_all c -> (1 + gam (length c - 1)) * size c < bpow radix2 1024 ->
  fin (fsum c) /\ approx (length c - 1) (val (fsum c)) (total c) (size c).
Proof.
  intros Fc Hb. unfold fsum. destruct c as [|x c].
  - simpl. split; [reflexivity|]. unfold approx, total, size. simpl. rewrite Rminus_0_r, Rabs_R0. rewrite Rmult_0_r. lra.
  - cbn [fold_left]. assert (Fx : fin x) by (apply Fc; left; reflexivity). destruct (fadd_zero_l f0 x fin_f0 Fx val_f0) as [F1 E1].
    replace (length (x :: c) - 1)%nat with (length c) in * by (cbn [length]; lia).
    destruct (fold_sum c (fadd f0 x) 0 (val x) (Rabs (val x)) F1) as [R1 R2].
    + apply Rle_refl.
    + unfold approx. rewrite E1, Rminus_diag_eq, Rabs_R0, gam_0 by reflexivity. lra.
    + intros z Hz. apply Fc. right; exact Hz.
    + simpl Nat.add. change (size (x :: c)) with (Rabs (val x) + size c) in Hb. exact Hb.
    + split; [exact R1|exact R2].
Qed.

Lemma total_nil_zero t : ftree_items t = [] -> fin (ftree_sum t) /\ val (ftree_sum t) = 0.
Proof.
  induction t as [c|l IHl r IHr]; simpl; intros E.
  - subst c. split; reflexivity.
  - apply app_eq_nil in E. destruct E as [E1 E2]. destruct (IHl E1) as [F1 V1]. destruct (IHr E2) as [F2 V2].
    destruct (fadd_zero_r _ _ F1 F2 V2) as [F V]. split; [exact F|]. rewrite V. exact V1.
Qed.

Lemma ftree_spec t : finite_all (ftree_items t) -> (1 + gam (length (ftree_items t) - 1)) * size (ftree_items t) < bpow radix2 1024 ->
  fin (ftree_sum t) /\ approx (length (ftree_items t) - 1) (val (ftree_sum t)) (total (ftree_items t)) (size (ftree_items t)).
Proof.
  induction t as [c|l IHl r IHr]; simpl; intros Fc Hb; [apply fsum_spec; assumption|].
  set (a := ftree_items l) in *. set (b := ftree_items r) in *. rewrite app_length, total_app, size_app in *.
  assert (Fa : finite_all a) by (intros z Hz; apply Fc, in_or_app; left; exact Hz). assert (Fb : finite_all b) by (intros z Hz; apply Fc, in_or_app; right; exact Hz).
  pose proof (size_nonneg a) as Sa. pose proof (size_nonneg b) as Sb.
  assert (Ba : (1 + gam (length a - 1)) * size a < bpow radix2 1024).
  { eapply Rle_lt_trans; [|exact Hb]. pose proof (gam_nonneg (length a - 1)). apply Rmult_le_compat; try lra. apply Rplus_le_compat_l, gam_le. lia. }
  assert (Bb : (1 + gam (length b - 1)) * size b < bpow radix2 1024).
  { eapply Rle_lt_trans; [|exact Hb]. pose proof (gam_nonneg (length b - 1)). apply Rmult_le_compat; try lra. apply Rplus_le_compat_l, gam_le. lia. }
  destruct (IHl Fa Ba) as [F1 A1]. destruct (IHr Fb Bb) as [F2 A2].
  destruct (Nat.eq_dec (length a) 0) as [Za|Na].
  { assert (a = []) by (destruct a; [reflexivity|discriminate]). destruct (total_nil_zero l H) as [_ V]. destruct (fadd_zero_l _ _ F1 F2 V) as [F E]. split; [exact F|].
    rewrite E. rewrite H. cbn [length Nat.add]. unfold total at 1, size at 1. simpl. rewrite !Rplus_0_l. exact A2. }
  destruct (Nat.eq_dec (length b) 0) as [Zb|Nb].
  { assert (b = []) by (destruct b; [reflexivity|discriminate]). destruct (total_nil_zero r H) as [_ V]. destruct (fadd_zero_r _ _ F1 F2 V) as [F E]. split; [exact F|].
    rewrite E. rewrite H. cbn [length]. rewrite Nat.add_0_r. unfold total at 2, size at 2. simpl. rewrite !Rplus_0_r. exact A1. }
  set (k := (Nat.max (length a) (length b) - 1)%nat). assert (Hk : (Datatypes.S k <= length a + length b - 1)%nat) by (unfold k; lia).
  assert (K1 : (length a - 1 <= k)%nat) by (unfold k; lia). assert (K2 : (length b - 1 <= k)%nat) by (unfold k; lia).
  pose proof (approx_le _ k _ _ _ K1 Sa A1) as A1'. pose proof (approx_le _ k _ _ _ K2 Sb A2) as A2'.
  assert (Bd : Rabs (val (ftree_sum l) + val (ftree_sum r)) * (1 + uu) < bpow radix2 1024).
  { eapply Rle_lt_trans; [|exact Hb]. pose proof (approx_size _ _ _ _ (total_size a) A1') as Z1. pose proof (approx_size _ _ _ _ (total_size b) A2') as Z2. pose proof uu_pos.
    apply Rle_trans with ((1 + gam k) * (size a + size b) * (1 + uu)).
    - apply Rmult_le_compat_r; [lra|]. eapply Rle_trans; [apply Rabs_triang|]. lra.
    - replace ((1 + gam k) * (size a + size b) * (1 + uu)) with ((1 + gam (Datatypes.S k)) * (size a + size b)) by (rewrite gam_S; ring). apply Rmult_le_compat_r; [lra|]. apply Rplus_le_compat_l, gam_le. exact Hk. }
  destruct (fadd_spec _ _ F1 F2 Bd) as [F [e [He E]]]. split; [exact F|]. rewrite E.
  apply (approx_le (Datatypes.S k)); [exact Hk|lra|]. apply approx_add; auto using total_size.
Qed.
