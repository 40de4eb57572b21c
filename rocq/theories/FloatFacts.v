(** Properties C77, C78, C79: sums, checks and predictions in binary64. *)
From Coq Require Import ZArith List Bool Reals Lia Lra Psatz Permutation.
From Flocq Require Import Core.Core IEEE754.BinarySingleNaN Relative Plus_error.
From Verif Require Import Base Float FloatSpec FloatProofs.
Import ListNotations.
Open Scope R_scope.

Lemma one_minus_pow n : 1 - INR n * uu <= (1 - uu) ^ n.
Proof.
  pose proof uu_pos. pose proof uu_small. induction n as [|n IH]; [simpl; lra|]. rewrite S_INR. simpl. pose proof (pos_INR n).
  assert ((1 - uu) * (1 - INR n * uu) <= (1 - uu) * (1 - uu) ^ n) by (apply Rmult_le_compat_l; lra). nra.
Qed.
(** (1+u)^n - 1 <= n u / (1 - n u) *)
Lemma gam_bound n : INR n * uu < 1 -> (1 - INR n * uu) * gam n <= INR n * uu.
Proof.
  intros H. unfold gam. pose proof uu_pos. pose proof uu_small. pose proof (one_minus_pow n).
  assert (P : (1 - uu) ^ n * (1 + uu) ^ n <= 1).
  { rewrite <- Rpow_mult_distr. eapply Rle_trans; [apply (pow_incr _ 1 n); split; nra|rewrite pow1; lra]. }
  assert (0 < (1 + uu) ^ n) by (apply pow_lt; lra). nra.
Qed.

(** at most 2^52 terms: the growth is below 2, and below 2 n u *)
Lemma gam_few n : few n -> gam n <= 2 * (INR n * uu) /\ 1 + gam n <= 2.
Proof.
  intros H. assert (Q : INR n * uu <= / 2). { unfold uu. apply (Rmult_le_compat_r (/ 2 ^ 53)) in H; [|left; apply Rinv_0_lt_compat; apply pow_lt; lra]. eapply Rle_trans; [exact H|]. simpl. lra. }
  pose proof (gam_bound n ltac:(lra)). pose proof (gam_nonneg n). pose proof (pos_INR n). pose proof uu_pos. split; nra.
Qed.

Lemma err_mult x : exists e h, Rabs e <= uu /\ Rabs h <= bpow radix2 (-1075) /\ rnd x = x * (1 + e) + h.
Proof.
  destruct (error_N_FLT radix2 (3 - 1024 - 53) 53 (eq_refl) (fun z => negb (Z.even z)) x) as [e [h [He [Hh [_ E]]]]].
  exists e, h. split; [|split; [|exact E]].
  - eapply Rle_trans; [exact He|]. rewrite <- uu_bpow. simpl. lra.
  - eapply Rle_trans; [exact Hh|]. change (3 - 1024 - 53)%Z with (-1074)%Z. change (-1075)%Z with (-1074 + -1)%Z. rewrite bpow_plus. simpl (bpow radix2 (-1)). lra.
Qed.

Lemma few_le n m : (n <= m)%nat -> few m -> few n.
Proof. unfold few. intros L H. apply le_INR in L. lra. Qed.

Lemma room (l : list f64) k : (k <= length l)%nat -> few (length l) -> size l < 2 ^ 1023 -> (1 + gam k) * size l < bpow radix2 1024.
Proof.
  intros Lk F S. rewrite big_1024. generalize dependent (2 ^ 1023). intros big S. pose proof (size_nonneg l). destruct (gam_few _ (few_le _ _ Lk F)) as [_ G]. pose proof (gam_nonneg k).
  apply Rle_lt_trans with (2 * size l); [apply Rmult_le_compat_r; lra|lra].
Qed.

(** ** C77: a parallel sum in binary64 is finite and, whatever way rayon splits the range, within
    ((1+u)^(n-1) - 1) times the sum of the absolute values of the exact sum (u = 2^-53) *)
Lemma P_C77_parallel_sum_error :
  forall t, let l := ftree_items t in finite_all l -> few (length l) -> size l < 2 ^ 1023 ->
  finite_num (ftree_sum t) /\ Rabs (val (ftree_sum t) - total l) <= gam (length l - 1) * size l.
Proof. intros t l Fl Fw Sz. apply (ftree_spec t Fl). apply room; [unfold l in *; lia|exact Fw|exact Sz]. Qed.

Lemma total_perm l m : Permutation l m -> total l = total m /\ size l = size m.
Proof. intros P. split; unfold total, size; apply rsum_perm, Permutation_map, P. Qed.

(** ** C77: so two schedules, even over differently ordered items, cannot be further apart than twice that *)
Lemma P_C77_schedules_close :
  forall t1 t2, let l := ftree_items t1 in Permutation l (ftree_items t2) -> finite_all l -> few (length l) -> size l < 2 ^ 1023 ->
  Rabs (val (ftree_sum t1) - val (ftree_sum t2)) <= 2 * (gam (length l - 1) * size l).
Proof.
  intros t1 t2 l P Fl Fw Sz. destruct (P_C77_parallel_sum_error t1 Fl Fw Sz) as [_ E1]. fold l in E1.
  destruct (total_perm _ _ P) as [Et Es]. pose proof (Permutation_length P) as El.
  assert (F2 : finite_all (ftree_items t2)) by (intros x Hx; apply Fl; eapply Permutation_in; [apply Permutation_sym, P|exact Hx]).
  destruct (P_C77_parallel_sum_error t2 F2) as [_ E2]; [rewrite <- El; exact Fw|rewrite <- Es; exact Sz|]. rewrite <- El, <- Et, <- Es in E2.
  replace (val (ftree_sum t1) - val (ftree_sum t2)) with ((val (ftree_sum t1) - total l) + - (val (ftree_sum t2) - total l)) by ring.
  eapply Rle_trans; [apply Rabs_triang|]. rewrite Rabs_Ropp. lra.
Qed.

(** ** C77: equality of the schedules, which holds in exact arithmetic (C44), fails in binary64: the same three
    numbers in the same order *)
Definition f_half_ulp : f64 := binary_normalize 53 1024 eq_refl eq_refl mode_NE 1 (-53) false.
Lemma P_C77_schedules_may_differ :
  exists t1 t2, ftree_items t1 = ftree_items t2 /\ finite_all (ftree_items t1) /\ feq (ftree_sum t1) (ftree_sum t2) = false.
Proof.
  exists (FLeaf [f1; f_half_ulp; f_half_ulp]), (FNode (FLeaf [f1]) (FLeaf [f_half_ulp; f_half_ulp])).
  split; [reflexivity|]. split; [intros x [<-|[<-|[<-|[]]]]; reflexivity|]. vm_compute. reflexivity.
Qed.

(** products *)
Definition eta0 : R := bpow radix2 (-1075).
Lemma eta0_pos : 0 < eta0. Proof. apply bpow_gt_0. Qed.
Lemma eta0_small : eta0 <= / 2 ^ 100.
Proof. unfold eta0. replace (/ 2 ^ 100) with (bpow radix2 (-100)). - apply bpow_le. lia. - change (-100)%Z with (- Z.of_nat 100)%Z. rewrite bpow_opp, two_pow. reflexivity. Qed.

Lemma fmul_spec x y : fin x -> fin y -> Rabs (val x * val y) < 2 ^ 1023 ->
  fin (fmul x y) /\ Rabs (val (fmul x y) - val x * val y) <= uu * Rabs (val x * val y) + eta0.
Proof.
  intros Fx Fy Hb. destruct (err_mult (val x * val y)) as [e [h [He [Hh E]]]]. fold eta0 in Hh.
  assert (D : Rabs (rnd (val x * val y) - val x * val y) <= uu * Rabs (val x * val y) + eta0).
  { rewrite E. replace (val x * val y * (1 + e) + h - val x * val y) with (e * (val x * val y) + h) by ring. eapply Rle_trans; [apply Rabs_triang|]. rewrite Rabs_mult.
    apply Rplus_le_compat; [apply Rmult_le_compat_r; [apply Rabs_pos|exact He]|exact Hh]. }
  pose proof (Bmult_correct 53 1024 _ _ mode_NE x y) as C. rewrite Rlt_bool_true in C.
  - destruct C as [C1 [C2 _]]. unfold fmul. rewrite C1. split; [rewrite C2, Fx, Fy; reflexivity|exact D].
  - rewrite big_1024. set (p := val x * val y) in *. replace (rnd p) with (p + (rnd p - p)) by ring. eapply Rle_lt_trans; [apply Rabs_triang|].
    assert (B : 1 < 2 ^ 1023) by (apply Rlt_pow_R1; [lra|lia]). generalize dependent (2 ^ 1023). intros big Hb B. pose proof eta0_small. assert (S : / 2 ^ 100 <= / 4) by (simpl; lra).
    pose proof uu_small. pose proof uu_pos. pose proof (Rabs_pos p). nra.
Qed.

Lemma f_products_cons x a y b : f_products (x :: a) (y :: b) = fmul x y :: f_products a b. Proof. reflexivity. Qed.

Lemma products_spec a b : finite_all a -> finite_all b -> dot_size a b < 2 ^ 1023 ->
  finite_all (f_products a b) /\ Rabs (total (f_products a b) - dot_exact a b) <= uu * dot_size a b + INR (length (f_products a b)) * eta0
  /\ size (f_products a b) <= (1 + uu) * dot_size a b + INR (length (f_products a b)) * eta0.
Proof.
  revert b. induction a as [|x a IH]; intros b Fa Fb Hb.
  { unfold f_products, total, size, dot_exact, dot_size. simpl. split; [intros z []|]. rewrite Rminus_0_r, Rabs_R0. split; lra. }
  destruct b as [|y b].
  { unfold f_products, total, size, dot_exact, dot_size. simpl. split; [intros z []|]. rewrite Rminus_0_r, Rabs_R0. split; lra. }
  assert (Ed : dot_size (x :: a) (y :: b) = Rabs (val x * val y) + dot_size a b) by reflexivity.
  assert (Ee : dot_exact (x :: a) (y :: b) = val x * val y + dot_exact a b) by reflexivity.
  assert (Dn : 0 <= dot_size a b). { unfold dot_size. apply rsum_nonneg. intros z Hz. apply in_map_iff in Hz. destruct Hz as [q [<- _]]. apply Rabs_pos. }
  rewrite Ed in Hb. pose proof (Rabs_pos (val x * val y)) as Pp.
  destruct (IH b) as [I1 [I2 I3]]; [intros z Hz; apply Fa; right; exact Hz|intros z Hz; apply Fb; right; exact Hz|lra|].
  destruct (fmul_spec x y) as [M1 M2]; [apply Fa; left; reflexivity|apply Fb; left; reflexivity|lra|].
  rewrite f_products_cons. cbn [length]. rewrite S_INR, Ed, Ee. split; [|split].
  - intros z [<-|Hz]; [exact M1|apply I1, Hz].
  - unfold total in *. cbn [map rsum]. replace (val (fmul x y) + rsum (map val (f_products a b)) - (val x * val y + dot_exact a b)) with ((val (fmul x y) - val x * val y) + (rsum (map val (f_products a b)) - dot_exact a b)) by ring.
    eapply Rle_trans; [apply Rabs_triang|]. lra.
  - unfold size in *. cbn [map rsum]. assert (Rabs (val (fmul x y)) <= (1 + uu) * Rabs (val x * val y) + eta0).
    { replace (val (fmul x y)) with (val x * val y + (val (fmul x y) - val x * val y)) by ring. eapply Rle_trans; [apply Rabs_triang|]. lra. }
    lra.
Qed.

Lemma dot_size_nonneg a b : 0 <= dot_size a b.
Proof. unfold dot_size. apply rsum_nonneg. intros z Hz. apply in_map_iff in Hz. destruct Hz as [q [<- _]]. apply Rabs_pos. Qed.

Lemma few_eta n : few n -> INR n * eta0 <= / 2 ^ 40.
Proof.
  unfold few. intros F. pose proof eta0_small. pose proof eta0_pos. pose proof (pos_INR n).
  apply Rle_trans with (2 ^ 52 * / 2 ^ 100); [apply Rmult_le_compat; lra|]. simpl. lra.
Qed.

(** ** C77: the inner product (the edge of a hypothesis, the weighted sums of the boosters) in binary64, summed by any schedule *)
Lemma P_C77_inner_product_error :
  forall a b t, ftree_items t = f_products a b -> length a = length b -> finite_all a -> finite_all b -> few (length a) -> dot_size a b < 2 ^ 1022 ->
  finite_num (ftree_sum t) /\ Rabs (val (ftree_sum t) - dot_exact a b) <= gam (length a) * dot_size a b + INR (length a) * / 2 ^ 1074.
Proof.
  intros a b t Et Lab Fa Fb Fw Hd. destruct (Nat.eq_dec (length a) 0) as [Z|Nz].
  { assert (a = []) by (destruct a; [reflexivity|discriminate]). subst a. destruct (total_nil_zero t Et) as [F V]. split; [exact F|]. rewrite V. unfold dot_exact, dot_size. simpl. rewrite gam_0, Rminus_0_r, Rabs_R0. lra. }
  set (n := length a) in *.
  assert (Ln : length (f_products a b) = n) by (unfold f_products; rewrite map_length, combine_length; lia).
  assert (Pw : 2 ^ 1023 = 2 * 2 ^ 1022) by reflexivity. assert (P1 : 1 < 2 ^ 1022) by (apply Rlt_pow_R1; [lra|lia]).
  pose proof (dot_size_nonneg a b) as D0.
  assert (Hd' : dot_size a b < 2 ^ 1023) by (rewrite Pw; generalize dependent (2 ^ 1022); intros; lra).
  destruct (products_spec a b Fa Fb Hd') as [Fp [Ep Sp]]. rewrite Ln in Ep, Sp.
  pose proof (few_eta n Fw) as Fe. assert (S40 : / 2 ^ 40 <= / 4) by (simpl; lra). pose proof uu_small. pose proof uu_pos. pose proof eta0_pos. pose proof (pos_INR n).
  assert (Sz : size (f_products a b) < 2 ^ 1023) by (rewrite Pw; generalize dependent (2 ^ 1022); intros; nra).
  destruct (P_C77_parallel_sum_error t) as [R1 R2]; rewrite Et in *; [exact Fp|rewrite Ln; exact Fw|exact Sz|].
  split; [exact R1|]. rewrite Ln in R2.
  assert (E0 : / 2 ^ 1074 = 2 * eta0). { unfold eta0. change (-1075)%Z with (- Z.of_nat 1075)%Z. rewrite bpow_opp, two_pow. change (2 ^ 1075) with (2 * 2 ^ 1074). assert (NZ : 2 ^ 1074 <> 0) by (apply pow_nonzero; lra). generalize dependent (2 ^ 1074). intros q NZ. field. exact NZ. }
  rewrite E0. clear E0 Pw P1 Hd' Hd Sz. set (D := dot_size a b) in *. set (N := INR n * eta0) in *.
  assert (G : gam n * D = gam (n - 1) * ((1 + uu) * D) + uu * D \/ n = 0%nat).
  { destruct n as [|k]; [right; reflexivity|left]. replace (Datatypes.S k - 1)%nat with k by lia. rewrite gam_S. ring. }
  assert (Fk : few (n - 1)) by (apply (few_le _ n); [lia|exact Fw]). destruct (gam_few _ Fk) as [_ G2]. pose proof (gam_nonneg (n - 1)).
  replace (val (ftree_sum t) - dot_exact a b) with ((val (ftree_sum t) - total (f_products a b)) + (total (f_products a b) - dot_exact a b)) by ring.
  eapply Rle_trans; [apply Rabs_triang|].
  assert (N0 : 0 <= N) by (unfold N; apply Rmult_le_pos; lra).
  assert (T : gam (n - 1) * size (f_products a b) <= gam (n - 1) * ((1 + uu) * D + N)) by (apply Rmult_le_compat_l; [lra|exact Sp]).
  destruct G as [G|Z]; [|].
  - rewrite G. replace (INR n * (2 * eta0)) with (2 * N) by (unfold N; ring). nra.
  - exfalso. apply Nz. exact Z.
Qed.

(** ** C77: in particular for margins in [-1, 1] and weights that sum to at most 2: n terms cost at most n 2^-50 *)
Lemma P_C77_edge_error :
  forall margins dist t, ftree_items t = f_products margins dist -> length margins = length dist -> finite_all margins -> finite_all dist -> few (length margins) ->
  (forall m, In m margins -> Rabs (val m) <= 1) -> (forall d, In d dist -> 0 <= val d) -> total dist <= 2 ->
  finite_num (ftree_sum t) /\ Rabs (val (ftree_sum t) - dot_exact margins dist) <= INR (length margins) / 2 ^ 50.
Proof.
  intros a b t Et Lab Fa Fb Fw Hm Hd Hs.
  assert (D : dot_size a b <= total b).
  { clear - Lab Hm Hd. revert b Lab Hd. induction a as [|x a IH]; intros [|y b] L Hd; try discriminate; unfold dot_size, total in *; simpl; [lra|].
    apply Rplus_le_compat; [|apply IH; [intros m Hx; apply Hm; right; exact Hx|simpl in L; lia|intros d Hx; apply Hd; right; exact Hx]].
    rewrite Rabs_mult. rewrite (Rabs_pos_eq (val y)) by (apply Hd; left; reflexivity). pose proof (Hm x (or_introl eq_refl)). pose proof (Hd y (or_introl eq_refl)). nra. }
  assert (P1 : 2 < 2 ^ 1022) by (change (2 ^ 1022) with (2 * (2 * 2 ^ 1020)); assert (1 < 2 ^ 1020) by (apply Rlt_pow_R1; [lra|lia]); generalize dependent (2 ^ 1020); intros; lra).
  destruct (P_C77_inner_product_error a b t Et Lab Fa Fb Fw) as [R1 R2]; [eapply Rle_lt_trans; [exact D|]; eapply Rle_lt_trans; [exact Hs|exact P1]|].
  split; [exact R1|]. eapply Rle_trans; [exact R2|].
  destruct (gam_few _ Fw) as [G _]. pose proof (gam_nonneg (length a)). pose proof (dot_size_nonneg a b). set (n := INR (length a)) in *. assert (0 <= n) by apply pos_INR.
  assert (T : / 2 ^ 1074 <= / 2 ^ 100). { apply Rinv_le_contravar; [apply pow_lt; lra|]. apply Rle_pow; [lra|lia]. }
  assert (T2 : n * / 2 ^ 1074 <= n * / 2 ^ 100) by (apply Rmult_le_compat_l; [assumption|exact T]).
  apply Rle_trans with (2 * (n * uu) * 2 + n * / 2 ^ 100).
  - apply Rplus_le_compat; [|exact T2]. apply Rmult_le_compat; lra.
  - assert (uu = / 2 ^ 53) by reflexivity. rewrite H2. unfold Rdiv. assert (Q : 4 * / 2 ^ 53 + / 2 ^ 100 <= / 2 ^ 50) by (simpl; lra). nra.
Qed.

(** ** hypotheses met: three numbers, summed as 1 + (2^-53 + 2^-53) *)
Example C77_nonvacuous : let t := FNode (FLeaf [f1]) (FLeaf [f_half_ulp; f_half_ulp]) in
  finite_all (ftree_items t) /\ few (length (ftree_items t)) /\ length (ftree_items t) = 3%nat.
Proof. simpl. split; [intros x [<-|[<-|[<-|[]]]]; reflexivity|]. split; [unfold few; simpl; lra|reflexivity]. Qed.
