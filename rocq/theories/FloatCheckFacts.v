(** Property C78: the simplex check (common/checker.rs) in binary64. *)
From Coq Require Import ZArith List Bool Reals Lia Lra Psatz Permutation.
From Flocq Require Import Core.Core IEEE754.BinarySingleNaN Relative Plus_error.
From Verif Require Import Base Float FloatSpec FloatProofs FloatFacts.
Import ListNotations.
Open Scope R_scope.

Lemma normalize_exact m e : (Z.abs m < 2 ^ 53)%Z -> (-1074 <= e <= 0)%Z ->
  fin (binary_normalize 53 1024 eq_refl eq_refl mode_NE m e false) /\ val (binary_normalize 53 1024 eq_refl eq_refl mode_NE m e false) = IZR m * bpow radix2 e.
Proof.
  intros Hm He. pose proof (binary_normalize_correct 53 1024 eq_refl eq_refl mode_NE m e false) as C. cbv zeta in C.
  assert (G : generic_format radix2 (SpecFloat.fexp 53 1024) (F2R (Float radix2 m e))).
  { apply (generic_format_FLT radix2 (-1074) 53). exists (Float radix2 m e); [reflexivity|exact Hm|simpl; lia]. }
  rewrite round_generic in C by (try typeclasses eauto; exact G). rewrite Rlt_bool_true in C.
  - destruct C as [C1 [C2 _]]. split; [exact C2|]. rewrite C1. reflexivity.
  - unfold F2R. simpl Fnum. simpl Fexp. rewrite Rabs_mult, (Rabs_pos_eq (bpow radix2 e)) by apply bpow_ge_0. rewrite <- abs_IZR.
    apply Rle_lt_trans with (IZR (Z.abs m) * 1).
    + apply Rmult_le_compat_l; [apply IZR_le; lia|]. change 1 with (bpow radix2 0). apply bpow_le. lia.
    + rewrite Rmult_1_r. apply Rlt_trans with (IZR (2 ^ 53)); [apply IZR_lt, Hm|]. change (IZR (2 ^ 53)) with (bpow radix2 53). apply bpow_lt. lia.
Qed.

Lemma of_usize_spec n : INR n < 2 ^ 53 -> fin (f_of_usize n) /\ val (f_of_usize n) = INR n.
Proof.
  intros H. destruct (normalize_exact (Z.of_nat n) 0) as [F V]; [|lia|].
  - rewrite Z.abs_eq by lia. apply lt_IZR. rewrite <- INR_IZR_INZ. change (IZR (2 ^ 53)) with (bpow radix2 (Z.of_nat 53)). rewrite two_pow. exact H.
  - split; [exact F|]. unfold f_of_usize. rewrite V. simpl. rewrite Rmult_1_r. symmetry. apply INR_IZR_INZ.
Qed.
Lemma f1_spec : fin f1 /\ val f1 = 1.
Proof. destruct (of_usize_spec 1) as [F V]; [simpl; lra|]. split; [exact F|exact V]. Qed.

(** the tolerance is 1e-5, up to a relative 2^-53 *)
Lemma tol_spec : fin f_simplex_tol /\ 9999 / 10 ^ 9 < val f_simplex_tol < 10001 / 10 ^ 9.
Proof.
  destruct (normalize_exact 5902958103587057 (-69)) as [F V]; [vm_compute; reflexivity|lia|]. split; [exact F|]. unfold f_simplex_tol. rewrite V.
  change (-69)%Z with (- Z.of_nat 69)%Z. rewrite bpow_opp, two_pow. simpl. lra.
Qed.

Lemma fsub_spec x y : fin x -> fin y -> Rabs (val x - val y) * (1 + uu) < bpow radix2 1024 ->
  fin (fsub x y) /\ exists e, Rabs e <= uu /\ val (fsub x y) = (val x - val y) * (1 + e).
Proof.
  intros Fx Fy Hb.
  assert (Z : exists e, Rabs e <= uu /\ rnd (val x - val y) = (val x - val y) * (1 + e)).
  { destruct (rnd_add x (Bopp y)) as [e [He E]]. rewrite B2R_Bopp in E. exists e. split; [exact He|exact E]. }
  destruct Z as [e [He E]]. unfold fsub. pose proof (Bminus_correct 53 1024 _ _ mode_NE x y Fx Fy) as C. rewrite Rlt_bool_true in C.
  - destruct C as [C1 [C2 _]]. split; [exact C2|]. exists e. split; [exact He|]. rewrite C1. exact E.
  - rewrite E. rewrite Rabs_mult. eapply Rle_lt_trans; [|exact Hb]. apply Rmult_le_compat_l; [apply Rabs_pos|].
    eapply Rle_trans; [apply Rabs_triang|]. rewrite Rabs_R1. lra.
Qed.

Lemma fle_true x y : fin x -> fin y -> (fle x y = true <-> val x <= val y).
Proof. intros Fx Fy. unfold fle. rewrite Bleb_correct by assumption. case Rle_bool_spec; intros; split; intros; try reflexivity; try discriminate; try lra. Qed.
Lemma flt_true x y : fin x -> fin y -> (flt x y = true <-> val x < val y).
Proof. intros Fx Fy. unfold flt. rewrite Bltb_correct by assumption. case Rlt_bool_spec; intros; split; intros; try reflexivity; try discriminate; try lra. Qed.
Lemma fin_abs x : fin x -> fin (fabs x). Proof. intros F. unfold fabs. rewrite is_finite_Babs. exact F. Qed.

Lemma size_total l : (forall x, In x l -> 0 <= val x) -> size l = total l.
Proof. intros H. unfold size, total. apply rsum_map_ext. intros x Hx. apply Rabs_pos_eq, H, Hx. Qed.

(** the computed sum of at most 2^30 non-negative numbers *)
Lemma sum_close l : finite_all l -> (forall x, In x l -> 0 <= val x) -> INR (length l) <= 2 ^ 30 -> total l < 2 ^ 1023 ->
  fin (fsum l) /\ Rabs (val (fsum l) - total l) <= / 2 ^ 22 * total l.
Proof.
  intros Fl Hp Hn Ht. assert (Fw : few (length l)). { unfold few. eapply Rle_trans; [exact Hn|]. apply Rle_pow; [lra|lia]. }
  rewrite <- (size_total l Hp) in Ht |- *. destruct (P_C77_parallel_sum_error (FLeaf l) Fl Fw Ht) as [R1 R2]. cbn [ftree_items ftree_sum] in *. rewrite (size_total l Hp) in *.
  split; [exact R1|]. eapply Rle_trans; [exact R2|]. apply Rmult_le_compat_r. { rewrite <- (size_total l Hp). apply size_nonneg. }
  destruct (gam_few (length l - 1)) as [G _]; [apply (few_le _ (length l)); [lia|exact Fw]|]. eapply Rle_trans; [exact G|].
  apply Rle_trans with (2 * (2 ^ 30 * uu)).
  - apply Rmult_le_compat_l; [lra|]. apply Rmult_le_compat_r; [left; apply uu_pos|]. eapply Rle_trans; [|exact Hn]. apply le_INR. lia.
  - unfold uu. simpl. lra.
Qed.

Lemma big1023 : 4 < 2 ^ 1023. Proof. apply Rlt_le_trans with (2 ^ 3); [simpl; lra|]. apply Rle_pow; [lra|lia]. Qed.

(** the test on the sum, in both directions *)
Lemma sum_test l : finite_all l -> (forall x, In x l -> 0 <= val x) -> INR (length l) <= 2 ^ 30 -> total l < 2 ^ 1022 ->
  (Rabs (total l - 1) <= 9 / 10 ^ 6 -> flt (fabs (fsub (fsum l) f1)) f_simplex_tol = true) /\
  (11 / 10 ^ 6 <= Rabs (total l - 1) -> flt (fabs (fsub (fsum l) f1)) f_simplex_tol = false).
Proof.
  intros Fl Hp Hn Ht. destruct f1_spec as [F1 V1]. destruct tol_spec as [Ft [T1 T2]].
  assert (P1 : 1 < 2 ^ 1022) by (apply Rlt_pow_R1; [lra|lia]). assert (P2 : 2 ^ 1023 = 2 * 2 ^ 1022) by reflexivity.
  assert (T0 : 0 <= total l) by (rewrite <- (size_total l Hp); apply size_nonneg).
  destruct (sum_close l Fl Hp Hn) as [Fs Es]; [rewrite P2; generalize dependent (2 ^ 1022); intros; lra|].
  pose proof uu_pos as U1. pose proof uu_small as U2. assert (S22 : / 2 ^ 22 < 3 / 10 ^ 7) by (simpl; lra). assert (S22p : 0 < / 2 ^ 22) by (apply Rinv_0_lt_compat, pow_lt; lra).
  set (s := val (fsum l)) in *. set (T := total l) in *. set (k := / 2 ^ 22) in *.
  destruct (fsub_spec (fsum l) f1 Fs F1) as [Fd [e [He E]]].
  { rewrite V1. fold s. rewrite big_1024, P2. apply Rle_lt_trans with ((2 * T + 1) * (1 + uu)).
    - apply Rmult_le_compat_r; [lra|]. replace (s - 1) with ((s - T) + (T - 1)) by ring. eapply Rle_trans; [apply Rabs_triang|].
      assert (Rabs (T - 1) <= T + 1) by (apply Rabs_le; lra). nra.
    - generalize dependent (2 ^ 1022). intros; nra. }
  rewrite V1 in E. fold s in E.
  assert (Va : val (fabs (fsub (fsum l) f1)) = Rabs (s - 1) * Rabs (1 + e)) by (unfold fabs; rewrite B2R_Babs, E, Rabs_mult; reflexivity).
  assert (Fa := fin_abs _ Fd).
  assert (B1 : 1 - uu <= Rabs (1 + e) <= 1 + uu). { assert (- uu <= e <= uu) by (apply Rabs_le_inv; exact He). rewrite Rabs_pos_eq by lra. lra. }
  assert (D : Rabs (s - T) <= k * T) by exact Es. apply Rabs_le_inv in D. pose proof (Rabs_pos (s - 1)) as As. split; intros H.
  - apply flt_true; [exact Fa|exact Ft|]. rewrite Va. apply Rabs_le_inv in H.
    assert (kT : k * T <= 3 / 10 ^ 7 * (1 + 9 / 10 ^ 6)) by (apply Rmult_le_compat; lra).
    assert (Q : Rabs (s - 1) <= 9 / 10 ^ 6 + 3 / 10 ^ 7 * (1 + 9 / 10 ^ 6)) by (apply Rabs_le; lra).
    apply Rle_lt_trans with ((9 / 10 ^ 6 + 3 / 10 ^ 7 * (1 + 9 / 10 ^ 6)) * (1 + / 9007199254740992)); [apply Rmult_le_compat; lra|]. 
    lra.
  - apply Bool.not_true_iff_false. intros X. apply flt_true in X; [|exact Fa|exact Ft]. rewrite Va in X.
    assert (Q : 11 / 10 ^ 6 - 4 / 10 ^ 7 <= Rabs (s - 1)).
    { unfold Rabs in H at 1. destruct (Rcase_abs (T - 1)) as [N|P].
      - assert (s - 1 < 0) by nra. rewrite Rabs_left by assumption. nra.
      - assert (0 < s - 1) by nra. rewrite Rabs_pos_eq by lra. nra. }
    apply (Rmult_le_compat_r (1 - uu)) in Q; [|lra]. nra.
Qed.

Lemma fdiv_spec x y : fin x -> val y <> 0 -> Rabs (val x / val y) < 2 ^ 1023 -> fin (fdiv x y) /\ val (fdiv x y) = rnd (val x / val y).
Proof.
  intros Fx Ny Hb. destruct (err_mult (val x / val y)) as [e [h [He [Hh E]]]]. fold eta0 in Hh.
  pose proof (Bdiv_correct 53 1024 _ _ mode_NE x y Ny) as C. rewrite Rlt_bool_true in C.
  - destruct C as [C1 [C2 _]]. unfold fdiv. split; [rewrite C2; exact Fx|exact C1].
  - rewrite E, big_1024. set (p := val x / val y) in *. eapply Rle_lt_trans; [apply Rabs_triang|]. rewrite Rabs_mult.
    assert (Rabs (1 + e) <= 1 + uu) by (eapply Rle_trans; [apply Rabs_triang|]; rewrite Rabs_R1; lra).
    pose proof big1023 as B. generalize dependent (2 ^ 1023). intros big Hb B. pose proof eta0_small. assert (S : / 2 ^ 100 <= / 4) by (simpl; lra).
    pose proof uu_small. pose proof uu_pos. pose proof (Rabs_pos p). nra.
Qed.

Lemma rnd_mono x y : x <= y -> rnd x <= rnd y. Proof. apply round_le; typeclasses eauto. Qed.
Lemma rnd_val x : rnd (val x) = val x. Proof. apply round_generic; [typeclasses eauto|apply (generic_format_B2R 53 1024)]. Qed.

(** the cap 1.0 / nu *)
Lemma cap_spec nu : fin nu -> 1 <= val nu -> fin (fdiv f1 nu) /\ val (fdiv f1 nu) = rnd (/ val nu).
Proof.
  intros Fn Hn. destruct f1_spec as [F1 V1]. assert (I1 : 0 < / val nu <= 1) by (split; [apply Rinv_0_lt_compat; lra|rewrite <- Rinv_1; apply Rinv_le_contravar; lra]).
  destruct (fdiv_spec f1 nu F1) as [F V]; [lra| |].
  - rewrite V1. unfold Rdiv. rewrite Rmult_1_l, Rabs_pos_eq by lra. pose proof big1023. generalize dependent (2 ^ 1023). intros; lra.
  - rewrite V1 in V. unfold Rdiv in V. rewrite Rmult_1_l in V. split; assumption.
Qed.

Lemma pow30_53 : 2 ^ 30 < 2 ^ 53. Proof. apply Rlt_pow; [lra|lia]. Qed.
Lemma check_nu_ok nu n : fin nu -> 1 <= val nu <= INR n -> INR n <= 2 ^ 30 -> f_check_nu nu n = Ok tt.
Proof.
  intros Fn Hn Hs. pose proof pow30_53. destruct (of_usize_spec n) as [F V]; [lra|]. destruct f1_spec as [F1 V1]. unfold f_check_nu.
  rewrite (proj2 (fle_true f1 nu F1 Fn)) by lra. rewrite (proj2 (fle_true nu _ Fn F)) by lra. reflexivity.
Qed.

(** ** C78: a vector in the capped simplex, up to 9e-6 in the sum, passes the check in binary64 *)
Lemma P_C78_accepts :
  forall v nu, finite_all v -> finite_num nu -> INR (length v) <= 2 ^ 30 -> 1 <= val nu <= INR (length v) ->
  (forall x, In x v -> 0 <= val x <= / val nu) -> Rabs (total v - 1) <= 9 / 10 ^ 6 -> f_check_capped_simplex v nu = Ok tt.
Proof.
  intros v nu Fv Fn Hn Hnu Hx Hs. unfold f_check_capped_simplex. rewrite check_nu_ok by assumption. cbn [bind].
  assert (Hp : forall x, In x v -> 0 <= val x) by (intros x X; apply Hx, X).
  assert (Ht : total v < 2 ^ 1022). { apply Rabs_le_inv in Hs. apply Rlt_le_trans with (2 ^ 1); [simpl; lra|]. apply Rle_pow; [lra|lia]. }
  rewrite (proj1 (sum_test v Fv Hp Hn Ht) Hs). cbn [assert_ bind]. destruct (cap_spec nu Fn (proj1 Hnu)) as [Fc Vc].
  replace (forallb _ v) with true; [reflexivity|]. symmetry. apply forallb_forall. intros x X. apply andb_true_intro. destruct (Hx x X) as [X0 X1]. split.
  - apply fle_true; [apply fin_f0|apply Fv, X|]. rewrite val_f0. exact X0.
  - apply fle_true; [apply Fv, X|exact Fc|]. rewrite Vc, <- rnd_val. apply rnd_mono, X1.
Qed.

Lemma check_panics v nu : f_check_capped_simplex v nu <> Ok tt -> f_check_capped_simplex v nu = Panic AssertFailed.
Proof.
  unfold f_check_capped_simplex, f_check_nu, assert_, bind. destruct (fle f1 nu && fle nu (f_of_usize (length v))); [|reflexivity].
  destruct (flt _ f_simplex_tol); [|reflexivity]. destruct (forallb _ v); [intros H; exfalso; apply H; reflexivity|reflexivity].
Qed.

(** ** C78: it panics when the exact sum is off by 1.1e-5 *)
Lemma P_C78_rejects_sum :
  forall v nu, finite_all v -> INR (length v) <= 2 ^ 30 -> (forall x, In x v -> 0 <= val x) -> total v < 2 ^ 1022 -> 11 / 10 ^ 6 <= Rabs (total v - 1) ->
  f_check_capped_simplex v nu = Panic AssertFailed.
Proof.
  intros v nu Fv Hn Hp Ht Hs. apply check_panics. unfold f_check_capped_simplex. destruct (f_check_nu nu (length v)); [|discriminate]. cbn [bind].
  rewrite (proj2 (sum_test v Fv Hp Hn Ht) Hs). discriminate.
Qed.

(** ** C78: it panics when an entry is negative, or above 1/nu by more than two roundings *)
Lemma P_C78_rejects_entry :
  forall v nu x, In x v -> finite_num x -> finite_num nu -> 1 <= val nu <= 2 ^ 1000 ->
  (val x < 0 \/ / val nu * (1 + / 2 ^ 52) < val x) -> f_check_capped_simplex v nu = Panic AssertFailed.
Proof.
  intros v nu x Hx Fx Fn Hnu Hb. apply check_panics. unfold f_check_capped_simplex. destruct (f_check_nu nu (length v)); [|discriminate]. cbn [bind].
  destruct (flt _ f_simplex_tol); [|discriminate]. cbn [assert_ bind]. destruct (forallb _ v) eqn:E; [|discriminate]. intros _.
  rewrite forallb_forall in E. specialize (E x Hx). apply andb_prop in E. destruct E as [E1 E2]. destruct (cap_spec nu Fn (proj1 Hnu)) as [Fc Vc].
  apply fle_true in E1; [|apply fin_f0|exact Fx]. apply fle_true in E2; [|exact Fx|exact Fc]. rewrite val_f0 in E1. destruct Hb as [Hb|Hb]; [lra|].
  rewrite Vc in E2. set (p := / val nu) in *. assert (Pp : / 2 ^ 1000 <= p) by (unfold p; apply Rinv_le_contravar; lra). assert (P0 : 0 < / 2 ^ 1000) by (apply Rinv_0_lt_compat, pow_lt; lra).
  destruct (err_mult p) as [e [h [He [Hh Er]]]]. fold eta0 in Hh. apply Rabs_le_inv in He. apply Rabs_le_inv in Hh.
  assert (Et : eta0 <= / 2 ^ 53 * / 2 ^ 1000).
  { rewrite <- Rinv_mult. rewrite <- pow_add. replace (/ 2 ^ (53 + 1000)) with (bpow radix2 (-1053)). - unfold eta0. apply bpow_le. lia. - change (-1053)%Z with (- Z.of_nat (53 + 1000))%Z. rewrite bpow_opp, two_pow. reflexivity. }
  assert (Eu : uu = / 2 ^ 53) by reflexivity. assert (E52 : / 2 ^ 52 = 2 * / 2 ^ 53) by (simpl; lra). rewrite E52 in Hb. rewrite <- Eu in *. pose proof uu_pos.
  assert (Q : rnd p <= p * (1 + uu) + uu * p). { rewrite Er. assert (uu * / 2 ^ 1000 <= uu * p) by (apply Rmult_le_compat_l; lra). assert (p * (1 + e) <= p * (1 + uu)) by (apply Rmult_le_compat_l; lra). lra. }
  lra.
Qed.

Lemma total_repeat x n : total (repeat x n) = INR n * val x.
Proof. unfold total. induction n as [|n IH]; [simpl; lra|]. cbn [repeat map rsum]. rewrite IH, S_INR. ring. Qed.

(** ** C78: the uniform distribution 1/n as the boosters compute it passes, for every admissible capping parameter *)
Lemma P_C78_uniform :
  forall n nu, (1 <= n)%nat -> INR n <= 2 ^ 30 -> finite_num nu -> 1 <= val nu <= INR n ->
  f_check_capped_simplex (repeat (fdiv f1 (f_of_usize n)) n) nu = Ok tt.
Proof.
  intros n nu H1 Hn Fn Hnu. assert (N1 : 1 <= INR n) by (change 1 with (INR 1); apply le_INR, H1). pose proof pow30_53 as P. destruct (of_usize_spec n) as [Fo Vo]; [lra|].
  destruct (cap_spec (f_of_usize n) Fo ltac:(rewrite Vo; exact N1)) as [Fw Vw]. rewrite Vo in Vw. set (w := fdiv f1 (f_of_usize n)) in *.
  assert (I : 0 < / INR n <= 1) by (split; [apply Rinv_0_lt_compat; lra|rewrite <- Rinv_1; apply Rinv_le_contravar; lra]).
  destruct (err_mult (/ INR n)) as [e [h [He [Hh E]]]]. fold eta0 in Hh.
  assert (Bn : / 2 ^ 30 <= / INR n) by (apply Rinv_le_contravar; lra).
  assert (Et : eta0 <= / 2 ^ 100) by apply eta0_small. assert (S1 : / 2 ^ 100 <= / 2 ^ 40 * / 2 ^ 30) by (simpl; lra). pose proof uu_small as U. pose proof uu_pos as Up.
  apply Rabs_le_inv in He. apply Rabs_le_inv in Hh.
  unfold f_check_capped_simplex. rewrite repeat_length, check_nu_ok by assumption. cbn [bind].
  assert (Fv : finite_all (repeat w n)) by (intros x Hx; apply repeat_spec in Hx; subst x; exact Fw).
  assert (W0 : 0 <= val w). { rewrite Vw. rewrite <- (round_0 radix2 (SpecFloat.fexp 53 1024) (round_mode mode_NE)). apply rnd_mono. lra. }
  assert (Hp : forall x, In x (repeat w n) -> 0 <= val x) by (intros x Hx; apply repeat_spec in Hx; subst x; exact W0).
  assert (Hs : Rabs (total (repeat w n) - 1) <= 9 / 10 ^ 6).
  { rewrite total_repeat, Vw, E. replace (INR n * (/ INR n * (1 + e) + h) - 1) with (e + INR n * h) by (field; lra).
    assert (T2 : Rabs (INR n * h) <= 2 ^ 30 * / 2 ^ 100). { rewrite Rabs_mult, (Rabs_pos_eq (INR n)) by lra. apply Rmult_le_compat; try lra; [apply Rabs_pos|]. apply Rabs_le. lra. }
    eapply Rle_trans; [apply Rabs_triang|]. assert (Rabs e <= uu) by (apply Rabs_le; lra). assert (2 ^ 30 * / 2 ^ 100 <= / 10 ^ 6) by (simpl; lra). lra. }
  assert (Ht : total (repeat w n) < 2 ^ 1022). { apply Rabs_le_inv in Hs. apply Rlt_le_trans with (2 ^ 1); [simpl; lra|]. apply Rle_pow; [lra|lia]. }
  rewrite (proj1 (sum_test _ Fv Hp ltac:(rewrite repeat_length; exact Hn) Ht) Hs). cbn [assert_ bind]. destruct (cap_spec nu Fn (proj1 Hnu)) as [Fc Vc].
  replace (forallb _ (repeat w n)) with true; [reflexivity|]. symmetry. apply forallb_forall. intros x X. apply repeat_spec in X. subst x. apply andb_true_intro. split.
  - apply fle_true; [apply fin_f0|exact Fw|]. rewrite val_f0. exact W0.
  - apply fle_true; [exact Fw|exact Fc|]. rewrite Vc, Vw. apply rnd_mono. apply Rinv_le_contravar; lra.
Qed.

(** ** hypotheses met: the uniform distribution on three examples; a vector whose sum is 2 *)
Example C78_nonvacuous : f_check_capped_simplex (repeat (fdiv f1 (f_of_usize 3)) 3) f1 = Ok tt /\ f_check_capped_simplex [f1; f1] f1 = Panic AssertFailed.
Proof. vm_compute. split; reflexivity. Qed.
