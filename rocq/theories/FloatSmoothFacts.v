(** Property C98: SmoothBoost in binary64. *)
From Coq Require Import ZArith List Bool Reals Lia Lra Psatz Permutation.
From Flocq Require Import Core.Core IEEE754.BinarySingleNaN.
From Verif Require Import Base Float FloatSpec FloatProofs FloatFacts FloatCheckFacts FloatVoteFacts FloatProjectProofs FloatEdge FloatEdgeSpec FloatEdgeFacts FloatMedian FloatMedianFacts FloatProjectFacts FloatAdaSpec FloatAdaRun FloatAdaFacts FloatBoostSpec FloatBoostFacts FloatSmooth FloatSmoothSpec.
Import ListNotations.
Open Scope R_scope.

Lemma nth_zip (F : f64 -> f64 -> f64) (a b : list f64) j : length a = length b -> (j < length a)%nat -> nth j (map (fun q => F (fst q) (snd q)) (combine a b)) f0 = F (nth j a f0) (nth j b f0).
Proof.
  intros L H. rewrite nth_indep with (d' := (fun q => F (fst q) (snd q)) (f0, f0)) by (rewrite map_length, combine_length; unfold f64 in *; lia).
  pose proof (map_nth (fun q => F (fst q) (snd q)) (combine a b) (f0, f0) j) as E. rewrite combine_nth in E by exact L. exact E.
Qed.
Lemma nth_mapf (F : f64 -> f64) (a : list f64) j : (j < length a)%nat -> nth j (map F a) f0 = F (nth j a f0).
Proof. intros H. rewrite nth_indep with (d' := F f0) by (rewrite map_length; exact H). apply map_nth. Qed.

Section Params.
  Variables (kappa gamma : f64).
  Hypothesis Acc : accepted kappa gamma.
  Lemma params : fin gamma /\ 0 <= val gamma < / 2 /\ fin kappa /\ 0 < val kappa < 1.
  Proof.
    destruct Acc as [A B]. unfold f_sb_set_gamma in A. unfold f_sb_check in B. destruct half_spec as [Fh Vh]. destruct f1_spec as [F1 V1].
    destruct (andb (fle f0 gamma) (flt gamma f_half)) eqn:E1; [|discriminate]. apply andb_prop in E1. destruct E1 as [G1 G2].
    destruct (negb _) eqn:E2 in B; [|discriminate]. apply negb_true_iff, orb_false_iff in E2. destruct E2 as [E2 E3]. apply negb_false_iff, andb_prop in E2. destruct E2 as [K1 K2].
    assert (FG : fin gamma). { destruct gamma as [| [] | |]; try reflexivity; discriminate. }
    assert (FK : fin kappa). { destruct kappa as [| [] | |]; try reflexivity; discriminate. }
    apply (fle_true f0 gamma eq_refl FG) in G1. apply (flt_true gamma f_half FG Fh) in G2. apply (fle_true f0 kappa eq_refl FK) in K1. apply (flt_true kappa f1 FK F1) in K2. rewrite val_f0 in *. rewrite Vh in G2. rewrite V1 in K2.
    split; [exact FG|]. split; [split; assumption|]. split; [exact FK|]. split; [|exact K2]. destruct (Rle_lt_dec (val kappa) 0) as [L|L]; [|exact L]. exfalso. assert (fle kappa f0 = true) by (apply (fle_true kappa f0 FK eq_refl); rewrite val_f0; exact L). congruence.
  Qed.
  Lemma theta_ok : fin (f_sb_theta gamma) /\ Rabs (val (f_sb_theta gamma) - theta_of gamma) <= 3 * uu /\ 0 <= theta_of gamma <= 1 / 5 /\ 0 <= val (f_sb_theta gamma) <= 1 / 4.
  Proof.
    destruct params as [FG [HG _]]. destruct (of_usize_spec 2) as [F2 V2]; [apply Rlt_pow with (n := 1%nat) (m := 53%nat) in Rlt_1_2 || idtac; simpl; lra|]. change (INR 2) with (1 + 1) in V2. unfold f_sb_theta, theta_of.
    assert (P1000 : 4 <= 2 ^ 1000) by (apply Rle_trans with (2 ^ 2); [simpl; lra|apply Rle_pow; [lra|lia]]).
    destruct (fadd_rnd (f_of_usize 2) gamma F2 FG) as [Fa [_ [e1 [He1 E1]]]]; [rewrite V2, Rabs_pos_eq by lra; lra|]. rewrite V2 in E1. set (a := fadd (f_of_usize 2) gamma) in *. set (g := val gamma) in *.
    pose proof uu_pos as U0. assert (US : uu <= / 1000) by (unfold uu; simpl; lra). assert (He1' := He1). apply Rabs_le_inv in He1'.
    assert (Pa : 3 / 2 <= val a). { rewrite E1. assert (2 * (1 - uu) <= (1 + 1 + g) * (1 + e1)) by (apply Rmult_le_compat; lra). lra. }
    assert (Q0 : 0 <= g / val a <= 1 / 3). { split; [apply Rmult_le_pos; [lra|left; apply Rinv_0_lt_compat; lra]|]. apply Rdiv_le_iff; lra. }
    destruct (fdiv_spec gamma a FG) as [Fd Vd]; [lra|fold g; rewrite Rabs_pos_eq by lra; pose proof big1023; lra|]. fold g in Vd. destruct (err_mult (g / val a)) as [e2 [h2 [He2 [Hh2 E2]]]]. fold eta0 in Hh2.
    assert (HE : eta0 <= uu / 100) by (pose proof eta0_small; unfold uu; assert (/ 2 ^ 100 <= / 2 ^ 53 / 100) by (simpl; lra); lra). assert (He2' := He2). apply Rabs_le_inv in He2'. apply Rabs_le_inv in Hh2.
    assert (TG : 0 <= g / (2 + g) <= 1 / 5) by (split; [apply Rmult_le_pos; [lra|left; apply Rinv_0_lt_compat; lra]|apply Rdiv_le_iff; lra]).
    assert (D1 : Rabs (g / val a - g / (2 + g)) <= uu / 2).
    { assert (EQ : g / val a = g / (2 + g) * / (1 + e1)) by (rewrite E1; field; lra). rewrite EQ. replace (g / (2 + g) * / (1 + e1) - g / (2 + g)) with (g / (2 + g) * - (e1 * / (1 + e1))) by (field; lra). rewrite Rabs_mult, Rabs_Ropp, Rabs_mult, (Rabs_pos_eq (g / (2 + g))) by lra.
      assert (I1 : Rabs (/ (1 + e1)) <= 2) by (rewrite Rabs_pos_eq by (left; apply Rinv_0_lt_compat; lra); rewrite <- (Rinv_inv 2); apply Rinv_le_contravar; lra).
      assert (I2 : Rabs e1 * Rabs (/ (1 + e1)) <= uu * 2) by (apply Rmult_le_compat; try apply Rabs_pos; assumption). assert (g / (2 + g) * (Rabs e1 * Rabs (/ (1 + e1))) <= 1 / 5 * (uu * 2)) by (apply Rmult_le_compat; [lra|apply Rmult_le_pos; apply Rabs_pos|lra|exact I2]). lra. }
    apply Rabs_le_inv in D1. assert (D2 : - (uu / 2) <= g / val a * e2 <= uu / 2) by (assert (Q : Rabs (g / val a * e2) <= 1 / 3 * uu) by (rewrite Rabs_mult, (Rabs_pos_eq (g / val a)) by lra; apply Rmult_le_compat; try apply Rabs_pos; lra); apply Rabs_le_inv in Q; lra).
    split; [exact Fd|]. rewrite Vd. assert (DD : Rabs (rnd (g / val a) - g / (2 + g)) <= 3 * uu) by (rewrite E2; apply Rabs_le; lra). split; [exact DD|]. split; [exact TG|]. split.
    - pose proof (rnd_val f0) as R0. rewrite val_f0 in R0. rewrite <- R0 at 1. apply rnd_mono. lra.
    - apply Rabs_le_inv in DD. lra.
  Qed.
  Lemma base_ok : fin (fsub f1 gamma) /\ / 2 <= val (fsub f1 gamma) <= 1.
  Proof.
    destruct params as [FG [HG _]]. destruct f1_spec as [F1 V1]. destruct half_spec as [Fh Vh]. assert (P1000 : 4 <= 2 ^ 1000) by (apply Rle_trans with (2 ^ 2); [simpl; lra|apply Rle_pow; [lra|lia]]).
    destruct (fsub_rnd f1 gamma F1 FG) as [Fs [Vs _]]; [rewrite V1, Rabs_pos_eq by lra; lra|]. split; [exact Fs|]. rewrite Vs, V1. pose proof (rnd_val f1) as R1. rewrite V1 in R1. pose proof (rnd_val f_half) as Rh. rewrite Vh in Rh. split; [apply Rle_trans with (rnd (/ 2)); [rewrite Rh; lra|apply rnd_mono; lra]|apply Rle_trans with (rnd 1); [apply rnd_mono; lra|rewrite R1; lra]].
  Qed.
End Params.

(** one step of the book-keeping *)
Lemma step_err (x yh th : f64) (E c t : R) (T : nat) : fin x -> fin yh -> fin th -> Rabs (val yh) <= 1 -> val yh = c -> Rabs (val th - t) <= 3 * uu -> 0 <= val th <= 1 / 4 -> 0 <= t <= 1 / 4 ->
  INR T <= 2 ^ 24 -> Rabs E <= 1 + 2 * INR T -> Rabs (val x - E) <= slack T -> 
  fin (fsub (fadd x yh) th) /\ Rabs (val (fsub (fadd x yh) th) - (E + c - t)) <= slack (S T).
Proof.
  intros Fx Fy Ft By Ec Dt Ht Ht' HT HE Dx. pose proof uu_pos as U0. assert (SE : slack T <= / 2). { unfold slack. rewrite plus_INR, !mult_INR. replace (INR 2) with 2 by (simpl; lra). replace (INR 9) with 9 by (simpl; lra). pose proof (pos_INR T). assert (INR T * INR T <= 2 ^ 24 * 2 ^ 24) by (apply Rmult_le_compat; lra).
    apply Rle_trans with ((2 * (2 ^ 24 * 2 ^ 24) + 9 * 2 ^ 24) * uu); [apply Rmult_le_compat_r; lra|unfold uu; simpl; lra]. }
  assert (ST : slack (S T) = slack T + (4 * INR T + 11) * uu). { unfold slack. replace (2 * S T * S T + 9 * S T)%nat with (2 * T * T + 9 * T + (4 * T + 11))%nat by lia. rewrite (plus_INR (2 * T * T + 9 * T)), (plus_INR (4 * T)), mult_INR. replace (INR 4) with 4 by (simpl; lra). replace (INR 11) with 11 by (simpl; lra). ring. }
  assert (T0 := pos_INR T). assert (S20 : 2 ^ 24 = 16777216) by (simpl; lra). assert (HE' := HE). apply Rabs_le_inv in HE'. assert (Dx' := Dx). apply Rabs_le_inv in Dx'. apply Rabs_le_inv in By. assert (US : uu <= / 2 ^ 40) by (unfold uu; simpl; lra). assert (S40 : / 2 ^ 40 = / 1099511627776) by (simpl; lra). rewrite S40 in US.
  assert (P1000 : 2 ^ 30 <= 2 ^ 1000) by (apply Rle_pow; [lra|lia]). assert (S30 : 2 ^ 30 = 1073741824) by (simpl; lra).
  set (X := val x) in *. set (Y := val yh) in *. assert (B1 : Rabs (X + Y) <= 3 + 2 * INR T) by (apply Rabs_le; lra).
  destruct (fadd_rnd x yh Fx Fy) as [Fa [_ [e1 [He1 E1]]]]; [fold X Y; lra|]. fold X Y in E1. set (a := fadd x yh) in *. assert (He1' := He1). apply Rabs_le_inv in He1'.
  assert (D1 : Rabs ((X + Y) * e1) <= (3 + 2 * INR T) * uu) by (rewrite Rabs_mult; apply Rmult_le_compat; try apply Rabs_pos; assumption). apply Rabs_le_inv in D1. apply Rabs_le_inv in B1.
  assert (NU : 0 <= (3 + 2 * INR T) * uu <= / 2). { split; [apply Rmult_le_pos; lra|]. apply Rle_trans with ((3 + 2 * 16777216) * / 1099511627776); [apply Rmult_le_compat; lra|lra]. }
  assert (B2 : Rabs (val a - val th) <= 4 + 2 * INR T). { apply Rabs_le. change (val a) with (B2R a). rewrite E1. lra. }
  destruct (fsub_rnd a th Fa Ft) as [Fs [_ [e2 [He2 E2]]]]; [lra|]. split; [exact Fs|].
  assert (D2 : Rabs ((val a - val th) * e2) <= (4 + 2 * INR T) * uu) by (rewrite Rabs_mult; apply Rmult_le_compat; try apply Rabs_pos; assumption). apply Rabs_le_inv in D2. apply Rabs_le_inv in Dt.
  assert (EV : val (fsub a th) = X + Y + (X + Y) * e1 - val th + (val a - val th) * e2) by (rewrite E2, E1; ring). rewrite EV, ST. rewrite <- Ec. fold Y. apply Rabs_le. lra.
Qed.

(** a sequential sum is at least the number of entries that are 1 *)
Lemma sum_count l : forall acc k j, (forall x, In x l -> fin x /\ 0 <= val x <= 1) -> fin acc -> INR k <= val acc <= 2 * INR j -> INR (k + length l) <= 2 ^ 30 -> INR (j + length l) <= 2 ^ 30 ->
  fin (fold_left fadd l acc) /\ INR (k + length (filter (fun x => if Rle_dec 1 (val x) then true else false) l)) <= val (fold_left fadd l acc).
Proof.
  induction l as [|x l IH]; intros acc k j Hl Fa Ha Hk Hj; cbn [fold_left filter length]; [split; [exact Fa|rewrite Nat.add_0_r; apply Ha]|].
  destruct (Hl x (or_introl eq_refl)) as [Fx Hx]. cbn [length] in Hk, Hj. assert (Hk' : INR (S k + length l) <= 2 ^ 30) by (replace (S k + length l)%nat with (k + S (length l))%nat by lia; exact Hk). assert (Hj' : INR (S j + length l) <= 2 ^ 30) by (replace (S j + length l)%nat with (j + S (length l))%nat by lia; exact Hj).
  assert (KB : INR (S k) <= 2 ^ 30) by (eapply Rle_trans; [apply le_INR|exact Hk']; lia). assert (JB : INR (S j) <= 2 ^ 30) by (eapply Rle_trans; [apply le_INR|exact Hj']; lia). rewrite S_INR in JB. assert (S30 : 2 ^ 30 = 1073741824) by (simpl; lra). pose proof (pos_INR k) as K0.
  assert (P1000 : 2 ^ 40 <= 2 ^ 1000) by (apply Rle_pow; [lra|lia]). assert (S40 : 2 ^ 40 = 1099511627776) by (simpl; lra).
  destruct (fadd_rnd acc x Fa Fx) as [Fs [Vs [e [He Ee]]]]; [rewrite Rabs_pos_eq by lra; lra|].
  assert (UP : val (fadd acc x) <= 2 * INR (S j)). { rewrite Ee, S_INR. apply Rabs_le_inv in He. assert (US : uu <= / 1099511627776) by (unfold uu; simpl; lra). pose proof uu_pos. assert ((val acc + val x) * e <= (2 * INR j + 1) * / 1099511627776) by (apply Rle_trans with ((val acc + val x) * uu); [apply Rmult_le_compat_l; lra|apply Rmult_le_compat; lra]). lra. }
  assert (MON : forall q, INR q <= 2 ^ 30 -> INR q <= val acc + val x -> INR q <= val (fadd acc x)). { intros q Hq Le. rewrite Vs. destruct (of_usize_spec q) as [Fq Vq]; [eapply Rle_lt_trans; [exact Hq|apply Rlt_pow; [lra|lia]]|]. pose proof (rnd_val (f_of_usize q)) as Rq. rewrite Vq in Rq. rewrite <- Rq. apply rnd_mono, Le. }
  destruct (Rle_dec 1 (val x)) as [G|G]; cbn [length].
  - replace (k + S (length (filter (fun x => if Rle_dec 1 (val x) then true else false) l)))%nat with (S k + length (filter (fun x => if Rle_dec 1 (val x) then true else false) l))%nat by lia.
    apply (IH (fadd acc x) (S k) (S j)); [intros z Hz; apply Hl; right; exact Hz|exact Fs| |exact Hk'|exact Hj']. split; [|exact UP]. apply MON; [exact KB|]. rewrite S_INR. lra.
  - apply (IH (fadd acc x) k (S j)); [intros z Hz; apply Hl; right; exact Hz|exact Fs| |eapply Rle_trans; [apply le_INR|exact Hk]; lia|exact Hj']. split; [|exact UP]. apply MON; [rewrite S_INR in KB; lra|lra].
Qed.

(** the book-keeping never overflows *)
Definition f_big : f64 := binary_normalize 53 1024 eq_refl eq_refl mode_NE 1 55 false.
Definition f_mbig : f64 := binary_normalize 53 1024 eq_refl eq_refl mode_NE (-1) 55 false.
Lemma big_spec : fin f_big /\ val f_big = 2 ^ 55 /\ fin f_mbig /\ val f_mbig = - 2 ^ 55.
Proof.
  assert (V1 : val f_big = 2 ^ 55). { rewrite <- two_pow. unfold f_big. pose proof (binary_normalize_correct 53 1024 eq_refl eq_refl mode_NE 1 55 false) as C. cbv zeta in C.
    assert (E : F2R (Float radix2 1 55) = bpow radix2 55) by (unfold F2R; simpl Fnum; simpl Fexp; ring). rewrite E in C.
    assert (G : generic_format radix2 (SpecFloat.fexp 53 1024) (bpow radix2 55)) by (apply generic_format_bpow; vm_compute; discriminate).
    rewrite round_generic in C by (try typeclasses eauto; exact G). rewrite Rlt_bool_true in C; [apply C|]. rewrite Rabs_pos_eq by apply bpow_ge_0. apply bpow_lt. reflexivity. }
  assert (E2 : f_mbig = Bopp f_big) by (apply B2SF_inj; vm_compute; reflexivity). split; [vm_compute; reflexivity|]. split; [exact V1|]. split; [vm_compute; reflexivity|]. rewrite E2, B2R_Bopp. f_equal. exact V1.
Qed.
Lemma rnd_big : rnd (2 ^ 55 + 1) = 2 ^ 55 /\ rnd (- 2 ^ 55 - 1) = - 2 ^ 55.
Proof.
  destruct big_spec as [Fb [Vb [Fm Vm]]]. destruct f1_spec as [F1 V1]. assert (P : 2 ^ 55 + 1 <= 2 ^ 1000) by (apply Rle_trans with (2 ^ 56); [simpl; lra|apply Rle_pow; [lra|lia]]). assert (P0 : 0 < 2 ^ 55) by (apply pow_lt; lra).
  assert (A1 : fadd f_big f1 = f_big) by (apply B2SF_inj; vm_compute; reflexivity). assert (A2 : fsub f_mbig f1 = f_mbig) by (apply B2SF_inj; vm_compute; reflexivity).
  destruct (fadd_rnd f_big f1 Fb F1) as [_ [Q _]]; [rewrite Vb, V1, Rabs_pos_eq by lra; exact P|]. destruct (fsub_rnd f_mbig f1 Fm F1) as [_ [Q2 _]]; [rewrite Vm, V1, Rabs_left by lra; lra|].
  rewrite A1, Vb, V1 in Q. rewrite A2, Vm, V1 in Q2. split; symmetry; assumption.
Qed.
Lemma step_fin (x yh th : f64) : fin x -> fin yh -> fin th -> Rabs (val yh) <= 1 -> 0 <= val th <= 1 / 4 -> Rabs (val x) <= 2 ^ 55 -> fin (fsub (fadd x yh) th) /\ Rabs (val (fsub (fadd x yh) th)) <= 2 ^ 55.
Proof.
  intros Fx Fy Ft By Ht Bx. destruct rnd_big as [R1 R2]. assert (P : 2 ^ 55 + 1 <= 2 ^ 1000) by (apply Rle_trans with (2 ^ 56); [simpl; lra|apply Rle_pow; [lra|lia]]). apply Rabs_le_inv in By. apply Rabs_le_inv in Bx.
  destruct (fadd_rnd x yh Fx Fy) as [Fa [Va _]]; [apply Rabs_le; lra|]. assert (Ba : - 2 ^ 55 <= val (fadd x yh) <= 2 ^ 55). { rewrite Va. split; [apply Rle_trans with (rnd (- 2 ^ 55 - 1)); [rewrite R2; apply Rle_refl|apply rnd_mono; lra]|apply Rle_trans with (rnd (2 ^ 55 + 1)); [apply rnd_mono; lra|rewrite R1; apply Rle_refl]]. }
  destruct (fsub_rnd (fadd x yh) th Fa Ft) as [Fs [Vs _]]; [apply Rabs_le; lra|]. split; [exact Fs|]. apply Rabs_le. rewrite Vs. split; [apply Rle_trans with (rnd (- 2 ^ 55 - 1)); [rewrite R2; apply Rle_refl|apply rnd_mono; lra]|apply Rle_trans with (rnd (2 ^ 55 + 1)); [apply rnd_mono; lra|rewrite R1; apply Rle_refl]].
Qed.

Section Run.
  Variables (fpow : f64 -> f64 -> f64) (kappa gamma : f64) (y : list f64).
  Local Notation N := (length y).
  Hypothesis Hpow : proper_pow fpow.
  Hypothesis Acc : accepted kappa gamma.
  Hypothesis Ly : forall x, In x y -> f_label x.
  Hypothesis N1 : (1 <= N)%nat.
  Local Notation run := (f_sb_run fpow bounded_conf kappa gamma y).

  Lemma weight_ok (x : f64) : fin x -> Rabs (val x) <= 2 ^ 55 -> fin (f_sb_weight fpow gamma x) /\ 0 <= val (f_sb_weight fpow gamma x) <= 1 /\ (val x <= 0 -> val (f_sb_weight fpow gamma x) = 1).
  Proof.
    intros Fx Bx. unfold f_sb_weight. destruct f1_spec as [F1 V1]. destruct (fle x f0) eqn:E.
    - rewrite V1. split; [exact F1|]. split; [lra|reflexivity].
    - assert (P : 0 < val x). { destruct (Rle_lt_dec (val x) 0) as [L|L]; [|exact L]. exfalso. assert (fle x f0 = true) by (apply (fle_true x f0 Fx eq_refl); rewrite val_f0; exact L). congruence. }
      destruct (base_ok kappa gamma Acc) as [Fb Bb]. destruct half_spec as [Fh Vh]. rewrite Rabs_pos_eq in Bx by lra. assert (P1 : 2 ^ 55 < 2 ^ 1023) by (apply Rlt_pow; [lra|lia]).
      destruct (fmul_spec x f_half Fx Fh) as [Fm Dm]; [rewrite Vh, Rabs_pos_eq by lra; lra|]. rewrite Vh in Dm. rewrite (Rabs_pos_eq (val x * / 2)) in Dm by lra.
      assert (VM : val (fmul x f_half) = rnd (val x * / 2)). { pose proof (Bmult_correct 53 1024 _ _ mode_NE x f_half) as C. rewrite Rlt_bool_true in C; [destruct C as [C _]; unfold fmul; rewrite C, Vh; reflexivity|]. rewrite Vh. apply Rle_lt_trans with (Rabs (val (fmul x f_half))); [|apply abs_B2R_lt_emax].
        unfold fmul. pose proof (Bmult_correct 53 1024 _ _ mode_NE x f_half) as C'. destruct (Rlt_bool _ _) in C'; [destruct C' as [C' _]; rewrite C', Vh; apply Rle_refl|]. exfalso. unfold fmul in Fm. destruct (Bmult mode_NE x f_half); try discriminate; cbn in C'; destruct (xorb _ _) in C'; discriminate. }
      destruct (Hpow (fsub f1 gamma) (fmul x f_half) Fb Fm Bb) as [Fp Bp].
      + rewrite VM. pose proof (rnd_val f0) as R0. rewrite val_f0 in R0. split; [rewrite <- R0 at 1; apply rnd_mono; lra|]. rewrite <- VM. apply Rabs_le_inv in Dm. pose proof eta0_small. assert (/ 2 ^ 100 <= 1) by (simpl; lra). assert (uu * (val x * / 2) <= 1 * (val x * / 2)) by (apply Rmult_le_compat_r; [lra|unfold uu; simpl; lra]). assert (2 ^ 55 + 1 <= 2 ^ 60) by (simpl; lra). lra.
      + split; [exact Fp|]. split; [exact Bp|]. intros; lra.
  Qed.

  Definition sound (m n : list f64) : Prop := length m = N /\ length n = N /\ (forall j, (j < N)%nat -> fin (nth j n f0) /\ Rabs (val (nth j n f0)) <= 2 ^ 55 /\
    fin (nth j m f0) /\ 0 <= val (nth j m f0) <= 1 /\ (val (nth j n f0) <= 0 -> val (nth j m f0) = 1)).

  Lemma moved_len n conf : length n = N -> length conf = N -> length (f_sb_moved (f_sb_theta gamma) n (f_margins y conf)) = N.
  Proof. intros Ln Lc. unfold f_sb_moved. rewrite map_length, combine_length, (margins_len y N1 conf Lc). unfold f64 in *. lia. Qed.
  Lemma moved_nth n conf j : length n = N -> length conf = N -> (j < N)%nat ->
    nth j (f_sb_moved (f_sb_theta gamma) n (f_margins y conf)) f0 = fsub (fadd (nth j n f0) (nth j (f_margins y conf) f0)) (f_sb_theta gamma).
  Proof. intros Ln Lc Hj. unfold f_sb_moved. apply (nth_zip (fun a b => fsub (fadd a b) (f_sb_theta gamma))); [rewrite (margins_len y N1 conf Lc); exact Ln|unfold f64 in *; lia]. Qed.

  Lemma run_sound hist m n : run hist m n -> sound m n.
  Proof.
    intros H. induction H as [|hist m n conf H IH St Lc Bc n'].
    - destruct f1_spec as [F1 V1]. split; [apply repeat_length|]. split; [apply repeat_length|]. intros j Hj. assert (E : nth j (repeat f1 N) f0 = f1) by (rewrite nth_indep with (d' := f1) by (rewrite repeat_length; exact Hj); apply nth_repeat). rewrite E, V1. assert (1 <= 2 ^ 55) by (simpl; lra). rewrite Rabs_R1. split; [exact F1|]. split; [assumption|]. split; [exact F1|]. split; [lra|]. intros; lra.
    - destruct IH as [Lm [Ln Hj]]. assert (Ln' : length n' = N) by (apply moved_len; assumption). split; [rewrite map_length; exact Ln'|]. split; [exact Ln'|]. intros j L. destruct (Hj j L) as [Fn [Bn _]]. destruct (margin_nth y Ly N1 conf j Lc Bc L) as [Fm [_ Bm]]. destruct (theta_ok kappa gamma Acc) as [Ft [_ [_ Bt]]].
      destruct (step_fin _ _ _ Fn Fm Ft Bm Bt Bn) as [Fs Bs]. assert (E : nth j n' f0 = fsub (fadd (nth j n f0) (nth j (f_margins y conf) f0)) (f_sb_theta gamma)) by (apply moved_nth; assumption).
      rewrite nth_mapf by (unfold f64 in *; lia). rewrite E. split; [exact Fs|]. split; [exact Bs|]. apply weight_ok; assumption.
  Qed.

  Lemma margin_total_snoc hist conf j : margin_total y (hist ++ [conf]) j = margin_total y hist j + val (nth j y f0) * val (nth j conf f0).
  Proof. unfold margin_total. rewrite map_app, rsum_app. cbn [map rsum]. ring. Qed.

  Lemma run_near hist m n : run hist m n -> INR (length hist) <= 2 ^ 24 -> forall j, (j < N)%nat ->
    Rabs (1 + margin_total y hist j - INR (length hist) * theta_of gamma) <= 1 + 2 * INR (length hist) /\
    Rabs (val (nth j n f0) - (1 + margin_total y hist j - INR (length hist) * theta_of gamma)) <= slack (length hist).
  Proof.
    intros H. induction H as [|hist m n conf H IH St Lc Bc n']; intros HT j L.
    - destruct f1_spec as [F1 V1]. assert (E : nth j (repeat f1 N) f0 = f1) by (rewrite nth_indep with (d' := f1) by (rewrite repeat_length; exact L); apply nth_repeat). rewrite E, V1. unfold margin_total, slack. cbn [length map rsum INR Nat.mul Nat.add]. replace (1 + 0 - 0 * theta_of gamma) with 1 by ring. rewrite Rminus_diag_eq by reflexivity. rewrite Rabs_R1, Rabs_R0. lra.
    - rewrite app_length in HT |- *. cbn [length] in HT |- *. rewrite Nat.add_1_r in HT |- *. assert (HT' : INR (length hist) <= 2 ^ 24) by (eapply Rle_trans; [apply le_INR|exact HT]; lia). destruct (IH HT' j L) as [I1 I2].
      destruct (run_sound hist m n H) as [Lm [Ln Hj]]. destruct (Hj j L) as [Fn _]. destruct (margin_nth y Ly N1 conf j Lc Bc L) as [Fm [Vm Bm]]. destruct (theta_ok kappa gamma Acc) as [Ft [Dt [Bt' Bt]]].
      rewrite margin_total_snoc, S_INR. assert (EN : nth j n' f0 = fsub (fadd (nth j n f0) (nth j (f_margins y conf) f0)) (f_sb_theta gamma)) by (apply moved_nth; assumption). rewrite EN. clear EN. set (E := 1 + margin_total y hist j - INR (length hist) * theta_of gamma) in *. set (c := val (nth j y f0) * val (nth j conf f0)) in *.
      replace (1 + (margin_total y hist j + c) - (INR (length hist) + 1) * theta_of gamma) with (E + c - theta_of gamma) by (unfold E; ring). rewrite Vm in Bm. split.
      + apply Rabs_le_inv in I1. assert (Bm' := Bm). apply Rabs_le_inv in Bm'. apply Rabs_le. lra.
      + apply (step_err (nth j n f0) (nth j (f_margins y conf) f0) (f_sb_theta gamma) E c (theta_of gamma) (length hist)); try assumption; try lra. rewrite Vm. exact Bm.
  Qed.
End Run.

Lemma total_div (S : f64) (m : list f64) : 0 < val S -> (forall x, In x m -> Rabs (val (fdiv x S) - val x / val S) <= uu * (val x / val S) + eta0) ->
  Rabs (total (map (fun x => fdiv x S) m) - total m / val S) <= uu * (total m / val S) + INR (length m) * eta0.
Proof.
  intros P. unfold total. induction m as [|x m IH]; intros H; cbn [map rsum length].
  - unfold Rdiv. rewrite Rmult_0_l, Rminus_0_r, Rabs_R0. simpl INR. lra.
  - assert (H1 := H x (or_introl eq_refl)). assert (H2 := IH (fun z Hz => H z (or_intror Hz))). rewrite S_INR. apply Rabs_le_inv in H1. apply Rabs_le_inv in H2. set (A := rsum (map B2R m)) in *. set (B := rsum (map B2R (map (fun x0 => fdiv x0 S) m))) in *.
    replace ((B2R x + A) / B2R S) with (B2R x / B2R S + A / B2R S) by (unfold Rdiv; ring). apply Rabs_le. lra.
Qed.

Lemma uu_eta : eta0 <= uu * / 2 ^ 900.
Proof. unfold eta0, uu. rewrite <- !two_pow, <- !bpow_opp, <- bpow_plus. apply bpow_le. lia. Qed.

(** ** C98: the distribution handed to the weak learner: the rounds that go on use a distribution (up to rounding) none of whose entries exceeds 1/(kappa n) *)
Lemma P_C98_queries :
  forall fpow kappa gamma y hist m n, proper_pow fpow -> accepted kappa gamma -> / 2 ^ 900 <= val kappa -> (forall x, In x y -> f_label x) -> (1 <= length y)%nat -> INR (length y) <= 2 ^ 30 ->
  f_sb_run fpow bounded_conf kappa gamma y hist m n -> f_sb_stop kappa m = false ->
  let d := f_sb_dist m in length d = length y /\ (forall x, In x d -> finite_num x /\ 0 <= val x <= (1 + / 2 ^ 50) / (val kappa * INR (length y))) /\ Rabs (total d - 1) <= / 2 ^ 20.
Proof.
  intros fpow kappa gamma y hist m n Hp Acc HK Ly N1 Hn H St d. destruct (run_sound fpow kappa gamma y Hp Acc Ly N1 hist m n H) as [Lm [Ln Hj]]. destruct (params kappa gamma Acc) as [_ [_ [FK K01]]].
  assert (Hm : forall x, In x m -> fin x /\ 0 <= val x <= 1). { intros x Hx. destruct (In_nth m x f0 Hx) as [j [Lj <-]]. rewrite Lm in Lj. destruct (Hj j Lj) as [_ [_ [A [B _]]]]. split; assumption. }
  assert (NN1 : 1 <= INR (length y)) by (apply (le_INR 1), N1). set (NN := INR (length y)) in *. set (K := val kappa) in *. assert (PK0 : 0 < / 2 ^ 900) by (apply Rinv_0_lt_compat, pow_lt; lra).
  assert (TM : total m <= NN). { unfold NN. rewrite <- Lm. unfold total. clear - Hm. induction m as [|x m IH]; cbn [map rsum length]; [simpl; lra|]. rewrite S_INR. pose proof (proj2 (Hm x (or_introl eq_refl))). assert (rsum (map B2R m) <= INR (length m)) by (apply IH; intros z Hz; apply Hm; right; exact Hz). lra. }
  assert (T0 : 0 <= total m) by (apply rsum_nonneg; intros z Hz; apply in_map_iff in Hz; destruct Hz as [x [<- Hx]]; apply Hm, Hx).
  assert (P1 : 2 ^ 30 < 2 ^ 1023) by (apply Rlt_pow; [lra|lia]). assert (P2 : 2 ^ 30 < 2 ^ 53) by (apply Rlt_pow; [lra|lia]).
  destruct (sum_close m) as [FS DS]; [intros x Hx; apply Hm, Hx|intros x Hx; apply Hm, Hx|rewrite Lm; exact Hn|lra|]. set (S := fsum m) in *.
  destruct (of_usize_spec (length y)) as [Fn Vn]; [fold NN; lra|]. fold NN in Vn. assert (NK : 0 < NN * K <= NN) by (split; [apply Rmult_lt_0_compat; lra|rewrite <- (Rmult_1_r NN) at 2; apply Rmult_le_compat_l; lra]).
  destruct (fmul_spec (f_of_usize (length y)) kappa Fn FK) as [Fm Dm]; [rewrite Vn; fold K; rewrite Rabs_pos_eq by lra; lra|]. rewrite Vn in Dm. fold K in Dm. rewrite (Rabs_pos_eq (NN * K)) in Dm by lra.
  pose proof uu_eta as UE. pose proof uu_pos as U0. assert (US : uu <= / 2 ^ 52) by (unfold uu; simpl; lra). assert (S52 : / 2 ^ 52 = / 4503599627370496) by (simpl; lra). rewrite S52 in US. assert (S50 : / 2 ^ 50 = / 1125899906842624) by (simpl; lra).
  assert (KN : K <= NN * K) by (rewrite <- (Rmult_1_l K) at 1; apply Rmult_le_compat_r; lra). assert (UE' : eta0 <= uu * (NN * K)) by (eapply Rle_trans; [exact UE|apply Rmult_le_compat_l; lra]).
  assert (SB : NN * K * (1 - 2 * uu) <= val S). { unfold f_sb_stop in St. fold S in St. rewrite Lm in St. destruct (Rlt_le_dec (val S) (val (fmul (f_of_usize (length y)) kappa))) as [L|L]; [apply (flt_true S _ FS Fm) in L; congruence|]. eapply Rle_trans; [|exact L]. apply Rabs_le_inv in Dm. lra. }
  assert (SP : 0 < val S) by (eapply Rlt_le_trans; [|exact SB]; apply Rmult_lt_0_compat; lra).
  assert (QB : forall x, In x m -> 0 <= val x / val S <= (1 + 3 * uu) / (K * NN)). { intros x Hx. destruct (Hm x Hx) as [_ Bx]. split; [apply Rmult_le_pos; [lra|left; apply Rinv_0_lt_compat, SP]|]. apply Rdiv_le_iff; [exact SP|].
    apply Rle_trans with ((1 + 3 * uu) / (K * NN) * (NN * K * (1 - 2 * uu))).
    - replace ((1 + 3 * uu) / (K * NN) * (NN * K * (1 - 2 * uu))) with ((1 + 3 * uu) * (1 - 2 * uu)) by (field; split; lra). assert (uu * uu <= / 4503599627370496 * uu) by (apply Rmult_le_compat_r; lra). lra.
    - apply Rmult_le_compat_l; [|exact SB]. apply Rmult_le_pos; [lra|left; apply Rinv_0_lt_compat; rewrite Rmult_comm; lra]. }
  assert (KN0 : 0 < K * NN) by (rewrite Rmult_comm; lra). assert (P900 : 0 < 2 ^ 900) by (apply pow_lt; lra). set (I := / (K * NN)).
  assert (IB : / 2 ^ 30 <= I <= 2 ^ 900). { unfold I. split; [apply Rinv_le_contravar; [exact KN0|rewrite Rmult_comm; lra]|]. rewrite <- (Rinv_inv (2 ^ 900)). apply Rinv_le_contravar; [exact PK0|]. rewrite Rmult_comm. lra. }
  assert (PE : eta0 <= uu * I). { eapply Rle_trans; [exact UE|]. apply Rmult_le_compat_l; [lra|]. apply Rle_trans with (/ 2 ^ 30); [|apply IB]. apply Rinv_le_contravar; [apply pow_lt; lra|apply Rle_pow; [lra|lia]]. }
  assert (I0 : 0 < I) by (apply Rinv_0_lt_compat, KN0). unfold Rdiv in QB. fold I in QB. change (fun x => 0 <= val x * / val S <= (1 + 3 * uu) * I) with (fun x => 0 <= val x / val S <= (1 + 3 * uu) * I) in QB.
  assert (UU2 : uu * uu <= / 4503599627370496 * uu) by (apply Rmult_le_compat_r; lra). assert (P3 : 2 * 2 ^ 900 < 2 ^ 1023) by (replace (2 * 2 ^ 900) with (2 ^ 901) by (rewrite <- (tech_pow_Rmult 2 900); reflexivity); apply Rlt_pow; [lra|lia]).
  assert (DV : forall x, In x m -> fin (fdiv x S) /\ 0 <= val (fdiv x S) /\ Rabs (val (fdiv x S) - val x / val S) <= uu * (val x / val S) + eta0).
  { intros x Hx. destruct (QB x Hx) as [Q0 Q1]. change (val x * / val S) with (val x / val S) in Q0, Q1. destruct (fdiv_spec x S (proj1 (Hm x Hx))) as [Fd Vd]; [lra| |].
    - rewrite Rabs_pos_eq by exact Q0. apply Rle_lt_trans with (2 * 2 ^ 900); [|exact P3]. eapply Rle_trans; [exact Q1|]. apply Rmult_le_compat; lra.
    - split; [exact Fd|]. rewrite Vd. split; [pose proof (rnd_val f0) as R0; rewrite val_f0 in R0; rewrite <- R0 at 1; apply rnd_mono, Q0|]. destruct (err_mult (val x / val S)) as [e [h [He [Hh E]]]]. fold eta0 in Hh. rewrite E.
      replace (val x / val S * (1 + e) + h - val x / val S) with (val x / val S * e + h) by ring. eapply Rle_trans; [apply Rabs_triang|]. rewrite Rabs_mult, (Rabs_pos_eq (val x / val S)) by exact Q0. apply Rplus_le_compat; [|exact Hh]. rewrite Rmult_comm. apply Rmult_le_compat_r; assumption. }
  unfold d, f_sb_dist. fold S. split; [rewrite map_length; exact Lm|]. split.
  - intros z Hz. apply in_map_iff in Hz. destruct Hz as [x [<- Hx]]. destruct (DV x Hx) as [F [B0 D]]. split; [exact F|]. split; [exact B0|]. unfold Rdiv. fold I. apply Rabs_le_inv in D. destruct (QB x Hx) as [Q0 Q1]. change (val x * / val S) with (val x / val S) in Q0, Q1. rewrite S50.
    assert (D1 : uu * (val x / val S) <= uu * ((1 + 3 * uu) * I)) by (apply Rmult_le_compat_l; lra). set (q := val x / val S) in *. assert (D2 : uu * uu * I <= / 4503599627370496 * uu * I) by (apply Rmult_le_compat_r; lra). assert (D3 : uu * I <= / 9007199254740992 * I) by (apply Rmult_le_compat_r; [lra|apply uu_small]). 
    assert (val (fdiv x S) <= (1 + 3 * uu) * I + uu * ((1 + 3 * uu) * I) + uu * I) by lra. replace ((1 + 3 * uu) * I + uu * ((1 + 3 * uu) * I) + uu * I) with (I + 5 * (uu * I) + 3 * (uu * uu * I)) in * by ring. lra.
  - pose proof (total_div S m SP (fun x Hx => proj2 (proj2 (DV x Hx)))) as TD. rewrite Lm in TD. fold NN in TD. set (D := total (map (fun x => fdiv x S) m)) in *.
    assert (TQ : 1 - / 2 ^ 21 <= total m / val S <= 1 + / 2 ^ 21). { apply Rabs_le_inv in DS. assert (S22 : / 2 ^ 22 = / 4194304) by (simpl; lra). assert (S21 : / 2 ^ 21 = / 2097152) by (simpl; lra). rewrite S22 in DS. rewrite S21. set (t := total m) in *. set (s := val S) in *. split; [apply Rle_div_iff; [exact SP|]|apply Rdiv_le_iff; [exact SP|]]; lra. }
    assert (NE : NN * eta0 <= 2 ^ 30 * (uu * / 2 ^ 900)) by (apply Rmult_le_compat; [lra|left; apply eta0_pos|exact Hn|exact UE]). assert (NE2 : 2 ^ 30 * (uu * / 2 ^ 900) <= uu). { rewrite <- (Rmult_1_r uu) at 2. replace (2 ^ 30 * (uu * / 2 ^ 900)) with (uu * (2 ^ 30 * / 2 ^ 900)) by ring. apply Rmult_le_compat_l; [lra|]. apply (Rmult_le_reg_r (2 ^ 900)); [exact P900|]. rewrite Rmult_assoc, Rinv_l by lra. rewrite Rmult_1_r, Rmult_1_l. apply Rle_pow; [lra|lia]. }
    assert (S21 : / 2 ^ 21 = / 2097152) by (simpl; lra). assert (S20 : / 2 ^ 20 = / 1048576) by (simpl; lra). rewrite S21 in TQ. rewrite S20. apply Rabs_le_inv in TD. set (t := total m / val S) in *. assert (uu * t <= uu * 2) by (apply Rmult_le_compat_l; lra). apply Rabs_le. lra.
Qed.

(** ** C98: the book-keeping of the margins: after T <= 2^24 rounds the quantity kept for a row is, up to (2 T^2 + 9 T) 2^-53, one plus the sum of its margins minus T theta *)
Lemma P_C98_margins :
  forall fpow kappa gamma y hist m n j, proper_pow fpow -> accepted kappa gamma -> (forall x, In x y -> f_label x) -> (j < length y)%nat ->
  f_sb_run fpow bounded_conf kappa gamma y hist m n -> INR (length hist) <= 2 ^ 24 ->
  finite_num (nth j n f0) /\ Rabs (val (nth j n f0) - (1 + margin_total y hist j - INR (length hist) * theta_of gamma)) <= slack (length hist).
Proof.
  intros fpow kappa gamma y hist m n j Hp Acc Ly Hj H HT. assert (N1 : (1 <= length y)%nat) by (unfold f64 in *; lia). split; [apply (run_sound fpow kappa gamma y Hp Acc Ly N1 hist m n H), Hj|]. apply (run_near fpow kappa gamma y Hp Acc Ly N1 hist m n H HT j Hj).
Qed.

Lemma filter_len_imp {A B} (f : A -> bool) (g : B -> bool) (l : list A) (k : list B) (R : A -> B -> Prop) : Forall2 R l k -> (forall a b, In a l -> R a b -> f a = true -> g b = true) -> (length (filter f l) <= length (filter g k))%nat.
Proof.
  induction 1 as [|a b l k Rab F IH]; intros H; [reflexivity|]. cbn [filter]. assert (I := IH (fun x z Hx => H x z (or_intror Hx))). assert (Q := H a b (or_introl eq_refl) Rab). destruct (f a); [rewrite (Q eq_refl); cbn [length]; lia|]. destruct (g b); cbn [length]; lia.
Qed.
Lemma forall2_seq {A} (m : list A) (d : A) : Forall2 (fun j x => nth j m d = x) (seq 0 (length m)) m.
Proof.
  assert (G : forall (m p : list A), Forall2 (fun j x => nth j (p ++ m) d = x) (seq (length p) (length m)) m). { clear m. induction m as [|x m IH]; intros p; cbn [length seq]; constructor. - rewrite app_nth2, Nat.sub_diag by lia. reflexivity. - specialize (IH (p ++ [x])). rewrite app_length in IH. cbn [length] in IH. rewrite Nat.add_1_r in IH. rewrite <- app_assoc in IH. exact IH. }
  apply (G m []).
Qed.

(** ** C98: when the run ends by itself, fewer than kappa n rows (up to rounding) have a total margin of at most T theta - 1 *)
Lemma P_C98_stop :
  forall fpow kappa gamma y hist m n, proper_pow fpow -> accepted kappa gamma -> / 2 ^ 900 <= val kappa -> (forall x, In x y -> f_label x) -> (1 <= length y)%nat -> INR (length y) <= 2 ^ 29 ->
  f_sb_run fpow bounded_conf kappa gamma y hist m n -> INR (length hist) <= 2 ^ 24 -> f_sb_stop kappa m = true ->
  INR (rows_with (length y) (margin_total y hist) (INR (length hist) * theta_of gamma - 1 - slack (length hist))) < val kappa * INR (length y) * (1 + / 2 ^ 52).
Proof.
  intros fpow kappa gamma y hist m n Hp Acc HK Ly N1 Hn H HT St. pose proof (run_sound fpow kappa gamma y Hp Acc Ly N1 hist m n H) as [Lm [Ln Hj]]. destruct (params kappa gamma Acc) as [_ [_ [FK K01]]].
  assert (NN1 : 1 <= INR (length y)) by (apply (le_INR 1), N1). set (NN := INR (length y)) in *. set (K := val kappa) in *. assert (PK0 : 0 < / 2 ^ 900) by (apply Rinv_0_lt_compat, pow_lt; lra).
  assert (P0 : 2 ^ 29 < 2 ^ 30) by (apply Rlt_pow; [lra|lia]). assert (P1 : 2 ^ 30 < 2 ^ 1023) by (apply Rlt_pow; [lra|lia]). assert (P2 : 2 ^ 30 < 2 ^ 53) by (apply Rlt_pow; [lra|lia]).
  assert (LB : INR (0 + length m) <= 2 ^ 30) by (cbn [Nat.add]; rewrite Lm; fold NN; lra).
  destruct (sum_count m f0 0 0) as [FS BS]; [|reflexivity|rewrite val_f0; simpl INR; lra|exact LB|exact LB|]. { intros x Hx. destruct (In_nth m x f0 Hx) as [j [Lj <-]]. rewrite Lm in Lj. destruct (Hj j Lj) as [_ [_ [A [B _]]]]. split; assumption. }
  change (fold_left fadd m f0) with (fsum m) in FS, BS. rewrite Nat.add_0_l in BS.
  destruct (of_usize_spec (length y)) as [Fn Vn]; [fold NN; lra|]. fold NN in Vn. assert (NK : 0 < NN * K <= NN) by (split; [apply Rmult_lt_0_compat; lra|rewrite <- (Rmult_1_r NN) at 2; apply Rmult_le_compat_l; lra]).
  destruct (fmul_spec (f_of_usize (length y)) kappa Fn FK) as [Fm Dm]; [rewrite Vn; fold K; rewrite Rabs_pos_eq by lra; lra|]. rewrite Vn in Dm. fold K in Dm. rewrite (Rabs_pos_eq (NN * K)) in Dm by lra.
  unfold f_sb_stop in St. rewrite Lm in St. apply (flt_true (fsum m) _ FS Fm) in St. pose proof uu_eta as UE. pose proof uu_pos as U0.
  assert (KN : K <= NN * K) by (rewrite <- (Rmult_1_l K) at 1; apply Rmult_le_compat_r; lra). assert (UE' : eta0 <= uu * (NN * K)) by (eapply Rle_trans; [exact UE|apply Rmult_le_compat_l; lra]).
  assert (UP : val (fmul (f_of_usize (length y)) kappa) <= K * NN * (1 + / 2 ^ 52)). { apply Rabs_le_inv in Dm. assert (E : / 2 ^ 52 = 2 * uu) by (unfold uu; simpl; lra). rewrite E. lra. }
  apply Rle_lt_trans with (val (fsum m)); [|lra]. eapply Rle_trans; [|exact BS]. apply le_INR. unfold rows_with. rewrite <- Lm.
  eapply (filter_len_imp _ _ _ _ _ (forall2_seq m f0)). intros j x Ij E. apply in_seq in Ij. destruct (Rle_dec _ _) as [L|L]; [|discriminate]. intros _. assert (Lj : (j < length y)%nat) by (unfold f64 in *; lia). destruct (Hj j Lj) as [_ [_ [_ [_ One]]]]. destruct (run_near fpow kappa gamma y Hp Acc Ly N1 hist m n H HT j Lj) as [_ D]. apply Rabs_le_inv in D.
  destruct (Rle_dec 1 (val x)) as [G|G]; [reflexivity|]. exfalso. apply G. rewrite <- E, One; lra.
Qed.

Lemma combine_repeat {A B} (w : A) : forall k (hs : list B), (length hs <= k)%nat -> combine (repeat w k) hs = map (fun h => (w, h)) hs.
Proof. induction k as [|k IH]; intros [|h hs] L; cbn in *; try reflexivity; try lia. rewrite IH by lia. reflexivity. Qed.

(** ** C98: the training error: the vote returned by a run that ended by itself, with T <= n and T theta >= 2, is wrong on fewer than kappa n rows (up to rounding) *)
Lemma P_C98_training_error :
  forall fpow kappa gamma y hist m n, proper_pow fpow -> accepted kappa gamma -> / 2 ^ 900 <= val kappa -> (forall x, In x y -> f_label x) -> (1 <= length y)%nat -> INR (length y) <= 2 ^ 29 ->
  f_sb_run fpow bounded_conf kappa gamma y hist m n -> INR (length hist) <= 2 ^ 24 -> f_sb_stop kappa m = true -> (length hist <= length y)%nat -> 2 <= INR (length hist) * theta_of gamma ->
  exists v, f_sb_post (length hist) (length y) hist = Ok v /\ INR (mistakes y v) < val kappa * INR (length y) * (1 + / 2 ^ 52).
Proof.
  intros fpow kappa gamma y hist m n Hp Acc HK Ly N1 Hn H HT St TN TT. pose proof (P_C98_stop fpow kappa gamma y hist m n Hp Acc HK Ly N1 Hn H HT St) as ST.
  assert (HC : forall conf, In conf hist -> length conf = length y /\ bounded_conf conf). { clear - H. induction H as [|hist m n conf H IH St Lc Bc n']; intros c Hc; [destruct Hc|]. apply in_app_or in Hc. destruct Hc as [Hc|[<- |[]]]; [apply IH, Hc|split; assumption]. }
  set (T := length hist) in *. destruct (theta_ok kappa gamma Acc) as [_ [_ [Bt _]]]. set (t := theta_of gamma) in *.
  assert (T10 : 10 <= INR T). { assert (INR T * t <= INR T * (1 / 5)) by (apply Rmult_le_compat_l; [apply pos_INR|lra]). lra. }
  assert (P24 : 2 ^ 24 = 16777216) by (simpl; lra). assert (P53 : 2 ^ 24 < 2 ^ 53) by (apply Rlt_pow; [lra|lia]). destruct (of_usize_spec T) as [FT VT]; [lra|]. destruct f1_spec as [F1 V1].
  assert (Q0 : / 2 ^ 24 <= 1 / INR T <= 1). { split; [apply Rle_div_iff; [lra|]; rewrite P24; lra|apply Rdiv_le_iff; lra]. }
  destruct (fdiv_spec f1 (f_of_usize T) F1) as [Fw Vw]; [rewrite VT; lra|rewrite V1, VT, Rabs_pos_eq by (eapply Rle_trans; [|apply Q0]; left; apply Rinv_0_lt_compat, pow_lt; lra); pose proof big1023; lra|]. rewrite V1, VT in Vw.
  assert (Bw : 0 < val (fdiv f1 (f_of_usize T)) <= 2). { rewrite Vw. destruct (err_mult (1 / INR T)) as [e [h [He [Hh E]]]]. fold eta0 in Hh. rewrite E. apply Rabs_le_inv in He. apply Rabs_le_inv in Hh. pose proof uu_small as US. pose proof eta0_small as E0. assert (S100 : / 2 ^ 100 <= / 2 ^ 24 / 100) by (simpl; lra). rewrite P24 in *. set (q := 1 / INR T) in *.
    assert (q * (1 - / 2) <= q * (1 + e) <= q * (1 + / 2)) by (split; apply Rmult_le_compat_l; lra). lra. }
  unfold f_sb_post. set (w := fdiv f1 (f_of_usize T)) in *.
  assert (PM : positive_members (repeat w (length y)) hist = map (fun h => (w, h)) hist). { unfold positive_members. rewrite combine_repeat by exact TN. apply filter_all. intros p Hq. apply in_map_iff in Hq. destruct Hq as [h [<- _]]. cbn [fst]. match goal with |- (if Rlt_dec ?a ?b then _ else _) = _ => destruct (Rlt_dec a b) as [?|X]; [reflexivity|exfalso; exact (X (proj1 Bw))] end. }
  assert (FA : finite_all (repeat w (length y))) by (intros z Hz; apply repeat_spec in Hz; rewrite Hz; exact Fw).
  assert (RW : forall k (l : list k), rsum (map (fun _ => val w) l) = INR (length l) * val w) by (intros k l; induction l as [|a l IH]; [simpl; lra|cbn [map rsum length]; rewrite S_INR, IH; ring]).
  assert (LM : length (map (fun h => (w, h)) hist) = T) by (apply map_length).
  assert (SW : rsum (map (fun p : f64 * list f64 => val (fst p)) (map (fun h => (w, h)) hist)) = INR T * val w) by (rewrite map_map; cbn [fst]; apply RW).
  assert (SB : INR T * val w < 2 ^ 1022). { apply Rle_lt_trans with (2 ^ 24 * 2); [apply Rmult_le_compat; lra|]. apply Rlt_le_trans with (2 ^ 26); [simpl; lra|apply Rle_pow; [lra|lia]]. }
  assert (SB' : rsum (map (fun p : f64 * list f64 => val (fst p)) (map (fun h => (w, h)) hist)) < 2 ^ 1022) by (rewrite SW; exact SB).
  assert (T40 : INR T <= 2 ^ 40) by (eapply Rle_trans; [exact HT|apply Rle_pow; [lra|lia]]).
  assert (NE : map (fun h => (w, h)) hist <> []) by (intros Z; apply (f_equal (@length _)) in Z; rewrite LM in Z; cbn in Z; rewrite Z in T10; simpl in T10; lra).
  assert (PR : forall i, (i < length y)%nat -> exists v, f_from_slices (repeat w (length y)) hist = Ok v /\ ((INR T + 1) / 2 ^ 50 < Rabs (exact_vote (fun h => nth i h f0) (map (fun h => (w, h)) hist)) ->
    (0 < exact_vote (fun h => nth i h f0) (map (fun h => (w, h)) hist) -> f_predict (fun h => nth i h f0) v = 1%Z) /\ (exact_vote (fun h => nth i h f0) (map (fun h => (w, h)) hist) < 0 -> f_predict (fun h => nth i h f0) v = (-1)%Z))).
  { intros i Hi. assert (CB : forall h, In h hist -> finite_num (nth i h f0) /\ Rabs (val (nth i h f0)) <= 1). { intros h Hh. destruct (HC h Hh) as [Lq Bq]. apply Bq, nth_In. rewrite Lq. exact Hi. }
    destruct (P_C79_confidence_close _ (fun h => nth i h f0) (repeat w (length y)) hist FA CB) as [v [Ev _]]; rewrite ?PM, ?LM; try assumption; try exact SB'. exists v. split; [exact Ev|]. intros Q.
    destruct (P_C79_prediction_exact _ (fun h => nth i h f0) (repeat w (length y)) hist FA CB) as [v' [Ev' R]]; rewrite ?PM, ?LM in *; try assumption; try exact SB'. rewrite Ev in Ev'. injection Ev' as <-. exact R. }
  destruct (PR 0%nat) as [v [Ev _]]; [unfold f64 in *; lia|]. exists v. split; [exact Ev|].
  eapply Rle_lt_trans; [|exact ST]. apply le_INR. unfold mistakes, rows_with.
  apply (filter_len_imp _ _ _ _ eq); [clear; induction (seq 0 (length y)); constructor; [reflexivity|assumption]|]. intros i i' Hi <- Ci. apply in_seq in Hi. assert (Hi' : (i < length y)%nat) by (unfold f64 in *; lia).
  destruct (PR i Hi') as [v' [Ev' R]]. rewrite Ev in Ev'. injection Ev' as <-.
  destruct (Req_EM_T (IZR (f_predict (fun h => nth i h f0) v)) (val (nth i y f0))) as [Q|Q]; [discriminate|]. destruct (Ly (nth i y f0)) as [_ Vy]; [apply nth_In, Hi'|].
  set (V := exact_vote (fun h => nth i h f0) (map (fun h => (w, h)) hist)) in *. assert (EM : margin_total y hist i = val (nth i y f0) * V * INR T).
  { assert (V2 : V = rsum (map (fun h : list f64 => val w * val (nth i h f0)) hist) / (INR T * val w)) by (unfold V, exact_vote; rewrite map_map; exact (f_equal2 Rdiv eq_refl SW)). rewrite V2. unfold margin_total. rewrite !rsum_map_mult. field. split; lra. }
  assert (B : val (nth i y f0) * V <= (INR T + 1) / 2 ^ 50).
  { apply Rnot_lt_le. intros X. assert (Z0 : 0 <= (INR T + 1) / 2 ^ 50) by (apply Rle_div_iff; [apply pow_lt; lra|]; lra). apply Q. destruct Vy as [Vy|Vy]; rewrite Vy in *.
    - destruct R as [R1 _]; [rewrite Rabs_pos_eq by lra; lra|]. rewrite R1 by lra. reflexivity.
    - destruct R as [_ R2]; [rewrite Rabs_left by lra; lra|]. rewrite R2 by lra. reflexivity. }
  destruct (Rle_dec _ _) as [?|G]; [reflexivity|]. exfalso. apply G. rewrite EM.
  assert (B2 : val (nth i y f0) * V * INR T <= (INR T + 1) / 2 ^ 50 * INR T) by (apply Rmult_le_compat_r; lra). eapply Rle_trans; [exact B2|].
  unfold slack. rewrite plus_INR, !mult_INR. replace (INR 2) with 2 by (simpl; lra). replace (INR 9) with 9 by (simpl; lra). assert (TT2 : INR T * INR T <= 2 ^ 24 * 2 ^ 24) by (apply Rmult_le_compat; lra).
  assert (S50 : (INR T + 1) / 2 ^ 50 * INR T = (INR T * INR T + INR T) * / 1125899906842624) by (unfold Rdiv; replace (2 ^ 50) with 1125899906842624 by (simpl; lra); ring). rewrite S50. assert (US : uu = / 9007199254740992) by (unfold uu; simpl; lra). rewrite US. rewrite P24 in *. lra.
Qed.

(** ** C98: a correctly rounded power function satisfies what is assumed of it, and there is one *)
Lemma P_C98_correct_proper :
  forall fpow, correct_pow fpow -> proper_pow fpow.
Proof.
  intros fpow C b x Fb Fx Hb Hx. destruct (C b x Fb Fx Hb Hx) as [F V]. split; [exact F|]. rewrite V. change (0 <= rnd (Rpower (val b) (val x)) <= 1). destruct f1_spec as [F1 V1]. pose proof (rnd_val f0) as R0. rewrite val_f0 in R0. pose proof (rnd_val f1) as R1. rewrite V1 in R1.
  assert (P : 0 < Rpower (val b) (val x) <= 1). { split; [apply exp_pos|]. unfold Rpower. rewrite <- exp_0. apply exp_le_exp. assert (L : ln (val b) <= 0) by (rewrite <- ln_1; apply ln_le; lra). assert (val x * - ln (val b) >= 0) by (apply Rle_ge, Rmult_le_pos; lra). lra. }
  split; [rewrite <- R0 at 1|apply Rle_trans with (rnd 1); [|rewrite R1; apply Rle_refl]]; apply rnd_mono; lra.
Qed.
Lemma P_C98_platform :
  exists fpow, correct_pow fpow.
Proof.
  exists (fun b x => round64 (Rpower (val b) (val x))). intros b x Fb Fx Hb Hx. apply round64_spec. rewrite Rabs_pos_eq by (left; apply exp_pos). apply Rle_trans with 1; [|pose proof big1023; lra]. unfold Rpower. rewrite <- exp_0. apply exp_le_exp. assert (L : ln (val b) <= 0) by (rewrite <- ln_1; apply ln_le; lra). assert (val x * - ln (val b) >= 0) by (apply Rle_ge, Rmult_le_pos; lra). lra.
Qed.

Fixpoint sb_x (t : nat) : f64 := match t with O => f1 | S t => fsub (fadd (sb_x t) f1) (f_sb_theta sb_gamma) end.
Definition f_5 : f64 := f_of_usize 5.
Definition f_21_4 : f64 := binary_normalize 53 1024 eq_refl eq_refl mode_NE 21 (-2) false.
Definition f_32 : f64 := binary_normalize 53 1024 eq_refl eq_refl mode_NE 1 (-5) false.
Definition f_28 : f64 := binary_normalize 53 1024 eq_refl eq_refl mode_NE 28 (-10) false.
Definition f_348 : f64 := binary_normalize 53 1024 eq_refl eq_refl mode_NE 348 (-10) false.
Lemma sb_consts : (fin sb_gamma /\ val sb_gamma = / 2 - / 1048576) /\ (fin sb_kappa /\ val sb_kappa = 29 / 1024) /\ (fin f_21_4 /\ val f_21_4 = 21 / 4) /\ (fin f_32 /\ val f_32 = / 32) /\ (fin f_28 /\ val f_28 = 28 / 1024) /\ (fin f_348 /\ val f_348 = 348 / 1024).
Proof.
  assert (B : forall k, bpow radix2 (- Z.of_nat k) = / 2 ^ k) by (intros k; rewrite bpow_opp, two_pow; reflexivity).
  assert (G : forall m k v, (Z.abs m < 2 ^ 53)%Z -> (k <= 100)%nat -> IZR m * / 2 ^ k = v -> fin (binary_normalize 53 1024 eq_refl eq_refl mode_NE m (- Z.of_nat k) false) /\ val (binary_normalize 53 1024 eq_refl eq_refl mode_NE m (- Z.of_nat k) false) = v).
  { intros m k v Hm Hk E. destruct (normalize_exact m (- Z.of_nat k)) as [F V]; [exact Hm|lia|]. split; [exact F|]. rewrite V, B. exact E. }
  split; [apply (G 524287%Z 20%nat)|split; [apply (G 29%Z 10%nat)|split; [apply (G 21%Z 2%nat)|split; [apply (G 1%Z 5%nat)|split; [apply (G 28%Z 10%nat)|apply (G 348%Z 10%nat)]]]]]; try (vm_compute; reflexivity); try lia; simpl; lra.
Qed.
Lemma sb_accepted : accepted sb_kappa sb_gamma.
Proof.
  split; unfold f_sb_set_gamma, f_sb_check.
  - assert (E : andb (fle f0 sb_gamma) (flt sb_gamma f_half) = true) by (vm_compute; reflexivity). rewrite E. reflexivity.
  - assert (E : negb (orb (negb (andb (fle f0 sb_kappa) (flt sb_kappa f1))) (fle sb_kappa f0)) = true) by (vm_compute; reflexivity). assert (E2 : andb (fle (f_sb_theta sb_gamma) sb_gamma) (flt sb_gamma f_half) = true) by (vm_compute; reflexivity). rewrite E, E2. reflexivity.
Qed.
Lemma repeat_total (p : f64) k : total (repeat p k) = INR k * val p.
Proof. unfold total. induction k as [|k IH]; cbn [repeat map rsum]; [simpl; ring|]. rewrite IH, S_INR. ring. Qed.
Lemma sb_sum (p : f64) : fin p -> 0 <= val p <= 1 -> fin (fsum (repeat p 12)) /\ Rabs (val (fsum (repeat p 12)) - 12 * val p) <= / 2 ^ 22 * (12 * val p).
Proof.
  intros F B. assert (E : total (repeat p 12) = 12 * val p) by (rewrite repeat_total, INR_IZR_INZ; change (Z.of_nat 12) with 12%Z; ring). rewrite <- E.
  apply sum_close; [intros x Hx; apply repeat_spec in Hx; rewrite Hx; exact F|intros x Hx; apply repeat_spec in Hx; rewrite Hx; apply B|rewrite repeat_length, INR_IZR_INZ; change (Z.of_nat 12) with 12%Z; simpl; lra|]. rewrite E. apply Rlt_le_trans with (2 ^ 4); [simpl; lra|apply Rle_pow; [lra|lia]].
Qed.
Lemma margins_self (g : f64) : fmul g g = g -> f_margins (repeat g 12) (repeat g 12) = repeat g 12.
Proof. intros E. unfold f_margins, f_products. cbn [repeat combine map fst snd]. rewrite E. reflexivity. Qed.
Lemma sb_rounds fpow : correct_pow fpow -> forall t, (t <= 12)%nat -> exists m, m = repeat (match t with O => f1 | _ => fpow (fsub f1 sb_gamma) (fmul (sb_x t) f_half) end) 12 /\
  f_sb_run fpow bounded_conf sb_kappa sb_gamma (repeat f1 12) (repeat (repeat f1 12) t) m (repeat (sb_x t) 12) /\ ((t < 12)%nat -> f_sb_stop sb_kappa m = false) /\ (t = 12%nat -> f_sb_stop sb_kappa m = true).
Proof.
  intros C. pose proof (P_C98_correct_proper fpow C) as Pp. destruct sb_consts as [[FG VG] [[FK VK] [[F21 V21] [[F32 V32] [[F28 V28] [F348 V348]]]]]]. destruct f1_spec as [F1 V1]. destruct half_spec as [Fh Vh]. destruct (of_usize_spec 5) as [F5 V5]; [simpl; lra|].
  assert (FK' : fmul (f_of_usize 12) sb_kappa = f_348) by (apply B2SF_inj; vm_compute; reflexivity). destruct (base_ok sb_kappa sb_gamma sb_accepted) as [Fb Bb].
  assert (Vb : val (fsub f1 sb_gamma) = / 2 + / 1048576). { set (q := binary_normalize 53 1024 eq_refl eq_refl mode_NE 524289 (-20) false). assert (E : fsub f1 sb_gamma = q) by (apply B2SF_inj; vm_compute; reflexivity). rewrite E. unfold q. destruct (normalize_exact 524289 (-20)) as [_ V]; [vm_compute; reflexivity|lia|]. rewrite V. change (-20)%Z with (- Z.of_nat 20)%Z. rewrite bpow_opp, two_pow. simpl. lra. }
  assert (XS : forall t, In t (seq 0 13) -> andb (fle f0 (fmul (sb_x t) f_half)) (andb (is_finite (fmul (sb_x t) f_half)) (andb (if Nat.ltb t 12 then fle (fmul (sb_x t) f_half) f_5 else fle f_21_4 (fmul (sb_x t) f_half)) (andb (fle (fmul (sb_x t) f_half) (f_of_usize 6)) (negb (fle (sb_x t) f0))))) = true) by (apply forallb_forall; vm_compute; reflexivity).
  assert (S22 : / 2 ^ 22 = / 4194304) by (simpl; lra).
  assert (STOP : forall t, (t <= 12)%nat -> let m := repeat (match t with O => f1 | _ => fpow (fsub f1 sb_gamma) (fmul (sb_x t) f_half) end) 12 in ((t < 12)%nat -> f_sb_stop sb_kappa m = false) /\ (t = 12%nat -> f_sb_stop sb_kappa m = true)).
  { intros t Ht m. assert (It : In t (seq 0 13)) by (apply in_seq; lia). pose proof (XS t It) as X. set (z := fmul (sb_x t) f_half) in *. apply andb_prop in X. destruct X as [X1 X]. apply andb_prop in X. destruct X as [X2 X]. apply andb_prop in X. destruct X as [X3 X]. apply andb_prop in X. destruct X as [X4 _].
    apply (fle_true f0 z eq_refl X2) in X1. rewrite val_f0 in X1. destruct (of_usize_spec 6) as [F6 V6]; [simpl; lra|]. apply (fle_true z _ X2 F6) in X4. rewrite V6 in X4. assert (I6 : INR 6 = 6) by (simpl; lra). rewrite I6 in X4. assert (P60 : 6 <= 2 ^ 60) by (apply Rle_trans with (2 ^ 3); [simpl; lra|apply Rle_pow; [lra|lia]]).
    destruct (C (fsub f1 sb_gamma) z Fb X2 Bb) as [Fp Vp]; [lra|]. destruct (Pp (fsub f1 sb_gamma) z Fb X2 Bb) as [_ Bp]; [lra|]. change (val (fpow (fsub f1 sb_gamma) z) = rnd (Rpower (val (fsub f1 sb_gamma)) (val z))) in Vp. set (p := fpow (fsub f1 sb_gamma) z) in *. clearbody p.
    assert (LO : (t < 12)%nat -> / 32 <= val p). { intros L. destruct (Nat.ltb_spec t 12) as [_|]; [|lia]. apply (fle_true z f_5 X2 F5) in X3. unfold f_5 in X3. rewrite V5 in X3. assert (I5 : INR 5 = 5) by (simpl; lra). rewrite I5 in X3. rewrite Vp. pose proof (rnd_val f_32) as R32. rewrite V32 in R32. rewrite <- R32. apply rnd_mono.
      unfold Rpower. replace (/ 32) with (exp (- (INR 5 * ln 2))). - apply exp_le_exp. rewrite I5. assert (L1 : ln (/ 2) <= ln (val (fsub f1 sb_gamma))) by (apply ln_le; lra). rewrite ln_Rinv in L1 by lra. assert (L2 : 0 < ln 2) by (rewrite <- ln_1; apply ln_increasing; lra). assert (val z * - ln 2 <= val z * ln (val (fsub f1 sb_gamma))) by (apply Rmult_le_compat_l; lra). assert (val z * ln 2 <= 5 * ln 2) by (apply Rmult_le_compat_r; lra). lra.
      - rewrite exp_Ropp, <- ln_pow, exp_ln by (try apply pow_lt; lra). simpl. lra. }
    assert (HI : t = 12%nat -> val p <= 28 / 1024). { intros ->. cbn [Nat.ltb] in X3. change (12 <? 12)%nat with false in X3. cbv iota in X3. apply (fle_true f_21_4 z F21 X2) in X3. rewrite V21 in X3. rewrite Vp. pose proof (rnd_val f_28) as R28. rewrite V28 in R28. rewrite <- R28. apply rnd_mono. set (b := val (fsub f1 sb_gamma)) in *.
      assert (Lb : ln b < 0) by (rewrite <- ln_1; apply ln_increasing; rewrite Vb; lra). assert (Q : INR 4 * (val z * ln b) <= ln ((28 / 1024) ^ 4)). { assert (val z * - ln b >= 21 / 4 * - ln b) by (apply Rle_ge, Rmult_le_compat_r; lra). apply Rle_trans with (INR 21 * ln b); [rewrite !INR_IZR_INZ; change (Z.of_nat 4) with 4%Z; change (Z.of_nat 21) with 21%Z; lra|]. rewrite <- ln_pow by (rewrite Vb; lra). apply ln_le; [apply pow_lt; rewrite Vb; lra|]. rewrite Vb. simpl. lra. }
      rewrite ln_pow in Q by lra. unfold Rpower. rewrite <- (exp_ln (28 / 1024)) by lra. apply exp_le_exp. assert (I4 : INR 4 = 4) by (simpl; lra). rewrite I4 in Q. lra. }
    unfold f_sb_stop, m. rewrite repeat_length, FK'. destruct (sb_sum (match t with O => f1 | _ => p end)) as [Fs Ds]; [destruct t; assumption|destruct t; [rewrite V1; lra|exact Bp]|]. rewrite S22 in Ds. apply Rabs_le_inv in Ds. split; intros L.
    - specialize (LO L). match goal with |- ?a = false => destruct a eqn:Q; [|reflexivity] end. exfalso. apply (flt_true _ _ Fs F348) in Q. rewrite V348 in Q. destruct t; [rewrite V1 in Ds; lra|lra].
    - specialize (HI L). apply (flt_true _ _ Fs F348). rewrite V348. subst t. lra. }
  intros t Ht. eexists. split; [reflexivity|]. split; [|exact (STOP t Ht)]. induction t as [|t IH].
  - apply (fsb_start fpow bounded_conf sb_kappa sb_gamma (repeat f1 12)).
  - assert (Ht' : (t <= 12)%nat) by lia. specialize (IH Ht'). assert (Q : f_sb_stop sb_kappa (repeat match t with O => f1 | _ => fpow (fsub f1 sb_gamma) (fmul (sb_x t) f_half) end 12) = false) by (apply STOP; lia).
    pose proof (fsb_round fpow bounded_conf sb_kappa sb_gamma (repeat f1 12) _ _ _ (repeat f1 12) IH Q eq_refl) as R. cbv zeta in R.
    assert (EM : f_margins (repeat f1 12) (repeat f1 12) = repeat f1 12) by (assert (E : fmul f1 f1 = f1) by (apply B2SF_inj; vm_compute; reflexivity); exact (margins_self f1 E)). rewrite EM in R.
    assert (EN : f_sb_moved (f_sb_theta sb_gamma) (repeat (sb_x t) 12) (repeat f1 12) = repeat (sb_x (S t)) 12) by (unfold f_sb_moved; cbn [repeat combine map fst snd sb_x]; reflexivity). rewrite EN in R.
    assert (EW : map (f_sb_weight fpow sb_gamma) (repeat (sb_x (S t)) 12) = repeat (fpow (fsub f1 sb_gamma) (fmul (sb_x (S t)) f_half)) 12). { assert (W : f_sb_weight fpow sb_gamma (sb_x (S t)) = fpow (fsub f1 sb_gamma) (fmul (sb_x (S t)) f_half)). { unfold f_sb_weight. assert (It : In (S t) (seq 0 13)) by (apply in_seq; lia). pose proof (XS (S t) It) as X. apply andb_prop in X. destruct X as [_ X]. apply andb_prop in X. destruct X as [_ X]. apply andb_prop in X. destruct X as [_ X]. apply andb_prop in X. destruct X as [_ X]. apply negb_true_iff in X. rewrite X. reflexivity. } generalize dependent (sb_x (S t)). intros x _ _ W. cbn [repeat map]. rewrite W. reflexivity. }
    rewrite EW in R. rewrite <- (repeat_cons t (repeat f1 12)) in R. apply R. intros c Hc. apply repeat_spec in Hc. rewrite Hc. split; [exact F1|rewrite V1, Rabs_R1; lra].
Qed.

Lemma ex_C98 : exists fpow m n, proper_pow fpow /\ accepted sb_kappa sb_gamma /\ / 2 ^ 900 <= val sb_kappa /\ (forall x, In x (repeat f1 12) -> f_label x) /\
  f_sb_run fpow bounded_conf sb_kappa sb_gamma (repeat f1 12) (repeat (repeat f1 12) 12) m n /\ f_sb_stop sb_kappa m = true /\ 2 <= INR 12 * theta_of sb_gamma.
Proof.
  destruct P_C98_platform as [fpow C]. destruct (sb_rounds fpow C 12 (le_n 12)) as [m [Em [R [_ S]]]]. exists fpow, m, (repeat (sb_x 12) 12). destruct sb_consts as [[FG VG] [[FK VK] _]]. destruct f1_spec as [F1 V1].
  split; [apply P_C98_correct_proper, C|]. split; [exact sb_accepted|]. split. { rewrite VK. apply Rle_trans with (/ 2 ^ 6); [apply Rinv_le_contravar; [apply pow_lt; lra|apply Rle_pow; [lra|lia]]|simpl; lra]. }
  split; [intros x Hx; apply repeat_spec in Hx; rewrite Hx; split; [exact F1|left; exact V1]|]. split; [exact R|]. split; [apply S; reflexivity|]. unfold theta_of. rewrite VG, INR_IZR_INZ. change (Z.of_nat 12) with 12%Z. lra.
Qed.

(** ** hypotheses met: a run of twelve rounds on twelve rows that ends by itself, with a correctly rounded power function *)
Example C98_nonvacuous : exists fpow m n, proper_pow fpow /\ accepted sb_kappa sb_gamma /\ / 2 ^ 900 <= val sb_kappa /\ (forall x, In x (repeat f1 12) -> f_label x) /\
  f_sb_run fpow bounded_conf sb_kappa sb_gamma (repeat f1 12) (repeat (repeat f1 12) 12) m n /\ f_sb_stop sb_kappa m = true /\ 2 <= INR 12 * theta_of sb_gamma.
Proof. exact ex_C98. Qed.
