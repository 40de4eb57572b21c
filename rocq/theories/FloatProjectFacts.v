(** Property C91: the projection onto the capped simplex (common/utils.rs) in binary64. *)
From Coq Require Import ZArith List Bool Reals Lia Lra Psatz Permutation.
From Flocq Require Import Core.Core IEEE754.BinarySingleNaN Relative Plus_error.
From Verif Require Import Base SortLib Float FloatSpec FloatProofs FloatFacts FloatCheckFacts FloatProject FloatProjectSpec FloatProjectProofs FloatProjectMain ExpBounds ExpNum.
Import ListNotations.
Open Scope R_scope.

(** ** C91: without a cap, and with logarithms that are not enormous, the projection is the exponential distribution up to 2^-19 and never panics *)
Lemma P_C91_uncapped :
  forall fexp fln x M, accurate_exp fexp -> accurate_ln fln -> x <> [] -> (forall d, In d x -> finite_num d /\ Rabs (val d) <= M) -> INR (length x) * (M + 64) <= 2 ^ 30 ->
  exists dist, f_project fexp fln f1 x = Ok dist /\ length dist = length x /\
    forall i, (i < length x)%nat -> finite_num (nth i dist f0) /\ 0 <= val (nth i dist f0) <= 1 /\ Rabs (val (nth i dist f0) - softmax x i) <= / 2 ^ 19 * softmax x i + / 2 ^ 50.
Proof. intros fexp fln x M He Hl Nx Fx Hn. exact (f_project_uncapped fexp fln He Hl x M Fx Hn Nx). Qed.

(** ** C91: whatever exp and ln return, a distribution that comes back lies in the capped simplex, up to the rounding of the cap and 1.1e-5 in the sum *)
Lemma check_ok v nu : f_check_capped_simplex v nu = Ok tt -> fle f1 nu = true /\ fle nu (f_of_usize (length v)) = true /\ flt (fabs (fsub (fsum v) f1)) f_simplex_tol = true /\
  forall d, In d v -> fle f0 d = true /\ fle d (fdiv f1 nu) = true.
Proof.
  unfold f_check_capped_simplex, f_check_nu, assert_, bind. destruct (fle f1 nu && fle nu (f_of_usize (length v))) eqn:E1; [|discriminate]. apply andb_prop in E1.
  destruct (flt _ f_simplex_tol) eqn:E2; [|discriminate]. destruct (forallb _ v) eqn:E3; [|discriminate]. intros _. split; [apply E1|]. split; [apply E1|]. split; [reflexivity|].
  intros d Hd. rewrite forallb_forall in E3. specialize (E3 d Hd). apply andb_prop in E3. exact E3.
Qed.
Lemma fle_between a b c : fin a -> fin c -> fle a b = true -> fle b c = true -> fin b.
Proof. intros Fa Fc H1 H2. destruct b as [s|s| |s m e Hb]; [reflexivity| | |reflexivity]; destruct a as [[]|[]| |[] ? ? ?]; destruct c as [[]|[]| |[] ? ? ?]; try destruct s; try discriminate. Qed.

Lemma P_C91_checked :
  forall fexp fln nu x dist, f_project fexp fln nu x = Ok dist -> INR (length dist) <= 2 ^ 30 ->
  finite_num nu /\ 1 <= val nu <= INR (length dist) /\ (forall d, In d dist -> finite_num d /\ 0 <= val d <= nearest64 (/ val nu)) /\ Rabs (total dist - 1) <= 11 / 10 ^ 6.
Proof.
  intros fexp fln nu x dist H Hn. unfold f_project in H. destruct (andb _ _); [discriminate|]. cbv zeta in H.
  set (ds := f_proj_loop _ _ _ _ _ _ _) in H. destruct (f_check_capped_simplex ds nu) as [[]|] eqn:C; [|discriminate]. cbn [bind] in H. injection H as ->.
  apply check_ok in C. destruct C as [C1 [C2 [C3 C4]]]. pose proof pow30_53. destruct (of_usize_spec (length dist)) as [Fo Vo]; [lra|]. destruct f1_spec as [F1 V1].
  assert (Fn : fin nu) by (apply (fle_between f1 nu (f_of_usize (length dist))); assumption). split; [exact Fn|].
  apply fle_true in C1; [|exact F1|exact Fn]. apply fle_true in C2; [|exact Fn|exact Fo]. rewrite V1 in C1. rewrite Vo in C2. split; [lra|].
  destruct (cap_spec nu Fn C1) as [Fc Vc].
  assert (D : forall d, In d dist -> finite_num d /\ 0 <= val d <= nearest64 (/ val nu)).
  { intros d Hd. destruct (C4 d Hd) as [D1 D2]. assert (Fd : fin d) by (apply (fle_between f0 d (fdiv f1 nu)); try assumption; apply fin_f0). split; [exact Fd|].
    apply fle_true in D1; [|apply fin_f0|exact Fd]. apply fle_true in D2; [|exact Fd|exact Fc]. rewrite val_f0 in D1. rewrite Vc in D2. split; [exact D1|exact D2]. }
  split; [exact D|]. destruct (Rle_or_lt (Rabs (total dist - 1)) (11 / 10 ^ 6)) as [L|L]; [exact L|exfalso].
  assert (Tb : total dist <= INR (length dist)).
  { assert (C' : nearest64 (/ val nu) <= 1). { apply Rle_trans with (rnd (val f1)); [|rewrite rnd_val, V1; lra]. apply rnd_mono. rewrite V1, <- Rinv_1. apply Rinv_le_contravar; lra. }
    unfold total. clear - D C'. induction dist as [|d l IH]; [simpl; lra|]. cbn [map rsum length]. rewrite S_INR. specialize (IH (fun d' H' => D d' (or_intror H'))). destruct (D d (or_introl eq_refl)) as [_ Q]. lra. }
  rewrite (proj2 (sum_test dist (fun d Hd => proj1 (D d Hd)) (fun d Hd => proj1 (proj2 (D d Hd))) Hn ltac:(eapply Rle_lt_trans; [exact Tb|]; eapply Rle_lt_trans; [exact Hn|]; apply Rlt_pow; [lra|lia])) ltac:(lra)) in C3. discriminate C3.
Qed.

(** ** C91: exp and ln that are correctly rounded are accurate, and there are such functions *)
Lemma rnd_err r : 0 <= r <= 1 -> 0 <= nearest64 r <= 1 /\ Rabs (nearest64 r - r) <= / 2 ^ 50.
Proof.
  intros Hr. destruct f1_spec as [F1 V1]. split; [split|].
  - rewrite <- val_f0, <- (rnd_val f0), val_f0. apply rnd_mono, Hr.
  - apply Rle_trans with (rnd (val f1)); [|rewrite rnd_val, V1; lra]. apply rnd_mono. rewrite V1. apply Hr.
  - rewrite nearest_rnd. destruct (err_mult r) as [e [h [He [Hh E]]]]. fold eta0 in Hh. rewrite E. replace (r * (1 + e) + h - r) with (r * e + h) by ring.
    eapply Rle_trans; [apply Rabs_triang|]. rewrite Rabs_mult, (Rabs_pos_eq r) by apply Hr. pose proof eta0_small. pose proof (Rabs_pos e). rewrite uu53 in He.
    assert (r * Rabs e <= 1 * / 2 ^ 53) by (apply Rmult_le_compat; lra). assert (/ 2 ^ 53 + / 2 ^ 100 <= / 2 ^ 50) by (simpl; lra). lra.
Qed.
Lemma P_C91_correct_accurate :
  forall fexp fln, correct_exp fexp -> correct_ln fln -> accurate_exp fexp /\ accurate_ln fln.
Proof.
  intros fexp fln He Hl. split.
  - intros x Fx Hx. destruct (He x Fx ltac:(lra)) as [F V]. split; [exact F|]. rewrite V. apply rnd_err. split; [left; apply exp_pos|]. rewrite <- exp_0. apply exp_le_exp, Hx.
  - split.
    + intros x Fx Hx. destruct (Hl x Fx ltac:(lra)) as [F V]. split; [exact F|]. rewrite V. apply rnd_err. split; [rewrite <- ln_1; apply ln_le; lra|]. eapply Rle_trans; [apply ln_le_sub; lra|lra].
    + intros x Fx Hx. destruct (Hl x Fx ltac:(lra)) as [F V]. split; [exact F|]. rewrite V, Hx, ln_1. unfold nearest64. apply round_0. typeclasses eauto.
Qed.

Definition round64 (r : R) : f64 := binary_normalize 53 1024 eq_refl eq_refl mode_NE (ZnearestE (scaled_mantissa radix2 (FLT_exp (-1074) 53) r)) (cexp radix2 (FLT_exp (-1074) 53) r) false.
Lemma round64_spec r : Rabs r <= 2 ^ 1023 -> finite_num (round64 r) /\ val (round64 r) = nearest64 r.
Proof.
  intros Hr. pose proof (binary_normalize_correct 53 1024 eq_refl eq_refl mode_NE (ZnearestE (scaled_mantissa radix2 (FLT_exp (-1074) 53) r)) (cexp radix2 (FLT_exp (-1074) 53) r) false) as C. cbv zeta in C.
  change (F2R (Float radix2 (ZnearestE (scaled_mantissa radix2 (FLT_exp (-1074) 53) r)) (cexp radix2 (FLT_exp (-1074) 53) r))) with (nearest64 r) in C.
  assert (G : generic_format radix2 (SpecFloat.fexp 53 1024) (nearest64 r)) by (apply (generic_format_round radix2 (FLT_exp (-1074) 53)); typeclasses eauto).
  rewrite round_generic in C by (try typeclasses eauto; exact G). rewrite Rlt_bool_true in C; [destruct C as [C1 [C2 _]]; split; assumption|].
  apply Rle_lt_trans with (2 ^ 1023).
  - unfold nearest64. apply abs_round_le_generic; try typeclasses eauto; [|exact Hr]. rewrite <- two_pow. apply generic_format_bpow. unfold FLT_exp. lia.
  - change (bpow radix2 1024) with (bpow radix2 (Z.of_nat 1024)). rewrite two_pow. apply Rlt_pow; [lra|lia].
Qed.
Lemma P_C91_platform :
  exists fexp fln, correct_exp fexp /\ correct_ln fln.
Proof.
  exists (fun x => round64 (exp (val x))), (fun x => round64 (ln (val x))). split.
  - intros x Fx Hx. apply round64_spec. rewrite Rabs_pos_eq by (left; apply exp_pos).
    assert (E : exp (700 / 1023) <= 2). { replace 2 with (2 / 1) by lra. apply (exp_below 700 1023 12); [lia|lia|lia|lia|vm_compute; reflexivity]. }
    apply Rle_trans with (exp 700); [apply exp_le_exp, Hx|]. replace 700 with (INR 1023 * (700 / 1023)) by (rewrite INR_IZR_INZ; change (Z.of_nat 1023) with 1023%Z; lra).
    assert (P : forall k y, exp (INR k * y) = exp y ^ k). { induction k as [|k IH]; intros y; [simpl INR; rewrite Rmult_0_l; apply exp_0|]. rewrite S_INR, Rmult_plus_distr_r, Rmult_1_l, exp_plus, IH. cbn [pow]. ring. }
    rewrite P. apply pow_incr. split; [left; apply exp_pos|exact E].
  - intros x Fx Hx. apply round64_spec.
    assert (U : val x < 2 ^ 1024). { pose proof (abs_B2R_lt_emax 53 1024 x) as Q. rewrite Rabs_pos_eq in Q by lra. change 1024%Z with (Z.of_nat 1024) in Q. rewrite two_pow in Q. exact Q. }
    assert (L : / 2 ^ 1074 <= val x).
    { rewrite <- two_pow, <- bpow_opp. change (- Z.of_nat 1074)%Z with (-1074)%Z. rewrite <- (Rabs_pos_eq (val x)) by lra. apply (abs_B2R_ge_emin 53 1024). destruct x as [s|s| |s m e H]; try reflexivity; cbn in Hx; lra. }
    assert (P0 : 0 < / 2 ^ 1074) by (apply Rinv_0_lt_compat, pow_lt; lra). pose proof (ln_le_sub 2 ltac:(lra)) as L2.
    assert (B1 : ln (val x) <= 1024). { apply Rle_trans with (ln (2 ^ 1024)); [apply ln_le; lra|]. rewrite ln_pow by lra. rewrite INR_IZR_INZ. change (Z.of_nat 1024) with 1024%Z. lra. }
    assert (B2 : - 1074 <= ln (val x)). { apply Rle_trans with (ln (/ 2 ^ 1074)); [|apply ln_le; lra]. rewrite ln_Rinv by (apply pow_lt; lra). rewrite ln_pow by lra. rewrite INR_IZR_INZ. change (Z.of_nat 1074) with 1074%Z. lra. }
    apply Rle_trans with (2 ^ 11); [apply Rabs_le; simpl; lra|apply Rle_pow; [lra|lia]].
Qed.

(** ** C91: with two equal logarithms of 2^53 the logarithm of the sum loses ln 2, the two weights are both about 1 and the check panics *)
Lemma two53_spec : fin two53 /\ val two53 = 2 ^ 53.
Proof.
  split; [vm_compute; reflexivity|]. replace two53 with (binary_normalize 53 1024 eq_refl eq_refl mode_NE (2 ^ 52) 1 false) by (apply B2SF_inj; vm_compute; reflexivity).
  pose proof (binary_normalize_correct 53 1024 eq_refl eq_refl mode_NE (2 ^ 52) 1 false) as C. cbv zeta in C.
  assert (E : F2R (Float radix2 (2 ^ 52) 1) = 2 ^ 53) by (unfold F2R; cbn [Fnum Fexp]; simpl; lra).
  assert (G : generic_format radix2 (SpecFloat.fexp 53 1024) (F2R (Float radix2 (2 ^ 52) 1))) by (apply (me_format (2 ^ 52) 1); lia).
  rewrite round_generic in C by (try typeclasses eauto; exact G). rewrite Rlt_bool_true in C; [destruct C as [C1 _]; rewrite C1; exact E|].
  rewrite E, Rabs_pos_eq by (apply pow_le; lra). change 1024%Z with (Z.of_nat 1024). rewrite two_pow. apply Rlt_pow; [lra|lia].
Qed.
Lemma absorb l : 0 <= l < 1 -> nearest64 (2 ^ 53 + l) = 2 ^ 53.
Proof.
  intros Hl. assert (E : 2 ^ 53 = IZR (2 ^ 52) * bpow radix2 1) by (simpl; lra). apply Rle_antisym.
  - rewrite E at 2. apply rnd_below; [lia|lia|]. change (bpow radix2 1) with 2. change (IZR (2 ^ 52)) with 4503599627370496. simpl. lra.
  - destruct two53_spec as [_ V]. rewrite <- V at 1. rewrite <- (rnd_val two53), V. apply rnd_mono. lra.
Qed.
Lemma P_C91_large_logs_refuted :
  forall fexp fln, accurate_exp fexp -> accurate_ln fln -> f_project fexp fln f1 [two53; two53] = Panic AssertFailed.
Proof.
  intros fexp fln He Hl. destruct two53_spec as [Fx Vx]. destruct f1_spec as [F1 V1]. pose proof uu53 as U53.
  assert (Big : 2 ^ 60 <= 2 ^ 1000) by (apply Rle_pow; [lra|lia]). assert (S60 : 2 ^ 53 * 128 = 2 ^ 60) by (simpl; lra). assert (S53 : 1024 <= 2 ^ 53) by (simpl; lra).
  unfold f_project. assert (E0 : andb (Nat.ltb 1 (length [two53; two53])) (existsb is_nan [two53; two53]) = false) by (vm_compute; reflexivity). rewrite E0. cbv zeta.
  assert (E1 : f_sorted_indices [two53; two53] = [0; 1]%nat) by (vm_compute; reflexivity). rewrite E1.
  unfold f_logsums. cbn [rev app fold_left f_logsum_step nth combine].
  set (v := f_logsum_next fexp fln two53 two53).
  assert (Vv : fin v /\ val v = 2 ^ 53).
  { unfold v, f_logsum_next. cbv zeta. assert (Em : f_min2 two53 two53 = two53) by (apply B2SF_inj; vm_compute; reflexivity). assert (EM : f_max2 two53 two53 = two53) by (apply B2SF_inj; vm_compute; reflexivity).
    rewrite Em, EM. assert (Es : fsub two53 two53 = f0) by (apply B2SF_inj; vm_compute; reflexivity). rewrite Es. destruct (He f0 fin_f0) as [Fe [Be Ae]]; [rewrite val_f0; lra|].
    rewrite val_f0, exp_0 in Ae. destruct (fadd_rnd f1 (fexp f0) F1 Fe) as [Fa [Va _]]; [rewrite V1, Rabs_pos_eq by lra; lra|].
    assert (Ba : 1 <= val (fadd f1 (fexp f0)) <= 2).
    { rewrite Va, V1. split.
      - apply Rle_trans with (rnd (val f1)); [rewrite rnd_val, V1; lra|apply rnd_mono; rewrite V1; lra].
      - assert (F2 : fin (f_of_usize 2) /\ val (f_of_usize 2) = 2) by (apply (of_usize_spec 2); simpl; lra). apply Rle_trans with (rnd (val (f_of_usize 2))); [apply rnd_mono; rewrite (proj2 F2); lra|rewrite rnd_val, (proj2 F2); lra]. }
    destruct (proj1 Hl _ Fa Ba) as [Fl [Bl Al]].
    assert (L2 : ln 2 <= 3 / 4). { rewrite <- (ln_exp (3 / 4)). apply ln_le; [lra|]. replace 2 with (2 / 1) by lra. apply (exp_above 3 4 6); [lia|lia|lia|vm_compute; reflexivity]. }
    assert (Bl' : val (fln (fadd f1 (fexp f0))) < 1). { assert (ln (val (fadd f1 (fexp f0))) <= ln 2) by (apply ln_le; lra). apply Rabs_le_inv in Al. assert (/ 2 ^ 50 < / 4) by (simpl; lra). lra. }
    destruct (fadd_rnd two53 _ Fx Fl) as [Fv [Vv _]]; [rewrite Vx, Rabs_pos_eq by lra; lra|]. split; [exact Fv|]. rewrite Vv, Vx. apply absorb. lra. }
  destruct Vv as [Fv Vv]. clearbody v. cbn [f_proj_loop nth].
  assert (A1 : fsub f1 (fmul (fdiv f1 f1) (f_of_usize 0)) = f1) by (apply B2SF_inj; vm_compute; reflexivity). rewrite A1.
  destruct (proj2 Hl f1 F1 V1) as [Fl Vl]. destruct (fsub_rnd (fln f1) v Fl Fv) as [Fq [Vq _]]; [rewrite Vl, Vv, Rminus_0_l, Rabs_Ropp, Rabs_pos_eq by lra; lra|].
  assert (Vq' : val (fsub (fln f1) v) = - 2 ^ 53). { rewrite Vq, Vl, Vv, Rminus_0_l. rewrite <- Vx, <- (fopp_val two53). apply rnd_val. }
  set (lx := fsub (fln f1) v) in *. clearbody lx. destruct (fadd_rnd lx two53 Fq Fx) as [Fa [Va _]]; [rewrite Vq', Vx, Rplus_opp_l, Rabs_R0; lra|].
  rewrite Vq', Vx, Rplus_opp_l in Va. assert (R0 : rnd 0 = 0) by (rewrite <- val_f0; apply rnd_val). rewrite R0 in Va.
  assert (St : fle (fadd (fadd lx two53) (fln f1)) f0 = true). { destruct (fadd_rnd _ _ Fa Fl) as [Fb [Vb _]]; [rewrite Va, Vl, Rplus_0_r, Rabs_R0; lra|]. apply fle_true; [exact Fb|apply fin_f0|]. rewrite Vb, Va, Vl, Rplus_0_r, R0, val_f0. lra. }
  rewrite St. unfold f_proj_rest. cbn [fold_left upd nth fst].
  destruct (He _ Fa) as [Fe [Be Ae]]; [lra|]. rewrite Va, exp_0 in Ae. apply Rabs_le_inv in Ae. assert (S50 : / 2 ^ 50 <= / 4) by (simpl; lra).
  rewrite P_C78_rejects_sum; [reflexivity| | | | |].
  - intros d [<- |[<- |[]]]; exact Fe.
  - apply Rle_trans with 2; [simpl; lra|]. simpl. lra.
  - intros d [<- |[<- |[]]]; apply Be.
  - unfold total. cbn [map rsum]. apply Rle_lt_trans with 2; [lra|]. apply Rlt_le_trans with (2 ^ 2); [simpl; lra|apply Rle_pow; [lra|lia]].
  - unfold total. cbn [map rsum]. rewrite Rabs_pos_eq; lra.
Qed.

(** ** C91: with correctly rounded exp and ln, a cap of 107/64 and the logarithms 0 and -3582009729985367/2^53 the first weight rounds above the cap and the check panics *)
Lemma nu107_spec : fin nu107 /\ val nu107 = 107 / 64.
Proof. destruct (normalize_exact 107 (-6)) as [F V]; [vm_compute; reflexivity|lia|]. split; [exact F|]. unfold nu107. rewrite V. change (-6)%Z with (- Z.of_nat 6)%Z. rewrite bpow_opp, two_pow. simpl. lra. Qed.
Lemma log43_spec : fin log43 /\ val log43 = - (3582009729985367 / 9007199254740992).
Proof. destruct (normalize_exact (-3582009729985367) (-53)) as [F V]; [vm_compute; reflexivity|lia|]. split; [exact F|]. unfold log43. rewrite V, b53. lra. Qed.
Lemma cap107 : fin (fdiv f1 nu107) /\ val (fdiv f1 nu107) = 5387483666387135 / 9007199254740992.
Proof.
  replace (fdiv f1 nu107) with (binary_normalize 53 1024 eq_refl eq_refl mode_NE 5387483666387135 (-53) false) by (apply B2SF_inj; vm_compute; reflexivity).
  destruct (normalize_exact 5387483666387135 (-53)) as [F V]; [vm_compute; reflexivity|lia|]. split; [exact F|]. rewrite V, b53. lra.
Qed.
Lemma rnd_same r m e : (Z.abs m < 2 ^ 53)%Z -> (-1074 <= e)%Z -> r = IZR m * bpow radix2 e -> rnd r = r.
Proof. intros Hm He E. apply round_generic; [typeclasses eauto|]. apply (generic_format_FLT radix2 (-1074) 53). exists (Float radix2 m e); [exact E|exact Hm|exact He]. Qed.

Lemma P_C91_cap_refuted :
  forall fexp fln, correct_exp fexp -> correct_ln fln ->
  f_project fexp fln nu107 [f0; log43] = Panic AssertFailed.
Proof.
  intros fexp fln He Hl. destruct log43_spec as [Fx Vx]. destruct f1_spec as [F1 V1]. destruct nu107_spec as [Fn Vn]. destruct cap107 as [Fc Vc]. pose proof fin_f0 as F0. pose proof val_f0 as V0.
  assert (Big : 4 <= 2 ^ 1000) by (apply Rle_trans with (2 ^ 2); [simpl; lra|apply Rle_pow; [lra|lia]]).
  unfold f_project. assert (E0 : andb (Nat.ltb 1 (length [f0; log43])) (existsb is_nan [f0; log43]) = false) by (vm_compute; reflexivity). rewrite E0. cbv zeta.
  assert (E1 : f_sorted_indices [f0; log43] = [0; 1]%nat) by (vm_compute; reflexivity). rewrite E1.
  unfold f_logsums. cbn [rev app fold_left f_logsum_step nth combine].
  set (v := f_logsum_next fexp fln log43 f0).
  assert (R43 : rnd (1 + 43 / 64) = 107 / 64). { replace (1 + 43 / 64) with (107 / 64) by lra. apply (rnd_same _ 107 (-6)); [vm_compute; reflexivity|lia|]. change (-6)%Z with (- Z.of_nat 6)%Z. rewrite bpow_opp, two_pow. simpl. lra. }
  assert (RL : rnd (4629211786305344 / 9007199254740992) = 4629211786305344 / 9007199254740992) by (apply (rnd_same _ 4629211786305344 (-53)); [vm_compute; reflexivity|lia|rewrite b53; lra]).
  assert (RL' : rnd (- (4629211786305344 / 9007199254740992)) = - (4629211786305344 / 9007199254740992)) by (apply (rnd_same _ (-4629211786305344) (-53)); [vm_compute; reflexivity|lia|rewrite b53; lra]).
  assert (Vv : fin v /\ val v = 4629211786305344 / 9007199254740992).
  { unfold v, f_logsum_next. cbv zeta. assert (Em : f_min2 log43 f0 = log43) by (apply B2SF_inj; vm_compute; reflexivity). assert (EM : f_max2 log43 f0 = f0) by (apply B2SF_inj; vm_compute; reflexivity).
    rewrite Em, EM. assert (Es : fsub log43 f0 = log43) by (apply B2SF_inj; vm_compute; reflexivity). rewrite Es. destruct (He log43 Fx) as [Fe Ve]; [rewrite Vx; lra|]. rewrite Vx, exp_t in Ve.
    destruct (fadd_rnd f1 (fexp log43) F1 Fe) as [Fa [Va _]]; [rewrite V1, Ve, Rabs_pos_eq by lra; lra|]. rewrite V1, Ve, R43 in Va.
    destruct (Hl _ Fa) as [Fl Vl]; [rewrite Va; lra|]. rewrite Va, ln_nu in Vl.
    destruct (fadd_rnd f0 _ F0 Fl) as [Fv [Vv _]]; [rewrite V0, Vl, Rabs_pos_eq by lra; lra|]. split; [exact Fv|]. rewrite Vv, V0, Vl, Rplus_0_l. exact RL. }
  destruct Vv as [Fv Vv]. clearbody v. cbn [f_proj_loop nth].
  assert (A1 : fsub f1 (fmul (fdiv f1 nu107) (f_of_usize 0)) = f1) by (apply B2SF_inj; vm_compute; reflexivity). rewrite A1.
  destruct (Hl f1 F1) as [Fl Vl]; [rewrite V1; lra|]. rewrite V1, ln_1 in Vl. assert (R0 : rnd 0 = 0) by (rewrite <- V0; apply rnd_val). rewrite nearest_rnd, R0 in Vl.
  destruct (fsub_rnd (fln f1) v Fl Fv) as [Fq [Vq _]]; [rewrite Vl, Vv, Rminus_0_l, Rabs_Ropp, Rabs_pos_eq by lra; lra|]. rewrite Vl, Vv, Rminus_0_l, RL' in Vq.
  set (lx := fsub (fln f1) v) in *. clearbody lx. destruct (fadd_rnd lx f0 Fq F0) as [Fa [Va _]]; [rewrite Vq, V0, Rplus_0_r, Rabs_Ropp, Rabs_pos_eq by lra; lra|]. rewrite Vq, V0, Rplus_0_r, RL' in Va.
  destruct (Hl nu107 Fn) as [Fm Vm]; [rewrite Vn; lra|]. rewrite Vn, ln_nu in Vm.
  assert (St : fle (fadd (fadd lx f0) (fln nu107)) f0 = true). { destruct (fadd_rnd _ _ Fa Fm) as [Fb [Vb _]]; [rewrite Va, Vm, Rplus_opp_l, Rabs_R0; lra|]. apply fle_true; [exact Fb|exact F0|]. rewrite Vb, Va, Vm, Rplus_opp_l, R0, V0. lra. }
  rewrite St. unfold f_proj_rest. cbn [fold_left upd nth fst].
  destruct (He _ Fa) as [Fe Ve]; [rewrite Va; lra|]. rewrite Va in Ve. pose proof exp_L as XL.
  match goal with |- context [f_check_capped_simplex ?l nu107] => set (ds := l) end.
  assert (Ck : f_check_capped_simplex ds nu107 = Panic AssertFailed).
  { apply check_panics. intros Q. apply check_ok in Q. destruct Q as [_ [_ [_ Q]]]. destruct (Q (fexp (fadd lx f0)) (or_introl eq_refl)) as [_ Q2]. apply fle_true in Q2; [|exact Fe|exact Fc]. rewrite Vc, Ve in Q2. lra. }
  rewrite Ck. reflexivity.
Qed.

(** ** hypotheses met: three logarithms, with correctly rounded exp and ln; and the case of [P_C91_cap_refuted] is within the documented range 1 <= nu <= n *)
Example C91_nonvacuous : exists fexp fln dist, accurate_exp fexp /\ accurate_ln fln /\ f_project fexp fln f1 [f0; f1; f_of_usize 5] = Ok dist /\ length dist = 3%nat /\ 1 <= val nu107 <= INR (length [f0; log43]).
Proof.
  destruct P_C91_platform as [fexp [fln [C1 C2]]]. destruct (P_C91_correct_accurate fexp fln C1 C2) as [A1 A2].
  destruct f1_spec as [F1 V1]. destruct (of_usize_spec 5) as [F5 V5]; [simpl; lra|].
  destruct (P_C91_uncapped fexp fln [f0; f1; f_of_usize 5] 5 A1 A2) as [dist [D1 [D2 _]]]; [discriminate| |simpl; lra|].
  - intros d [<- |[<- |[<- |[]]]]; (split; [first [apply fin_f0|exact F1|exact F5]|]); [rewrite val_f0, Rabs_R0; lra|rewrite V1, Rabs_R1; lra|rewrite V5, Rabs_pos_eq; simpl; lra].
  - exists fexp, fln, dist. split; [exact A1|]. split; [exact A2|]. split; [exact D1|]. split; [exact D2|]. rewrite (proj2 nu107_spec). simpl. lra.
Qed.
