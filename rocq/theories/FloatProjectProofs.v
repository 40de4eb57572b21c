(** Error analysis of the projection in binary64 *)
From Coq Require Import ZArith List Bool Reals Lia Lra Psatz Permutation.
From Flocq Require Import Core.Core IEEE754.BinarySingleNaN Relative Plus_error.
From Verif Require Import Base SortLib Float FloatSpec FloatProofs FloatFacts FloatCheckFacts FloatProject FloatProjectSpec.
Import ListNotations.
Open Scope R_scope.

(** ** real functions *)
Lemma exp_small x : Rabs x <= / 2 -> Rabs (exp x - 1) <= 2 * Rabs x.
Proof.
  intros H. apply Rabs_le_inv in H. pose proof (exp_ineq1_le x) as A. pose proof (exp_ineq1_le (- x)) as B. rewrite exp_Ropp in B.
  assert (P : 0 < exp x) by apply exp_pos. assert (U : exp x * (1 - x) <= 1).
  { apply Rmult_le_compat_l with (r := exp x) in B; [|lra]. rewrite Rinv_r in B by lra. lra. }
  unfold Rabs at 2. destruct (Rcase_abs x).
  - apply Rabs_le. split; nra.
  - apply Rabs_le. split; [lra|]. nra.
Qed.

Lemma lse_lip a A E : 0 < E -> Rabs (ln (exp a + E) - ln (exp A + E)) <= Rabs (a - A).
Proof.
  intros HE. assert (K : forall a A, ln (exp a + E) - ln (exp A + E) <= Rabs (a - A)).
  { clear a A. intros a A. pose proof (exp_pos a). pose proof (exp_pos A). assert (Q : ln (exp a + E) <= ln (exp (Rabs (a - A)) * (exp A + E))).
    { apply ln_le; [lra|]. assert (1 <= exp (Rabs (a - A))) by (rewrite <- exp_0; apply exp_le_exp; apply Rabs_pos).
      assert (exp a <= exp (Rabs (a - A)) * exp A) by (rewrite <- exp_plus; apply exp_le_exp; pose proof (Rle_abs (a - A)); lra). nra. }
    rewrite ln_mult, ln_exp in Q by (try apply exp_pos; lra). lra. }
  apply Rabs_le. pose proof (K a A). pose proof (K A a). rewrite (Rabs_minus_sym A a) in *. lra.
Qed.
Lemma ln_lip p q : 1 <= p -> 1 <= q -> Rabs (ln p - ln q) <= Rabs (p - q).
Proof.
  assert (K : forall p q, 1 <= p -> 1 <= q -> ln p - ln q <= Rabs (p - q)).
  { clear. intros p q Hp Hq. replace (ln p - ln q) with (ln (p / q)) by (unfold Rdiv; rewrite ln_mult, ln_Rinv by (try apply Rinv_0_lt_compat; lra); ring). pose proof (ln_le_sub (p / q) ltac:(apply Rdiv_lt_0_compat; lra)) as L. eapply Rle_trans; [exact L|].
    replace (p / q - 1) with ((p - q) / q) by (field; lra). apply (proj2 (Rdiv_le_iff _ _ q ltac:(lra))). pose proof (Rle_abs (p - q)). pose proof (Rabs_pos (p - q)). nra. }
  intros Hp Hq. apply Rabs_le. pose proof (K p q Hp Hq). pose proof (K q p Hq Hp). rewrite (Rabs_minus_sym q p) in *. lra.
Qed.
Lemma lse_minmax a d : ln (exp a + exp d) = Rmax a d + ln (1 + exp (Rmin a d - Rmax a d)).
Proof.
  assert (K : forall l s, ln (exp l + exp s) = l + ln (1 + exp (s - l))).
  { intros l s. pose proof (exp_pos (s - l)). rewrite <- (ln_exp l) at 2. rewrite <- ln_mult by (try apply exp_pos; lra). f_equal. rewrite Rmult_plus_distr_l, <- exp_plus. replace (l + (s - l)) with s by ring. ring. }
  unfold Rmax, Rmin. destruct (Rle_dec a d); [rewrite Rplus_comm|]; apply K.
Qed.

(** ** rounded operations *)
Lemma fadd_rnd x y : fin x -> fin y -> Rabs (val x + val y) <= 2 ^ 1000 -> fin (fadd x y) /\ val (fadd x y) = rnd (val x + val y) /\ exists e, Rabs e <= uu /\ val (fadd x y) = (val x + val y) * (1 + e).
Proof.
  intros Fx Fy Hb. destruct (fadd_spec x y Fx Fy) as [F [e [He E]]].
  { pose proof uu_small. pose proof uu_pos. rewrite big_1024. pose proof (Rabs_pos (val x + val y)). assert (P : 2 ^ 1000 <= 2 ^ 1023) by (apply Rle_pow; [lra|lia]). assert (0 < 2 ^ 1023) by (apply pow_lt; lra).
    apply Rle_lt_trans with (2 ^ 1023 * (1 + / 2)); [apply Rmult_le_compat; lra|]. generalize dependent (2 ^ 1023). intros. lra. }
  split; [exact F|]. split; [|exists e; auto]. unfold fadd. pose proof (Bplus_correct 53 1024 _ _ mode_NE x y Fx Fy) as C. destruct (Rlt_bool _ _) eqn:B; [destruct C as [C1 _]; exact C1|].
  exfalso. destruct C as [C _]. unfold fadd in F. rewrite <- is_finite_SF_B2SF, C in F. destruct (Bsign x); discriminate F.
Qed.
Lemma fsub_rnd x y : fin x -> fin y -> Rabs (val x - val y) <= 2 ^ 1000 -> fin (fsub x y) /\ val (fsub x y) = rnd (val x - val y) /\ exists e, Rabs e <= uu /\ val (fsub x y) = (val x - val y) * (1 + e).
Proof.
  intros Fx Fy Hb. destruct (fsub_spec x y Fx Fy) as [F [e [He E]]].
  { pose proof uu_small. pose proof uu_pos. rewrite big_1024. pose proof (Rabs_pos (val x - val y)). assert (P : 2 ^ 1000 <= 2 ^ 1023) by (apply Rle_pow; [lra|lia]). assert (0 < 2 ^ 1023) by (apply pow_lt; lra).
    apply Rle_lt_trans with (2 ^ 1023 * (1 + / 2)); [apply Rmult_le_compat; lra|]. generalize dependent (2 ^ 1023). intros. lra. }
  split; [exact F|]. split; [|exists e; auto]. unfold fsub. pose proof (Bminus_correct 53 1024 _ _ mode_NE x y Fx Fy) as C. destruct (Rlt_bool _ _) eqn:B; [destruct C as [C1 _]; exact C1|].
  exfalso. destruct C as [C _]. unfold fsub in F. rewrite <- is_finite_SF_B2SF, C in F. destruct (Bsign x); discriminate F.
Qed.

Lemma fin_num' x : fin x -> is_nan x = false. Proof. destruct x; intros H; try discriminate H; reflexivity. Qed.
Lemma min2_val x y : fin x -> fin y -> fin (f_min2 x y) /\ val (f_min2 x y) = Rmin (val x) (val y).
Proof.
  intros Fx Fy. unfold f_min2. rewrite (fin_num' x Fx), (fin_num' y Fy). destruct (flt y x) eqn:E.
  - apply (flt_true y x Fy Fx) in E. split; [exact Fy|]. rewrite Rmin_right; lra.
  - split; [exact Fx|]. rewrite Rmin_left; [reflexivity|]. destruct (Rle_or_lt (val x) (val y)) as [L|L]; [exact L|]. apply (flt_true y x Fy Fx) in L. congruence.
Qed.
Lemma max2_val x y : fin x -> fin y -> fin (f_max2 x y) /\ val (f_max2 x y) = Rmax (val x) (val y).
Proof.
  intros Fx Fy. unfold f_max2. rewrite (fin_num' x Fx), (fin_num' y Fy). destruct (flt x y) eqn:E.
  - apply (flt_true x y Fx Fy) in E. split; [exact Fy|]. rewrite Rmax_right; lra.
  - split; [exact Fx|]. rewrite Rmax_left; [reflexivity|]. destruct (Rle_or_lt (val y) (val x)) as [L|L]; [exact L|]. apply (flt_true x y Fx Fy) in L. congruence.
Qed.

Lemma err_form v t e : v = t * (1 + e) -> Rabs e <= uu -> Rabs (v - t) <= uu * Rabs t.
Proof. intros -> H. replace (t * (1 + e) - t) with (e * t) by ring. rewrite Rabs_mult. apply Rmult_le_compat_r; [apply Rabs_pos|exact H]. Qed.

Lemma uu53 : uu = / 2 ^ 53. Proof. reflexivity. Qed.

Section Step.
  Variables (fexp fln : f64 -> f64).
  Hypothesis Hexp : accurate_exp fexp.
  Hypothesis Hln : accurate_ln fln.

  Lemma next_ok v d B : fin v -> fin d -> Rabs (val v) <= B -> Rabs (val d) <= B -> B <= 2 ^ 40 ->
    fin (f_logsum_next fexp fln v d) /\ val v <= val (f_logsum_next fexp fln v d) /\ val d <= val (f_logsum_next fexp fln v d) /\
    Rabs (val (f_logsum_next fexp fln v d) - ln (exp (val v) + exp (val d))) <= / 2 ^ 51 * (B + 5).
  Proof.
    intros Fv Fd Bv Bd HB. unfold f_logsum_next. cbv zeta. rewrite lse_minmax. destruct (min2_val v d Fv Fd) as [Fs Vs]. destruct (max2_val v d Fv Fd) as [Fl Vl].
    set (sm := f_min2 v d) in *. set (lg := f_max2 v d) in *. rewrite <- Vs, <- Vl. pose proof uu_pos as Up. pose proof uu_small as Us. pose proof uu53 as U53.
    assert (Big : 2 ^ 40 * 8 <= 2 ^ 1000) by (apply Rle_trans with (2 ^ 43); [simpl; lra|apply Rle_pow; [lra|lia]]).
    assert (B0 : 0 <= B) by (pose proof (Rabs_pos (val v)); lra).
    assert (Bs : Rabs (val sm) <= B) by (rewrite Vs; unfold Rmin; destruct (Rle_dec _ _); assumption).
    assert (Bl : Rabs (val lg) <= B) by (rewrite Vl; unfold Rmax; destruct (Rle_dec _ _); assumption).
    assert (Lv : val v <= val lg) by (rewrite Vl; apply Rmax_l). assert (Ld : val d <= val lg) by (rewrite Vl; apply Rmax_r).
    assert (Sl : val sm - val lg <= 0) by (rewrite Vs, Vl; unfold Rmin, Rmax; destruct (Rle_dec _ _); lra). clearbody sm lg. clear Vs Vl.
    assert (Bsl : Rabs (val sm - val lg) <= 2 * B) by (unfold Rminus; eapply Rle_trans; [apply Rabs_triang|]; rewrite Rabs_Ropp; lra).
    destruct (fsub_rnd sm lg Fs Fl) as [Fx [Rx [e1 [He1 E1]]]]; [clear -Bsl HB Big B0; lra|]. set (x := fsub sm lg) in *. pose proof (err_form _ _ _ E1 He1) as Ex.
    assert (X0 : val x <= 0). { rewrite Rx. rewrite <- val_f0, <- (rnd_val f0), val_f0. apply rnd_mono, Sl. }
    destruct (Hexp x Fx X0) as [Fp [Pp Ep]]. set (p := fexp x) in *. destruct f1_spec as [F1 V1].
    destruct (fadd_rnd f1 p F1 Fp) as [Fq [Rq [e2 [He2 E2]]]]; [rewrite V1, Rabs_pos_eq by lra; apply Rle_trans with (2 ^ 1); [simpl; lra|apply Rle_pow; [lra|lia]]|].
    set (q := fadd f1 p) in *. pose proof (err_form _ _ _ E2 He2) as Eq. rewrite V1 in Rq, Eq. rewrite (Rabs_pos_eq (1 + val p)) in Eq by lra.
    assert (Q1 : 1 <= val q). { rewrite Rq. rewrite <- V1, <- (rnd_val f1) at 1. rewrite V1. apply rnd_mono. lra. }
    assert (Q2 : val q <= 2). { rewrite Rq. destruct (of_usize_spec 2) as [F2 V2]; [simpl; lra|]. change (INR 2) with (1 + 1) in V2. apply Rle_trans with (val (f_of_usize 2)); [|rewrite V2; lra]. rewrite <- (rnd_val (f_of_usize 2)). apply rnd_mono. rewrite V2. lra. }
    destruct (proj1 Hln q Fq (conj Q1 Q2)) as [Fg [Pg Eg]]. set (g := fln q) in *.
    assert (Blg : Rabs (val lg + val g) <= B + 1) by (eapply Rle_trans; [apply Rabs_triang|]; rewrite (Rabs_pos_eq (val g)) by lra; lra).
    destruct (fadd_rnd lg g Fl Fg) as [Fr [Rr [e3 [He3 E3]]]]; [clear -Blg HB Big B0; assert (1 <= 2 ^ 40) by (apply pow_R1_Rle; lra); lra|].
    set (r := fadd lg g) in *. pose proof (err_form _ _ _ E3 He3) as Er.
    assert (Rl : val lg <= val r) by (rewrite Rr; rewrite <- (rnd_val lg) at 1; apply rnd_mono; lra).
    split; [exact Fr|]. split; [lra|]. split; [lra|].
    assert (K1 : Rabs (val r - (val lg + val g)) <= uu * (B + 1)) by (eapply Rle_trans; [exact Er|]; apply Rmult_le_compat_l; lra).
    assert (K3 : Rabs (ln (val q) - ln (1 + val p)) <= uu * 2) by (eapply Rle_trans; [apply ln_lip; lra|]; eapply Rle_trans; [exact Eq|]; apply Rmult_le_compat_l; lra).
    assert (K4 : Rabs (ln (1 + val p) - ln (1 + exp (val x))) <= / 2 ^ 50). { pose proof (exp_pos (val x)). eapply Rle_trans; [apply ln_lip; lra|]. replace (1 + val p - (1 + exp (val x))) with (val p - exp (val x)) by ring. exact Ep. }
    assert (K5 : Rabs (ln (1 + exp (val x)) - ln (1 + exp (val sm - val lg))) <= uu * (2 * B)).
    { rewrite (Rplus_comm 1 (exp (val x))), (Rplus_comm 1 (exp (val sm - val lg))). eapply Rle_trans; [apply lse_lip; lra|]. eapply Rle_trans; [exact Ex|]. apply Rmult_le_compat_l; lra. }
    apply Rabs_le_inv in K1. apply Rabs_le_inv in Eg. apply Rabs_le_inv in K3. apply Rabs_le_inv in K4. apply Rabs_le_inv in K5. rewrite U53 in *.
    assert (T : / 2 ^ 53 * (B + 1) + / 2 ^ 50 + / 2 ^ 53 * 2 + / 2 ^ 50 + / 2 ^ 53 * (2 * B) <= / 2 ^ 51 * (B + 5)) by (simpl; lra).
    apply Rabs_le. generalize dependent (/ 2 ^ 53). generalize dependent (/ 2 ^ 50). generalize dependent (/ 2 ^ 51). intros. lra.
  Qed.

  (** ** the logsums *)
  Variables (x : list f64) (M : R).
  Local Notation n := (length x).
  Hypothesis Fx : forall d, In d x -> fin d /\ Rabs (val d) <= M.
  Hypothesis Hn : INR n * (M + 64) <= 2 ^ 30.
  Local Notation xi i := (nth i x f0).
  Local Notation S l := (rsum (map (fun i => exp (val (nth i x f0))) l)).

  Lemma M_pos : (0 < n)%nat -> 0 <= M.
  Proof. intros H. destruct (Fx (xi 0%nat)) as [_ Q]; [apply nth_In, H|]. pose proof (Rabs_pos (val (xi 0%nat))). lra. Qed.
  Lemma M_small : (0 < n)%nat -> M + 64 <= 2 ^ 30 /\ INR n <= 2 ^ 24.
  Proof.
    intros H. pose proof (M_pos H) as MP. assert (N1 : 1 <= INR n) by (change 1 with (INR 1); apply le_INR; lia). split.
    - eapply Rle_trans; [|exact Hn]. rewrite <- (Rmult_1_l (M + 64)) at 1. apply Rmult_le_compat_r; lra.
    - apply Rmult_le_reg_r with 64; [lra|]. eapply Rle_trans; [apply Rmult_le_compat_l; [apply pos_INR|]; instantiate (1 := M + 64); lra|]. eapply Rle_trans; [exact Hn|]. simpl. lra.
  Qed.

  Lemma S_bounds l : l <> [] -> (forall i, In i l -> (i < n)%nat) -> 0 < S l /\ - M <= ln (S l) <= M + ln (INR (length l)).
  Proof.
    intros Nl Hl. assert (B : forall l, (forall i, In i l -> (i < n)%nat) -> INR (length l) * exp (- M) <= S l <= INR (length l) * exp M).
    { clear l Nl Hl. induction l as [|i l IH]; intros Hl; [simpl; lra|]. cbn [map rsum fold_right length]. rewrite S_INR. destruct IH as [I1 I2]; [intros; apply Hl; right; assumption|].
      destruct (Fx (xi i)) as [_ Q]; [apply nth_In, Hl; left; reflexivity|]. apply Rabs_le_inv in Q. assert (exp (- M) <= exp (val (xi i)) <= exp M) by (split; apply exp_le_exp; lra). unfold rsum in *. cbn [fold_right]. lra. }
    specialize (B l Hl). assert (L1 : 1 <= INR (length l)) by (change 1 with (INR 1); apply le_INR; destruct l; [congruence|simpl; lia]). pose proof (exp_pos M). pose proof (exp_pos (- M)).
    assert (P : 0 < S l) by nra. split; [exact P|]. split.
    - rewrite <- (ln_exp (- M)). apply ln_le; [lra|nra].
    - replace (M + ln (INR (length l))) with (ln (INR (length l) * exp M)) by (rewrite ln_mult, ln_exp by lra; ring). apply ln_le; lra.
  Qed.
  Lemma ln_count (l : list nat) : l <> [] -> INR (length l) <= 2 ^ 24 -> ln (INR (length l)) <= 24.
  Proof.
    intros Nl H. assert (L1 : 1 <= INR (length l)) by (change 1 with (INR 1); apply le_INR; destruct l; [congruence|simpl; lia]).
    apply Rle_trans with (ln (2 ^ 24)); [apply ln_le; lra|]. rewrite ln_pow by lra. pose proof (ln_le_sub 2 ltac:(lra)). simpl (INR 24). lra.
  Qed.

  Lemma logsums_cons i ix : f_logsums fexp fln x (i :: ix) = f_logsum_step fexp fln x (f_logsums fexp fln x ix) i.
  Proof. unfold f_logsums. cbn [rev]. rewrite fold_left_app. reflexivity. Qed.

  Lemma logsum_ok ix : forall i, NoDup (i :: ix) -> (forall j, In j (i :: ix) -> (j < n)%nat) -> exists v, f_logsums fexp fln x (i :: ix) = v :: f_logsums fexp fln x ix /\ fin v /\
    (forall j, In j (i :: ix) -> val (xi j) <= val v) /\ Rabs (val v - ln (S (i :: ix))) <= INR (length ix) * (/ 2 ^ 51 * (M + 40)).
  Proof.
    induction ix as [|k ix IH]; intros i Nd Hi.
    - exists (xi i). split; [reflexivity|]. destruct (Fx (xi i)) as [F Q]; [apply nth_In, Hi; left; reflexivity|]. split; [exact F|]. split; [intros j [<- |[]]; lra|].
      cbn [map rsum fold_right length INR]. rewrite Rplus_0_r, ln_exp. rewrite Rminus_diag_eq, Rabs_R0 by reflexivity. lra.
    - inversion Nd as [|? ? Ni Nd']; subst. destruct (IH k Nd') as [w [Ew [Fw [Lw Aw]]]]; [intros j Hj; apply Hi; right; exact Hj|].
      rewrite logsums_cons, Ew. cbn [f_logsum_step]. eexists. split; [reflexivity|].
      assert (N0 : (0 < n)%nat) by (specialize (Hi i (or_introl eq_refl)); lia). destruct (M_small N0) as [Ms Ns]. pose proof (M_pos N0) as MP.
      assert (Lx : (length (k :: ix) <= n)%nat). { eapply Nat.le_trans; [apply (NoDup_incl_length (l' := seq 0 n) Nd'); intros j Hj; apply in_seq; specialize (Hi j (or_intror Hj)); lia|rewrite seq_length; lia]. }
      assert (Li : INR (length (k :: ix)) <= INR n) by (apply le_INR, Lx).
      destruct (S_bounds (k :: ix)) as [SP SB]; [discriminate|intros j Hj; apply Hi; right; exact Hj|]. pose proof (ln_count (k :: ix) ltac:(discriminate) ltac:(lra)) as LC.
      assert (E1 : INR (length ix) * (/ 2 ^ 51 * (M + 40)) <= 1).
      { apply Rle_trans with (INR n * (/ 2 ^ 51 * (M + 64))).
        - assert (I51 : 0 < / 2 ^ 51) by (apply Rinv_0_lt_compat, pow_lt; lra). apply Rmult_le_compat; [apply pos_INR|nra|apply le_INR; simpl in Lx; lia|nra].
        - replace (INR n * (/ 2 ^ 51 * (M + 64))) with (/ 2 ^ 51 * (INR n * (M + 64))) by ring. apply Rle_trans with (/ 2 ^ 51 * 2 ^ 30); [apply Rmult_le_compat_l; [left; apply Rinv_0_lt_compat, pow_lt; lra|exact Hn]|simpl; lra]. }
      assert (Wb : Rabs (val w) <= M + 30). { apply Rabs_le_inv in Aw. apply Rabs_le. lra. }
      destruct (Fx (xi i)) as [Fi Qi]; [apply nth_In, Hi; left; reflexivity|].
      destruct (next_ok w (xi i) (M + 30) Fw Fi Wb) as [Fr [R1 [R2 R3]]]; [lra|apply Rle_trans with (2 ^ 30); [lra|apply Rle_pow; [lra|lia]]|].
      split; [exact Fr|]. split; [intros j [<- |Hj]; [exact R2|eapply Rle_trans; [apply Lw, Hj|exact R1]]|].
      pose proof (lse_lip (val w) (ln (S (k :: ix))) (exp (val (xi i))) (exp_pos _)) as LL. rewrite (exp_ln (S (k :: ix))) in LL by exact SP.
      assert (ES : S (i :: k :: ix) = S (k :: ix) + exp (val (xi i))) by (change (S (i :: k :: ix)) with (exp (val (xi i)) + S (k :: ix)); ring). rewrite ES.
      cbn [length] in *. rewrite S_INR. replace ((INR (length ix) + 1) * (/ 2 ^ 51 * (M + 40))) with (INR (length ix) * (/ 2 ^ 51 * (M + 40)) + / 2 ^ 51 * (M + 40)) by ring.
      assert (I51 : 0 < / 2 ^ 51) by (apply Rinv_0_lt_compat, pow_lt; lra).
      assert (/ 2 ^ 51 * (M + 30 + 5) <= / 2 ^ 51 * (M + 40)) by (apply Rmult_le_compat_l; lra).
      apply Rabs_le_inv in R3. assert (LL' := Rle_trans _ _ _ LL Aw). apply Rabs_le_inv in LL'. apply Rabs_le. lra.
  Qed.
End Step.
