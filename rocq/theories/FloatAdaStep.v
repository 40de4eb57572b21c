(** One round of AdaBoost in binary64 *)
From Coq Require Import ZArith List Bool Reals Lia Lra Psatz Permutation Sorting.
From Flocq Require Import Core.Core IEEE754.BinarySingleNaN Relative Plus_error.
From Verif Require Import Base SortLib Float FloatSpec FloatProofs FloatFacts FloatCheckFacts FloatProject FloatProjectSpec FloatProjectProofs ExpBounds FloatEdge FloatEdgeSpec FloatAda FloatAdaSpec FloatAdaProofs.
Import ListNotations.
Open Scope R_scope.

Lemma exp_bounds d : Rabs d <= / 2 -> 1 - 2 * Rabs d <= exp d <= 1 + 2 * Rabs d.
Proof. intros H. pose proof (exp_small d H) as Q. apply Rabs_le_inv in Q. lra. Qed.

Section Update.
  Variables (fexp fln : f64 -> f64).
  Hypothesis Hexp : precise_exp fexp.
  Hypothesis Hln : precise_ln fln.
  Variables (w : f64) (p d : list f64).
  Local Notation n := (length d).
  Local Notation di i := (val (nth i d f0)).
  Local Notation pi i := (val (nth i p f0)).
  Local Notation al := (val w).
  Hypothesis Lp : length p = n.
  Hypothesis Fw : fin w.
  Hypothesis Bw : Rabs al <= 8.
  Hypothesis Fp : forall c, In c p -> fin c /\ Rabs (val c) <= 1.
  Hypothesis Fd : forall c, In c d -> fin c /\ / 2 ^ 1074 <= val c <= 1.

  Lemma d_ln i : (i < n)%nat -> 0 < di i /\ -752 <= ln (di i) <= 0.
  Proof.
    intros Hi. destruct (Fd _ (nth_In d f0 Hi)) as [_ [D1 D2]]. assert (P0 : 0 < / 2 ^ 1074) by (apply Rinv_0_lt_compat, pow_lt; lra). split; [lra|]. split.
    - apply Rle_trans with (ln (/ 2 ^ 1074)); [|apply ln_le; lra]. rewrite ln_small_pow. pose proof ln2_upper. rewrite INR_IZR_INZ. change (Z.of_nat 1074) with 1074%Z. lra.
    - rewrite <- ln_1. apply ln_le; lra.
  Qed.

  Local Notation logs := (f_ada_logs fln w p d).
  Lemma logs_length : length logs = n.
  Proof. unfold f_ada_logs. rewrite map_length, combine_length, Lp. lia. Qed.
  Lemma logs_nth i : (i < n)%nat -> nth i logs f0 = fsub (fln (nth i d f0)) (fmul w (nth i p f0)).
  Proof.
    intros Hi. unfold f_ada_logs. rewrite nth_indep with (d' := (fun q => fsub (fln (fst q)) (fmul w (snd q))) (f0, f0)) by (rewrite map_length, combine_length, Lp; unfold f64 in *; lia).
    etransitivity; [apply (map_nth (fun q => fsub (fln (fst q)) (fmul w (snd q))))|]. rewrite combine_nth by (symmetry; exact Lp). reflexivity.
  Qed.

  Lemma big_small a : a <= 2 ^ 40 -> a <= 2 ^ 1000.
  Proof. intros H. eapply Rle_trans; [exact H|]. apply Rle_pow; [lra|lia]. Qed.

  Lemma logs_ok i : (i < n)%nat -> fin (nth i logs f0) /\ Rabs (val (nth i logs f0) - (ln (di i) - al * pi i)) <= / 2 ^ 41 /\ Rabs (val (nth i logs f0)) <= 770.
  Proof.
    intros Hi. rewrite (logs_nth i Hi). destruct (d_ln i Hi) as [D0 [L1 L2]]. destruct (Fd _ (nth_In d f0 Hi)) as [Fi _].
    destruct (Fp (nth i p f0)) as [Fpi Bpi]; [apply nth_In; rewrite Lp; exact Hi|].
    destruct (Hln _ Fi D0) as [Fl [_ El]]. rewrite (Rabs_left1 (ln (di i))) in El by lra. pose proof tiny1075 as T75. pose proof uu53 as U53.
    assert (Bwp : Rabs (al * pi i) <= 8). { rewrite Rabs_mult. rewrite <- (Rmult_1_r 8). apply Rmult_le_compat; try apply Rabs_pos; assumption. }
    destruct (fmul_spec w (nth i p f0) Fw Fpi) as [Fm Em]. { eapply Rle_lt_trans; [exact Bwp|]. apply Rlt_le_trans with (2 ^ 4); [simpl; lra|apply Rle_pow; [lra|lia]]. }
    pose proof eta0_small as E0. assert (Em' : Rabs (val (fmul w (nth i p f0)) - al * pi i) <= 9 * / 2 ^ 53).
    { eapply Rle_trans; [exact Em|]. rewrite U53. assert (/ 2 ^ 53 * Rabs (al * pi i) <= / 2 ^ 53 * 8) by (apply Rmult_le_compat_l; [left; apply Rinv_0_lt_compat, pow_lt; lra|exact Bwp]). assert (/ 2 ^ 100 <= / 2 ^ 53) by (simpl; lra). lra. }
    assert (El' : Rabs (val (fln (nth i d f0)) - ln (di i)) <= 1506 * / 2 ^ 53).
    { eapply Rle_trans; [exact El|]. assert (/ 2 ^ 52 * - ln (di i) <= / 2 ^ 52 * 752) by (apply Rmult_le_compat_l; [left; apply Rinv_0_lt_compat, pow_lt; lra|lra]). assert (/ 2 ^ 52 * 752 + / 2 ^ 100 <= 1506 * / 2 ^ 53) by (simpl; lra). lra. }
    set (a := val (fln (nth i d f0))) in *. set (b := val (fmul w (nth i p f0))) in *. assert (S53 : / 2 ^ 53 <= / 10000) by (simpl; lra). assert (S53p : 0 < / 2 ^ 53) by (apply Rinv_0_lt_compat, pow_lt; lra).
    assert (Bab : Rabs (a - b) <= 762). { apply Rabs_le_inv in El'. apply Rabs_le_inv in Em'. apply Rabs_le_inv in Bwp. apply Rabs_le. lra. }
    destruct (fsub_rnd (fln (nth i d f0)) (fmul w (nth i p f0)) Fl Fm) as [Fs [_ [e [He Ee]]]]; [apply big_small; fold a b; apply Rle_trans with 762; [exact Bab|simpl; lra]|]. fold a b in Ee.
    pose proof (err_form _ _ _ Ee He) as EF. rewrite U53 in EF. assert (EF' : Rabs (val (fsub (fln (nth i d f0)) (fmul w (nth i p f0))) - (a - b)) <= 762 * / 2 ^ 53). { eapply Rle_trans; [exact EF|]. rewrite (Rmult_comm 762). apply Rmult_le_compat_l; [lra|exact Bab]. }
    set (r := val (fsub (fln (nth i d f0)) (fmul w (nth i p f0)))) in *. split; [exact Fs|].
    assert (T : 762 * / 2 ^ 53 + 1506 * / 2 ^ 53 + 9 * / 2 ^ 53 <= / 2 ^ 41) by (simpl; lra). apply Rabs_le_inv in EF'. apply Rabs_le_inv in El'. apply Rabs_le_inv in Em'. apply Rabs_le_inv in Bab.
    split; apply Rabs_le; lra.
  Qed.

  Lemma update_ok ix : (1 <= n)%nat -> INR n <= 2 ^ 16 -> Permutation ix (seq 0 n) -> exists d', f_ada_update fexp fln ix w p d = Ok d' /\ length d' = n /\
    exists N, Rabs (N - ln (rsum (map (fun j => exp (ln (di j) - al * pi j)) (seq 0 n)))) <= INR (n + 1) * / 2 ^ 40 /\
    forall i, (i < n)%nat -> exists t, nth i d' f0 = fexp t /\ fin t /\ val t <= 0 /\ Rabs (val t - (ln (di i) - al * pi i - N)) <= / 2 ^ 40.
  Proof.
    intros N1 Hn P. pose proof logs_length as LL. assert (FL : forall i, (i < length logs)%nat -> fin (nth i logs f0) /\ Rabs (val (nth i logs f0)) <= 1000).
    { intros i Hi. rewrite LL in Hi. destruct (logs_ok i Hi) as [F [_ B]]. split; [exact F|lra]. }
    destruct (norm_ok fexp fln Hexp Hln logs FL ix) as [z [Ez [Fz [Lz [Az Bz]]]]]; [rewrite LL; exact P|rewrite LL; exact N1|rewrite LL; exact Hn|].
    unfold f_ada_update. cbv zeta.
    assert (E0 : andb (Nat.ltb 1 (length logs)) (existsb is_nan logs) = false).
    { apply andb_false_iff. right. apply Bool.not_true_iff_false. intros Q. apply existsb_exists in Q. destruct Q as [c [Q1 Q2]]. apply In_nth with (d := f0) in Q1. destruct Q1 as [i [Q1 <-]].
      destruct (FL i Q1) as [Q3 _]. apply fin_num' in Q3. exact (eq_true_false_abs _ Q2 Q3). }
    rewrite E0, Ez. cbn [bind]. eexists. split; [reflexivity|]. split; [rewrite map_length; exact LL|]. exists (val z). split.
    - rewrite LL in Az.
      assert (Q := sumexp_lip (seq 0 n) (fun i => val (nth i logs f0)) (fun j => ln (di j) - al * pi j) (/ 2 ^ 41)). cbv beta in Q.
      assert (Q' : Rabs (ln (rsum (map (fun i => exp (val (nth i logs f0))) (seq 0 n))) - ln (rsum (map (fun j => exp (ln (di j) - al * pi j)) (seq 0 n)))) <= / 2 ^ 41).
      { apply Q; [destruct d; [simpl in N1; lia|discriminate]|]. intros i Hi. apply in_seq in Hi. apply logs_ok. unfold f64 in *; lia. }
      rewrite plus_INR. change (INR 1) with 1. assert (/ 2 ^ 41 <= / 2 ^ 40) by (simpl; lra). eapply Rle_trans; [|rewrite Rmult_plus_distr_r, Rmult_1_l; apply Rplus_le_compat; [exact Az|eapply Rle_trans; [exact Q'|exact H]]].
      match goal with |- Rabs (?a - ?c) <= Rabs (?a - ?b) + Rabs (?b - ?c) => replace (a - c) with ((a - b) + (b - c)) by ring end. apply Rabs_triang.
    - intros i Hi. exists (fsub (nth i logs f0) z). split.
      { rewrite nth_indep with (d' := (fun c => fexp (fsub c z)) f0) by (rewrite map_length, LL; exact Hi). apply (map_nth (fun c => fexp (fsub c z))). }
      destruct (logs_ok i Hi) as [F [A B]]. assert (Lz' := Lz i). rewrite LL in Lz'. specialize (Lz' Hi). set (l := nth i logs f0) in *.
      assert (Bs : Rabs (val l - val z) <= 1787). { unfold Rminus. eapply Rle_trans; [apply Rabs_triang|]. rewrite Rabs_Ropp. lra. }
      destruct (fsub_rnd l z F Fz) as [Fs [Vs [e [He Ee]]]]; [apply big_small; apply Rle_trans with 1787; [exact Bs|simpl; lra]|]. split; [exact Fs|]. split.
      + rewrite Vs. rewrite <- val_f0, <- (rnd_val f0), val_f0. apply rnd_mono. lra.
      + pose proof (err_form _ _ _ Ee He) as EF. rewrite uu53 in EF. assert (S53p : 0 < / 2 ^ 53) by (apply Rinv_0_lt_compat, pow_lt; lra). assert (/ 2 ^ 53 * Rabs (val l - val z) <= / 2 ^ 53 * 1787) by (apply Rmult_le_compat_l; lra).
        assert (T : / 2 ^ 53 * 1787 + / 2 ^ 41 <= / 2 ^ 40) by (simpl; lra). apply Rabs_le_inv in EF. apply Rabs_le_inv in A. apply Rabs_le. lra.
  Qed.

  (** ** the new weights add up to one, and no weight vanishes *)
  Local Notation Z := (rsum (map (fun j => di j * exp (- (al * pi j))) (seq 0 n))).
  Lemma Z_form : rsum (map (fun j => exp (ln (di j) - al * pi j)) (seq 0 n)) = Z.
  Proof. apply rsum_map_ext. intros j Hj. apply in_seq in Hj. unfold Rminus. rewrite exp_plus, exp_ln; [reflexivity|]. apply d_ln. unfold f64 in *; lia. Qed.
  Lemma Z_pos : (1 <= n)%nat -> 0 < Z.
  Proof.
    intros N1. rewrite <- Z_form. destruct n as [|k]; [lia|]. cbn [seq map rsum]. match goal with |- 0 < exp ?a + ?b => pose proof (exp_pos a); assert (0 <= b) end; [|lra].
    apply rsum_nonneg. intros z Hz. apply in_map_iff in Hz. destruct Hz as [j [<- _]]. left. apply exp_pos.
  Qed.

  (** entry i as a multiple of its exact value *)
  Lemma update_entries ix : (1 <= n)%nat -> INR n <= 2 ^ 16 -> Permutation ix (seq 0 n) -> exists d', f_ada_update fexp fln ix w p d = Ok d' /\ length d' = n /\
    forall i, (i < n)%nat -> fin (nth i d' f0) /\ 0 <= val (nth i d' f0) <= 1 /\
      exists e, Rabs e <= / 2 ^ 22 /\ Rabs (val (nth i d' f0) - di i * exp (- (al * pi i)) / Z * (1 + e)) <= / 2 ^ 52 * (di i * exp (- (al * pi i)) / Z * (1 + e)) + / 2 ^ 1075.
  Proof.
    intros N1 Hn P. destruct (update_ok ix N1 Hn P) as [d' [E [L [N [AN T]]]]]. exists d'. split; [exact E|]. split; [exact L|]. rewrite Z_form in AN. pose proof (Z_pos N1) as ZP.
    assert (AN' : Rabs (N - ln Z) <= 3 / 2 * / 2 ^ 24). { eapply Rle_trans; [exact AN|]. rewrite plus_INR. change (INR 1) with 1. apply Rle_trans with ((2 ^ 16 + 1) * / 2 ^ 40); [apply Rmult_le_compat_r; [left; apply Rinv_0_lt_compat, pow_lt; lra|lra]|simpl; lra]. }
    intros i Hi. destruct (T i Hi) as [t [Et [Ft [T0 At]]]]. rewrite Et. destruct (Hexp t Ft T0) as [Fe [Be Ae]]. split; [exact Fe|]. split; [exact Be|].
    set (dl := val t - (ln (di i) - al * pi i - ln Z)). assert (Bd : Rabs dl <= / 2 ^ 23). { unfold dl. replace (val t - (ln (di i) - al * pi i - ln Z)) with ((val t - (ln (di i) - al * pi i - N)) - (N - ln Z)) by ring. unfold Rminus at 1. eapply Rle_trans; [apply Rabs_triang|]. rewrite Rabs_Ropp. assert (/ 2 ^ 40 + 3 / 2 * / 2 ^ 24 <= / 2 ^ 23) by (simpl; lra). lra. }
    exists (exp dl - 1). split.
    - eapply Rle_trans; [apply exp_small; eapply Rle_trans; [exact Bd|simpl; lra]|]. apply Rle_trans with (2 * / 2 ^ 23); [lra|simpl; lra].
    - assert (Ex : exp (val t) = di i * exp (- (al * pi i)) / Z * (1 + (exp dl - 1))).
      { replace (1 + (exp dl - 1)) with (exp dl) by ring. replace (val t) with (ln (di i) + - (al * pi i) + - ln Z + dl) by (unfold dl; ring). rewrite !exp_plus, (exp_Ropp (ln Z)), (exp_ln Z) by exact ZP. rewrite exp_ln by apply d_ln, Hi. reflexivity. }
      rewrite <- Ex. exact Ae.
  Qed.

  Lemma update_total ix d' : (1 <= n)%nat -> INR n <= 2 ^ 16 -> Permutation ix (seq 0 n) -> f_ada_update fexp fln ix w p d = Ok d' -> Rabs (total d' - 1) <= / 2 ^ 21.
  Proof.
    intros N1 Hn P E. destruct (update_entries ix N1 Hn P) as [d'' [E' [L T]]]. rewrite E in E'. injection E' as <-. pose proof (Z_pos N1) as ZP. pose proof tiny1075 as T75.
    set (q := fun i => di i * exp (- (al * pi i)) / Z).
    assert (Q1 : rsum (map q (seq 0 n)) = 1). { unfold q. rewrite (rsum_map_ext _ (fun i => / Z * (di i * exp (- (al * pi i))))) by (intros; unfold Rdiv; ring). rewrite rsum_map_mult. apply Rinv_l. apply Rgt_not_eq, ZP. }
    assert (B : forall l, (forall i, In i l -> (i < n)%nat) -> Rabs (rsum (map (fun i => val (nth i d' f0)) l) - rsum (map q l)) <= 3 / 2 * / 2 ^ 22 * rsum (map q l) + INR (length l) * / 2 ^ 100).
    { induction l as [|i l IH]; intros Hl; [simpl; rewrite Rminus_0_r, Rabs_R0; lra|]. cbn [map rsum length]. rewrite S_INR. specialize (IH (fun j Hj => Hl j (or_intror Hj))).
      destruct (T i (Hl i (or_introl eq_refl))) as [_ [_ [e [He A]]]]. fold (q i) in A.
      assert (Qi : 0 <= q i). { unfold q. destruct (d_ln i (Hl i (or_introl eq_refl))) as [D0 _]. pose proof (exp_pos (- (al * pi i))). apply Rmult_le_pos; [apply Rmult_le_pos; lra|left; apply Rinv_0_lt_compat, ZP]. }
      set (a := rsum (map (fun i => val (nth i d' f0)) l)) in *. set (b := rsum (map q l)) in *. set (v := val (nth i d' f0)) in *.
      assert (A' : Rabs (v - q i) <= 3 / 2 * / 2 ^ 22 * q i + / 2 ^ 100).
      { clear - He A Qi T75. apply Rabs_le_inv in He. apply Rabs_le_inv in A. assert (S : / 2 ^ 52 = / 2 ^ 30 * / 2 ^ 22) by (rewrite <- Rinv_mult; f_equal; rewrite <- pow_add; reflexivity). set (k := / 2 ^ 22) in *. assert (Kp : 0 < k <= / 4) by (unfold k; split; [apply Rinv_0_lt_compat, pow_lt; lra|simpl; lra]). assert (J : 0 < / 2 ^ 30 <= / 1000) by (split; [apply Rinv_0_lt_compat, pow_lt; lra|simpl; lra]). rewrite S in A. clear S. generalize dependent (/ 2 ^ 30). intros j A J.
        assert (- (k * q i) <= q i * e <= k * q i) by (split; nra). assert (0 <= j * k * (q i * (1 + e)) <= / 100 * (k * q i)).
        { split; [apply Rmult_le_pos; [nra|apply Rmult_le_pos; lra]|]. replace (j * k * (q i * (1 + e))) with (j * (1 + e) * (k * q i)) by ring. apply Rmult_le_compat_r; [nra|nra]. }
        apply Rabs_le. nra. }
      replace (v + a - (q i + b)) with ((v - q i) + (a - b)) by ring. eapply Rle_trans; [apply Rabs_triang|]. lra. }
    specialize (B (seq 0 n)). rewrite seq_length, Q1 in B. unfold total. rewrite <- (map_nth_seq f0 d'), map_map, L. eapply Rle_trans; [apply B; intros i Hi; apply in_seq in Hi; destruct Hi as [_ Hi]; exact Hi|].
    assert (INR n * / 2 ^ 100 <= 2 ^ 16 * / 2 ^ 100) by (apply Rmult_le_compat_r; [left; apply Rinv_0_lt_compat, pow_lt; lra|exact Hn]). assert (3 / 2 * / 2 ^ 22 * 1 + 2 ^ 16 * / 2 ^ 100 <= / 2 ^ 21) by (simpl; lra). lra.
  Qed.
End Update.
