(** Property C92: AdaBoost's distribution in binary64. *)
From Coq Require Import ZArith List Bool Reals Lia Lra Psatz Permutation Sorting.
From Flocq Require Import Core.Core IEEE754.BinarySingleNaN Relative Plus_error.
From Verif Require Import Base SortLib Float FloatSpec FloatProofs FloatFacts FloatCheckFacts FloatProject FloatProjectSpec FloatProjectProofs FloatProjectFacts ExpBounds ExpNum FloatEdge FloatEdgeSpec FloatEdgeFacts FloatMedian FloatMedianFacts FloatAda FloatAdaSpec FloatAdaProofs FloatAdaStep FloatAdaRun.
Import ListNotations.
Open Scope R_scope.

Lemma pos_least (v : f64) : fin v -> 0 < val v -> / 2 ^ 1074 <= val v.
Proof.
  intros Fv P. rewrite <- two_pow, <- bpow_opp. change (- Z.of_nat 1074)%Z with (-1074)%Z. rewrite <- (Rabs_pos_eq (val v)) by lra. apply (abs_B2R_ge_emin 53 1024).
  destruct v as [s|s| |s m e H]; try reflexivity; cbn in P; lra.
Qed.

Section Run.
  Variables (fexp fln : f64 -> f64).
  Hypothesis Hexp : precise_exp fexp.
  Hypothesis Hln : precise_ln fln.
  Variables (y : list f64).
  Local Notation n := (length y).
  Hypothesis Ly : forall x, In x y -> f_label x.
  Hypothesis N1 : (1 <= n)%nat.
  Hypothesis Hn : INR n <= 2 ^ 16.

  Lemma uni_facts : let u := fdiv f1 (f_of_usize n) in fin u /\ / 2 ^ 1074 <= val u <= 1 /\ exists k, Rabs k <= / 2 ^ 50 /\ val u = / INR n * (1 + k).
  Proof.
    cbv zeta. assert (I1 : 1 <= INR n) by (change 1 with (INR 1); apply le_INR, N1). assert (P53 : 2 ^ 16 < 2 ^ 53) by (apply Rlt_pow; [lra|lia]).
    destruct (uniform_spec n N1) as [Fu Vu]; [lra|lra|]. assert (I : / 2 ^ 16 <= / INR n <= 1) by (split; [apply Rinv_le_contravar; lra|rewrite <- Rinv_1; apply Rinv_le_contravar; lra]).
    destruct (err_mult (/ INR n)) as [e [h [He [Hh E]]]]. fold eta0 in Hh. pose proof eta0_small as E0. assert (K : Rabs (e + h * INR n) <= / 2 ^ 50).
    { eapply Rle_trans; [apply Rabs_triang|]. rewrite Rabs_mult, (Rabs_pos_eq (INR n)) by lra. fold uu in He. rewrite uu53 in He. assert (Rabs h * INR n <= / 2 ^ 100 * 2 ^ 16) by (apply Rmult_le_compat; try lra; apply Rabs_pos). assert (/ 2 ^ 53 + / 2 ^ 100 * 2 ^ 16 <= / 2 ^ 50) by (simpl; lra). lra. }
    assert (Eu : val (fdiv f1 (f_of_usize n)) = / INR n * (1 + (e + h * INR n))) by (rewrite Vu, E; field; lra).
    split; [exact Fu|]. split; [|exists (e + h * INR n); split; assumption]. split.
    - apply pos_least; [exact Fu|]. rewrite Eu. apply Rmult_lt_0_compat; [apply Rinv_0_lt_compat; lra|]. apply Rabs_le_inv in K. assert (/ 2 ^ 50 <= / 4) by (simpl; lra). lra.
    - rewrite Vu. apply rnd_inv_bounds, N1.
  Qed.
  Lemma inv_start : inv y (f_uniform n).
  Proof.
    destruct uni_facts as [Fu [Bu [k [Hk Ek]]]]. unfold inv, f_uniform. split; [apply repeat_length|]. split.
    - intros c Hc. apply repeat_spec in Hc. subst c. split; assumption.
    - rewrite total_repeat, Ek. assert (0 < INR n) by (apply lt_0_INR; lia). replace (INR n * (/ INR n * (1 + k)) - 1) with k by (field; lra). eapply Rle_trans; [exact Hk|]. simpl. lra.
  Qed.

  Lemma inv_round d conf e ix : inv y d -> length conf = n -> f_edge y conf d e -> mild_round conf e -> Permutation ix (seq 0 n) ->
    exists d', f_ada_update fexp fln ix (f_ada_weight fln e) (f_margins y conf) d = Ok d' /\ inv y d'.
  Proof.
    intros Iv Lc Ed [Bc Be] P. destruct (edge_ok y Ly N1 Hn d conf e Iv Lc Bc Ed) as [Fe _]. destruct (weight_ok fln Hln e Fe Be) as [Fw [_ Bw]].
    pose proof (keeps_half fln Hln y Ly N1 Hn d conf e Iv Lc Bc Ed Be) as KH. cbv zeta in KH. destruct Iv as [Ld [Fd Sd]]. set (w := f_ada_weight fln e) in *. set (p := f_margins y conf) in *.
    assert (Lp : length p = length d) by (unfold p; rewrite (margins_len y N1 conf Lc), Ld; reflexivity).
    assert (Fp : forall c, In c p -> fin c /\ Rabs (val c) <= 1). { intros c Hc. apply In_nth with (d := f0) in Hc. destruct Hc as [i [Hi <-]]. rewrite Lp, Ld in Hi. destruct (margin_nth y Ly N1 conf i Lc Bc Hi) as [F [_ B]]. split; assumption. }
    assert (N1' : (1 <= length d)%nat) by (rewrite Ld; exact N1). assert (Hn' : INR (length d) <= 2 ^ 16) by (rewrite Ld; exact Hn). assert (P' : Permutation ix (seq 0 (length d))) by (rewrite Ld; exact P).
    destruct (update_entries fexp fln Hexp Hln w p d Lp Fw Bw Fp Fd ix N1' Hn' P') as [d' [E [L T]]]. exists d'. split; [exact E|]. split; [rewrite L; exact Ld|]. split.
    - intros c Hc. apply In_nth with (d := f0) in Hc. destruct Hc as [i [Hi <-]]. rewrite L in Hi. destruct (T i Hi) as [F [B [k [Hk A]]]]. split; [exact F|]. split; [|apply B]. apply pos_least; [exact F|].
      rewrite Ld in Hi. specialize (KH i Hi). rewrite <- Ld in KH. destruct (Fd (nth i d f0)) as [_ [D1 _]]; [apply nth_In; rewrite Ld; exact Hi|].
      set (Z := rsum (map (fun j => val (nth j d f0) * exp (- (val w * val (nth j p f0)))) (seq 0 (length d)))) in *.
      assert (Q : / 2 ^ 1074 * / (2 - / 2 ^ 12) <= val (nth i d f0) * exp (- (val w * val (nth i p f0))) / Z).
      { unfold Rdiv. rewrite Rmult_assoc. apply Rmult_le_compat; [left; apply Rinv_0_lt_compat, pow_lt; lra|left; apply Rinv_0_lt_compat; simpl; lra|exact D1|apply Rge_le; exact KH]. }
      set (q := val (nth i d f0) * exp (- (val w * val (nth i p f0))) / Z) in *. apply Rabs_le_inv in A. apply Rabs_le_inv in Hk. set (v := val (nth i d' f0)) in *. clear - Q A Hk.
      assert (E75 : / 2 ^ 1075 = / 2 ^ 1074 * / 2) by (change (2 ^ 1075) with (2 * 2 ^ 1074); rewrite Rinv_mult; apply Rmult_comm). rewrite E75 in A. assert (M0 : 0 < / 2 ^ 1074) by (apply Rinv_0_lt_compat, pow_lt; lra). set (m := / 2 ^ 1074) in *. clearbody m v q. clear E75.
      assert (C1 : / 2 ^ 12 = / 4096) by (simpl; lra). assert (C2 : / 2 ^ 22 = / 4194304) by (simpl; lra). assert (C3 : / 2 ^ 52 = / 4503599627370496) by (simpl; lra). rewrite C1 in Q. rewrite C2 in Hk. rewrite C3 in A.
      assert (Q' : m * (4096 / 8191) <= q) by (replace (4096 / 8191) with (/ (2 - / 4096)) by lra; exact Q).
      assert (A1 : q * (1 + k) * (1 - / 4503599627370496) - m * / 2 <= v) by lra.
      assert (A2 : q * (1 - / 4194304) <= q * (1 + k)) by (apply Rmult_le_compat_l; nra). nra.
    - apply (update_total fexp fln Hexp Hln w p d Lp Fw Bw Fp Fd ix d' N1' Hn' P' E).
  Qed.

  Lemma run_inv hist d : f_ada_run fexp fln mild_round y hist d -> inv y d.
  Proof.
    intros H. induction H as [|hist d conf e ix d' _ IH Lc Ed _ Mi [P _] E]; [apply inv_start|].
    assert (LL : length (f_ada_logs fln (f_ada_weight fln e) (f_margins y conf) d) = n). { unfold f_ada_logs. rewrite map_length, combine_length, (margins_len y N1 conf Lc). destruct IH as [Ld _]. unfold f64 in *. lia. }
    rewrite LL in P. destruct (inv_round d conf e ix IH Lc Ed Mi P) as [d'' [E' I]]. rewrite E in E'. injection E' as <-. exact I.
  Qed.
  (** ** Accuracy *)
  Lemma ln2_lower : 6 / 10 <= ln 2.
  Proof. rewrite <- (ln_exp (6 / 10)). apply ln_le; [apply exp_pos|]. replace 2 with (2 / 1) by lra. apply (exp_below 6 10 6); [lia|lia|lia|lia|vm_compute; reflexivity]. Qed.

  (** the largest entry is at least 2^-17 *)
  Lemma big_entry d : inv y d -> exists j, (j < n)%nat /\ / 2 ^ 17 <= val (nth j d f0).
  Proof.
    intros [Ld [Fd Sd]]. destruct (existsb (fun j => Rleb (/ 2 ^ 17) (val (nth j d f0))) (seq 0 n)) eqn:E.
    - apply existsb_exists in E. destruct E as [j [Hj B]]. apply in_seq in Hj. exists j. split; [lia|]. destruct (Rleb_spec (/ 2 ^ 17) (val (nth j d f0))); [assumption|discriminate].
    - exfalso. assert (U : total d <= rsum (map (fun _ => / 2 ^ 17) (seq 0 n))).
      { rewrite (total_seq y d Ld). apply rsum_map_le. intros j Hj. rewrite <- Bool.not_true_iff_false in E. destruct (Rle_or_lt (/ 2 ^ 17) (val (nth j d f0))) as [Q|Q]; [|lra]. exfalso. apply E. apply existsb_exists. exists j. split; [exact Hj|]. destruct (Rleb_spec (/ 2 ^ 17) (val (nth j d f0))); [reflexivity|lra]. }
      rewrite rsum_map_const, seq_length in U. apply Rabs_le_inv in Sd. assert (INR n * / 2 ^ 17 <= 2 ^ 16 * / 2 ^ 17) by (apply Rmult_le_compat_r; [left; apply Rinv_0_lt_compat, pow_lt; lra|exact Hn]). assert (2 ^ 16 * / 2 ^ 17 + / 2 ^ 21 < 1) by (simpl; lra). lra.
  Qed.

  Lemma close_low d F c E : inv y d -> (forall i, (i < n)%nat -> Rabs (F i) <= 256) -> E <= / 2 ^ 7 -> (forall i, (i < n)%nat -> Rabs (ln (val (nth i d f0)) + F i + c) <= E) ->
    forall i, (i < n)%nat -> -525 <= ln (val (nth i d f0)).
  Proof.
    intros Iv BF BE H i Hi. destruct (big_entry d Iv) as [j [Hj Bj]]. pose proof (H i Hi) as Q1. pose proof (H j Hj) as Q2. pose proof (BF i Hi) as Q3. pose proof (BF j Hj) as Q4.
    assert (L : -12 <= ln (val (nth j d f0))). { apply Rle_trans with (ln (/ 2 ^ 17)); [|apply ln_le; [apply Rinv_0_lt_compat, pow_lt; lra|exact Bj]]. rewrite ln_small_pow. pose proof ln2_upper. rewrite INR_IZR_INZ. change (Z.of_nat 17) with 17%Z. lra. }
    apply Rabs_le_inv in Q1. apply Rabs_le_inv in Q2. apply Rabs_le_inv in Q3. apply Rabs_le_inv in Q4. assert (/ 2 ^ 7 <= / 4) by (simpl; lra). lra.
  Qed.

  Lemma close_round d conf e ix d' F c E : inv y d -> length conf = n -> f_edge y conf d e -> mild_round conf e -> Permutation ix (seq 0 n) ->
    f_ada_update fexp fln ix (f_ada_weight fln e) (f_margins y conf) d = Ok d' -> (forall i, (i < n)%nat -> Rabs (F i) <= 256) -> E <= / 2 ^ 7 ->
    (forall i, (i < n)%nat -> Rabs (ln (val (nth i d f0)) + F i + c) <= E) ->
    exists N, Rabs (N - ln (rsum (map (fun j => exp (ln (val (nth j d f0)) - val (f_ada_weight fln e) * val (nth j (f_margins y conf) f0))) (seq 0 n)))) <= INR (n + 1) * / 2 ^ 40 /\
    forall i, (i < n)%nat -> Rabs (ln (val (nth i d' f0)) + (F i + val (f_ada_weight fln e) * (val (nth i y f0) * val (nth i conf f0))) + (c + N)) <= E + / 2 ^ 39.
  Proof.
    intros Iv Lc Ed [Bc Be] P EU BF BE H. pose proof (close_low d F c E Iv BF BE H) as Low. destruct (edge_ok y Ly N1 Hn d conf e Iv Lc Bc Ed) as [Fe _]. destruct (weight_ok fln Hln e Fe Be) as [Fw [_ Bw]].
    destruct Iv as [Ld [Fd Sd]]. set (w := f_ada_weight fln e) in *. set (p := f_margins y conf) in *.
    assert (Lp : length p = length d) by (unfold p; rewrite (margins_len y N1 conf Lc), Ld; reflexivity).
    assert (Fp : forall c, In c p -> fin c /\ Rabs (val c) <= 1). { intros q Hq. apply In_nth with (d := f0) in Hq. destruct Hq as [i [Hi <-]]. rewrite Lp, Ld in Hi. destruct (margin_nth y Ly N1 conf i Lc Bc Hi) as [Fi [_ B]]. split; assumption. }
    assert (N1' : (1 <= length d)%nat) by (rewrite Ld; exact N1). assert (Hn' : INR (length d) <= 2 ^ 16) by (rewrite Ld; exact Hn). assert (P' : Permutation ix (seq 0 (length d))) by (rewrite Ld; exact P).
    destruct (update_ok fexp fln Hexp Hln w p d Lp Fw Bw Fp Fd ix N1' Hn' P') as [d'' [E' [L [N [AN T]]]]]. rewrite EU in E'. injection E' as <-.
    assert (BN : N <= 10).
    { set (S := rsum (map (fun j => exp (ln (val (nth j d f0)) - val w * val (nth j p f0))) (seq 0 (length d)))) in *.
      assert (SP : 0 < S). { unfold S. rewrite Ld. destruct n as [|k]; [lia|]. cbn [seq map rsum]. match goal with |- 0 < exp ?a + ?b => pose proof (exp_pos a); assert (0 <= b) end; [|lra]. apply rsum_nonneg. intros z Hz. apply in_map_iff in Hz. destruct Hz as [j [<- _]]. left. apply exp_pos. }
      assert (SU : S <= exp 8 * total d).
      { rewrite (total_seq y d Ld), <- rsum_map_mult. unfold S. rewrite Ld. apply rsum_map_le. intros j Hj. apply in_seq in Hj. assert (Hj' : (j < n)%nat) by (unfold f64 in *; lia).
        destruct (Fd (nth j d f0)) as [_ [D1 _]]; [apply nth_In; rewrite Ld; exact Hj'|]. assert (D0 : 0 < val (nth j d f0)) by (eapply Rlt_le_trans; [|exact D1]; apply Rinv_0_lt_compat, pow_lt; lra).
        unfold Rminus. rewrite exp_plus, exp_ln by exact D0. rewrite Rmult_comm. apply Rmult_le_compat_r; [lra|]. apply exp_le_exp. destruct (Fp (nth j p f0)) as [_ B]; [apply nth_In; rewrite Lp, Ld; exact Hj'|].
        assert (Q : Rabs (val w * val (nth j p f0)) <= 8) by (rewrite Rabs_mult; rewrite <- (Rmult_1_r 8); apply Rmult_le_compat; try apply Rabs_pos; assumption). apply Rabs_le_inv in Q. lra. }
      assert (LS : ln S <= 9). { apply Rle_trans with (ln (exp 8 * total d)); [apply ln_le; assumption|]. apply Rabs_le_inv in Sd. assert (/ 2 ^ 21 <= / 2) by (simpl; lra). rewrite ln_mult by (try apply exp_pos; lra). rewrite ln_exp. assert (ln (total d) <= total d - 1) by (apply ln_le_sub; lra). lra. }
      assert (INR (length d + 1) * / 2 ^ 40 <= 1). { rewrite plus_INR. change (INR 1) with 1. apply Rle_trans with ((2 ^ 16 + 1) * / 2 ^ 40); [apply Rmult_le_compat_r; [left; apply Rinv_0_lt_compat, pow_lt; lra|lra]|simpl; lra]. }
      apply Rabs_le_inv in AN. lra. }
    exists N. split; [rewrite Ld in AN; exact AN|]. intros i Hi. assert (Hi' : (i < length d)%nat) by (rewrite Ld; exact Hi). destruct (T i Hi') as [t [Et [Ft [T0 At]]]]. rewrite Et. destruct (margin_nth y Ly N1 conf i Lc Bc Hi) as [_ [Vm Bm]]. fold p in Vm, Bm. rewrite <- Vm.
    destruct (Hexp t Ft T0) as [_ [_ Ae]]. pose proof (H i Hi) as Hc. specialize (Low i Hi). set (al := val w) in *. set (q := val (nth i p f0)) in *. set (l := ln (val (nth i d f0))) in *.
    assert (Q : Rabs (al * q) <= 8) by (rewrite Rabs_mult; rewrite <- (Rmult_1_r 8); apply Rmult_le_compat; try apply Rabs_pos; assumption).
    assert (TL : -600 <= val t). { apply Rabs_le_inv in At. apply Rabs_le_inv in Q. assert (/ 2 ^ 40 <= 1) by (simpl; lra). lra. }
    assert (EL : / 2 ^ 1000 <= exp (val t)). { rewrite <- (exp_ln (/ 2 ^ 1000)) by (apply Rinv_0_lt_compat, pow_lt; lra). apply exp_le_exp. rewrite ln_small_pow. pose proof ln2_lower. rewrite INR_IZR_INZ. change (Z.of_nat 1000) with 1000%Z. lra. }
    assert (E75 : / 2 ^ 1075 = / 2 ^ 75 * / 2 ^ 1000) by (rewrite <- Rinv_mult, <- pow_add; reflexivity). assert (C75 : 0 < / 2 ^ 75 <= / 2 ^ 52) by (split; [apply Rinv_0_lt_compat, pow_lt; lra|simpl; lra]).
    assert (Ae' : Rabs (val (fexp t) - exp (val t)) <= / 2 ^ 51 * exp (val t)). { eapply Rle_trans; [exact Ae|]. rewrite E75. assert (/ 2 ^ 75 * / 2 ^ 1000 <= / 2 ^ 52 * exp (val t)) by (apply Rmult_le_compat; try lra; left; apply Rinv_0_lt_compat, pow_lt; lra). assert (2 * / 2 ^ 52 = / 2 ^ 51) by (simpl; lra). nra. }
    set (k := (val (fexp t) - exp (val t)) / exp (val t)). assert (X0 := exp_pos (val t)).
    assert (K : Rabs k <= / 2 ^ 51). { unfold k, Rdiv. rewrite Rabs_mult, (Rabs_pos_eq (/ exp (val t))) by (left; apply Rinv_0_lt_compat, X0). apply Rdiv_le_iff; [exact X0|exact Ae']. }
    assert (EV : val (fexp t) = exp (val t) * (1 + k)) by (unfold k; field; lra).
    assert (K2 : Rabs k <= / 2) by (eapply Rle_trans; [exact K|simpl; lra]). pose proof (ln_near k K2) as LN. apply Rabs_le_inv in K2.
    rewrite EV, ln_mult by (try assumption; lra). rewrite ln_exp. assert (LN' : Rabs (ln (1 + k)) <= / 2 ^ 40) by (eapply Rle_trans; [exact LN|]; apply Rle_trans with (2 * / 2 ^ 51); [lra|simpl; lra]).
    assert (/ 2 ^ 39 = 2 * / 2 ^ 40) by (simpl; lra). apply Rabs_le_inv in LN'. apply Rabs_le_inv in At. apply Rabs_le_inv in Hc. apply Rabs_le. lra.
  Qed.

  Lemma exact_margin_snoc hist w conf i : exact_margin y (hist ++ [(w, conf)]) i = exact_margin y hist i + val w * (val (nth i y f0) * val (nth i conf f0)).
  Proof. unfold exact_margin. rewrite map_app, rsum_app. cbn [map rsum fst snd]. rewrite Rplus_0_r. reflexivity. Qed.
  Definition spent (hist : list (f64 * list f64)) : R := rsum (map (fun h => Rabs (val (fst h))) hist).
  Lemma spent_snoc hist w conf : spent (hist ++ [(w, conf)]) = spent hist + Rabs (val w).
  Proof. unfold spent. rewrite map_app, rsum_app. cbn [map rsum fst snd]. rewrite Rplus_0_r. reflexivity. Qed.

  Lemma exact_margin_small hist d i : f_ada_run fexp fln mild_round y hist d -> (i < n)%nat -> Rabs (exact_margin y hist i) <= spent hist.
  Proof.
    intros H Hi. induction H as [|hist d conf e ix d' _ IH Lc Ed _ [Bc _] _ E].
    - unfold exact_margin, spent. cbn [map rsum]. rewrite Rabs_R0. lra.
    - rewrite exact_margin_snoc, spent_snoc. eapply Rle_trans; [apply Rabs_triang|]. apply Rplus_le_compat; [exact IH|]. rewrite Rabs_mult. rewrite <- (Rmult_1_r (Rabs (val (f_ada_weight fln e)))) at 2. apply Rmult_le_compat_l; [apply Rabs_pos|].
      destruct (margin_nth y Ly N1 conf i Lc Bc Hi) as [_ [<- B]]. exact B.
  Qed.

  Lemma run_close hist d : f_ada_run fexp fln mild_round y hist d -> spent hist <= 256 -> INR (length hist) <= 2 ^ 30 ->
    exists c, forall i, (i < n)%nat -> Rabs (ln (val (nth i d f0)) + exact_margin y hist i + c) <= INR (length hist + 1) * / 2 ^ 39.
  Proof.
    intros H. induction H as [|hist d conf e ix d' Hr IH Lc Ed Pf Mi [P Srt] E]; intros Sp Tn.
    - destruct uni_facts as [Fu [Bu [k [Hk Ek]]]]. exists (- ln (/ INR n)). intros i Hi. unfold f_uniform. rewrite nth_repeat_lt by exact Hi. unfold exact_margin. cbn [map rsum length]. rewrite Ek.
      assert (K2 : Rabs k <= / 2) by (eapply Rle_trans; [exact Hk|simpl; lra]). pose proof (ln_near k K2) as LN. apply Rabs_le_inv in K2.
      assert (I0 : 0 < / INR n) by (apply Rinv_0_lt_compat, lt_0_INR; lia). rewrite ln_mult by (try assumption; lra). replace (ln (/ INR n) + ln (1 + k) + 0 + - ln (/ INR n)) with (ln (1 + k)) by ring. eapply Rle_trans; [exact LN|]. change (0 + 1)%nat with 1%nat. change (INR 1) with 1. apply Rle_trans with (2 * / 2 ^ 50); [lra|simpl; lra].
    - rewrite app_length in *. cbn [length] in *. rewrite spent_snoc in Sp. pose proof (Rabs_pos (val (f_ada_weight fln e))) as Wp. rewrite plus_INR in Tn. change (INR 1) with 1 in Tn. destruct IH as [c IH]; [lra|lra|].
      pose proof (run_inv hist d Hr) as Iv.
      assert (LL : length (f_ada_logs fln (f_ada_weight fln e) (f_margins y conf) d) = n). { unfold f_ada_logs. rewrite map_length, combine_length, (margins_len y N1 conf Lc). destruct Iv as [Ld _]. unfold f64 in *. lia. }
      rewrite LL in P.
      destruct (close_round d conf e ix d' (exact_margin y hist) c (INR (length hist + 1) * / 2 ^ 39) Iv Lc Ed Mi P E) as [N [_ HC]]; [| |exact IH|].
      + intros i Hi. eapply Rle_trans; [apply (exact_margin_small hist d i Hr Hi)|lra].
      + rewrite plus_INR. change (INR 1) with 1. apply Rle_trans with ((2 ^ 30 + 1) * / 2 ^ 39); [apply Rmult_le_compat_r; [left; apply Rinv_0_lt_compat, pow_lt; lra|lra]|simpl; lra].
      + exists (c + N). intros i Hi. rewrite exact_margin_snoc. eapply Rle_trans; [apply HC, Hi|]. rewrite !plus_INR. change (INR 1) with 1. right. ring.
  Qed.

  Lemma run_accurate hist d : f_ada_run fexp fln mild_round y hist d -> spent hist <= 256 -> INR (length hist) <= 2 ^ 30 ->
    forall i, (i < n)%nat -> Rabs (ln (val (nth i d f0)) - ln (exact_weight y hist i)) <= INR (length hist + 1) * / 2 ^ 38 + / 2 ^ 20.
  Proof.
    intros H Sp Tn i Hi. destruct (run_close hist d H Sp Tn) as [c HC]. destruct (run_inv hist d H) as [Ld [Fd Sd]]. set (E := INR (length hist + 1) * / 2 ^ 39) in *.
    assert (NE : seq 0 n <> []) by (destruct n; [lia|discriminate]).
    assert (Q := sumexp_lip (seq 0 n) (fun j => ln (val (nth j d f0))) (fun j => - exact_margin y hist j + - c) E NE).
    assert (Q' : Rabs (ln (rsum (map (fun j => exp (ln (val (nth j d f0)))) (seq 0 n))) - ln (rsum (map (fun j => exp (- exact_margin y hist j + - c)) (seq 0 n)))) <= E).
    { apply Q. intros j Hj. apply in_seq in Hj. replace (ln (val (nth j d f0)) - (- exact_margin y hist j + - c)) with (ln (val (nth j d f0)) + exact_margin y hist j + c) by ring. apply HC. lia. }
    clear Q.
    replace (rsum (map (fun j => exp (ln (val (nth j d f0)))) (seq 0 n))) with (total d) in Q'.
    2:{ rewrite (total_seq y d Ld). apply rsum_map_ext. intros j Hj. apply in_seq in Hj. rewrite exp_ln; [reflexivity|]. destruct (Fd (nth j d f0)) as [_ [D1 _]]; [apply nth_In; unfold f64 in *; lia|]. eapply Rlt_le_trans; [|exact D1]. apply Rinv_0_lt_compat, pow_lt; lra. }
    set (S := rsum (map (fun j => exp (- exact_margin y hist j)) (seq 0 n))).
    assert (SP : 0 < S). { unfold S. destruct (seq 0 n) as [|k l]; [congruence|]. cbn [map rsum]. match goal with |- 0 < exp ?a + ?b => pose proof (exp_pos a); assert (0 <= b) end; [|lra]. apply rsum_nonneg. intros z Hz. apply in_map_iff in Hz. destruct Hz as [j [<- _]]. left. apply exp_pos. }
    replace (rsum (map (fun j => exp (- exact_margin y hist j + - c)) (seq 0 n))) with (exp (- c) * S) in Q'.
    2:{ unfold S. rewrite <- rsum_map_mult. apply rsum_map_ext. intros j _. rewrite exp_plus. ring. }
    rewrite ln_mult in Q' by (try apply exp_pos; assumption). rewrite ln_exp in Q'.
    assert (TD : Rabs (ln (total d)) <= / 2 ^ 20).
    { replace (total d) with (1 + (total d - 1)) by ring. eapply Rle_trans; [apply ln_near; eapply Rle_trans; [exact Sd|simpl; lra]|]. apply Rle_trans with (2 * / 2 ^ 21); [lra|simpl; lra]. }
    unfold exact_weight. fold S. unfold Rdiv. rewrite ln_mult by (try apply exp_pos; apply Rinv_0_lt_compat, SP). rewrite ln_exp, ln_Rinv by exact SP. specialize (HC i Hi). replace (INR (length hist + 1) * / 2 ^ 38) with (2 * E) by (unfold E; simpl; lra).
    apply Rabs_le_inv in HC. apply Rabs_le_inv in TD. apply Rabs_le_inv in Q'. apply Rabs_le. lra.
  Qed.
End Run.

(** ** C92: along every run, of any length, every weight stays positive and at most 1, and the weights add up to 1 within 2^-21 *)
Lemma P_C92_weights_stay_positive :
  forall fexp fln y hist dist, precise_exp fexp -> precise_ln fln -> (forall x, In x y -> f_label x) -> (1 <= length y)%nat -> INR (length y) <= 2 ^ 16 ->
  f_ada_run fexp fln mild_round y hist dist ->
  length dist = length y /\ (forall d, In d dist -> finite_num d /\ 0 < val d <= 1) /\ Rabs (total dist - 1) <= / 2 ^ 21.
Proof.
  intros fexp fln y hist dist He Hl Ly N1 Hn H. destruct (run_inv fexp fln He Hl y Ly N1 Hn hist dist H) as [I1 [I2 I3]]. split; [exact I1|]. split; [|exact I3].
  intros d Hd. destruct (I2 d Hd) as [F [B1 B2]]. split; [exact F|]. assert (0 < / 2 ^ 1074) by (apply Rinv_0_lt_compat, pow_lt; lra). lra.
Qed.

(** ** C92: no round panics: whatever the learner answers next, in whatever order the edge is summed and the logarithms are sorted *)
Lemma P_C92_no_round_panics :
  forall fexp fln y hist dist conf edge, precise_exp fexp -> precise_ln fln -> (forall x, In x y -> f_label x) -> (1 <= length y)%nat -> INR (length y) <= 2 ^ 16 ->
  f_ada_run fexp fln mild_round y hist dist -> length conf = length y -> f_edge y conf dist edge -> mild_round conf edge ->
  (exists ix, f_ascending (f_ada_logs fln (f_ada_weight fln edge) (f_margins y conf) dist) ix) /\
  forall ix, f_ascending (f_ada_logs fln (f_ada_weight fln edge) (f_margins y conf) dist) ix ->
    exists dist', f_ada_update fexp fln ix (f_ada_weight fln edge) (f_margins y conf) dist = Ok dist'.
Proof.
  intros fexp fln y hist dist conf edge He Hl Ly N1 Hn H Lc Ed Mi. pose proof (run_inv fexp fln He Hl y Ly N1 Hn hist dist H) as Iv.
  assert (LL : length (f_ada_logs fln (f_ada_weight fln edge) (f_margins y conf) dist) = length y). { unfold f_ada_logs. rewrite map_length, combine_length, (margins_len y N1 conf Lc). destruct Iv as [Ld _]. unfold f64 in *. lia. }
  split.
  - set (logs := f_ada_logs fln (f_ada_weight fln edge) (f_margins y conf) dist) in *.
    assert (FL : forall i, (i < length y)%nat -> fin (nth i logs f0)).
    { intros i Hi. assert (Ld : length dist = length y) by apply Iv. destruct Mi as [Bc Be]. destruct (edge_ok y Ly N1 Hn dist conf edge Iv Lc Bc Ed) as [Fe _]. destruct (weight_ok fln Hl edge Fe Be) as [Fw [_ Bw]].
      apply (logs_ok fln Hl (f_ada_weight fln edge) (f_margins y conf) dist); [rewrite (margins_len y N1 conf Lc); symmetry; exact Ld|exact Fw|exact Bw| |apply Iv|rewrite Ld; exact Hi].
      intros c Hc. apply In_nth with (d := f0) in Hc. destruct Hc as [j [Hj <-]]. rewrite (margins_len y N1 conf Lc) in Hj. destruct (margin_nth y Ly N1 conf j Lc Bc Hj) as [F [_ B]]. split; assumption. }
    exists (isort (fun i j => fle (nth i logs f0) (nth j logs f0)) (seq 0 (length logs))). split; [apply Permutation_sym, isort_perm|].
    assert (FA : forall i, fin (nth i logs f0)) by (intros i; destruct (Nat.lt_ge_cases i (length y)) as [Hi|Hi]; [apply FL, Hi|rewrite nth_overflow by (rewrite LL; exact Hi); apply fin_f0]).
    apply isort_sorted.
    + intros i j. destruct (Rle_or_lt (val (nth i logs f0)) (val (nth j logs f0))) as [Q|Q]; [left|right]; (apply fle_true; [apply FA|apply FA|]); lra.
    + intros i j k. intros Q1 Q2. apply fle_true in Q1; [|apply FA|apply FA]. apply fle_true in Q2; [|apply FA|apply FA]. apply fle_true; [apply FA|apply FA|]. lra.
  - intros ix [P _]. rewrite LL in P. destruct (inv_round fexp fln He Hl y Ly N1 Hn dist conf edge ix Iv Lc Ed Mi P) as [d' [E _]]. exists d'. exact E.
Qed.

(** ** C92: the weight given to a hypothesis is half the logarithm of (1 + edge) / (1 - edge), up to 2^-46 *)
Lemma P_C92_weight_accurate :
  forall fln edge, precise_ln fln -> finite_num edge -> Rabs (val edge) <= 1 - / 2 ^ 10 ->
  finite_num (f_ada_weight fln edge) /\ Rabs (val (f_ada_weight fln edge) - ln ((1 + val edge) / (1 - val edge)) / 2) <= / 2 ^ 46.
Proof. intros fln edge Hl Fe Be. destruct (weight_ok fln Hl edge Fe Be) as [F [A _]]. split; assumption. Qed.

(** ** C92: after T rounds every weight is the exponential weight of the margins, up to a factor exp(2^-20 + (T+1) 2^-38), as long as the hypotheses' weights add up to at most 256 *)
Lemma P_C92_accurate :
  forall fexp fln y hist dist, precise_exp fexp -> precise_ln fln -> (forall x, In x y -> f_label x) -> (1 <= length y)%nat -> INR (length y) <= 2 ^ 16 ->
  f_ada_run fexp fln mild_round y hist dist -> rsum (map (fun h => Rabs (val (fst h))) hist) <= 256 -> INR (length hist) <= 2 ^ 30 ->
  forall i, (i < length y)%nat -> Rabs (ln (val (nth i dist f0)) - ln (exact_weight y hist i)) <= INR (length hist + 1) * / 2 ^ 38 + / 2 ^ 20.
Proof. intros fexp fln y hist dist He Hl Ly N1 Hn H Sp Tn. exact (run_accurate fexp fln He Hl y Ly N1 Hn hist dist H Sp Tn). Qed.

(** ** C92: correctly rounded exp and ln are precise enough, and such functions with the usual special cases exist *)
Lemma P_C92_correct_precise :
  forall fexp fln, correct_exp fexp -> correct_ln fln -> precise_exp fexp /\ precise_ln fln.
Proof.
  intros fexp fln He Hl. pose proof uu53 as U53. split.
  - intros x Fx Hx. destruct (He x Fx) as [F V]; [lra|]. split; [exact F|]. rewrite V, nearest_rnd. pose proof (exp_pos (val x)) as X0. assert (X1 : exp (val x) <= 1) by (rewrite <- exp_0; apply exp_le_exp, Hx). split.
    + destruct f1_spec as [F1 V1]. pose proof (rnd_val f0) as R0. rewrite val_f0 in R0. pose proof (rnd_val f1) as R1. rewrite V1 in R1. split; [rewrite <- R0 at 1|rewrite <- R1 at 1]; apply rnd_mono; lra.
    + destruct (err_mult (exp (val x))) as [e [h [Ee [Eh E]]]]. rewrite E. replace (exp (val x) * (1 + e) + h - exp (val x)) with (exp (val x) * e + h) by ring. eapply Rle_trans; [apply Rabs_triang|]. apply Rplus_le_compat.
      * rewrite Rabs_mult, (Rabs_pos_eq (exp _)) by lra. rewrite Rmult_comm. apply Rmult_le_compat_r; [lra|]. eapply Rle_trans; [exact Ee|]. fold uu. rewrite U53. simpl. lra.
      * eapply Rle_trans; [exact Eh|]. rewrite <- two_pow. rewrite <- bpow_opp. change (- Z.of_nat 1075)%Z with (-1075)%Z. apply Rle_refl.
  - intros x Fx Hx. destruct (Hl x Fx Hx) as [F V]. split; [exact F|]. rewrite V, nearest_rnd. split.
    + intros X1. pose proof (rnd_val f0) as R0. rewrite val_f0 in R0. rewrite <- R0 at 1. apply rnd_mono. rewrite <- ln_1. apply ln_le; lra.
    + destruct (err_mult (ln (val x))) as [e [h [Ee [Eh E]]]]. rewrite E. replace (ln (val x) * (1 + e) + h - ln (val x)) with (ln (val x) * e + h) by ring. eapply Rle_trans; [apply Rabs_triang|]. apply Rplus_le_compat.
      * rewrite Rabs_mult. rewrite Rmult_comm. apply Rmult_le_compat_r; [apply Rabs_pos|]. eapply Rle_trans; [exact Ee|]. fold uu. rewrite U53. simpl. lra.
      * eapply Rle_trans; [exact Eh|]. rewrite <- two_pow. rewrite <- bpow_opp. change (- Z.of_nat 1075)%Z with (-1075)%Z. apply Rle_refl.
Qed.

Lemma P_C92_platform :
  exists fexp fln, precise_exp fexp /\ precise_ln fln /\ special_cases fexp fln.
Proof.
  destruct P_C91_platform as [fexp [fln [C1 C2]]].
  exists (fun x => match x with B754_nan => B754_nan | _ => fexp x end), (fun x => match x with B754_nan => B754_nan | B754_zero _ => B754_infinity true | _ => fln x end).
  destruct (P_C92_correct_precise fexp fln C1 C2) as [A1 A2]. split; [|split].
  - intros x Fx Hx. specialize (A1 x Fx Hx). destruct x; try discriminate; exact A1.
  - intros x Fx Hx. specialize (A2 x Fx Hx). destruct x; try discriminate; try exact A2. cbn in Hx. lra.
  - split; [reflexivity|]. split; reflexivity.
Qed.

Lemma fmul_small (w m : f64) : fin w -> fin m -> Rabs (val m) <= 1 -> fin (fmul w m).
Proof.
  intros Fw Fm Bm. pose proof (Bmult_correct 53 1024 _ _ mode_NE w m) as C. rewrite Rlt_bool_true in C; [destruct C as [_ [C _]]; unfold fmul; rewrite C, Fw, Fm; reflexivity|].
  apply Rle_lt_trans with (Rabs (val w)); [|apply (abs_B2R_lt_emax 53 1024)].
  assert (B : Rabs (val w * val m) <= Rabs (val w)) by (rewrite Rabs_mult; apply Rle_trans with (Rabs (val w) * 1); [apply Rmult_le_compat_l; [apply Rabs_pos|exact Bm]|right; apply Rmult_1_r]).
  apply abs_round_le_generic; try typeclasses eauto; [apply generic_format_abs, format_val|exact B].
Qed.
Lemma map_const_repeat {A B} (c : B) (l : list A) : map (fun _ => c) l = repeat c (length l).
Proof. induction l as [|a l IH]; [reflexivity|]. cbn [map length repeat]. rewrite IH. reflexivity. Qed.

(** ** C92: why it matters: with two weights of zero, one update turns every weight into NaN and the next update panics *)
Lemma P_C92_two_zero_weights :
  forall fexp fln w margins dist ix i j, special_cases fexp fln -> finite_num w -> (forall m, In m margins -> finite_num m /\ Rabs (val m) <= 1) -> length margins = length dist ->
  (i < length dist)%nat -> (j < length dist)%nat -> i <> j -> zero_num (nth i dist f0) -> zero_num (nth j dist f0) ->
  f_ascending (f_ada_logs fln w margins dist) ix -> (forall d, In d (f_ada_logs fln w margins dist) -> d <> nan_num) ->
  f_ada_update fexp fln ix w margins dist = Ok (repeat nan_num (length dist)) /\
  forall ix' w' margins', length margins' = length dist -> f_ada_update fexp fln ix' w' margins' (repeat nan_num (length dist)) = Panic UnwrapNone.
Proof.
  unfold nan_num. intros fexp fln w margins dist ix i j [Xn [Ln Lz]] Fw Fm Lm Hi Hj Dij Zi Zj [P Srt] NN. set (logs := f_ada_logs fln w margins dist) in *.
  assert (LL : length logs = length dist) by (unfold logs, f_ada_logs; rewrite map_length, combine_length, Lm; lia).
  assert (NL : forall k, (k < length dist)%nat -> nth k logs f0 = fsub (fln (nth k dist f0)) (fmul w (nth k margins f0))).
  { intros k Hk. unfold logs, f_ada_logs. rewrite nth_indep with (d' := (fun q => fsub (fln (fst q)) (fmul w (snd q))) (f0, f0)) by (rewrite map_length, combine_length, Lm; unfold f64 in *; lia).
    pose proof (map_nth (fun q => fsub (fln (fst q)) (fmul w (snd q))) (combine dist margins) (f0, f0) k) as E. rewrite combine_nth in E by (symmetry; exact Lm). exact E. }
  assert (MI : forall k, (k < length dist)%nat -> (exists s, nth k dist f0 = B754_zero s) -> nth k logs f0 = B754_infinity true).
  { intros k Hk [s Es]. rewrite (NL k Hk), Es, Lz in *. destruct (Fm (nth k margins f0)) as [F B]; [apply nth_In; rewrite Lm; exact Hk|].
    pose proof (fmul_small w (nth k margins f0) Fw F B) as FM. destruct (fmul w (nth k margins f0)) as [b|b| |b m e H]; try discriminate; reflexivity. }
  assert (LI : forall a, fle a (B754_infinity true) = true -> a = B754_infinity true) by (intros a; destruct a as [b|[]| |[] m e H]; intros Q; try discriminate; reflexivity).
  assert (Mi := MI i Hi Zi). assert (Mj := MI j Hj Zj).
  assert (Ii : In i ix) by (apply (Permutation_in _ (Permutation_sym P)); apply in_seq; lia). assert (Ij : In j ix) by (apply (Permutation_in _ (Permutation_sym P)); apply in_seq; lia).
  assert (SA : forall a l k, StronglySorted (fun i j => fle (nth i logs f0) (nth j logs f0) = true) (a :: l) -> In k (a :: l) -> nth k logs f0 = B754_infinity true -> nth a logs f0 = B754_infinity true).
  { intros a l k S [<- |I] E; [exact E|]. apply StronglySorted_inv in S. destruct S as [_ S]. rewrite Forall_forall in S. apply LI. rewrite <- E. apply S, I. }
  destruct ix as [|a [|b rest]]; [destruct Ii|exfalso; destruct Ii as [<- |[]]; destruct Ij as [<- |[]]; congruence|].
  assert (Ea := SA a (b :: rest) i Srt Ii Mi).
  assert (Eb : nth b logs f0 = B754_infinity true).
  { apply StronglySorted_inv in Srt. destruct Srt as [Srt _]. destruct (Nat.eq_dec i a) as [->|Na]; [apply (SA b rest j Srt); [destruct Ij as [<- |Ij]; [congruence|exact Ij]|exact Mj]|apply (SA b rest i Srt); [destruct Ii as [<- |Ii]; [congruence|exact Ii]|exact Mi]]. }
  assert (NA : forall v, f_ada_add fexp fln B754_nan v = B754_nan) by (intros v; unfold f_ada_add; destruct v; reflexivity).
  assert (NF : forall l, fold_left (fun v k => f_ada_add fexp fln v (nth k logs f0)) l B754_nan = B754_nan) by (induction l as [|k l IH]; [reflexivity|]; cbn [fold_left]; rewrite NA; exact IH).
  split.
  - unfold f_ada_update. fold logs. cbv zeta. assert (E0 : existsb is_nan logs = false). { apply Bool.not_true_iff_false. intros Q. apply existsb_exists in Q. destruct Q as [q [Q1 Q2]]. apply (NN q Q1). destruct q; try discriminate. reflexivity. }
    rewrite E0, Bool.andb_false_r. unfold f_ada_norm. cbn [fold_left bind]. rewrite Ea, Eb.
    assert (A : f_ada_add fexp fln (B754_infinity true) (B754_infinity true) = B754_nan). { unfold f_ada_add. change (flt (B754_infinity true) (B754_infinity true)) with false. cbv iota. change (fsub (B754_infinity true) (B754_infinity true)) with (@B754_nan 53 1024). rewrite Xn. change (fadd f1 B754_nan) with (@B754_nan 53 1024). rewrite Ln. reflexivity. }
    rewrite A, NF. cbn [bind]. f_equal. rewrite <- LL. etransitivity; [|exact (map_const_repeat (@B754_nan 53 1024 : f64) logs)]. apply map_ext. intros d. destruct d; exact Xn.
  - intros ix' w' margins' Lm'. unfold f_ada_update. cbv zeta. assert (NL' : f_ada_logs fln w' margins' (@repeat f64 B754_nan (length dist)) = @repeat f64 B754_nan (length dist)).
    { unfold f_ada_logs. rewrite <- Lm'. clear - Ln. induction margins' as [|m l IH]; [reflexivity|]. cbn [length repeat combine map fst snd]. rewrite IH, Ln. f_equal; destruct (fmul w' m); reflexivity. }
    rewrite NL', repeat_length. destruct dist as [|d1 [|d2 dist]]; [cbn in Hi; lia|cbn in Hi, Hj; lia|]. reflexivity.
Qed.

Lemma ex_C92 : let y := [f1; f_minus1; f1; f_minus1] in let conf := [f1; f_minus1; f1; f1] in
  exists fexp fln dist, precise_exp fexp /\ precise_ln fln /\ special_cases fexp fln /\ (forall x, In x y -> f_label x) /\
  f_edge y conf (f_uniform 4) f_half /\ f_ada_run fexp fln mild_round y [(f_ada_weight fln f_half, conf)] dist /\ Rabs (val (f_ada_weight fln f_half)) <= 8.
Proof.
  cbv zeta. destruct P_C92_platform as [fexp [fln [C1 [C2 C3]]]]. set (y := [f1; f_minus1; f1; f_minus1]). set (conf := [f1; f_minus1; f1; f1]).
  destruct f1_spec as [F1 V1]. destruct minus1_spec as [Fm Vm]. destruct half_spec as [Fh Vh].
  assert (Ly : forall x, In x y -> f_label x) by (intros x [<- |[<- |[<- |[<- |[]]]]]; split; auto).
  assert (Ed : f_edge y conf (f_uniform 4) f_half) by (exists (FLeaf (f_products (f_margins y conf) (f_uniform 4))); split; [reflexivity|apply B2SF_inj; vm_compute; reflexivity]).
  assert (Bc : bounded_conf conf) by (intros c [<- |[<- |[<- |[<- |[]]]]]; (split; [assumption|]); first [rewrite V1, Rabs_R1; lra|rewrite Vm; apply Rabs_le; lra]).
  assert (Mi : mild_round conf f_half) by (split; [exact Bc|rewrite Vh, Rabs_pos_eq by lra; simpl; lra]).
  assert (S0 := far_start fexp fln mild_round y). change (length y) with 4%nat in S0.
  destruct (P_C92_no_round_panics fexp fln y [] (f_uniform 4) conf f_half C1 C2 Ly) as [[ix Hix] HU]; [cbn; lia|simpl; lra|exact S0|reflexivity|exact Ed|exact Mi|].
  destruct (HU ix Hix) as [d' E']. exists fexp, fln, d'. split; [exact C1|]. split; [exact C2|]. split; [exact C3|]. split; [exact Ly|]. split; [exact Ed|]. split.
  - apply (far_round fexp fln mild_round y [] (f_uniform 4) conf f_half ix d' S0 eq_refl Ed); [vm_compute; reflexivity|exact Mi|exact Hix|exact E'].
  - apply (weight_ok fln C2 f_half Fh (proj2 Mi)).
Qed.

(** ** Example: a first round on four examples in which the hypothesis errs on the last one (edge 1/2), with an exponential and a logarithm as required *)
Example C92_nonvacuous : let y := [f1; f_minus1; f1; f_minus1] in let conf := [f1; f_minus1; f1; f1] in
  exists fexp fln dist, precise_exp fexp /\ precise_ln fln /\ special_cases fexp fln /\ (forall x, In x y -> f_label x) /\
  f_edge y conf (f_uniform 4) f_half /\ f_ada_run fexp fln mild_round y [(f_ada_weight fln f_half, conf)] dist /\ Rabs (val (f_ada_weight fln f_half)) <= 8.
Proof. exact ex_C92. Qed.

