(** AdaBoostV in binary64: one round *)
From Coq Require Import ZArith List Bool Reals Lia Lra Psatz Permutation Sorting.
From Flocq Require Import Core.Core IEEE754.BinarySingleNaN.
From Verif Require AdaBoostProofs AdaBoostVProofs.
From Verif Require Import Base SortLib Float FloatSpec FloatProofs FloatFacts FloatCheckFacts FloatProject FloatProjectProofs FloatEdge FloatEdgeSpec FloatEdgeFacts FloatMedian FloatMedianFacts FloatAda FloatAdaSpec FloatAdaProofs FloatAdaStep FloatAdaRun FloatAdaFacts FloatBestProofs FloatAdaV FloatAdaVSpec.
Import ListNotations.
Open Scope R_scope.
Local Notation aw := AdaBoostProofs.ada_weight.

(** ** real facts *)
Lemma aw_gap x r : 0 <= r <= x -> x < 1 -> (x - r) / 2 <= aw x - aw r.
Proof.
  intros H Hx. rewrite !AdaBoostVProofs.ada_weight_ln by lra. set (u := (1 + x) * (1 - r) / ((1 - x) * (1 + r))).
  assert (P1 : 0 < (1 + x) * (1 - r)) by nra. assert (P2 : 0 < (1 - x) * (1 + r)) by nra. assert (U0 : 0 < u) by (apply Rdiv_lt_0_compat; assumption).
  assert (EL : ln u = ln (1 + x) - ln (1 - x) - (ln (1 + r) - ln (1 - r))). { unfold u, Rdiv. rewrite ln_mult, ln_Rinv, !ln_mult by (try apply Rinv_0_lt_compat; lra). lra. }
  assert (L : ln (/ u) <= / u - 1) by (apply ln_le_sub, Rinv_0_lt_compat, U0). rewrite ln_Rinv in L by exact U0.
  assert (Q : / u - 1 <= - (x - r)). { assert (E : / u = (1 - x) * (1 + r) / ((1 + x) * (1 - r))) by (unfold u; field; lra). rewrite E. replace ((1 - x) * (1 + r) / ((1 + x) * (1 - r)) - 1) with (- (2 * (x - r) / ((1 + x) * (1 - r)))) by (field; lra). apply Ropp_le_contravar, Rle_div_iff; [lra|]. assert ((1 + x) * (1 - r) <= 2) by nra. nra. }
  lra.
Qed.
Lemma aw_range x : 0 <= x <= 1 - / 2 ^ 10 -> 0 <= aw x <= 4.
Proof.
  intros H. assert (C : / 2 ^ 10 = / 1024) by (simpl; lra). rewrite C in H. pose proof (aw_gap 0 0 ltac:(lra) ltac:(lra)) as Z. pose proof (aw_gap x 0 ltac:(lra) ltac:(lra)) as G. assert (A0 : aw 0 = 0) by (unfold aw; replace ((1 + 0) / (1 - 0)) with 1 by field; rewrite ln_1; field). split; [lra|].
  unfold aw. assert (Q : (1 + x) / (1 - x) <= 2 ^ 11) by (apply Rdiv_le_iff; [lra|]; simpl; lra). assert (L : ln ((1 + x) / (1 - x)) <= ln (2 ^ 11)) by (apply ln_le; [apply Rdiv_lt_0_compat; lra|exact Q]).
  rewrite ln_pow in L by lra. rewrite INR_IZR_INZ in L. change (Z.of_nat 11) with 11%Z in L. pose proof ln2_upper. lra.
Qed.

(** the value of a round, with the perturbations of binary64 *)
Lemma value_real S e' x r a G : Rabs (S - 1) <= / 2 ^ 21 -> Rabs (x - e') <= / 2 ^ 34 -> 0 <= r <= x -> x <= G -> G <= 1 - / 2 ^ 10 -> Rabs (a - (aw x - aw r)) <= / 2 ^ 44 ->
  0 < (S + e') / 2 * exp (- a) + (S - e') / 2 * exp a -> ln ((S + e') / 2 * exp (- a) + (S - e') / 2 * exp a) <= - r * a - (x - r) ^ 2 / 2 + (/ 2 ^ 21 + / 2 ^ 34) / (1 - G) + / 2 ^ 40.
Proof.
  intros BS Be Hr HG HG1 Ba HP. apply Rabs_le_inv in BS. apply Rabs_le_inv in Be. assert (C1 : / 2 ^ 10 = / 1024) by (simpl; lra). rewrite C1 in HG1. set (ep := / 2 ^ 21 + / 2 ^ 34).
  assert (E0 : 0 < ep) by (unfold ep; assert (0 < / 2 ^ 21) by (apply Rinv_0_lt_compat, pow_lt; lra); assert (0 < / 2 ^ 34) by (apply Rinv_0_lt_compat, pow_lt; lra); lra).
  set (w := aw x - aw r) in *. set (k := ep / (1 - G)). assert (K0 : 0 < k) by (apply Rdiv_lt_0_compat; lra). assert (Ek : ep = k * (1 - G)) by (unfold k; field; lra).
  set (dl := a - w) in *. assert (Ea : a = w + dl) by (unfold dl; ring). assert (T44 : 0 < / 2 ^ 44 <= / 10 ^ 13) by (split; [apply Rinv_0_lt_compat, pow_lt; lra|simpl; lra]).
  set (t := / 2 ^ 44) in *. assert (C40 : / 2 ^ 40 = 16 * t) by (unfold t; simpl; lra).
  assert (X1 : exp a <= exp w * (1 + 2 * t)). { rewrite Ea, exp_plus. apply Rmult_le_compat_l; [left; apply exp_pos|]. pose proof (exp_bounds dl ltac:(lra)). lra. }
  assert (X2 : exp (- a) <= exp (- w) * (1 + 2 * t)). { rewrite Ea, Ropp_plus_distr, exp_plus. apply Rmult_le_compat_l; [left; apply exp_pos|]. pose proof (exp_bounds (- dl)) as EB. rewrite Rabs_Ropp in EB. specialize (EB ltac:(lra)). lra. }
  pose proof (AdaBoostVProofs.adav_round_value r x ltac:(lra) ltac:(lra) ltac:(lra)) as RV. cbv zeta in RV. change (exp (r * w) * ((1 + x) / 2 * exp (- w) + (1 - x) / 2 * exp w) <= exp (- (x - r) ^ 2 / 2)) in RV.
  set (Z := (1 + x) / 2 * exp (- w) + (1 - x) / 2 * exp w) in *. assert (Z0 : 0 < Z) by (unfold Z; pose proof (exp_pos w); pose proof (exp_pos (- w)); nra).
  assert (LZ : ln Z <= - (r * w) - (x - r) ^ 2 / 2). { assert (M : ln (exp (r * w) * Z) <= ln (exp (- (x - r) ^ 2 / 2))) by (apply ln_le; [apply Rmult_lt_0_compat; [apply exp_pos|exact Z0]|exact RV]). rewrite ln_mult, !ln_exp in M by (try apply exp_pos; exact Z0). lra. }
  assert (Y1 : (S + e') / 2 * exp (- a) <= (1 + x) / 2 * (1 + k) * (exp (- w) * (1 + 2 * t))). { apply Rle_trans with ((1 + x) / 2 * (1 + k) * exp (- a)); [apply Rmult_le_compat_r; [left; apply exp_pos|]|apply Rmult_le_compat_l; [nra|exact X2]]. assert (ep <= k * (1 + x)) by nra. unfold ep in *. lra. }
  assert (Y2 : (S - e') / 2 * exp a <= (1 - x) / 2 * (1 + k) * (exp w * (1 + 2 * t))). { apply Rle_trans with ((1 - x) / 2 * (1 + k) * exp a); [apply Rmult_le_compat_r; [left; apply exp_pos|]|apply Rmult_le_compat_l; [nra|exact X1]]. assert (ep <= k * (1 - x)) by nra. unfold ep in *. lra. }
  apply Rle_trans with (ln (Z * ((1 + k) * (1 + 2 * t)))).
  - apply ln_le; [exact HP|]. eapply Rle_trans; [apply Rplus_le_compat; [exact Y1|exact Y2]|]. right. unfold Z. ring.
  - rewrite ln_mult, ln_mult by (try apply Rmult_lt_0_compat; lra). assert (L1 : ln (1 + k) <= k) by (eapply Rle_trans; [apply ln_le_sub; lra|lra]). assert (L2 : ln (1 + 2 * t) <= 2 * t) by (eapply Rle_trans; [apply ln_le_sub; lra|lra]).
    assert (RD : - (r * w) <= - r * a + t). { rewrite Ea. apply Rabs_le_inv in Ba. assert (- t <= r * dl <= t) by (split; nra). lra. }
    rewrite C40. fold k. lra.
Qed.

Section Platform.
  Variables (fexp fln : f64 -> f64).
  Hypothesis Hexp : precise_exp fexp.
  Hypothesis Hln : precise_ln fln.

  (** ** the weight *)
  Lemma vweight_ok (e r : f64) : fin e -> fin r -> 0 <= val r <= val e -> val e <= 1 - / 2 ^ 10 ->
    fin (f_adav_weight fln e r) /\ Rabs (val (f_adav_weight fln e r) - (aw (val e) - aw (val r))) <= / 2 ^ 44 /\ Rabs (val (f_adav_weight fln e r)) <= 5.
  Proof.
    intros Fe Fr Hr He. assert (T10 : 0 < / 2 ^ 10) by (apply Rinv_0_lt_compat, pow_lt; lra). destruct (weight_ok fln Hln e Fe ltac:(rewrite Rabs_pos_eq; lra)) as [Fa [Ea _]]. destruct (weight_ok fln Hln r Fr ltac:(rewrite Rabs_pos_eq; lra)) as [Fb [Eb _]].
    change (Rabs (val (f_ada_weight fln e) - aw (val e)) <= / 2 ^ 46) in Ea. change (Rabs (val (f_ada_weight fln r) - aw (val r)) <= / 2 ^ 46) in Eb. pose proof (aw_range (val e) ltac:(lra)) as Re. pose proof (aw_range (val r) ltac:(lra)) as Rr.
    pose proof (aw_gap (val e) (val r) Hr ltac:(lra)) as Gp. unfold f_adav_weight. set (a := f_ada_weight fln e) in *. set (b := f_ada_weight fln r) in *. clearbody a b. set (A := aw (val e)) in *. set (B := aw (val r)) in *. clearbody A B.
    assert (C46 : 0 < / 2 ^ 46 <= / 1000) by (split; [apply Rinv_0_lt_compat, pow_lt; lra|simpl; lra]). assert (C44 : / 2 ^ 44 = 4 * / 2 ^ 46) by (simpl; lra). assert (U46 : uu = / 128 * / 2 ^ 46) by (unfold uu; simpl; lra). apply Rabs_le_inv in Ea. apply Rabs_le_inv in Eb.
    destruct (fsub_rnd a b Fa Fb) as [Fd [_ [e1 [He1 E1]]]]; [apply bigp; apply Rle_trans with 10; [apply Rabs_le; lra|simpl; lra]|]. split; [exact Fd|]. rewrite E1. rewrite U46 in He1. rewrite C44. set (t := / 2 ^ 46) in *. clearbody t. unfold f64 in *. set (va := val a) in *. set (vb := val b) in *. clearbody va vb. clear - Ea Eb He1 C46 Re Rr Gp Hr.
    assert (M : Rabs ((va - vb) * e1) <= 5 * (/ 128 * t)) by (rewrite Rabs_mult; apply Rmult_le_compat; try apply Rabs_pos; [apply Rabs_le; lra|exact He1]). apply Rabs_le_inv in M.
    replace ((va - vb) * (1 + e1)) with ((va - vb) + (va - vb) * e1) by ring. set (m := (va - vb) * e1) in *. clearbody m. split; apply Rabs_le; lra.
  Qed.

  (** ** the margin estimate *)
  Lemma min2_spec (a b : f64) : fin a -> fin b -> fin (f_min2 a b) /\ val (f_min2 a b) = Rmin (val a) (val b).
  Proof.
    intros Fa Fb. unfold f_min2. assert (Na : is_nan a = false) by (destruct a; try discriminate; reflexivity). assert (Nb : is_nan b = false) by (destruct b; try discriminate; reflexivity). rewrite Na, Nb.
    destruct (flt_or b a Fb Fa) as [[-> Q]|[-> Q]]; [split; [exact Fb|rewrite Rmin_right by lra; reflexivity]|split; [exact Fa|rewrite Rmin_left by lra; reflexivity]].
  Qed.
  Lemma rho_spec (g tol : f64) : fin g -> fin tol -> 0 < val tol -> val tol <= val g <= 1 ->
    fin (f_adav_rho g tol) /\ 0 <= val (f_adav_rho g tol) <= val g /\ Rabs (val (f_adav_rho g tol) - (val g - val tol)) <= uu.
  Proof.
    intros Fg Ft T0 Hg. unfold f_adav_rho. destruct (fsub_rnd g tol Fg Ft) as [F [V [e [He E]]]]; [apply bigp; apply Rle_trans with 2; [apply Rabs_le; lra|simpl; lra]|]. split; [exact F|]. split.
    - rewrite V. pose proof (rnd_val f0) as R0. rewrite val_f0 in R0. pose proof (rnd_val g) as Rg. split; [rewrite <- R0 at 1|rewrite <- Rg]; apply rnd_mono; lra.
    - rewrite E. replace ((val g - val tol) * (1 + e) - (val g - val tol)) with ((val g - val tol) * e) by ring. rewrite Rabs_mult, (Rabs_pos_eq (val g - val tol)) by lra. pose proof (Rabs_pos e). nra.
  Qed.

  Variables (y : list f64).
  Local Notation n := (length y).
  Hypothesis Ly : forall x, In x y -> f_label x.
  Hypothesis N1 : (1 <= n)%nat.
  Hypothesis Hn : INR n <= 2 ^ 16.

  Section Round.
    Variables (d conf : list f64) (e w : f64).
    Hypothesis Iv : inv y d.
    Hypothesis Lc : length conf = n.
    Hypothesis Bc : bounded_conf conf.
    Hypothesis Ed : f_edge y conf d e.
    Hypothesis Fw : fin w.
    Hypothesis Bw : 0 <= val w <= 8.
    Local Notation al := (val w).
    Local Notation pj := (fun j => val (nth j (f_margins y conf) f0)).
    Local Notation dj := (fun j => val (nth j d f0)).

    Lemma Pb j : (j < n)%nat -> -1 <= pj j <= 1.
    Proof. intros Hj. destruct (margin_nth y Ly N1 conf j Lc Bc Hj) as [_ [_ B]]. apply Rabs_le_inv in B. exact B. Qed.
    Lemma Dp j : (j < n)%nat -> 0 < dj j.
    Proof. intros Hj. destruct Iv as [Ld [Fd _]]. destruct (Fd (nth j d f0)) as [_ [B _]]; [apply nth_In; rewrite Ld; exact Hj|]. assert (0 < / 2 ^ 1074) by (apply Rinv_0_lt_compat, pow_lt; lra). cbv beta. lra. Qed.

    (** the sum of the new weights before normalisation *)
    Lemma Z_bound : let Z := rsum (map (fun j => dj j * exp (- (al * pj j))) (seq 0 n)) in let S := rsum (map dj (seq 0 n)) in let ee := rsum (map (fun j => dj j * pj j) (seq 0 n)) in
      0 < Z /\ Z <= (S + ee) / 2 * exp (- al) + (S - ee) / 2 * exp al.
    Proof.
      cbv zeta. set (S := rsum (map dj (seq 0 n))). set (ee := rsum (map (fun j => dj j * pj j) (seq 0 n))). split.
      - pose proof Dp as DP. destruct n as [|k] eqn:En; [lia|]. cbn [seq map rsum]. match goal with |- 0 < ?a + ?b => assert (0 < a); [|assert (0 <= b)] end; [apply Rmult_lt_0_compat; [apply (DP 0%nat); lia|apply exp_pos]| |lra].
        apply rsum_nonneg. intros z Hz. apply in_map_iff in Hz. destruct Hz as [j [<- Hj]]. apply in_seq in Hj. left. apply Rmult_lt_0_compat; [apply (DP j); lia|apply exp_pos].
      - replace ((S + ee) / 2 * exp (- al) + (S - ee) / 2 * exp al) with (rsum (map (fun j => dj j * ((1 + pj j) / 2 * exp (- al) + (1 - pj j) / 2 * exp al)) (seq 0 n))).
        + apply rsum_map_le. intros j Hj. apply in_seq in Hj. assert (Hj' : (j < n)%nat) by lia. apply Rmult_le_compat_l; [left; apply (Dp j Hj')|].
          replace (- (al * pj j)) with (- al * pj j) by ring. apply AdaBoostProofs.exp_convex. apply (Pb j Hj').
        + rewrite (rsum_map_ext _ (fun j => (exp (- al) / 2 + exp al / 2) * dj j + (exp (- al) / 2 - exp al / 2) * (dj j * pj j))) by (intros; field).
          rewrite rsum_map_plus, !rsum_map_mult. fold S ee. field.
    Qed.

    (** a weight is at least (1/2 + 2^-14) of its old value *)
    Lemma vkeeps_half : val e <= 1 - / 2 ^ 10 -> 0 <= val e -> exp (2 * al) <= (1 + val e) / (1 - val e) * (1 + / 2 ^ 40) ->
      forall i, (i < n)%nat -> exp (- (al * pj i)) / rsum (map (fun j => dj j * exp (- (al * pj j))) (seq 0 n)) >= / (2 - / 2 ^ 12).
    Proof.
      intros He He0 Ex i Hi. destruct (edge_ok y Ly N1 Hn d conf e Iv Lc Bc Ed) as [_ Ee]. destruct Z_bound as [ZP UpZ]. destruct Iv as [Ld [_ Sd]]. rewrite (total_seq y d Ld) in Sd.
      set (Z := rsum (map (fun j => dj j * exp (- (al * pj j))) (seq 0 n))) in *. set (S := rsum (map dj (seq 0 n))) in *. set (ee := rsum (map (fun j => dj j * pj j) (seq 0 n))) in *.
      assert (LowE : exp (- al) <= exp (- (al * pj i))) by (apply exp_le_exp; pose proof (Pb i Hi) as PB; cbv beta in PB; nra).
      assert (H2 : exp al * Z <= 2 - / 2 ^ 12).
      { apply (ratio_real S ee (val e) al).
        - rewrite Rabs_pos_eq; lra.
        - exact Sd.
        - exact Ee.
        - exact Ex.
        - apply (Rmult_le_compat_l (exp al)) in UpZ; [|left; apply exp_pos]. eapply Rle_trans; [exact UpZ|]. right. rewrite Rmult_plus_distr_l. f_equal.
          + replace (exp al * ((S + ee) / 2 * exp (- al))) with ((S + ee) / 2 * (exp al * exp (- al))) by ring. rewrite <- exp_plus, Rplus_opp_r, exp_0. ring.
          + replace (2 * al) with (al + al) by ring. rewrite exp_plus. ring. }
      apply Rle_ge. apply Rle_trans with (exp (- al) / Z); [|unfold Rdiv; apply Rmult_le_compat_r; [left; apply Rinv_0_lt_compat, ZP|exact LowE]].
      rewrite exp_Ropp. unfold Rdiv. rewrite <- Rinv_mult. apply Rinv_le_contravar; [apply Rmult_lt_0_compat; [apply exp_pos|exact ZP]|exact H2].
    Qed.

    Lemma Bw' : Rabs al <= 8. Proof. rewrite Rabs_pos_eq; lra. Qed.
    Lemma Lp' : length (f_margins y conf) = length d. Proof. destruct Iv as [Ld _]. rewrite (margins_len y N1 conf Lc), Ld. reflexivity. Qed.
    Lemma Fp' c : In c (f_margins y conf) -> fin c /\ Rabs (val c) <= 1.
    Proof. intros Hc. pose proof Lp' as Lp. destruct Iv as [Ld _]. apply In_nth with (d := f0) in Hc. destruct Hc as [i [Hi <-]]. rewrite Lp, Ld in Hi. destruct (margin_nth y Ly N1 conf i Lc Bc Hi) as [F [_ B]]. split; assumption. Qed.

    Lemma vinv_round ix : val e <= 1 - / 2 ^ 10 -> 0 <= val e -> exp (2 * al) <= (1 + val e) / (1 - val e) * (1 + / 2 ^ 40) -> Permutation ix (seq 0 n) ->
      exists d', f_ada_update fexp fln ix w (f_margins y conf) d = Ok d' /\ inv y d'.
    Proof.
      intros He He0 Ex P. pose proof (vkeeps_half He He0 Ex) as KH. cbv beta in KH. pose proof Bw' as Bw2. pose proof Lp' as Lp. pose proof Fp' as Fp. destruct Iv as [Ld [Fd Sd]]. set (p := f_margins y conf) in *.
      assert (N1' : (1 <= length d)%nat) by (rewrite Ld; exact N1). assert (Hn' : INR (length d) <= 2 ^ 16) by (rewrite Ld; exact Hn). assert (P' : Permutation ix (seq 0 (length d))) by (rewrite Ld; exact P).
      destruct (update_entries fexp fln Hexp Hln w p d Lp Fw Bw2 Fp Fd ix N1' Hn' P') as [d' [E [L T]]]. exists d'. split; [exact E|]. split; [rewrite L; exact Ld|]. split.
      - intros c Hc. apply In_nth with (d := f0) in Hc. destruct Hc as [i [Hi <-]]. rewrite L in Hi. destruct (T i Hi) as [F [B [k [Hk A]]]]. split; [exact F|]. split; [|apply B]. apply pos_least; [exact F|].
        rewrite Ld in Hi. specialize (KH i Hi). rewrite <- Ld in KH. destruct (Fd (nth i d f0)) as [_ [D1 _]]; [apply nth_In; rewrite Ld; exact Hi|].
        set (Z := rsum (map (fun j => val (nth j d f0) * exp (- (val w * val (nth j p f0)))) (seq 0 (length d)))) in *.
        assert (Q : / 2 ^ 1074 * / (2 - / 2 ^ 12) <= val (nth i d f0) * exp (- (val w * val (nth i p f0))) / Z).
        { unfold Rdiv. rewrite Rmult_assoc. apply Rmult_le_compat; [left; apply Rinv_0_lt_compat, pow_lt; lra|left; apply Rinv_0_lt_compat; simpl; lra|exact D1|apply Rge_le; exact KH]. }
        set (q := val (nth i d f0) * exp (- (val w * val (nth i p f0))) / Z) in *. apply Rabs_le_inv in A. apply Rabs_le_inv in Hk. set (v := val (nth i d' f0)) in *. clear - Q A Hk.
        assert (E75 : / 2 ^ 1075 = / 2 ^ 1074 * / 2) by (change (2 ^ 1075) with (2 * 2 ^ 1074); rewrite Rinv_mult; apply Rmult_comm). rewrite E75 in A. assert (M0 : 0 < / 2 ^ 1074) by (apply Rinv_0_lt_compat, pow_lt; lra). set (m := / 2 ^ 1074) in *. clearbody m v q. clear E75.
        assert (C1 : / 2 ^ 12 = / 4096) by (simpl; lra). assert (C2 : / 2 ^ 22 = / 4194304) by (simpl; lra). assert (C3 : / 2 ^ 52 = / 4503599627370496) by (simpl; lra). rewrite C1 in Q. rewrite C2 in Hk. rewrite C3 in A.
        assert (Q' : m * (4096 / 8191) <= q) by (replace (4096 / 8191) with (/ (2 - / 4096)) by lra; exact Q).
        assert (A1 : q * (1 + k) * (1 - / 4503599627370496) - m * / 2 <= v) by lra.
        assert (A2 : q * (1 - / 4194304) <= q * (1 + k)) by (apply Rmult_le_compat_l; nra). nra.
      - apply (update_total fexp fln Hexp Hln w p d Lp Fw Bw2 Fp Fd ix d' N1' Hn' P' E).
    Qed.

    Lemma vclose_round ix d' F c E : Permutation ix (seq 0 n) -> f_ada_update fexp fln ix w (f_margins y conf) d = Ok d' -> (forall i, (i < n)%nat -> Rabs (F i) <= 256) -> E <= / 2 ^ 7 ->
      (forall i, (i < n)%nat -> Rabs (ln (dj i) + F i + c) <= E) ->
      exists N, Rabs (N - ln (rsum (map (fun j => exp (ln (dj j) - al * pj j)) (seq 0 n)))) <= INR (n + 1) * / 2 ^ 40 /\
      forall i, (i < n)%nat -> Rabs (ln (val (nth i d' f0)) + (F i + al * (val (nth i y f0) * val (nth i conf f0))) + (c + N)) <= E + / 2 ^ 39.
    Proof.
      intros P EU BF BE H. pose proof Bw' as Bw2. pose proof Lp' as Lp. pose proof Fp' as Fp. assert (Low := close_low y N1 Hn d F c E Iv BF BE H).
      destruct Iv as [Ld [Fd Sd]]. set (p := f_margins y conf) in *. cbv beta.
      assert (N1' : (1 <= length d)%nat) by (rewrite Ld; exact N1). assert (Hn' : INR (length d) <= 2 ^ 16) by (rewrite Ld; exact Hn). assert (P' : Permutation ix (seq 0 (length d))) by (rewrite Ld; exact P).
      destruct (update_ok fexp fln Hexp Hln w p d Lp Fw Bw2 Fp Fd ix N1' Hn' P') as [d'' [E' [L [N [AN T]]]]]. rewrite EU in E'. injection E' as <-.
      assert (BN : N <= 10).
      { set (S := rsum (map (fun j => exp (ln (val (nth j d f0)) - val w * val (nth j p f0))) (seq 0 (length d)))) in *.
        assert (SP : 0 < S). { unfold S. rewrite Ld. destruct n as [|k]; [lia|]. cbn [seq map rsum]. match goal with |- 0 < exp ?a + ?b => pose proof (exp_pos a); assert (0 <= b) end; [|lra]. apply rsum_nonneg. intros z Hz. apply in_map_iff in Hz. destruct Hz as [j [<- _]]. left. apply exp_pos. }
        assert (SU : S <= exp 8 * total d).
        { rewrite (total_seq y d Ld), <- rsum_map_mult. unfold S. rewrite Ld. apply rsum_map_le. intros j Hj. apply in_seq in Hj. assert (Hj' : (j < n)%nat) by (unfold f64 in *; lia).
          destruct (Fd (nth j d f0)) as [_ [D1 _]]; [apply nth_In; rewrite Ld; exact Hj'|]. assert (D0 : 0 < val (nth j d f0)) by (eapply Rlt_le_trans; [|exact D1]; apply Rinv_0_lt_compat, pow_lt; lra).
          unfold Rminus. rewrite exp_plus, exp_ln by exact D0. rewrite Rmult_comm. apply Rmult_le_compat_r; [lra|]. apply exp_le_exp. destruct (Fp (nth j p f0)) as [_ B]; [apply nth_In; rewrite Lp, Ld; exact Hj'|].
          assert (Q : Rabs (val w * val (nth j p f0)) <= 8) by (rewrite Rabs_mult; rewrite <- (Rmult_1_r 8); apply Rmult_le_compat; try apply Rabs_pos; assumption). apply Rabs_le_inv in Q. lra. }
        assert (LS : ln S <= 9). { apply Rle_trans with (ln (exp 8 * total d)); [apply ln_le; assumption|]. apply Rabs_le_inv in Sd. assert (/ 2 ^ 21 <= / 2) by (simpl; lra). rewrite ln_mult by (try apply exp_pos; lra). rewrite ln_exp. assert (ln (total d) <= total d - 1) by (apply ln_le_sub; lra). lra. }
        assert (INR (length d + 1) * / 2 ^ 40 <= 1). { rewrite plus_INR. change (INR 1) with 1. apply Rle_trans with ((2 ^ 16 + 1) * / 2 ^ 40); [apply Rmult_le_compat_r; [left; apply Rinv_0_lt_compat, pow_lt; lra|lra]|simpl; lra]. }
        apply Rabs_le_inv in AN. lra. }
      exists N. split; [rewrite Ld in AN; exact AN|]. intros i Hi. assert (Hi' : (i < length d)%nat) by (rewrite Ld; exact Hi). destruct (T i Hi') as [t [Et [Ft [T0 At]]]]. rewrite Et. destruct (margin_nth y Ly N1 conf i Lc Bc Hi) as [_ [Vm Bm]]. fold p in Vm, Bm. rewrite <- Vm.
      destruct (Hexp t Ft T0) as [_ [_ Ae]]. pose proof (H i Hi) as Hc. specialize (Low i Hi). cbv beta in Hc. set (a := val w) in *. set (q := val (nth i p f0)) in *. set (l := ln (val (nth i d f0))) in *.
      assert (Q : Rabs (a * q) <= 8) by (rewrite Rabs_mult; rewrite <- (Rmult_1_r 8); apply Rmult_le_compat; try apply Rabs_pos; assumption).
      assert (TL : -600 <= val t). { apply Rabs_le_inv in At. apply Rabs_le_inv in Q. assert (/ 2 ^ 40 <= 1) by (simpl; lra). lra. }
      assert (EL : / 2 ^ 1000 <= exp (val t)). { rewrite <- (exp_ln (/ 2 ^ 1000)) by (apply Rinv_0_lt_compat, pow_lt; lra). apply exp_le_exp. rewrite ln_small_pow. pose proof (FloatAdaFacts.ln2_lower y N1). rewrite INR_IZR_INZ. change (Z.of_nat 1000) with 1000%Z. lra. }
      assert (E75 : / 2 ^ 1075 = / 2 ^ 75 * / 2 ^ 1000) by (rewrite <- Rinv_mult, <- pow_add; reflexivity). assert (C75 : 0 < / 2 ^ 75 <= / 2 ^ 52) by (split; [apply Rinv_0_lt_compat, pow_lt; lra|simpl; lra]).
      assert (Ae' : Rabs (val (fexp t) - exp (val t)) <= / 2 ^ 51 * exp (val t)). { eapply Rle_trans; [exact Ae|]. rewrite E75. assert (/ 2 ^ 75 * / 2 ^ 1000 <= / 2 ^ 52 * exp (val t)) by (apply Rmult_le_compat; try lra; left; apply Rinv_0_lt_compat, pow_lt; lra). assert (2 * / 2 ^ 52 = / 2 ^ 51) by (simpl; lra). nra. }
      set (k := (val (fexp t) - exp (val t)) / exp (val t)). assert (X0 := exp_pos (val t)).
      assert (K : Rabs k <= / 2 ^ 51). { unfold k, Rdiv. rewrite Rabs_mult, (Rabs_pos_eq (/ exp (val t))) by (left; apply Rinv_0_lt_compat, X0). apply Rdiv_le_iff; [exact X0|exact Ae']. }
      assert (EV : val (fexp t) = exp (val t) * (1 + k)) by (unfold k; field; lra).
      assert (K2 : Rabs k <= / 2) by (eapply Rle_trans; [exact K|simpl; lra]). pose proof (ln_near k K2) as LN. apply Rabs_le_inv in K2.
      rewrite EV, ln_mult by (try assumption; lra). rewrite ln_exp. assert (LN' : Rabs (ln (1 + k)) <= / 2 ^ 40) by (eapply Rle_trans; [exact LN|]; apply Rle_trans with (2 * / 2 ^ 51); [lra|simpl; lra]).
      assert (/ 2 ^ 39 = 2 * / 2 ^ 40) by (simpl; lra). apply Rabs_le_inv in LN'. apply Rabs_le_inv in At. apply Rabs_le_inv in Hc. apply Rabs_le. lra.
    Qed.

    (** the logarithm of the normaliser *)
    Lemma vnorm N r G : Rabs (N - ln (rsum (map (fun j => exp (ln (dj j) - al * pj j)) (seq 0 n)))) <= INR (n + 1) * / 2 ^ 40 ->
      0 <= r <= val e -> val e <= G -> G <= 1 - / 2 ^ 10 -> Rabs (al - (aw (val e) - aw r)) <= / 2 ^ 44 ->
      N <= - r * al - (val e - r) ^ 2 / 2 + (/ 2 ^ 21 + / 2 ^ 34) / (1 - G) + / 2 ^ 40 + / 2 ^ 22.
    Proof.
      intros AN Hr HG HG1 Ba. destruct (edge_ok y Ly N1 Hn d conf e Iv Lc Bc Ed) as [_ Ee]. destruct Z_bound as [ZP UpZ]. pose proof Dp as DP. destruct Iv as [Ld [_ Sd]]. rewrite (total_seq y d Ld) in Sd.
      assert (EZ : rsum (map (fun j => exp (ln (dj j) - al * pj j)) (seq 0 n)) = rsum (map (fun j => dj j * exp (- (al * pj j))) (seq 0 n))).
      { apply rsum_map_ext. intros j Hj. apply in_seq in Hj. unfold Rminus. rewrite exp_plus, exp_ln by (apply DP; lia). reflexivity. }
      cbv beta in AN, EZ, ZP, UpZ, Ee. rewrite EZ in AN. clear EZ. set (Z := rsum (map (fun j => dj j * exp (- (al * pj j))) (seq 0 n))) in *. set (S := rsum (map dj (seq 0 n))) in *. set (ee := rsum (map (fun j => dj j * pj j) (seq 0 n))) in *.
      pose proof (value_real S ee (val e) r al G Sd Ee Hr HG HG1 Ba) as V. specialize (V ltac:(eapply Rlt_le_trans; [exact ZP|exact UpZ])).
      assert (LZ : ln Z <= ln ((S + ee) / 2 * exp (- al) + (S - ee) / 2 * exp al)) by (apply ln_le; assumption).
      assert (INR (n + 1) * / 2 ^ 40 <= / 2 ^ 22). { rewrite plus_INR. change (INR 1) with 1. apply Rle_trans with ((2 ^ 16 + 1) * / 2 ^ 40); [apply Rmult_le_compat_r; [left; apply Rinv_0_lt_compat, pow_lt; lra|lra]|simpl; lra]. }
      apply Rabs_le_inv in AN. lra.
    Qed.
  End Round.
End Platform.
