(** Property C93: AdaBoost's training error in binary64. *)
From Coq Require Import ZArith List Bool Reals Lia Lra Psatz Permutation Sorting.
From Flocq Require Import Core.Core IEEE754.BinarySingleNaN Relative Plus_error.
From Verif Require Import Base SortLib Float FloatSpec FloatProofs FloatFacts FloatCheckFacts FloatVoteFacts FloatProject FloatProjectSpec FloatProjectProofs FloatProjectFacts ExpBounds FloatEdge FloatEdgeSpec FloatEdgeFacts FloatMedian FloatMedianFacts FloatAda FloatAdaSpec FloatAdaProofs FloatAdaStep FloatAdaRun FloatAdaFacts FloatBoostSpec.
Import ListNotations.
Open Scope R_scope.

(** the pure real computation: the normaliser of one round *)
Lemma norm_real S e' x a g : Rabs (S - 1) <= / 2 ^ 21 -> Rabs (x - e') <= / 2 ^ 34 -> 0 <= g <= x -> x <= 1 - / 2 ^ 10 -> Rabs (a - ln ((1 + x) / (1 - x)) / 2) <= / 2 ^ 46 ->
  (S + e') / 2 * exp (- a) + (S - e') / 2 * exp a <= sqrt (1 - g * g) + / 2 ^ 16.
Proof.
  intros BS Be Hg Hx Ba. apply Rabs_le_inv in BS. apply Rabs_le_inv in Be.
  assert (C1 : / 2 ^ 10 = / 1024) by (simpl; lra). assert (C2 : / 2 ^ 21 = / 2097152) by (simpl; lra). assert (C3 : / 2 ^ 34 = / 17179869184) by (simpl; lra). assert (C5 : / 2 ^ 16 = / 65536) by (simpl; lra).
  rewrite C1 in Hx. rewrite C2 in BS. rewrite C3 in Be. rewrite C5. clear C1 C2 C3 C5.
  set (b := ln ((1 + x) / (1 - x)) / 2) in *. set (eta := a - b) in *. assert (Ea : a = b + eta) by (unfold eta; ring).
  assert (R0 : 0 < (1 + x) / (1 - x)) by (apply Rdiv_lt_0_compat; lra).
  set (r := exp b). assert (r0 : 0 < r) by apply exp_pos.
  assert (Er : r * r = (1 + x) / (1 - x)). { unfold r. rewrite <- exp_plus. replace (b + b) with (ln ((1 + x) / (1 - x))) by (unfold b; field). apply exp_ln, R0. }
  assert (Er1 : 1 <= r). { apply Rnot_lt_le. intros Q. assert (r * r < 1) by nra. rewrite Er in H. apply Rmult_lt_compat_r with (r := 1 - x) in H; [|lra]. unfold Rdiv in H. rewrite Rmult_assoc, Rinv_l in H by lra. lra. }
  assert (Er2 : r <= 46). { apply Rnot_lt_le. intros Q. assert (46 * 46 < r * r) by nra. rewrite Er in H. assert ((1 + x) / (1 - x) <= 2048) by (apply Rdiv_le_iff; lra). lra. }
  set (q := sqrt (1 - x * x)). assert (q0 : 0 <= q) by apply sqrt_pos.
  assert (Eq : q = (1 - x) * r). { apply Rsqr_inj; [exact q0|nra|]. unfold q. rewrite Rsqr_sqrt by nra. unfold Rsqr. replace ((1 - x) * r * ((1 - x) * r)) with ((1 - x) * (1 - x) * (r * r)) by ring. rewrite Er. field. lra. }
  assert (Eq' : q = (1 + x) * / r). { rewrite Eq. apply Rmult_eq_reg_r with r; [|lra]. rewrite !Rmult_assoc, Rinv_l, Rmult_1_r by lra. rewrite Er. field. lra. }
  assert (Qg : q <= sqrt (1 - g * g)) by (apply sqrt_le_1_alt; nra).
  assert (Ri : 0 < / r <= 1) by (split; [apply Rinv_0_lt_compat, r0|rewrite <- Rinv_1; apply Rinv_le_contravar; lra]).
  assert (T46 : 0 < / 2 ^ 46 <= / 10 ^ 12) by (split; [apply Rinv_0_lt_compat, pow_lt; lra|simpl; lra]).
  assert (X1 : exp a <= r * (1 + 2 / 10 ^ 12)). { rewrite Ea, exp_plus. fold r. apply Rmult_le_compat_l; [lra|]. pose proof (exp_bounds eta) as EB. specialize (EB ltac:(lra)). assert (2 * / 2 ^ 46 <= 2 / 10 ^ 12) by lra. lra. }
  assert (X2 : exp (- a) <= / r * (1 + 2 / 10 ^ 12)). { rewrite Ea, Ropp_plus_distr, exp_plus, exp_Ropp. fold r. apply Rmult_le_compat_l; [lra|]. pose proof (exp_bounds (- eta)) as EB. rewrite Rabs_Ropp in EB. specialize (EB ltac:(lra)). assert (2 * / 2 ^ 46 <= 2 / 10 ^ 12) by lra. lra. }
  set (ep := / 2097152 + / 17179869184).
  assert (Y1 : (S + e') / 2 * exp (- a) <= (1 + x + ep) / 2 * (/ r * (1 + 2 / 10 ^ 12))). { apply Rle_trans with ((1 + x + ep) / 2 * exp (- a)); [apply Rmult_le_compat_r; [left; apply exp_pos|unfold ep; lra]|apply Rmult_le_compat_l; [unfold ep; lra|exact X2]]. }
  assert (Y2 : (S - e') / 2 * exp a <= (1 - x + ep) / 2 * (r * (1 + 2 / 10 ^ 12))). { apply Rle_trans with ((1 - x + ep) / 2 * exp a); [apply Rmult_le_compat_r; [left; apply exp_pos|unfold ep; lra]|apply Rmult_le_compat_l; [unfold ep; lra|exact X1]]. }
  assert (Y3 : (1 + x + ep) / 2 * (/ r * (1 + 2 / 10 ^ 12)) + (1 - x + ep) / 2 * (r * (1 + 2 / 10 ^ 12)) = (q + ep / 2 * (r + / r)) * (1 + 2 / 10 ^ 12)).
  { replace (q + ep / 2 * (r + / r)) with ((q / 2 + ep / 2 * / r) + (q / 2 + ep / 2 * r)) by (field; lra). rewrite Eq' at 1. rewrite Eq. field. lra. }
  assert (Y4 : ep / 2 * (r + / r) <= ep / 2 * 47) by (apply Rmult_le_compat_l; [unfold ep; lra|lra]).
  assert (q1 : q <= 1). { unfold q. rewrite <- sqrt_1 at 2. apply sqrt_le_1_alt. nra. }
  assert (Y5 : (q + ep / 2 * (r + / r)) * (1 + 2 / 10 ^ 12) <= q + / 65536). { unfold ep in *. nra. }
  lra.
Qed.

Lemma run_weaken fexp fln (ok ok' : list f64 -> f64 -> Prop) y hist d : (forall c e, ok c e -> ok' c e) -> f_ada_run fexp fln ok y hist d -> f_ada_run fexp fln ok' y hist d.
Proof. intros W H. induction H as [|hist d conf e ix d' _ IH Lc Ed Pf Mi Asc E]; [apply far_start|]. apply (far_round fexp fln ok' y hist d conf e ix d'); try assumption. apply W, Mi. Qed.

Section Run.
  Variables (fexp fln : f64 -> f64).
  Hypothesis Hexp : precise_exp fexp.
  Hypothesis Hln : precise_ln fln.
  Variables (y : list f64).
  Local Notation n := (length y).
  Hypothesis Ly : forall x, In x y -> f_label x.
  Hypothesis N1 : (1 <= n)%nat.
  Hypothesis Hn : INR n <= 2 ^ 16.
  Variable g : R.
  Hypothesis G0 : 0 <= g <= 1.
  Local Notation rho := (sqrt (1 - g * g) + / 2 ^ 15).

  Lemma norm_small d conf e N : inv y d -> length conf = n -> f_edge y conf d e -> good_round g conf e ->
    Rabs (N - ln (rsum (map (fun j => exp (ln (val (nth j d f0)) - val (f_ada_weight fln e) * val (nth j (f_margins y conf) f0))) (seq 0 n)))) <= INR (n + 1) * / 2 ^ 40 -> N <= ln rho.
  Proof.
    intros Iv Lc Ed [[Bc Be] Ge] AN. destruct (edge_ok y Ly N1 Hn d conf e Iv Lc Bc Ed) as [Fe Ee]. destruct (weight_ok fln Hln e Fe Be) as [Fw [Ew Bw]]. destruct Iv as [Ld [Fd Sd]]. rewrite (total_seq y d Ld) in Sd.
    set (a := val (f_ada_weight fln e)) in *. set (p := fun j => val (nth j (f_margins y conf) f0)). set (dj := fun j => val (nth j d f0)).
    change (Rabs (N - ln (rsum (map (fun j => exp (ln (dj j) - a * p j)) (seq 0 n)))) <= INR (n + 1) * / 2 ^ 40) in AN. change (Rabs (val e - rsum (map (fun j => dj j * p j) (seq 0 n))) <= / 2 ^ 34) in Ee. change (Rabs (rsum (map dj (seq 0 n)) - 1) <= / 2 ^ 21) in Sd.
    set (Z := rsum (map (fun j => exp (ln (dj j) - a * p j)) (seq 0 n))) in *. set (S := rsum (map dj (seq 0 n))) in *. set (ee := rsum (map (fun j => dj j * p j) (seq 0 n))) in *.
    assert (ZP : 0 < Z). { unfold Z. destruct n as [|k] eqn:En; [lia|]. cbn [seq map rsum]. match goal with |- 0 < exp ?a + ?b => pose proof (exp_pos a); assert (0 <= b) end; [|lra]. apply rsum_nonneg. intros z Hz. apply in_map_iff in Hz. destruct Hz as [j [<- _]]. left. apply exp_pos. }
    assert (UpZ : Z <= (S + ee) / 2 * exp (- a) + (S - ee) / 2 * exp a).
    { replace ((S + ee) / 2 * exp (- a) + (S - ee) / 2 * exp a) with (rsum (map (fun j => dj j * ((1 + p j) / 2 * exp (- a) + (1 - p j) / 2 * exp a)) (seq 0 n))).
      - unfold Z. apply rsum_map_le. intros j Hj. apply in_seq in Hj. assert (Hj' : (j < n)%nat) by lia. destruct (Fd (nth j d f0)) as [_ [D1 _]]; [apply nth_In; rewrite Ld; exact Hj'|].
        assert (D0 : 0 < dj j) by (eapply Rlt_le_trans; [|exact D1]; apply Rinv_0_lt_compat, pow_lt; lra). unfold Rminus at 1. rewrite exp_plus, exp_ln by exact D0. apply Rmult_le_compat_l; [lra|].
        replace (- (a * p j)) with (- a * p j) by ring. apply AdaBoostProofs.exp_convex. destruct (margin_nth y Ly N1 conf j Lc Bc Hj') as [_ [_ B]]. apply Rabs_le_inv in B. exact B.
      - rewrite (rsum_map_ext _ (fun j => (exp (- a) / 2 + exp a / 2) * dj j + (exp (- a) / 2 - exp a / 2) * (dj j * p j))) by (intros; field).
        rewrite rsum_map_plus, !rsum_map_mult. fold S ee. field. }
    apply Rabs_le_inv in Be. assert (NR := norm_real S ee (val e) a g Sd Ee (conj (proj1 G0) Ge) (proj2 Be) Ew).
    assert (ZU : Z <= sqrt (1 - g * g) + / 2 ^ 16) by lra. assert (s1 : 0 <= sqrt (1 - g * g) <= 1). { split; [apply sqrt_pos|]. apply Rle_trans with (sqrt 1); [apply sqrt_le_1_alt; nra|rewrite sqrt_1; lra]. }
    assert (AN' : N <= ln Z + / 2 ^ 23). { assert (INR (n + 1) * / 2 ^ 40 <= / 2 ^ 23). { rewrite plus_INR. change (INR 1) with 1. apply Rle_trans with ((2 ^ 16 + 1) * / 2 ^ 40); [apply Rmult_le_compat_r; [left; apply Rinv_0_lt_compat, pow_lt; lra|lra]|simpl; lra]. } apply Rabs_le_inv in AN. lra. }
    eapply Rle_trans; [exact AN'|]. rewrite <- (ln_exp (/ 2 ^ 23)), <- ln_mult by (try apply exp_pos; exact ZP). apply ln_le; [apply Rmult_lt_0_compat; [exact ZP|apply exp_pos]|].
    assert (T : 0 < / 2 ^ 23 <= / 4) by (split; [apply Rinv_0_lt_compat, pow_lt; lra|simpl; lra]). pose proof (exp_bounds (/ 2 ^ 23)) as EB. rewrite Rabs_pos_eq in EB by lra. specialize (EB ltac:(lra)). pose proof (exp_pos (/ 2 ^ 23)) as XP.
    assert (C1 : / 2 ^ 16 = / 65536) by (simpl; lra). assert (C2 : / 2 ^ 15 = / 32768) by (simpl; lra). assert (C3 : / 2 ^ 23 = / 8388608) by (simpl; lra). rewrite C1 in ZU. rewrite C2. rewrite C3 in *. clear C1 C2 C3.
    apply Rle_trans with ((sqrt (1 - g * g) + / 65536) * (1 + 2 * / 8388608)); [apply Rmult_le_compat; lra|]. set (s := sqrt (1 - g * g)) in *. clearbody s. clear - s1. nra.
  Qed.

  Lemma run_potential hist d : f_ada_run fexp fln (good_round g) y hist d -> spent hist <= 256 -> INR (length hist) <= 2 ^ 30 ->
    exists c, c <= ln (INR n) + INR (length hist) * ln rho /\ forall i, (i < n)%nat -> Rabs (ln (val (nth i d f0)) + exact_margin y hist i + c) <= INR (length hist + 1) * / 2 ^ 39.
  Proof.
    intros H. induction H as [|hist d conf e ix d' Hr IH Lc Ed Pf Gr [P Srt] E]; intros Sp Tn.
    - destruct (uni_facts y N1 Hn) as [Fu [Bu [k [Hk Ek]]]]. exists (- ln (/ INR n)). assert (In0 : 0 < INR n) by (apply lt_0_INR; lia). split; [rewrite ln_Rinv by exact In0; cbn [length]; change (INR 0) with 0; lra|]. intros i Hi. unfold f_uniform. rewrite nth_repeat_lt by exact Hi. unfold exact_margin. cbn [map rsum length]. rewrite Ek.
      assert (K2 : Rabs k <= / 2) by (eapply Rle_trans; [exact Hk|simpl; lra]). pose proof (ln_near k K2) as LN. apply Rabs_le_inv in K2.
      assert (I0 : 0 < / INR n) by (apply Rinv_0_lt_compat; exact In0). rewrite ln_mult by (try assumption; lra). replace (ln (/ INR n) + ln (1 + k) + 0 + - ln (/ INR n)) with (ln (1 + k)) by ring. eapply Rle_trans; [exact LN|]. change (0 + 1)%nat with 1%nat. change (INR 1) with 1. apply Rle_trans with (2 * / 2 ^ 50); [lra|simpl; lra].
    - rewrite app_length in *. cbn [length] in *. rewrite spent_snoc in Sp. pose proof (Rabs_pos (val (f_ada_weight fln e))) as Wp. rewrite plus_INR in Tn. change (INR 1) with 1 in Tn. destruct IH as [c [Hc IH]]; [lra|lra|].
      assert (Hr' : f_ada_run fexp fln mild_round y hist d) by (apply (run_weaken fexp fln (good_round g)); [intros c0 e0 [Q _]; exact Q|exact Hr]).
      pose proof (run_inv fexp fln Hexp Hln y Ly N1 Hn hist d Hr') as Iv.
      assert (LL : length (f_ada_logs fln (f_ada_weight fln e) (f_margins y conf) d) = n). { unfold f_ada_logs. rewrite map_length, combine_length, (margins_len y N1 conf Lc). destruct Iv as [Ld _]. unfold f64 in *. lia. }
      rewrite LL in P.
      destruct (close_round fexp fln Hexp Hln y Ly N1 Hn d conf e ix d' (exact_margin y hist) c (INR (length hist + 1) * / 2 ^ 39) Iv Lc Ed (proj1 Gr) P E) as [N [AN HC]]; [| |exact IH|].
      + intros i Hi. eapply Rle_trans; [apply (exact_margin_small fexp fln y Ly N1 hist d i Hr' Hi)|lra].
      + rewrite plus_INR. change (INR 1) with 1. apply Rle_trans with ((2 ^ 30 + 1) * / 2 ^ 39); [apply Rmult_le_compat_r; [left; apply Rinv_0_lt_compat, pow_lt; lra|lra]|simpl; lra].
      + exists (c + N). split.
        * pose proof (norm_small d conf e N Iv Lc Ed Gr AN) as HN. rewrite plus_INR. change (INR 1) with 1. lra.
        * intros i Hi. rewrite exact_margin_snoc. eapply Rle_trans; [apply HC, Hi|]. rewrite !plus_INR. change (INR 1) with 1. right. ring.
  Qed.

  (** the sum of the exponential losses *)
  Lemma loss_sum hist d : f_ada_run fexp fln (good_round g) y hist d -> spent hist <= 256 -> INR (length hist) <= 2 ^ 30 ->
    rsum (map (fun i => exp (- exact_margin y hist i)) (seq 0 n)) <= INR n * rho ^ length hist * exp (INR (length hist + 1) * / 2 ^ 39) * (1 + / 2 ^ 21).
  Proof.
    intros H Sp Tn. destruct (run_potential hist d H Sp Tn) as [c [Hc HC]]. assert (Hr' : f_ada_run fexp fln mild_round y hist d) by (apply (run_weaken fexp fln (good_round g)); [intros c0 e0 [Q _]; exact Q|exact H]).
    destruct (run_inv fexp fln Hexp Hln y Ly N1 Hn hist d Hr') as [Ld [Fd Sd]]. set (E := INR (length hist + 1) * / 2 ^ 39) in *.
    assert (In0 : 0 < INR n) by (apply lt_0_INR; lia). assert (rp : 0 < rho) by (pose proof (sqrt_pos (1 - g * g)); assert (0 < / 2 ^ 15) by (apply Rinv_0_lt_compat, pow_lt; lra); lra).
    assert (Xc : exp c <= INR n * rho ^ length hist). { rewrite <- (exp_ln (INR n * rho ^ length hist)) by (apply Rmult_lt_0_compat; [exact In0|apply pow_lt, rp]). apply exp_le_exp. rewrite ln_mult by (try apply pow_lt; assumption). rewrite ln_pow by exact rp. exact Hc. }
    apply Rle_trans with (rsum (map (fun i => exp c * exp E * val (nth i d f0)) (seq 0 n))).
    - apply rsum_map_le. intros i Hi. apply in_seq in Hi. assert (Hi' : (i < n)%nat) by lia. destruct (Fd (nth i d f0)) as [_ [D1 _]]; [apply nth_In; rewrite Ld; exact Hi'|].
      assert (D0 : 0 < val (nth i d f0)) by (eapply Rlt_le_trans; [|exact D1]; apply Rinv_0_lt_compat, pow_lt; lra). rewrite <- (exp_ln (val (nth i d f0))) by exact D0. rewrite <- !exp_plus. apply exp_le_exp. specialize (HC i Hi'). apply Rabs_le_inv in HC. lra.
    - rewrite rsum_map_mult, <- (total_seq y d Ld). apply Rabs_le_inv in Sd. apply Rmult_le_compat; [apply Rmult_le_pos; left; apply exp_pos| |apply Rmult_le_compat_r; [left; apply exp_pos|exact Xc]|lra]. assert (/ 2 ^ 21 <= 1) by (simpl; lra). lra.
  Qed.
End Run.

Lemma hist_facts fexp fln y g hist d : precise_exp fexp -> precise_ln fln -> (forall x, In x y -> f_label x) -> (1 <= length y)%nat -> INR (length y) <= 2 ^ 16 -> / 2 ^ 40 <= g ->
  f_ada_run fexp fln (good_round g) y hist d -> forall h, In h hist -> fin (fst h) /\ 0 < val (fst h) /\ length (snd h) = length y /\ bounded_conf (snd h).
Proof.
  intros He Hl Ly N1 Hn Hg H. induction H as [|hist d conf e ix d' Hr IH Lc Ed Pf [[Bc Be] Ge] Asc E]; intros h Hh; [destruct Hh|]. apply in_app_iff in Hh. destruct Hh as [Hh|[<- |[]]]; [apply IH, Hh|]. cbn [fst snd].
  assert (Hr' : f_ada_run fexp fln mild_round y hist d) by (apply (run_weaken fexp fln (good_round g)); [intros c0 e0 [Q _]; exact Q|exact Hr]). pose proof (run_inv fexp fln He Hl y Ly N1 Hn hist d Hr') as Iv.
  destruct (edge_ok y Ly N1 Hn d conf e Iv Lc Bc Ed) as [Fe _]. destruct (weight_ok fln Hl e Fe Be) as [Fw [Ew _]]. split; [exact Fw|]. split; [|split; assumption].
  apply Rabs_le_inv in Be. assert (T10 : 0 < / 2 ^ 10) by (apply Rinv_0_lt_compat, pow_lt; lra). assert (T40 : 0 < / 2 ^ 40) by (apply Rinv_0_lt_compat, pow_lt; lra). set (x := val e) in *.
  assert (L : ln (/ ((1 + x) / (1 - x))) <= / ((1 + x) / (1 - x)) - 1) by (apply ln_le_sub, Rinv_0_lt_compat, Rdiv_lt_0_compat; lra). rewrite ln_Rinv in L by (apply Rdiv_lt_0_compat; lra).
  assert (Q : / ((1 + x) / (1 - x)) - 1 <= - x). { replace (/ ((1 + x) / (1 - x)) - 1) with (- (2 * x / (1 + x))) by (field; lra). apply Ropp_le_contravar. apply Rle_div_iff; nra. }
  apply Rabs_le_inv in Ew. assert (2 * / 2 ^ 46 < / 2 ^ 40) by (simpl; lra). lra.
Qed.

Lemma filter_all {A} (f : A -> bool) l : (forall a, In a l -> f a = true) -> filter f l = l.
Proof. induction l as [|a l IH]; intros H; [reflexivity|]. cbn [filter]. rewrite (H a (or_introl eq_refl)), IH; [reflexivity|]. intros b Hb. apply H. right. exact Hb. Qed.
Lemma combine_fst_snd {A B} (l : list (A * B)) : combine (map fst l) (map snd l) = l.
Proof. induction l as [|[a b] l IH]; [reflexivity|]. cbn. rewrite IH. reflexivity. Qed.
Lemma count_le (f : nat -> bool) (v : nat -> R) c l : (forall i, In i l -> 0 <= v i) -> (forall i, In i l -> f i = true -> c <= v i) -> INR (length (filter f l)) * c <= rsum (map v l).
Proof.
  induction l as [|a l IH]; intros H0 H; [simpl; lra|]. cbn [filter map rsum]. assert (I : INR (length (filter f l)) * c <= rsum (map v l)) by (apply IH; intros i Hi; [apply H0|apply H]; right; exact Hi).
  destruct (f a) eqn:E; [|pose proof (H0 a (or_introl eq_refl)); lra]. cbn [length]. rewrite S_INR. pose proof (H a (or_introl eq_refl) E). lra.
Qed.

(** ** C93: if every round's edge is at least gamma, the vote returned after T rounds, evaluated in binary64, errs on at most n (sqrt(1 - gamma^2) + 2^-14)^T (1 + 2^-20) training examples *)
Lemma P_C93_training_error :
  forall fexp fln y gamma hist dist, precise_exp fexp -> precise_ln fln -> (forall x, In x y -> f_label x) -> (1 <= length y)%nat -> INR (length y) <= 2 ^ 16 -> / 2 ^ 40 <= gamma <= 1 ->
  f_ada_run fexp fln (good_round gamma) y hist dist -> hist <> [] -> rsum (map (fun h => Rabs (val (fst h))) hist) <= 256 -> INR (length hist) <= 2 ^ 30 ->
  exists v, f_from_slices (map fst hist) (map snd hist) = Ok v /\
    INR (mistakes y v) <= INR (length y) * (sqrt (1 - gamma * gamma) + / 2 ^ 14) ^ length hist * (1 + / 2 ^ 20).
Proof.
  intros fexp fln y g hist d He Hl Ly N1 Hn Hg H Ne Sp Tn. pose proof (hist_facts fexp fln y g hist d He Hl Ly N1 Hn (proj1 Hg) H) as HF. change (spent hist <= 256) in Sp.
  assert (T40 : 0 < / 2 ^ 40) by (apply Rinv_0_lt_compat, pow_lt; lra). assert (G0 : 0 <= g <= 1) by lra. pose proof (loss_sum fexp fln He Hl y Ly N1 Hn g G0 hist d H Sp Tn) as LS. set (T := length hist) in *.
  assert (PM : positive_members (map fst hist) (map snd hist) = hist). { unfold positive_members. rewrite combine_fst_snd. apply filter_all. intros h Hh. destruct (HF h Hh) as [_ [P _]]. match goal with |- (if Rlt_dec ?a ?b then _ else _) = _ => destruct (Rlt_dec a b) as [?|X]; [reflexivity|exfalso; exact (X P)] end. }
  assert (FA : finite_all (map fst hist)) by (intros w Hw; apply in_map_iff in Hw; destruct Hw as [h [<- Hh]]; apply HF, Hh).
  set (W := rsum (map (fun h => val (fst h)) hist)). assert (EW : spent hist = W). { unfold spent, W. apply rsum_map_ext. intros h Hh. apply Rabs_pos_eq. destruct (HF h Hh) as [_ [P _]]. left. exact P. } rewrite EW in Sp.
  assert (WP : 0 < W). { unfold W. destruct hist as [|h hs]; [congruence|]. cbn [map rsum]. apply Rplus_lt_le_0_compat; [apply (HF h (or_introl eq_refl))|apply rsum_nonneg; intros z Hz; apply in_map_iff in Hz; destruct Hz as [q [<- Hq]]; left; apply (HF q (or_intror Hq))]. }
  assert (T40' : INR T <= 2 ^ 40) by (eapply Rle_trans; [exact Tn|apply Rle_pow; [lra|lia]]).
  assert (WB : W < 2 ^ 1022) by (eapply Rle_lt_trans; [exact Sp|]; apply Rlt_le_trans with (2 ^ 10); [simpl; lra|apply Rle_pow; [lra|lia]]).
  assert (PR : forall i, (i < length y)%nat -> exists v, f_from_slices (map fst hist) (map snd hist) = Ok v /\ ((INR T + 1) / 2 ^ 50 < Rabs (exact_vote (fun h => nth i h f0) hist) ->
    (0 < exact_vote (fun h => nth i h f0) hist -> f_predict (fun h => nth i h f0) v = 1%Z) /\ (exact_vote (fun h => nth i h f0) hist < 0 -> f_predict (fun h => nth i h f0) v = (-1)%Z))).
  { intros i Hi. assert (CB : forall h, In h (map snd hist) -> finite_num (nth i h f0) /\ Rabs (val (nth i h f0)) <= 1). { intros h Hh. apply in_map_iff in Hh. destruct Hh as [q [<- Hq]]. destruct (HF q Hq) as [_ [_ [Lq Bq]]]. apply Bq, nth_In. rewrite Lq. exact Hi. }
    destruct (P_C79_confidence_close _ (fun h => nth i h f0) (map fst hist) (map snd hist) FA CB) as [v [Ev _]]; rewrite ?PM; try assumption. exists v. split; [exact Ev|]. intros Q.
    destruct (P_C79_prediction_exact _ (fun h => nth i h f0) (map fst hist) (map snd hist) FA CB) as [v' [Ev' R]]; rewrite ?PM in *; try assumption. rewrite Ev in Ev'. injection Ev' as <-. exact R. }
  destruct (PR 0%nat) as [v [Ev _]]; [lia|]. exists v. split; [exact Ev|].
  set (th := (INR T + 1) / 2 ^ 42).
  assert (MK : INR (mistakes y v) * exp (- th) <= rsum (map (fun i => exp (- exact_margin y hist i)) (seq 0 (length y)))).
  { unfold mistakes. apply count_le; [intros; left; apply exp_pos|]. intros i Hi Ci. apply in_seq in Hi. assert (Hi' : (i < length y)%nat) by lia. destruct (PR i Hi') as [v' [Ev' R]]. rewrite Ev in Ev'. injection Ev' as <-. apply exp_le_exp, Ropp_le_contravar.
    destruct (Req_EM_T (IZR (f_predict (fun h => nth i h f0) v)) (val (nth i y f0))) as [Q|Q]; [discriminate|]. destruct (Ly (nth i y f0)) as [_ Vy]; [apply nth_In, Hi'|].
    set (V := exact_vote (fun h => nth i h f0) hist) in *. assert (EM : exact_margin y hist i = val (nth i y f0) * V * W).
    { unfold V, exact_vote. fold W. unfold exact_margin. rewrite (rsum_map_ext _ (fun h => val (nth i y f0) * (val (fst h) * val (nth i (snd h) f0)))) by (intros; ring). rewrite rsum_map_mult. field. lra. }
    rewrite EM. assert (B : val (nth i y f0) * V <= (INR T + 1) / 2 ^ 50).
    { apply Rnot_lt_le. intros X. assert (P0 : 0 <= (INR T + 1) / 2 ^ 50) by (apply Rle_div_iff; [apply pow_lt; lra|]; pose proof (pos_INR T); lra). apply Q. destruct Vy as [Vy|Vy]; rewrite Vy in *.
      - destruct R as [R1 _]; [rewrite Rabs_pos_eq by lra; lra|]. rewrite R1 by lra. reflexivity.
      - destruct R as [_ R2]; [rewrite Rabs_left by lra; lra|]. rewrite R2 by lra. reflexivity. }
    apply Rle_trans with ((INR T + 1) / 2 ^ 50 * 256).
    - apply Rle_trans with ((INR T + 1) / 2 ^ 50 * W); [apply Rmult_le_compat_r; lra|]. apply Rmult_le_compat_l; [|exact Sp]. apply Rle_div_iff; [apply pow_lt; lra|]; pose proof (pos_INR T); lra.
    - unfold th. right. unfold Rdiv. rewrite Rmult_assoc. f_equal. simpl. lra. }
  set (rho := sqrt (1 - g * g) + / 2 ^ 15) in *. assert (s0 := sqrt_pos (1 - g * g)). assert (s1 : sqrt (1 - g * g) <= 1) by (apply Rle_trans with (sqrt 1); [apply sqrt_le_1_alt; nra|rewrite sqrt_1; lra]).
  assert (T15 : 0 < / 2 ^ 15) by (apply Rinv_0_lt_compat, pow_lt; lra).
  assert (M2 : INR (mistakes y v) <= INR (length y) * rho ^ T * exp (INR (T + 1) * / 2 ^ 39) * (1 + / 2 ^ 21) * exp th).
  { replace (INR (mistakes y v)) with (INR (mistakes y v) * exp (- th) * exp th) by (rewrite Rmult_assoc, <- exp_plus, Rplus_opp_l, exp_0; ring). apply Rmult_le_compat_r; [left; apply exp_pos|]. lra. }
  eapply Rle_trans; [exact M2|]. set (mu := exp (/ 2 ^ 38)).
  assert (X : exp (INR (T + 1) * / 2 ^ 39) * exp th <= mu ^ T * mu).
  { unfold mu. assert (PW : forall k, exp (/ 2 ^ 38) ^ k = exp (INR k * / 2 ^ 38)). { induction k as [|k IH]; [simpl INR; rewrite Rmult_0_l, exp_0; reflexivity|]. rewrite S_INR, Rmult_plus_distr_r, Rmult_1_l, exp_plus. change (exp (/ 2 ^ 38) ^ S k) with (exp (/ 2 ^ 38) * exp (/ 2 ^ 38) ^ k). rewrite IH. apply Rmult_comm. }
    rewrite PW, <- !exp_plus. apply exp_le_exp. unfold th. rewrite plus_INR. change (INR 1) with 1. pose proof (pos_INR T). assert (C : / 2 ^ 39 + / 2 ^ 42 <= / 2 ^ 38) by (simpl; lra). unfold Rdiv. nra. }
  assert (MU : 1 <= mu <= 1 + / 2 ^ 37). { unfold mu. assert (T38 : 0 < / 2 ^ 38 <= / 4) by (split; [apply Rinv_0_lt_compat, pow_lt; lra|simpl; lra]). pose proof (exp_bounds (/ 2 ^ 38)) as EB. rewrite Rabs_pos_eq in EB by lra. specialize (EB ltac:(lra)). assert (2 * / 2 ^ 38 = / 2 ^ 37) by (simpl; lra). split; [|lra]. rewrite <- exp_0. apply exp_le_exp. lra. }
  assert (RM : rho * mu <= sqrt (1 - g * g) + / 2 ^ 14). { unfold rho. assert (C1 : / 2 ^ 15 = / 32768) by (simpl; lra). assert (C2 : / 2 ^ 14 = / 16384) by (simpl; lra). assert (C3 : / 2 ^ 37 <= / 1000000) by (simpl; lra). rewrite C1, C2. set (s := sqrt (1 - g * g)) in *. clearbody s. nra. }
  assert (rp : 0 < rho) by (unfold rho; lra).
  assert (F1 : rho ^ T * mu ^ T <= (sqrt (1 - g * g) + / 2 ^ 14) ^ T) by (rewrite <- Rpow_mult_distr; apply pow_incr; split; [apply Rmult_le_pos; lra|exact RM]).
  assert (F2 : mu * (1 + / 2 ^ 21) <= 1 + / 2 ^ 20). { assert (C1 : / 2 ^ 21 = / 2097152) by (simpl; lra). assert (C2 : / 2 ^ 20 = / 1048576) by (simpl; lra). assert (C3 : / 2 ^ 37 <= / 10000000) by (simpl; lra). rewrite C1, C2. nra. }
  assert (In0 : 0 < INR (length y)) by (apply lt_0_INR; lia). assert (T21 : 0 < / 2 ^ 21) by (apply Rinv_0_lt_compat, pow_lt; lra). assert (rT : 0 < rho ^ T) by (apply pow_lt, rp). assert (mT : 0 < mu ^ T) by (apply pow_lt; lra).
  replace (INR (length y) * rho ^ T * exp (INR (T + 1) * / 2 ^ 39) * (1 + / 2 ^ 21) * exp th) with (INR (length y) * (1 + / 2 ^ 21) * rho ^ T * (exp (INR (T + 1) * / 2 ^ 39) * exp th)) by ring.
  apply Rle_trans with (INR (length y) * (1 + / 2 ^ 21) * rho ^ T * (mu ^ T * mu)); [apply Rmult_le_compat_l; [|exact X]; repeat apply Rmult_le_pos; lra|].
  replace (INR (length y) * (1 + / 2 ^ 21) * rho ^ T * (mu ^ T * mu)) with (INR (length y) * (rho ^ T * mu ^ T) * (mu * (1 + / 2 ^ 21))) by ring.
  apply Rmult_le_compat; [| |apply Rmult_le_compat_l; [lra|exact F1]|exact F2]; [apply Rmult_le_pos; [lra|apply Rmult_le_pos; lra]|apply Rmult_le_pos; lra].
Qed.

(** ** C93: hence, once that number is below 1, the returned vote classifies every training example correctly *)
Lemma P_C93_no_mistakes :
  forall fexp fln y gamma hist dist, precise_exp fexp -> precise_ln fln -> (forall x, In x y -> f_label x) -> (1 <= length y)%nat -> INR (length y) <= 2 ^ 16 -> / 2 ^ 40 <= gamma <= 1 ->
  f_ada_run fexp fln (good_round gamma) y hist dist -> hist <> [] -> rsum (map (fun h => Rabs (val (fst h))) hist) <= 256 -> INR (length hist) <= 2 ^ 30 ->
  INR (length y) * (sqrt (1 - gamma * gamma) + / 2 ^ 14) ^ length hist * (1 + / 2 ^ 20) < 1 ->
  exists v, f_from_slices (map fst hist) (map snd hist) = Ok v /\ forall i, (i < length y)%nat -> IZR (f_predict (fun h => nth i h f0) v) = val (nth i y f0).
Proof.
  intros fexp fln y g hist d He Hl Ly N1 Hn Hg H Ne Sp Tn B. destruct (P_C93_training_error fexp fln y g hist d He Hl Ly N1 Hn Hg H Ne Sp Tn) as [v [Ev M]]. exists v. split; [exact Ev|]. intros i Hi.
  assert (Z : mistakes y v = 0%nat). { destruct (mistakes y v) as [|k]; [reflexivity|]. rewrite S_INR in M. pose proof (pos_INR k). lra. }
  unfold mistakes in Z. apply length_zero_iff_nil in Z. destruct (Req_EM_T (IZR (f_predict (fun h => nth i h f0) v)) (val (nth i y f0))) as [Q|Q]; [exact Q|]. exfalso.
  assert (I : In i (filter (fun i => if Req_EM_T (IZR (f_predict (fun h => nth i h f0) v)) (val (nth i y f0)) then false else true) (seq 0 (length y)))).
  { apply filter_In. split; [apply in_seq; lia|]. destruct (Req_EM_T (IZR (f_predict (fun h => nth i h f0) v)) (val (nth i y f0))); [contradiction|reflexivity]. }
  rewrite Z in I. destruct I.
Qed.

Lemma ex_C93 : let y := [f1; f_minus1] in let hist := fun fln => [(f_ada_weight fln f_15_16, [f_15_16; f_m15_16])] in
  exists fexp fln dist, precise_exp fexp /\ precise_ln fln /\ (forall x, In x y -> f_label x) /\ f_ada_run fexp fln (good_round (15 / 16)) y (hist fln) dist /\
  rsum (map (fun h => Rabs (val (fst h))) (hist fln)) <= 256 /\ INR (length y) * (sqrt (1 - 15 / 16 * (15 / 16)) + / 2 ^ 14) ^ length (hist fln) * (1 + / 2 ^ 20) < 1.
Proof.
  cbv zeta. destruct P_C92_platform as [fexp [fln [C1 [C2 C3]]]]. set (y := [f1; f_minus1]). set (conf := [f_15_16; f_m15_16]).
  destruct f1_spec as [F1 V1]. destruct minus1_spec as [Fm Vm].
  assert (B4 : bpow radix2 (-4) = / 16) by (change (-4)%Z with (- Z.of_nat 4)%Z; rewrite bpow_opp, two_pow; simpl; lra).
  assert (Ha : fin f_15_16 /\ val f_15_16 = 15 / 16) by (destruct (normalize_exact 15 (-4)) as [F V]; [vm_compute; reflexivity|lia|]; split; [exact F|unfold f_15_16; rewrite V, B4; lra]).
  assert (Hb : fin f_m15_16 /\ val f_m15_16 = - (15 / 16)) by (destruct (normalize_exact (-15) (-4)) as [F V]; [vm_compute; reflexivity|lia|]; split; [exact F|unfold f_m15_16; rewrite V, B4; lra]).
  destruct Ha as [Fa Va]. destruct Hb as [Fb Vb].
  assert (Ly : forall x, In x y -> f_label x) by (intros x [<- |[<- |[]]]; split; auto).
  assert (Ed : f_edge y conf (f_uniform 2) f_15_16) by (exists (FLeaf (f_products (f_margins y conf) (f_uniform 2))); split; [reflexivity|apply B2SF_inj; vm_compute; reflexivity]).
  assert (Bc : bounded_conf conf) by (intros c [<- |[<- |[]]]; (split; [assumption|]); [rewrite Va|rewrite Vb]; apply Rabs_le; lra).
  assert (Mi : mild_round conf f_15_16) by (split; [exact Bc|rewrite Va, Rabs_pos_eq by lra; simpl; lra]).
  assert (S0 := far_start fexp fln (good_round (15 / 16)) y). assert (S1 := far_start fexp fln mild_round y). change (length y) with 2%nat in S0, S1.
  destruct (P_C92_no_round_panics fexp fln y [] (f_uniform 2) conf f_15_16 C1 C2 Ly) as [[ix Hix] HU]; [cbn; lia|simpl; lra|exact S1|reflexivity|exact Ed|exact Mi|].
  destruct (HU ix Hix) as [d' E']. exists fexp, fln, d'. split; [exact C1|]. split; [exact C2|]. split; [exact Ly|]. split; [|split].
  - apply (far_round fexp fln (good_round (15 / 16)) y [] (f_uniform 2) conf f_15_16 ix d' S0 eq_refl Ed); [vm_compute; reflexivity|split; [exact Mi|rewrite Va; lra]|exact Hix|exact E'].
  - cbn [map rsum fst]. rewrite Rplus_0_r. eapply Rle_trans; [apply (weight_ok fln C2 f_15_16 Fa (proj2 Mi))|lra].
  - unfold y. cbn [length]. rewrite pow_1. assert (Q : sqrt (1 - 15 / 16 * (15 / 16)) <= 3 / 8). { apply Rle_trans with (sqrt (3 / 8 * (3 / 8))); [apply sqrt_le_1_alt; lra|rewrite sqrt_square by lra; lra]. }
    change (INR 2) with (1 + 1). assert (C1' : / 2 ^ 14 = / 16384) by (simpl; lra). assert (C2' : / 2 ^ 20 = / 1048576) by (simpl; lra). rewrite C1', C2'. set (s := sqrt (1 - 15 / 16 * (15 / 16))) in *. clearbody s. lra.
Qed.

(** ** Example: two examples, a hypothesis with confidences 15/16 and -15/16 in the first round: both theorems apply *)
Example C93_nonvacuous : let y := [f1; f_minus1] in let hist := fun fln => [(f_ada_weight fln f_15_16, [f_15_16; f_m15_16])] in
  exists fexp fln dist, precise_exp fexp /\ precise_ln fln /\ (forall x, In x y -> f_label x) /\ f_ada_run fexp fln (good_round (15 / 16)) y (hist fln) dist /\
  rsum (map (fun h => Rabs (val (fst h))) (hist fln)) <= 256 /\ INR (length y) * (sqrt (1 - 15 / 16 * (15 / 16)) + / 2 ^ 14) ^ length (hist fln) * (1 + / 2 ^ 20) < 1.
Proof. exact ex_C93. Qed.

