(** Property C102: gradient boosting with the squared loss in binary64. *)
From Coq Require Import ZArith List Bool Reals Lia Lra Psatz Permutation String.
From Flocq Require Import Core.Core IEEE754.BinarySingleNaN.
From Verif Require Import Base Feature FeatureFacts Sample SampleSpec SampleFacts Bins BinsSpec BinsProofs BinsFacts DTree TreeSpec TreeShape DTreeProofs DTreeOut DTreeSplit DTreeBest DTreeGrow Losses RTree RTreeSpec RTreeProofs RTreeFacts Float FloatSpec FloatProofs FloatFacts FloatCheckFacts FloatProjectProofs FloatProjectMain FloatEdgeFacts FloatMadaProofs FloatTree FloatTreeSpec FloatTreeProofs FloatPackProofs FloatGrowProofs FloatGrowthProofs FloatTreeFacts FloatBestProofs FloatAdaTree FloatRTree FloatRTreeSpec FloatRTreeNum FloatRTreeTerm FloatRTreeGrow FloatRTreeFacts FloatGBM FloatGBMSpec FloatGBMProofs.
Import ListNotations.
Open Scope R_scope.
Local Notation ftotal := FloatSpec.total.

Section Drift.
  Variable y : list f64.
  Local Notation A := (size y).
  Local Notation Y := (ftotal y).
  Hypothesis Fy : finite_all y.
  Hypothesis Ny : INR (length y) <= 2 ^ 16.
  Hypothesis Ay : / 2 ^ 400 <= A <= 2 ^ 400.

  Lemma zeros_sum n : ftotal (repeat f0 n) = 0 /\ size (repeat f0 n) = 0 /\ finite_all (repeat f0 n).
  Proof.
    induction n as [|n [I1 [I2 I3]]]; [split; [reflexivity|split; [reflexivity|intros x []]]|]. cbn [repeat]. rewrite total_cons, size_cons, I1, I2, val_f0, Rabs_R0. split; [ring|]. split; [ring|]. intros x [<- |Hx]; [apply fin_f0|apply I3, Hx].
  Qed.
  Lemma drift hist p : f_gbm_run y hist p -> (length hist <= 100)%nat -> (forall c q, In (c, q) hist -> steady q) ->
    length p = length y /\ finite_all p /\ Rabs (ftotal p - INR (length hist) * Y) <= INR (length hist) * (/ 2 ^ 18 * A) /\ size p <= INR (length hist) * (2 ^ 18 * A).
  Proof.
    assert (P400 : 0 < / 2 ^ 400) by (apply Rinv_0_lt_compat, pow_lt; lra). assert (A0 : 0 < A) by lra.
    intros R. induction R as [|hist p q coef R IH Lq Ec Nz]; intros Lk St.
    - destruct (zeros_sum (length y)) as [Z1 [Z2 Z3]]. split; [apply repeat_length|]. split; [exact Z3|]. cbn [length INR]. rewrite Z1, Z2, !Rmult_0_l, Rminus_0_r, Rabs_R0. lra.
    - rewrite app_length in *. cbn [length] in *. rewrite plus_INR. change (INR 1) with 1. destruct IH as [Lp [Fp [Dp Sp]]]; [lia|intros c z Hz; apply (St c z), in_or_app; left; exact Hz|].
      assert (Sq : steady q) by (apply (St coef q), in_or_app; right; left; reflexivity). destruct (coef_near y q Fy Ny Ay Lq Sq) as [c [Ec' [Fc [Cn Cs]]]]. rewrite Ec in Ec'. injection Ec' as <-.
      set (k := INR (length hist)) in *. assert (K0 : 0 <= k) by apply pos_INR. assert (K1 : k <= 99). { unfold k. replace 99 with (INR 99) by (simpl; lra). apply le_INR. lia. }
      assert (P25 : size p <= 2 ^ 25 * A). { eapply Rle_trans; [exact Sp|]. rewrite <- Rmult_assoc. apply Rmult_le_compat_r; [lra|]. apply Rle_trans with (99 * 2 ^ 18); [apply Rmult_le_compat_r; [left; apply pow_lt; lra|exact K1]|simpl; lra]. }
      assert (big : forall m, (m <= 400)%nat -> 2 ^ m * A <= 2 ^ 900). { intros m Hm. apply Rle_trans with (2 ^ m * 2 ^ 400); [apply Rmult_le_compat_l; [left; apply pow_lt; lra|apply Ay]|]. rewrite <- pow_add. apply Rle_pow; [lra|lia]. }
      destruct Sq as [Fq _]. destruct (update_near coef Fc p q ltac:(congruence) Fp Fq) as [L' [F' [E' B']]]; [eapply Rle_trans; [exact P25|apply big; lia]|eapply Rle_trans; [exact Cs|apply big; lia]|].
      assert (ERR : uu * size p + 3 * uu * (Rabs (val coef) * size q) + 2 * INR (length p) * eta0 <= / 2 ^ 19 * A).
      { assert (U : uu = / 2 ^ 53) by reflexivity. assert (E1 : uu * size p <= / 2 ^ 22 * A). { apply Rle_trans with (uu * (2 ^ 25 * A)); [apply Rmult_le_compat_l; [apply Rlt_le, uu_pos|exact P25]|]. rewrite <- Rmult_assoc. apply Rmult_le_compat_r; [lra|]. rewrite U. simpl. lra. }
        assert (E2 : 3 * uu * (Rabs (val coef) * size q) <= / 2 ^ 22 * A). { apply Rle_trans with (3 * uu * (2 ^ 17 * A)); [apply Rmult_le_compat_l; [pose proof uu_pos; lra|exact Cs]|]. rewrite <- Rmult_assoc. apply Rmult_le_compat_r; [lra|]. rewrite U. simpl. lra. }
        assert (E3 : 2 * INR (length p) * eta0 <= / 2 ^ 22 * A).
        { apply Rle_trans with (2 ^ 17 * / 2 ^ 1000). - apply Rmult_le_compat; [pose proof (pos_INR (length p)); lra|apply eta_nonneg| |apply eta_below; lia]. unfold f64 in *. rewrite Lp. replace (2 ^ 17) with (2 * 2 ^ 16) by (simpl; ring). lra.
          - apply Rle_trans with (/ 2 ^ 22 * / 2 ^ 400); [|apply Rmult_le_compat_l; [left; apply Rinv_0_lt_compat, pow_lt; lra|apply Ay]]. rewrite inv_pow_mult. change 1000%nat with (17 + 983)%nat. rewrite pow_add, Rinv_mult, <- Rmult_assoc, Rinv_r, Rmult_1_l by (apply pow_nonzero; lra). apply inv_pow_le. lia. }
        assert (E4 : / 2 ^ 19 * A = 8 * (/ 2 ^ 22 * A)) by (simpl; field). rewrite E4. assert (0 <= / 2 ^ 22 * A) by (apply Rmult_le_pos; [left; apply Rinv_0_lt_compat, pow_lt; lra|lra]). lra. }
      cbv zeta in E', B'. set (tp := ftotal (f_gbm_update coef p q)) in *. set (sp := size (f_gbm_update coef p q)) in *. clearbody tp sp. set (err := uu * size p + 3 * uu * (Rabs (val coef) * size q) + 2 * INR (length p) * eta0) in *. clearbody err.
      assert (D18 : / 2 ^ 18 * A = 2 * (/ 2 ^ 19 * A)) by (simpl; field). assert (D17 : 2 ^ 18 * A = 2 * (2 ^ 17 * A)) by (simpl; ring). assert (D19 : / 2 ^ 19 * A <= 2 ^ 17 * A) by (apply Rmult_le_compat_r; [lra|]; simpl; lra).
      split; [rewrite L'; exact Lp|]. split; [exact F'|]. split.
      + replace (tp - (k + 1) * Y) with ((tp - (ftotal p + val coef * ftotal q)) + (ftotal p - k * Y) + (val coef * ftotal q - Y)) by ring. eapply Rle_trans; [apply Rabs_triang|]. eapply Rle_trans; [apply Rplus_le_compat_r, Rabs_triang|]. rewrite Rmult_plus_distr_r. lra.
      + rewrite Rmult_plus_distr_r. lra.
  Qed.
End Drift.

Lemma sum_sq_list (l : list (f64 * f64)) : (rsum (map (fun z => val (fst z) - val (snd z)) l)) ^ 2 <= INR (length l) * rsum (map (fun z => (val (fst z) - val (snd z)) ^ 2) l).
Proof.
  unfold f64 in *. induction l as [|z l IH]; [simpl; lra|]. cbn [map rsum length]. rewrite S_INR. set (S1 := rsum (map (fun z => val (fst z) - val (snd z)) l)) in *. set (S2 := rsum (map (fun z => (val (fst z) - val (snd z)) ^ 2) l)) in *. set (n := INR (length l)) in *.
  assert (Hn : 0 <= n) by apply pos_INR. generalize (val (fst z) - val (snd z)). intros a. assert (H2 : 0 <= S2) by (unfold S2; apply rsum_nonneg; intros x Hx; apply in_map_iff in Hx; destruct Hx as [j [<- _]]; apply pow2_ge_0).
  clearbody S1 S2 n. destruct (Req_EM_T n 0) as [Z|NZ].
  - subst n. rewrite Rmult_0_l in IH. assert (S1 = 0) by (pose proof (pow2_ge_0 S1); apply Rsqr_0_uniq; unfold Rsqr; simpl in IH; nra). subst S1. nra.
  - assert (0 < n) by lra. assert (Q : 2 * a * S1 <= n * a ^ 2 + S2) by (apply (Rmult_le_reg_l n); [lra|]; assert (0 <= (n * a - S1) ^ 2) by apply pow2_ge_0; nra). nra.
Qed.
Lemma diff_total : forall p y : list f64, length p = length y -> rsum (map (fun z => val (fst z) - val (snd z)) (combine p y)) = ftotal p - ftotal y.
Proof.
  induction p as [|a p IH]; intros [|b y] L; try discriminate; [unfold ftotal; simpl; ring|]. cbn [combine map rsum fst snd]. rewrite IH by (simpl in L; lia). rewrite !total_cons. ring.
Qed.

(** ** C102: the predictions drift away from the targets in binary64 as they do in exact arithmetic *)
Lemma P_C102_drift :
  forall y hist p, f_gbm_run y hist p -> finite_all y -> INR (length y) <= 2 ^ 16 -> / 2 ^ 400 <= size y <= 2 ^ 400 ->
  (length hist <= 100)%nat -> (forall c q, In (c, q) hist -> steady q) ->
  let k := INR (length hist) in let D := (k - 1) * Rabs (FloatSpec.total y) - k * (/ 2 ^ 18 * size y) in
  finite_all p /\ Rabs (FloatSpec.total p - k * FloatSpec.total y) <= k * (/ 2 ^ 18 * size y) /\ (0 <= D -> D ^ 2 <= INR (length y) * squared_error p y).
Proof.
  intros y hist p R Fy Ny Ay Lk St k D. destruct (drift y Fy Ny Ay hist p R Lk St) as [Lp [Fp [Dp _]]]. fold k in Dp. split; [exact Fp|]. split; [exact Dp|]. intros D0.
  unfold squared_error. pose proof (sum_sq_list (combine p y)) as Q. rewrite diff_total in Q by exact Lp. rewrite combine_length in Q. unfold f64 in *. rewrite Lp, Nat.min_id in Q. eapply Rle_trans; [|exact Q]. rewrite <- (pow2_abs (ftotal p - ftotal y)). apply pow_incr. split; [exact D0|].
  unfold D. set (tp := ftotal p) in *. set (Y := ftotal y) in *. replace (tp - Y) with ((k - 1) * Y - - (tp - k * Y)) by ring. eapply Rle_trans; [|apply Rabs_triang_inv]. rewrite Rabs_Ropp, Rabs_mult. apply Rplus_le_compat; [apply Rmult_le_compat_r; [apply Rabs_pos|apply Rle_abs]|apply Ropp_le_contravar, Dp].
Qed.

(** ** C102: the same for every run over the regression trees of the crate *)
Lemma answers_len h s rows : forall q, f_tree_answers h s rows = Ok q -> length q = length rows.
Proof.
  induction rows as [|i rows IH]; intros q E; [inversion E; reflexivity|]. cbn [f_tree_answers] in E. destruct (f_node_confidence h s i); [|discriminate]. cbn [bind] in E. destruct (f_tree_answers h s rows) as [cs|]; [|discriminate]. cbn [bind] in E. inversion E. cbn [length]. rewrite (IH cs eq_refl). reflexivity.
Qed.
Lemma P_C102_tree_drift :
  forall t lambda s y hist p, f_gbm_tree_run t lambda s y hist p -> length y = fst (shape s) -> finite_all y -> INR (length y) <= 2 ^ 16 -> / 2 ^ 400 <= size y <= 2 ^ 400 ->
  (length hist <= 100)%nat -> (forall c q, In (c, q) hist -> steady q) ->
  let k := INR (length hist) in let D := (k - 1) * Rabs (FloatSpec.total y) - k * (/ 2 ^ 18 * size y) in
  finite_all p /\ Rabs (FloatSpec.total p - k * FloatSpec.total y) <= k * (/ 2 ^ 18 * size y) /\ (0 <= D -> D ^ 2 <= INR (length y) * squared_error p y).
Proof.
  intros t lambda s y hist p R Ly. apply P_C102_drift. induction R as [|hist p sched h q coef R IH Hs E1 E2 E3 E4]; [constructor|]. constructor; try assumption. rewrite (answers_len _ _ _ _ E2), seq_length. symmetry. exact Ly.
Qed.

(** ** C102: predictions that equal the targets make the next round panic *)
Lemma zeros_sched sched l : summing sched -> few (length l) -> (forall x, In x l -> fin x /\ val x = 0) -> fin (sched l) /\ val (sched l) = 0.
Proof.
  intros Hs W H. assert (T : ftotal l = 0 /\ size l = 0).
  { clear W. induction l as [|x l IH]; [split; reflexivity|]. rewrite total_cons, size_cons. destruct IH as [-> ->]; [intros z Hz; apply H; right; exact Hz|]. destruct (H x (or_introl eq_refl)) as [_ ->]. rewrite Rabs_R0. split; ring. }
  destruct T as [T1 T2]. destruct (sched_err sched l Hs (fun x Hx => proj1 (H x Hx)) W) as [F E]; [rewrite T2; apply pow_lt; lra|]. split; [exact F|]. rewrite T1, T2, Rmult_0_r, Rminus_0_r in E.
  destruct (Req_dec (val (sched l)) 0) as [Z|Z]; [exact Z|]. apply Rabs_pos_lt in Z. lra.
Qed.
Lemma feq_zero x : fin x -> val x = 0 -> feq x f0 = true.
Proof. intros F V. unfold feq. rewrite Beqb_correct by (auto; apply fin_f0). rewrite V, val_f0. apply Req_bool_true. reflexivity. Qed.
Lemma zero_gradient : forall y p : list f64, map val p = map val y -> finite_all y -> finite_all p ->
  forall x, In x (map (fun q => fsub (snd q) (fst q)) (combine y p)) -> fin x /\ val x = 0.
Proof.
  unfold f64 in *. induction y as [|b y IH]; intros [|a p] E Fy Fp x Hx; try contradiction. cbn [map] in E. injection E as E1 E2. cbn [combine map] in Hx. destruct Hx as [<- |Hx].
  - cbn [fst snd]. destruct (fsub_rnd a b) as [F [_ [e [_ V]]]]; [apply Fp; left; reflexivity|apply Fy; left; reflexivity|rewrite E1, Rminus_diag_eq, Rabs_R0 by reflexivity; left; apply pow_lt; lra|]. split; [exact F|]. rewrite V, E1. ring.
  - apply (IH p E2); [intros z Hz; apply Fy; right; exact Hz|intros z Hz; apply Fp; right; exact Hz|exact Hx].
Qed.
Lemma leaf_answers c s rows : f_tree_answers (FLf c) s rows = Ok (repeat c (length rows)).
Proof. induction rows as [|i rows IH]; [reflexivity|]. cbn [f_tree_answers f_node_confidence bind]. rewrite IH. reflexivity. Qed.

Lemma P_C102_perfect_fit_panics :
  forall sched s b t y predictions lambda, summing sched -> trainable s -> rt_made s b -> rb_build b s = Ok t -> rb_loss b = Some L2 ->
  map val y = s_target s -> finite_all y -> finite_all predictions -> map val predictions = map val y -> INR (fst (shape s)) <= 2 ^ 16 ->
  finite_num lambda -> val lambda = rb_lambda b -> / 2 ^ 20 <= rb_lambda b <= 2 ^ 100 ->
  exists h q, f_rt_produce sched (rt_bins t) (rt_n t) (rt_depth t) lambda (rt_loss t) s y predictions = Ok h /\
    f_tree_answers h s (seq 0 (fst (shape s))) = Ok q /\ f_best_l2 y q = Panic AssertFailed.
Proof.
  intros sched s b t y p lambda Hs Tr Mb Eb EL Ey Fy Fp Ep N16 Fl Vl L0. assert (Lpos : 0 < rb_lambda b) by (assert (0 < / 2 ^ 20) by (apply Rinv_0_lt_compat, pow_lt; lra); lra).
  assert (Tt := Tr). destruct Tt as [_ [N0 [_ [_ [Lt Mod]]]]].
  assert (Bt : rt_loss t = L2 /\ rt_n t = fst (shape s)).
  { unfold rb_build in Eb. destruct (cut_all (rb_nbins b) (s_features s)); [|discriminate]. cbn [bind] in Eb. rewrite EL in Eb. inversion Eb. auto. }
  destruct Bt as [-> ->]. set (n := fst (shape s)) in *. assert (Ly : length y = n) by (rewrite <- Lt, <- Ey, map_length; reflexivity). assert (Lp : length p = n) by (pose proof (f_equal (@length R) Ep) as LE; rewrite !map_length in LE; exact (eq_trans LE Ly)).
  set (g := map (fun q : f64 * f64 => fsub (snd q) (fst q)) (combine y p)). assert (Lg : length g = n) by (unfold g; rewrite map_length, combine_length; unfold f64 in *; rewrite Ly, Lp; apply Nat.min_id).
  assert (GE : f_gradient L2 p y = Ok g) by (unfold f_gradient; unfold f64 in *; rewrite Lp, Ly, Nat.eqb_refl; reflexivity). assert (HE : f_hessian L2 p y = Ok (repeat f1 n)) by (unfold f_hessian; unfold f64 in *; rewrite Ly, Lp, Nat.eqb_refl; reflexivity).
  assert (Wn : few n) by (unfold few; eapply Rle_trans; [exact N16|]; apply Rle_pow; [lra|lia]).
  set (gs := map (fun i => nth i g f0) (seq 0 n)). set (hs := map (fun i => nth i (repeat f1 n) f0) (seq 0 n)).
  assert (Zg : fin (sched gs) /\ val (sched gs) = 0).
  { apply zeros_sched; [exact Hs|unfold gs; rewrite map_length, seq_length; exact Wn|]. intros x Hx. apply in_map_iff in Hx. destruct Hx as [i [<- Hi]]. apply in_seq in Hi. apply (zero_gradient y p Ep Fy Fp). apply nth_In. change (i < length g)%nat. lia. }
  assert (Ch : cnt n (sched hs)).
  { apply sched_whole; [exact Hs| | |eapply Rle_lt_trans; [exact N16|apply Rlt_pow; [lra|lia]]].
    - intros x Hx. apply in_map_iff in Hx. destruct Hx as [i [<- Hi]]. apply in_seq in Hi. exists 1%nat. rewrite (nth_indep _ f0 f1) by (rewrite repeat_length; lia). rewrite nth_repeat. destruct f1_spec. split; assumption.
    - unfold hs, ftotal. rewrite map_map. rewrite (rsum_map_ext _ (fun _ => 1)); [rewrite rsum_map_const, seq_length; ring|]. intros i Hi. apply in_seq in Hi. rewrite (nth_indep _ f0 f1) by (rewrite repeat_length; lia). rewrite nth_repeat. apply f1_spec. }
  destruct Zg as [FG VG]. destruct Ch as [FH VH]. set (G := sched gs) in *. set (H := sched hs) in *.
  assert (PL : f_prediction_and_loss sched (seq 0 n) g (repeat f1 n) lambda = Ok (fdiv (fopp G) (fadd H lambda), fdiv (fmul f_mhalf (fmul G G)) (fadd H lambda))).
  { unfold f_prediction_and_loss. assert (WA : forall l : list f64, length l = n -> forall idx, (forall i, In i idx -> (i < n)%nat) -> f_weights_at l idx = Ok (map (fun i => nth i l f0) idx)).
    { intros l Hl. induction idx as [|i idx IH]; intros Q; [reflexivity|]. cbn [f_weights_at]. rewrite f_get_ok by (rewrite Hl; apply Q; left; reflexivity). cbn [bind]. rewrite IH by (intros j Hj; apply Q; right; exact Hj). reflexivity. }
    rewrite (WA g Lg) by (intros i Hi; apply in_seq in Hi; lia). cbn [bind]. rewrite (WA (repeat f1 n) (repeat_length f1 n)) by (intros i Hi; apply in_seq in Hi; lia). reflexivity. }
  assert (N1 : 1 <= INR n) by (change 1 with (INR 1); apply le_INR; lia). assert (P16 : (2:R) ^ 16 + 2 ^ 100 <= 2 ^ 101) by (simpl; lra). assert (P101 : 2 ^ 101 <= 2 ^ 1000) by (apply Rle_pow; [lra|lia]).
  destruct (fadd_rnd H lambda FH Fl) as [FD [_ [e [He VD]]]]; [rewrite VH, Vl, Rabs_pos_eq by lra; lra|]. assert (ND : val (fadd H lambda) <> 0). { rewrite VD, VH, Vl. apply Rabs_le_inv in He. pose proof uu_small. apply Rmult_integral_contrapositive. split; lra. }
  assert (B0 : forall x, x = 0 -> Rabs x < 2 ^ 1023) by (intros x ->; rewrite Rabs_R0; apply pow_lt; lra). assert (B1 : forall x, x = 0 -> Rabs x <= 2 ^ 1000) by (intros x ->; rewrite Rabs_R0; left; apply pow_lt; lra).
  assert (Fo : fin (fopp G)) by (apply fopp_fin, FG). assert (Vo : val (fopp G) = 0) by (rewrite fopp_val, VG; ring).
  destruct (fdiv_spec (fopp G) (fadd H lambda) Fo ND) as [Fpr Vpr]; [apply B0; rewrite Vo; unfold Rdiv; ring|]. assert (Vp0 : val (fdiv (fopp G) (fadd H lambda)) = 0) by (rewrite Vpr, Vo; unfold Rdiv; rewrite Rmult_0_l; apply round_0, valid_rnd_N).
  destruct (fmul_rnd G G FG FG) as [Fgg Vgg]; [apply B1; rewrite VG; ring|]. assert (Vgg0 : val (fmul G G) = 0) by (rewrite Vgg, VG, Rmult_0_l; apply round_0, valid_rnd_N).
  destruct mhalf_spec as [Fm Vm]. destruct (fmul_rnd f_mhalf (fmul G G) Fm Fgg) as [Fmg Vmg]; [apply B1; rewrite Vgg0; ring|]. assert (Vmg0 : val (fmul f_mhalf (fmul G G)) = 0) by (rewrite Vmg, Vgg0, Rmult_0_r; apply round_0, valid_rnd_N).
  destruct (fdiv_spec (fmul f_mhalf (fmul G G)) (fadd H lambda) Fmg ND) as [Fls Vls]; [apply B0; rewrite Vmg0; unfold Rdiv; ring|]. assert (Vls0 : val (fdiv (fmul f_mhalf (fmul G G)) (fadd H lambda)) = 0) by (rewrite Vls, Vmg0; unfold Rdiv; rewrite Rmult_0_l; apply round_0, valid_rnd_N).
  pose proof (feq_zero _ Fls Vls0) as Z. set (c := fdiv (fopp G) (fadd H lambda)) in *. exists (FLf c), (repeat c n).
  assert (TE : f_rt_full_tree sched (rt_bins t) s g (repeat f1 n) lambda (rt_depth t) (seq 0 n) = Ok (FLf c)) by (destruct (rt_depth t); cbn [f_rt_full_tree]; rewrite PL; cbn [bind]; [reflexivity|rewrite Z; reflexivity]).
  split; [unfold f_rt_produce; rewrite GE; cbn [bind]; rewrite HE; cbn [bind]; exact TE|]. split; [rewrite leaf_answers, seq_length; reflexivity|].
  unfold f_best_l2. destruct (zeros_sched fsum (repeat c n) fsum_summing) as [F0 V0]; [rewrite repeat_length; exact Wn|intros x Hx; apply repeat_spec in Hx; subst x; split; assumption|]. rewrite (feq_zero _ F0 V0). reflexivity.
Qed.

(** ** C102: a run over the trees of the crate that leaves the targets behind, computed in binary64; the numbers of the run *)
Definition dv_a1 : f64 := binary_normalize 53 1024 eq_refl eq_refl mode_NE (3567207625639997) (-55) false. (* 0.09900990099009901 *)
Definition dv_b1 : f64 := binary_normalize 53 1024 eq_refl eq_refl mode_NE (4481193659075121) (-54) false. (* 0.24875621890547267 *)
Definition dv_c1 : f64 := binary_normalize 53 1024 eq_refl eq_refl mode_NE (4529855129739807) (-52) false. (* 1.0058298926507019 *)
Definition dv_p1 : f64 := binary_normalize 53 1024 eq_refl eq_refl mode_NE (7176008126320487) (-56) false. (* 0.09958711808422792 *)
Definition dv_p2 : f64 := binary_normalize 53 1024 eq_refl eq_refl mode_NE (4507318537054535) (-54) false. (* 0.2502064409578861 *)
Definition dv_g1 : f64 := binary_normalize 53 1024 eq_refl eq_refl mode_NE (-29751277472307) (-56) false. (* -0.000412881915772087 *)
Definition dv_g2 : f64 := binary_normalize 53 1024 eq_refl eq_refl mode_NE (452219417579069) (-53) false. (* 0.05020644095788607 *)
Definition dv_g3 : f64 := binary_normalize 53 1024 eq_refl eq_refl mode_NE (-224250253947515) (-52) false. (* -0.04979355904211391 *)
Definition dv_a2 : f64 := binary_normalize 53 1024 eq_refl eq_refl mode_NE (-3570153296676861) (-57) false. (* -0.024772914946325365 *)
Definition dv_b2 : f64 := binary_normalize 53 1024 eq_refl eq_refl mode_NE (3552479270455683) (-56) false. (* 0.049300553507043474 *)
Definition dv_c2 : f64 := binary_normalize 53 1024 eq_refl eq_refl mode_NE (-5379294668194761) (-41) false. (* -2446.2199999992486 *)
Definition dv_r1 : f64 := binary_normalize 53 1024 eq_refl eq_refl mode_NE (4271353717600991) (-46) false. (* 60.69958711806565 *)
Definition dv_r2 : f64 := binary_normalize 53 1024 eq_refl eq_refl mode_NE (8563905220401001) (-47) false. (* 60.85020644093931 *)
Definition dv_r3 : f64 := binary_normalize 53 1024 eq_refl eq_refl mode_NE (-4234431917394147) (-45) false. (* -120.34979355900495 *)
Definition dv_y : list f64 := [f_01; f_02; f_03].
Lemma gx_pack3 (g1 g2 g3 : f64) : let g := [g1; g2; g3] in let hh := [f1; f1; f1] in
  f_gh_zero (fadd f0 g1, fadd f0 f1) = false -> f_gh_zero (fadd f0 g2, fadd f0 f1) = false -> f_gh_zero (fadd f0 g3, fadd f0 f1) = false ->
  f_rt_pack gx_bins [0; 1; 2]%nat gx_feature g hh = Ok [(mkBin F64MIN 1, (fadd f0 g1, fadd f0 f1)); (mkBin 1 2, (fadd f0 g2, fadd f0 f1)); (mkBin 2 F64MAX, (fadd f0 g3, fadd f0 f1))].
Proof.
  intros g hh Z1 Z2 Z3. destruct gx_find as [F0 [F1 F2]]. unfold f_rt_pack. change (repeat (f0, f0) (length gx_bins)) with [(f0, f0); (f0, f0); (f0, f0)]. cbn [pack_loop]. unfold gx_feature. cbn [feat_index nth_error bind]. rewrite F0. unfold f_rt_add, f_get. unfold g, hh. cbn [nth_error bind nth upd fst snd]. rewrite F1. cbn [bind nth upd fst snd]. rewrite F2. cbn [bind nth upd fst snd].
  unfold remove_empty, gx_bins. cbn [combine filter snd fst]. rewrite Z1, Z2, Z3. cbn [negb]. cbn [merge_loop bind map fst snd length b_start b_end]. replace ((1 + 1) / 2) with 1 by lra. replace ((2 + 2) / 2) with 2 by lra. reflexivity.
Qed.
Lemma rx_grow (g1 g2 g3 lam : f64) y thr L R cl cr ll lr pr lo : length y = 3%nat -> let g := [g1; g2; g3] in let hh := [f1; f1; f1] in
  f_prediction_and_loss fsum [0; 1; 2]%nat g hh lam = Ok (pr, lo) -> feq lo f0 = false ->
  f_gh_zero (fadd f0 g1, fadd f0 f1) = false -> f_gh_zero (fadd f0 g2, fadd f0 f1) = false -> f_gh_zero (fadd f0 g3, fadd f0 f1) = false ->
  fst (f_best_split_at fsum [(mkBin F64MIN 1, (fadd f0 g1, fadd f0 f1)); (mkBin 1 2, (fadd f0 g2, fadd f0 f1)); (mkBin 2 F64MAX, (fadd f0 g3, fadd f0 f1))] lam) = thr ->
  filter (below (fval gx_feature) thr) [0; 1; 2]%nat = L -> filter (not_below (fval gx_feature) thr) [0; 1; 2]%nat = R -> L <> [] -> R <> [] ->
  f_prediction_and_loss fsum L g hh lam = Ok (cl, ll) -> f_prediction_and_loss fsum R g hh lam = Ok (cr, lr) ->
  f_rt_full_tree fsum [("a"%string, gx_bins)] (rx_sample y) g hh lam 2 [0; 1; 2]%nat = Ok (FBr (mkSplitter "a"%string thr) (FLf cl) (FLf cr)) /\
  f_tree_answers (FBr (mkSplitter "a"%string thr) (FLf cl) (FLf cr)) (rx_sample y) [0; 1; 2]%nat = Ok (map (fun i => if below (fval gx_feature) thr i then cl else cr) [0; 1; 2]%nat).
Proof.
  intros Ly g hh PL LZ Z1 Z2 Z3 SC FL FR NL NR PLl PLr.
  destruct (use_hyp (rx_sample y) (rx_builder 0) (rx_tree 0) (rx_trainable y Ly) (rx_built y 0) ltac:(simpl; lra)) as [G [NN _]].
  split.
  - cbn [f_rt_full_tree]. rewrite PL. cbn [bind]. rewrite LZ. cbn [orb Nat.leb]. unfold f_rt_best_split. change (s_features (rx_sample y)) with [gx_feature]. cbn [f_rt_eval]. change (sm_get [("a"%string, gx_bins)] (feat_name gx_feature)) with (Ok gx_bins : res (list bin)). cbn [bind]. unfold g, hh in *. rewrite (gx_pack3 g1 g2 g3 Z1 Z2 Z3). cbn [bind is_nil negb andb]. rewrite SC. cbn [f_pick_max bind fst snd].
    change (feat_name gx_feature) with "a"%string. change (mkSplitter "a"%string thr) with (mkSplitter (feat_name gx_feature) thr). rewrite (partition_ok (rx_sample y) G NN gx_feature thr [0; 1; 2]%nat); [|left; reflexivity|intros i [<- |[<- |[<- |[]]]]; simpl; lia]. cbn [bind fst snd]. rewrite FL, FR.
    assert (E : orb (is_nil L) (is_nil R) = false) by (destruct L; [congruence|]; destruct R; [congruence|reflexivity]). rewrite E. rewrite PLl. cbn [bind]. rewrite orb_true_r. rewrite PLr. cbn [bind]. rewrite orb_true_r. reflexivity.
  - cbn [f_tree_answers map]. change (mkSplitter "a"%string thr) with (mkSplitter (feat_name gx_feature) thr).
    assert (AB : forall i, (i < 3)%nat -> f_node_confidence (FBr (mkSplitter (feat_name gx_feature) thr) (FLf cl) (FLf cr)) (rx_sample y) i = Ok (if below (fval gx_feature) thr i then cl else cr)).
    { intros i Hi. cbn [f_node_confidence]. rewrite (split_left_ok (rx_sample y) G NN gx_feature thr i (or_introl eq_refl) Hi). cbn [bind]. destruct (below (fval gx_feature) thr i); reflexivity. }
    rewrite !AB by lia. reflexivity.
Qed.

Lemma dv_split1 : filter (below (fval gx_feature) 1) [0; 1; 2]%nat = [0]%nat /\ filter (not_below (fval gx_feature) 1) [0; 1; 2]%nat = [1; 2]%nat /\
  filter (below (fval gx_feature) 2) [0; 1; 2]%nat = [0; 1]%nat /\ filter (not_below (fval gx_feature) 2) [0; 1; 2]%nat = [2]%nat.
Proof.
  unfold below, not_below, fval, gx_feature. cbn [filter nth]. destruct (Rlt_dec 0 1); [|lra]. destruct (Rlt_dec 1 1); [lra|]. destruct (Rlt_dec 3 1); [lra|]. destruct (Rlt_dec 0 2); [|lra]. destruct (Rlt_dec 1 2); [|lra]. destruct (Rlt_dec 3 2); [lra|]. repeat split; reflexivity.
Qed.
Lemma dv_below (c d : f64) : map (fun i => if below (fval gx_feature) 1 i then c else d) [0; 1; 2]%nat = [c; d; d] /\ map (fun i => if below (fval gx_feature) 2 i then c else d) [0; 1; 2]%nat = [c; c; d].
Proof.
  unfold below, fval, gx_feature. cbn [map nth]. destruct (Rlt_dec 0 1); [|lra]. destruct (Rlt_dec 1 1); [lra|]. destruct (Rlt_dec 3 1); [lra|]. destruct (Rlt_dec 0 2); [|lra]. destruct (Rlt_dec 1 2); [|lra]. destruct (Rlt_dec 3 2); [lra|]. split; reflexivity.
Qed.
Ltac bool_vm := vm_compute; reflexivity.
Lemma dv_round1 : exists h, f_rt_produce fsum [("a"%string, gx_bins)] 3 2 f_001 L2 (rx_sample dv_y) dv_y [f0; f0; f0] = Ok h /\ f_tree_answers h (rx_sample dv_y) [0; 1; 2]%nat = Ok [dv_a1; dv_b1; dv_b1].
Proof.
  set (g1 := fsub f0 f_01). set (g2 := fsub f0 f_02). set (g3 := fsub f0 f_03). destruct dv_split1 as [S1 [S2 _]].
  assert (GE : f_gradient L2 [f0; f0; f0] dv_y = Ok [g1; g2; g3]) by reflexivity. assert (HE : f_hessian L2 [f0; f0; f0] dv_y = Ok [f1; f1; f1]) by reflexivity.
  assert (C1 : fdiv (fopp (fsum [g1])) (fadd (fsum [f1]) f_001) = dv_a1) by same. assert (C2 : fdiv (fopp (fsum [g2; g3])) (fadd (fsum [f1; f1]) f_001) = dv_b1) by same.
  destruct (rx_grow g1 g2 g3 f_001 dv_y 1 [0]%nat [1; 2]%nat dv_a1 dv_b1 (fdiv (fmul f_mhalf (fmul (fsum [g1]) (fsum [g1]))) (fadd (fsum [f1]) f_001)) (fdiv (fmul f_mhalf (fmul (fsum [g2; g3]) (fsum [g2; g3]))) (fadd (fsum [f1; f1]) f_001))
    (fdiv (fopp (fsum [g1; g2; g3])) (fadd (fsum [f1; f1; f1]) f_001)) (fdiv (fmul f_mhalf (fmul (fsum [g1; g2; g3]) (fsum [g1; g2; g3]))) (fadd (fsum [f1; f1; f1]) f_001))) as [T1 T2]; [reflexivity|reflexivity|bool_vm|bool_vm|bool_vm|bool_vm| |exact S1|exact S2|discriminate|discriminate|rewrite <- C1; reflexivity|rewrite <- C2; reflexivity| ].
  - unfold f_best_split_at. cbn [map fst snd f_score_loop b_end].
    match goal with |- fst (if flt f_MIN ?a then if flt ?a ?b then _ else if flt ?a ?c then _ else _ else _) = _ => assert (B1 : flt f_MIN a = true) by bool_vm; assert (B2 : flt a b = false) by bool_vm; assert (B3 : flt a c = false) by bool_vm; rewrite B1, B2, B3; reflexivity end.
  - eexists. split; [unfold f_rt_produce; rewrite GE; cbn [bind]; rewrite HE; cbn [bind]; exact T1|]. rewrite T2. f_equal. apply dv_below.
Qed.
Lemma dv_round2 : exists h, f_rt_produce fsum [("a"%string, gx_bins)] 3 2 f_001 L2 (rx_sample dv_y) dv_y [dv_p1; dv_p2; dv_p2] = Ok h /\ f_tree_answers h (rx_sample dv_y) [0; 1; 2]%nat = Ok [dv_a2; dv_a2; dv_b2].
Proof.
  destruct dv_split1 as [_ [_ [S1 S2]]].
  assert (E1 : fsub dv_p1 f_01 = dv_g1) by same. assert (E2 : fsub dv_p2 f_02 = dv_g2) by same. assert (E3 : fsub dv_p2 f_03 = dv_g3) by same.
  assert (GE : f_gradient L2 [dv_p1; dv_p2; dv_p2] dv_y = Ok [dv_g1; dv_g2; dv_g3]) by (rewrite <- E1, <- E2, <- E3; reflexivity). assert (HE : f_hessian L2 [dv_p1; dv_p2; dv_p2] dv_y = Ok [f1; f1; f1]) by reflexivity.
  assert (C1 : fdiv (fopp (fsum [dv_g1; dv_g2])) (fadd (fsum [f1; f1]) f_001) = dv_a2) by same. assert (C2 : fdiv (fopp (fsum [dv_g3])) (fadd (fsum [f1]) f_001) = dv_b2) by same.
  destruct (rx_grow dv_g1 dv_g2 dv_g3 f_001 dv_y 2 [0; 1]%nat [2]%nat dv_a2 dv_b2 (fdiv (fmul f_mhalf (fmul (fsum [dv_g1; dv_g2]) (fsum [dv_g1; dv_g2]))) (fadd (fsum [f1; f1]) f_001)) (fdiv (fmul f_mhalf (fmul (fsum [dv_g3]) (fsum [dv_g3]))) (fadd (fsum [f1]) f_001))
    (fdiv (fopp (fsum [dv_g1; dv_g2; dv_g3])) (fadd (fsum [f1; f1; f1]) f_001)) (fdiv (fmul f_mhalf (fmul (fsum [dv_g1; dv_g2; dv_g3]) (fsum [dv_g1; dv_g2; dv_g3]))) (fadd (fsum [f1; f1; f1]) f_001))) as [T1 T2]; [reflexivity|reflexivity|bool_vm|bool_vm|bool_vm|bool_vm| |exact S1|exact S2|discriminate|discriminate|rewrite <- C1; reflexivity|rewrite <- C2; reflexivity| ].
  - unfold f_best_split_at. cbn [map fst snd f_score_loop b_end].
    match goal with |- fst (if flt f_MIN ?a then if flt ?a ?b then if flt ?b ?c then _ else _ else _ else _) = _ => assert (B1 : flt f_MIN a = true) by bool_vm; assert (B2 : flt a b = true) by bool_vm; assert (B3 : flt b c = false) by bool_vm; rewrite B1, B2, B3; reflexivity end.
  - eexists. split; [unfold f_rt_produce; rewrite GE; cbn [bind]; rewrite HE; cbn [bind]; exact T1|]. rewrite T2. f_equal. apply dv_below.
Qed.
Lemma dv_best1 : f_best_l2 dv_y [dv_a1; dv_b1; dv_b1] = Ok dv_c1 /\ feq dv_c1 f0 = false /\ f_gbm_update dv_c1 [f0; f0; f0] [dv_a1; dv_b1; dv_b1] = [dv_p1; dv_p2; dv_p2].
Proof.
  split; [|split; [bool_vm|]].
  - unfold f_best_l2, dv_y. assert (N : feq (fsum [dv_a1; dv_b1; dv_b1]) f0 = false) by bool_vm. rewrite N. cbn [negb assert_ bind]. f_equal. same.
  - unfold f_gbm_update. cbn [combine map fst snd]. assert (E1 : fadd f0 (fmul dv_c1 dv_a1) = dv_p1) by same. assert (E2 : fadd f0 (fmul dv_c1 dv_b1) = dv_p2) by same. rewrite E1, E2. reflexivity.
Qed.
Lemma dv_best2 : f_best_l2 dv_y [dv_a2; dv_a2; dv_b2] = Ok dv_c2 /\ feq dv_c2 f0 = false /\ f_gbm_update dv_c2 [dv_p1; dv_p2; dv_p2] [dv_a2; dv_a2; dv_b2] = [dv_r1; dv_r2; dv_r3].
Proof.
  split; [|split; [bool_vm|]].
  - unfold f_best_l2, dv_y. assert (N : feq (fsum [dv_a2; dv_a2; dv_b2]) f0 = false) by bool_vm. rewrite N. cbn [negb assert_ bind]. f_equal. same.
  - unfold f_gbm_update. cbn [combine map fst snd]. assert (E1 : fadd dv_p1 (fmul dv_c2 dv_a2) = dv_r1) by same. assert (E2 : fadd dv_p2 (fmul dv_c2 dv_a2) = dv_r2) by same. assert (E3 : fadd dv_p2 (fmul dv_c2 dv_b2) = dv_r3) by same. rewrite E1, E2, E3. reflexivity.
Qed.
Lemma dv_spec m e : Z.ltb (Z.abs m) (2 ^ 53) = true -> (-1074 <= e <= 0)%Z -> fin (binary_normalize 53 1024 eq_refl eq_refl mode_NE m e false) /\ val (binary_normalize 53 1024 eq_refl eq_refl mode_NE m e false) = IZR m * bpow radix2 e.
Proof. intros H1 H2. apply normalize_exact; [apply Z.ltb_lt, H1|lia]. Qed.
Lemma dv_y_spec : finite_all dv_y /\ (/ 10 - / 1000 <= val f_01 <= / 10 + / 1000) /\ (2 / 10 - / 1000 <= val f_02 <= 2 / 10 + / 1000) /\ (3 / 10 - / 1000 <= val f_03 <= 3 / 10 + / 1000).
Proof.
  destruct (dv_spec 3602879701896397 (-55)) as [F1 V1]; [reflexivity|lia|]. destruct (dv_spec 3602879701896397 (-54)) as [F2 V2]; [reflexivity|lia|]. destruct (dv_spec 5404319552844595 (-54)) as [F3 V3]; [reflexivity|lia|].
  split; [intros x [<- |[<- |[<- |[]]]]; assumption|]. unfold f_01, f_02, f_03. rewrite V1, V2, V3. simpl. repeat split; lra.
Qed.
Lemma dv_num : (fin dv_a1 /\ 99 / 1000 <= val dv_a1 <= 100 / 1000) /\ (fin dv_b1 /\ 248 / 1000 <= val dv_b1 <= 249 / 1000) /\ (fin dv_a2 /\ -248 / 10000 <= val dv_a2 <= -2477 / 100000) /\ (fin dv_b2 /\ 49300 / 1000000 <= val dv_b2 <= 49301 / 1000000) /\
  (99 / 1000 <= val dv_p1 <= 101 / 1000) /\ (249 / 1000 <= val dv_p2 <= 251 / 1000) /\ 60 <= val dv_r1 /\ 60 <= val dv_r2 /\ val dv_r3 <= -120.
Proof.
  destruct (dv_spec 3567207625639997 (-55)) as [F1 V1]; [reflexivity|lia|]. destruct (dv_spec 4481193659075121 (-54)) as [F2 V2]; [reflexivity|lia|]. destruct (dv_spec (-3570153296676861) (-57)) as [F3 V3]; [reflexivity|lia|]. destruct (dv_spec 3552479270455683 (-56)) as [F4 V4]; [reflexivity|lia|].
  destruct (dv_spec 7176008126320487 (-56)) as [_ V5]; [reflexivity|lia|]. destruct (dv_spec 4507318537054535 (-54)) as [_ V6]; [reflexivity|lia|]. destruct (dv_spec 4271353717600991 (-46)) as [_ V7]; [reflexivity|lia|]. destruct (dv_spec 8563905220401001 (-47)) as [_ V8]; [reflexivity|lia|]. destruct (dv_spec (-4234431917394147) (-45)) as [_ V9]; [reflexivity|lia|].
  split; [split; [exact F1|unfold dv_a1; rewrite V1; simpl; lra]|]. split; [split; [exact F2|unfold dv_b1; rewrite V2; simpl; lra]|]. split; [split; [exact F3|unfold dv_a2; rewrite V3; simpl; lra]|]. split; [split; [exact F4|unfold dv_b2; rewrite V4; simpl; lra]|].
  unfold dv_p1, dv_p2, dv_r1, dv_r2, dv_r3. rewrite V5, V6, V7, V8, V9. simpl. repeat split; lra.
Qed.
Lemma dv_run1 : f_gbm_tree_run (rx_tree (val f_001)) f_001 (rx_sample dv_y) dv_y [(dv_c1, [dv_a1; dv_b1; dv_b1])] [dv_p1; dv_p2; dv_p2].
Proof.
  destruct dv_round1 as [h [E1 E2]]. destruct dv_best1 as [B1 [B2 B3]]. rewrite <- B3. apply (fgt_round _ _ _ _ [] [f0; f0; f0] fsum h _ _ (fgt_start (rx_tree (val f_001)) f_001 (rx_sample dv_y) dv_y) fsum_summing); assumption.
Qed.
Lemma dv_run2 : f_gbm_tree_run (rx_tree (val f_001)) f_001 (rx_sample dv_y) dv_y [(dv_c1, [dv_a1; dv_b1; dv_b1]); (dv_c2, [dv_a2; dv_a2; dv_b2])] [dv_r1; dv_r2; dv_r3].
Proof.
  destruct dv_round2 as [h [E1 E2]]. destruct dv_best2 as [B1 [B2 B3]]. rewrite <- B3. apply (fgt_round _ _ _ _ [(dv_c1, [dv_a1; dv_b1; dv_b1])] [dv_p1; dv_p2; dv_p2] fsum h _ _ dv_run1 fsum_summing); assumption.
Qed.
Lemma f_001_spec : fin f_001 /\ Rabs (val f_001 - / 100) <= / 2 ^ 60.
Proof. destruct (dv_spec 5764607523034235 (-59)) as [F V]; [reflexivity|lia|]. split; [exact F|]. unfold f_001. rewrite V. apply Rabs_le. simpl. lra. Qed.

Lemma P_C102_tree_diverges_refuted :
  exists s b t y, trainable s /\ rt_made s b /\ rb_build b s = Ok t /\ rb_loss b = Some L2 /\ rb_lambda b = val f_001 /\ Rabs (val f_001 - / 100) <= / 2 ^ 60 /\ rb_depth b = 2%nat /\
  map val y = s_target s /\ finite_all y /\ (forall x, In x y -> 0 <= val x <= 31 / 100) /\
  exists c1 q1 c2 q2 p1 p2, f_gbm_tree_run t f_001 s y [(c1, q1)] p1 /\ f_gbm_tree_run t f_001 s y [(c1, q1); (c2, q2)] p2 /\
    squared_error p1 y <= 1 / 100 /\ 20000 <= squared_error p2 y.
Proof.
  destruct dv_y_spec as [Fy [Y1 [Y2 Y3]]]. destruct dv_num as [_ [_ [_ [_ [P1 [P2 [R1 [R2 R3]]]]]]]].
  exists (rx_sample dv_y), (rx_builder (val f_001)), (rx_tree (val f_001)), dv_y. split; [apply rx_trainable; reflexivity|]. split; [apply rx_made|]. split; [apply rx_built|]. split; [reflexivity|]. split; [reflexivity|]. split; [apply f_001_spec|]. split; [reflexivity|]. split; [reflexivity|]. split; [exact Fy|].
  split; [intros x [<- |[<- |[<- |[]]]]; lra|]. exists dv_c1, [dv_a1; dv_b1; dv_b1], dv_c2, [dv_a2; dv_a2; dv_b2], [dv_p1; dv_p2; dv_p2], [dv_r1; dv_r2; dv_r3]. split; [exact dv_run1|]. split; [exact dv_run2|].
  unfold squared_error, dv_y. cbn [combine map rsum fst snd]. revert Y1 Y2 Y3 P1 P2 R1 R2 R3. generalize (val f_01) (val f_02) (val f_03) (val dv_p1) (val dv_p2) (val dv_r1) (val dv_r2) (val dv_r3). clear. intros a b c p1 p2 r1 r2 r3 Y1 Y2 Y3 P1 P2 R1 R2 R3. split.
  - assert (A1 : (p1 - a) ^ 2 <= 1 / 10000) by nra. assert (A2 : (p2 - b) ^ 2 <= 3 / 1000) by nra. assert (A3 : (p2 - c) ^ 2 <= 3 / 1000) by nra. lra.
  - assert (A1 : 59 ^ 2 <= (r1 - a) ^ 2) by (apply pow_incr; lra). assert (A2 : 59 ^ 2 <= (r2 - b) ^ 2) by (apply pow_incr; lra). assert (A3 : 120 ^ 2 <= (r3 - c) ^ 2) by (rewrite <- (pow2_abs (r3 - c)); apply pow_incr; rewrite Rabs_left by lra; lra). simpl in A1, A2, A3. simpl. lra.
Qed.

(** ** the run above meets the hypotheses of C102_drift *)
Lemma ex_C102 : f_gbm_run dv_y [(dv_c1, [dv_a1; dv_b1; dv_b1]); (dv_c2, [dv_a2; dv_a2; dv_b2])] [dv_r1; dv_r2; dv_r3] /\ (forall c q, In (c, q) [(dv_c1, [dv_a1; dv_b1; dv_b1]); (dv_c2, [dv_a2; dv_a2; dv_b2])] -> steady q) /\
  Rabs (FloatSpec.total [dv_r1; dv_r2; dv_r3] - 2 * FloatSpec.total dv_y) <= 2 * (/ 2 ^ 18 * size dv_y).
Proof.
  destruct dv_best1 as [B1 [B2 B3]]. destruct dv_best2 as [C1 [C2 C3]].
  assert (R : f_gbm_run dv_y [(dv_c1, [dv_a1; dv_b1; dv_b1]); (dv_c2, [dv_a2; dv_a2; dv_b2])] [dv_r1; dv_r2; dv_r3]).
  { rewrite <- C3. apply (fg_round dv_y [(dv_c1, [dv_a1; dv_b1; dv_b1])]); try assumption; [|reflexivity]. rewrite <- B3. apply (fg_round dv_y [] [f0; f0; f0]); try assumption; [apply fg_start|reflexivity]. }
  assert (I400 : / 2 ^ 400 <= / 2 ^ 20) by (apply inv_pow_le; lia). assert (I20 : / 2 ^ 20 <= 1 / 100000) by (simpl; lra). assert (P400 : 2 ^ 20 <= 2 ^ 400) by (apply Rle_pow; [lra|lia]). assert (P20 : 2 <= 2 ^ 20) by (simpl; lra).
  destruct dv_num as [[Fa1 A1] [[Fb1 D1] [[Fa2 A2] [[Fb2 D2] _]]]].
  assert (ST : forall c q, In (c, q) [(dv_c1, [dv_a1; dv_b1; dv_b1]); (dv_c2, [dv_a2; dv_a2; dv_b2])] -> steady q).
  { assert (P16 : 2 ^ 16 = 65536) by (simpl; lra). generalize dependent (2 ^ 400). intros X I400 P400. intros c q [E|[E|[]]]; injection E as <- <-.
    - split; [intros x [<- |[<- |[<- |[]]]]; assumption|]. unfold size, FloatSpec.total. cbn [map rsum]. rewrite P16. revert A1 D1. generalize (val dv_a1) (val dv_b1). intros a b A1 D1. rewrite (Rabs_pos_eq a), (Rabs_pos_eq b), (Rabs_pos_eq (a + (b + (b + 0)))) by lra. lra.
    - split; [intros x [<- |[<- |[<- |[]]]]; assumption|]. unfold size, FloatSpec.total. cbn [map rsum]. rewrite P16. revert A2 D2. generalize (val dv_a2) (val dv_b2). intros a b A2 D2. rewrite (Rabs_left a), (Rabs_pos_eq b), (Rabs_left (a + (a + (b + 0)))) by lra. lra. }
  split; [exact R|]. split; [exact ST|]. destruct dv_y_spec as [Fy [Y1 [Y2 Y3]]].
  assert (SY : / 2 ^ 400 <= size dv_y <= 2 ^ 400) by (unfold size, dv_y; cbn [map rsum]; rewrite !Rabs_pos_eq by lra; generalize dependent (2 ^ 400); intros; lra).
  destruct (P_C102_drift dv_y _ _ R Fy ltac:(simpl; lra) SY ltac:(simpl; lia) ST) as [_ [D _]]. exact D.
Qed.
Example C102_drift_applies : f_gbm_run dv_y [(dv_c1, [dv_a1; dv_b1; dv_b1]); (dv_c2, [dv_a2; dv_a2; dv_b2])] [dv_r1; dv_r2; dv_r3] /\ (forall c q, In (c, q) [(dv_c1, [dv_a1; dv_b1; dv_b1]); (dv_c2, [dv_a2; dv_a2; dv_b2])] -> steady q) /\
  Rabs (FloatSpec.total [dv_r1; dv_r2; dv_r3] - 2 * FloatSpec.total dv_y) <= 2 * (/ 2 ^ 18 * size dv_y).
Proof. exact ex_C102. Qed.
