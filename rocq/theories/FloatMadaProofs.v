(** MadaBoost in binary64: relative errors, the factor, the normaliser *)
From Coq Require Import ZArith List Bool Reals Lia Lra Psatz Permutation Sorting.
From Flocq Require Import Core.Core IEEE754.BinarySingleNaN.
From Verif Require AdaBoostProofs.
From Verif Require Import Base SortLib Float FloatSpec FloatProofs FloatFacts FloatCheckFacts FloatProjectProofs FloatEdge FloatEdgeSpec FloatEdgeFacts FloatMedian FloatMedianFacts FloatAda FloatAdaSpec FloatAdaProofs FloatAdaStep FloatAdaRun FloatMada FloatMadaSpec.
Import ListNotations.
Open Scope R_scope.

(** relative error of at most c units *)
Definition rel (a A c : R) : Prop := exists k, Rabs k <= c * uu /\ a = A * (1 + k).
Lemma uu_num : uu = / 9007199254740992. Proof. unfold uu. simpl. lra. Qed.
Lemma rel_0 a : rel a a 0. Proof. exists 0. rewrite Rabs_R0. split; [lra|ring]. Qed.
Lemma rel_weaken a A c d : c <= d -> rel a A c -> rel a A d.
Proof. intros H [k [Hk E]]. exists k. split; [|exact E]. pose proof uu_pos. nra. Qed.
Lemma rel_comp a A c e : 0 <= c <= 1000 -> Rabs e <= uu -> rel a A c -> rel (a * (1 + e)) A (c + 1 + / 100).
Proof.
  intros Hc He [k [Hk ->]]. exists (k + e + k * e). split; [|ring]. pose proof uu_pos as U0. pose proof uu_num as UN. assert (Rabs (k * e) <= / 100 * uu). { rewrite Rabs_mult. apply Rle_trans with ((c * uu) * uu); [apply Rmult_le_compat; try apply Rabs_pos; assumption|]. apply Rmult_le_compat_r; [lra|]. rewrite UN. lra. }
  eapply Rle_trans; [apply Rabs_triang|]. eapply Rle_trans; [apply Rplus_le_compat_r, Rabs_triang|]. lra.
Qed.
Lemma rel_rnd a A c : 0 <= c <= 1000 -> / 2 ^ 500 <= Rabs A -> rel a A c -> rel (rnd a) A (c + 1 + / 50).
Proof.
  intros Hc HA H. destruct (err_mult a) as [e [h [He [Hh E]]]]. fold eta0 in Hh. destruct (rel_comp a A c e Hc He H) as [k [Hk Ek]]. assert (P0 : 0 < / 2 ^ 500) by (apply Rinv_0_lt_compat, pow_lt; lra). pose proof uu_pos as U0.
  assert (NA : A <> 0) by (intros Z; rewrite Z, Rabs_R0 in HA; lra). exists (k + h / A). split; [|rewrite E, Ek; field; exact NA].
  assert (D : Rabs (h / A) <= / 100 * uu). { unfold Rdiv. rewrite Rabs_mult, Rabs_inv. apply (Rmult_le_reg_r (Rabs A)); [lra|]. rewrite Rmult_assoc, Rinv_l by lra. rewrite Rmult_1_r. eapply Rle_trans; [exact Hh|]. apply Rle_trans with (/ 100 * uu * / 2 ^ 500); [|apply Rmult_le_compat_l; lra].
    unfold eta0. apply Rle_trans with (/ 2 ^ 60 * / 2 ^ 500). - rewrite <- !two_pow, <- !bpow_opp, <- bpow_plus. apply bpow_le. lia. - apply Rmult_le_compat_r; [lra|]. rewrite uu_num. simpl. lra. }
  eapply Rle_trans; [apply Rabs_triang|]. lra.
Qed.
Lemma rel_scale s a A c : rel a A c -> rel (s * a) (s * A) c.
Proof. intros [k [Hk ->]]. exists k. split; [exact Hk|ring]. Qed.
Lemma rel_sqrt a A c : 0 <= c <= 1000 -> 0 <= A -> rel a A c -> rel (sqrt a) (sqrt A) c.
Proof.
  intros Hc HA [k [Hk ->]]. pose proof uu_num as UN. assert (Hk' := Hk). apply Rabs_le_inv in Hk'. assert (CU : c * uu <= / 2) by (rewrite UN; lra). rewrite sqrt_mult by lra. exists (sqrt (1 + k) - 1). split; [|ring]. eapply Rle_trans; [|exact Hk].
  assert (S0 := sqrt_pos (1 + k)). assert (SQ := sqrt_sqrt (1 + k) ltac:(lra)). set (s := sqrt (1 + k)) in *. replace k with ((s - 1) * (s + 1)) by lra. rewrite Rabs_mult, (Rabs_pos_eq (s + 1)) by lra. pose proof (Rabs_pos (s - 1)). nra.
Qed.
Lemma rel_one_minus s A c : 0 <= c -> 0 <= A <= 7072 / 10000 -> rel s A c -> rel (1 - s) (1 - A) (c * (242 / 100)).
Proof.
  intros Hc HA [k [Hk ->]]. exists (- (A / (1 - A)) * k). split; [|field; lra]. rewrite Rabs_mult, Rabs_Ropp. assert (Q : 0 <= A / (1 - A) <= 242 / 100) by (split; [apply Rle_div_iff; lra|apply Rdiv_le_iff; lra]). rewrite (Rabs_pos_eq (A / (1 - A))) by lra.
  replace (c * (242 / 100) * uu) with (242 / 100 * (c * uu)) by ring. apply Rmult_le_compat; try lra. apply Rabs_pos.
Qed.
Lemma rel_div a A c b B d : 0 <= c <= 100 -> 0 <= d <= 100 -> B <> 0 -> rel a A c -> rel b B d -> rel (a / b) (A / B) (c + d + / 100).
Proof.
  intros Hc Hd NB [k [Hk ->]] [j [Hj ->]]. pose proof uu_num as UN. assert (Hj' := Hj). assert (Hk' := Hk). apply Rabs_le_inv in Hj'. apply Rabs_le_inv in Hk'. assert (DU : d * uu <= / 1000000000) by (rewrite UN; lra). assert (CU : c * uu <= / 1000000000) by (rewrite UN; lra). 
  exists ((k - j) / (1 + j)). split; [|field; split; lra]. unfold Rdiv. rewrite Rabs_mult, Rabs_inv, (Rabs_pos_eq (1 + j)) by lra. change (Rabs (k - j) * / (1 + j)) with (Rabs (k - j) / (1 + j)). apply Rdiv_le_iff; [lra|].
  assert (T : Rabs (k - j) <= (c + d) * uu) by (apply Rabs_le; lra). eapply Rle_trans; [exact T|]. pose proof uu_pos.
  assert (X : (c + d + / 100) * uu * - j <= (c + d + / 100) * uu * / 1000000000) by (apply Rmult_le_compat_l; [apply Rmult_le_pos; lra|lra]). assert (Y : (c + d + / 100) * uu * / 1000000000 <= / 100 * uu) by (replace ((c + d + / 100) * uu * / 1000000000) with ((c + d + / 100) * / 1000000000 * uu) by ring; apply Rmult_le_compat_r; lra). lra.
Qed.

(** numbers below 1 in absolute value *)
Lemma grid (e : f64) : fin e -> Rabs (val e) < 1 -> Rabs (val e) < / 2 \/ exists k : Z, val e = IZR k * / 2 ^ 53 /\ (Z.abs k < 2 ^ 53)%Z.
Proof.
  intros Fe He. destruct (Rlt_le_dec (Rabs (val e)) (/ 2)) as [L|L]; [left; exact L|right].
  pose proof (generic_format_B2R 53 1024 e) as G. assert (M : mag radix2 (val e) = 0%Z :> Z) by (apply mag_unique; simpl (bpow radix2 (0 - 1)); simpl (bpow radix2 0); split; lra).
  unfold generic_format, F2R in G. cbn [Fnum Fexp] in G. assert (C : cexp radix2 (SpecFloat.fexp 53 1024) (B2R e) = (-53)%Z) by (unfold cexp; rewrite M; reflexivity). rewrite C in G.
  assert (B53 : bpow radix2 (-53) = / 2 ^ 53) by (change (-53)%Z with (- Z.of_nat 53)%Z; rewrite bpow_opp, two_pow; reflexivity). rewrite B53 in G. set (k := Ztrunc (scaled_mantissa radix2 (SpecFloat.fexp 53 1024) (B2R e))) in *. exists k. split; [exact G|].
  rewrite G, Rabs_mult, (Rabs_pos_eq (/ 2 ^ 53)) in He by (left; apply Rinv_0_lt_compat, pow_lt; lra). apply lt_IZR. rewrite abs_IZR. assert (P : 0 < 2 ^ 53) by (apply pow_lt; lra). replace (IZR (2 ^ 53)) with (2 ^ 53) by (change (IZR (2 ^ 53)) with (bpow radix2 (Z.of_nat 53)); rewrite two_pow; reflexivity).
  apply (Rmult_lt_reg_r (/ 2 ^ 53)); [apply Rinv_0_lt_compat, P|]. rewrite Rinv_r by lra. exact He.
Qed.
Lemma grid_gap (e : f64) : fin e -> Rabs (val e) < 1 -> Rabs (val e) <= 1 - / 2 ^ 53.
Proof.
  intros Fe He. assert (U : 0 < / 2 ^ 53 <= / 4) by (split; [apply Rinv_0_lt_compat, pow_lt; lra|simpl; lra]). destruct (grid e Fe He) as [L|[k [E K]]]; [lra|]. rewrite E, Rabs_mult, (Rabs_pos_eq (/ 2 ^ 53)), <- abs_IZR by lra. assert (Q : IZR (Z.abs k) <= 2 ^ 53 - 1).
  { replace (2 ^ 53 - 1) with (IZR (2 ^ 53 - 1)) by (rewrite minus_IZR; change (IZR (2 ^ 53)) with (bpow radix2 (Z.of_nat 53)); rewrite two_pow; reflexivity). apply IZR_le. lia. }
  replace (1 - / 2 ^ 53) with ((2 ^ 53 - 1) * / 2 ^ 53) by (rewrite Rmult_minus_distr_r, Rinv_r by (apply pow_nonzero; lra); ring). apply Rmult_le_compat_r; lra.
Qed.

Lemma fsqrt_spec (x : f64) : fin x -> 0 < val x -> fin (fsqrt x) /\ val (fsqrt x) = rnd (sqrt (val x)).
Proof.
  intros Fx Px. destruct (Bsqrt_correct 53 1024 _ _ mode_NE x) as [V [F _]]. split; [|exact V]. unfold fsqrt. rewrite F. destruct x as [s|s| |[] m e H]; try discriminate; try reflexivity. exfalso. apply (Rlt_irrefl 0). eapply Rlt_trans; [exact Px|]. apply F2R_lt_0. reflexivity.
Qed.
Lemma fmul_rnd (x y : f64) : fin x -> fin y -> Rabs (val x * val y) <= 2 ^ 1000 -> fin (fmul x y) /\ val (fmul x y) = rnd (val x * val y).
Proof.
  intros Fx Fy Hb. assert (P : 2 ^ 1000 < 2 ^ 1023) by (apply Rlt_pow; [lra|lia]). destruct (fmul_spec x y Fx Fy) as [Fm _]; [lra|]. split; [exact Fm|]. unfold fmul in *. pose proof (Bmult_correct 53 1024 _ _ mode_NE x y) as C. destruct (Rlt_bool _ _) in C; [apply C|]. exfalso. destruct (Bmult mode_NE x y); try discriminate; cbn in C; destruct (xorb _ _) in C; discriminate.
Qed.
Lemma small_1000 a : a <= 2 ^ 40 -> a <= 2 ^ 1000. Proof. apply bigp. Qed.

Lemma p40 : 8 <= 2 ^ 40. Proof. simpl. lra. Qed.

(** ** the factor *)
Section Factor.
  Variables (e : f64).
  Hypothesis Fe : fin e.
  Hypothesis Be : Rabs (val e) < 1.
  Local Notation x := (1 - val e).

  Lemma x_range : / 2 ^ 53 <= x <= 2. Proof. pose proof (grid_gap e Fe Be) as G. apply Rabs_le_inv in G. assert (0 < / 2 ^ 53) by (apply Rinv_0_lt_compat, pow_lt; lra). lra. Qed.
  Lemma x_pos : 0 < x. Proof. apply Rabs_def2 in Be. lra. Qed.
  Lemma tiny_500 a : / 2 ^ 60 <= a -> / 2 ^ 500 <= Rabs a.
  Proof. intros H. assert (0 < / 2 ^ 60) by (apply Rinv_0_lt_compat, pow_lt; lra). rewrite Rabs_pos_eq by lra. eapply Rle_trans; [|exact H]. apply Rinv_le_contravar; [apply pow_lt; lra|apply Rle_pow; [lra|lia]]. Qed.

  Lemma eps_rel : fin (fsub f1 e) /\ rel (val (fsub f1 e)) x 1 /\ fin (f_mada_eps e) /\ rel (val (f_mada_eps e)) (x / 2) (21 / 10).
  Proof.
    destruct f1_spec as [F1 V1]. destruct half_spec as [Fh Vh]. pose proof x_range as XR. pose proof uu_num as UN. pose proof uu_pos as U0.
    destruct (fsub_rnd f1 e F1 Fe) as [Fs [_ [d [Hd Ed]]]]; [rewrite V1; apply small_1000; rewrite Rabs_pos_eq by (pose proof x_pos; lra); pose proof p40; lra|]. rewrite V1 in Ed.
    assert (R1 : rel (val (fsub f1 e)) x 1) by (exists d; split; [lra|exact Ed]). split; [exact Fs|]. split; [exact R1|]. unfold f_mada_eps. apply Rabs_le_inv in Hd.
    assert (Ba : 0 <= val (fsub f1 e) <= 4) by (rewrite Ed; pose proof x_pos; split; nra).
    destruct (fmul_rnd f_half (fsub f1 e) Fh Fs) as [Fm Vm]; [rewrite Vh; apply small_1000; rewrite Rabs_pos_eq by lra; pose proof p40; lra|]. split; [exact Fm|]. rewrite Vm, Vh.
    apply (rel_weaken _ _ (1 + 1 + / 50)); [lra|]. apply rel_rnd; [lra|apply tiny_500|].
    - apply Rle_trans with (/ 2 ^ 53 / 2); [simpl; lra|lra].
    - replace (x / 2) with (/ 2 * x) by field. apply rel_scale, R1.
  Qed.
  Lemma eps2_facts : let A := sqrt (x / 4) in / 2 ^ 28 <= A <= 7072 / 10000.
  Proof.
    cbv zeta. pose proof x_range as XR. split.
    - apply Rle_trans with (sqrt (/ 2 ^ 28 * / 2 ^ 28)); [rewrite sqrt_square by (left; apply Rinv_0_lt_compat, pow_lt; lra); lra|]. apply sqrt_le_1_alt. apply Rle_trans with (/ 2 ^ 53 / 4); [simpl; lra|lra].
    - apply Rle_trans with (sqrt (7072 / 10000 * (7072 / 10000))); [apply sqrt_le_1_alt; lra|rewrite sqrt_square by lra; lra].
  Qed.
  Lemma factor_range : / 2 ^ 14 <= factor_of (val e) <= 1556 / 1000.
  Proof.
    unfold factor_of. cbv zeta. pose proof eps2_facts as E2. cbv zeta in E2. set (A := sqrt (x / 4)) in *. assert (P28 : 0 < / 2 ^ 28) by (apply Rinv_0_lt_compat, pow_lt; lra). split.
    - apply Rle_trans with (sqrt (/ 2 ^ 14 * / 2 ^ 14)); [rewrite sqrt_square by (left; apply Rinv_0_lt_compat, pow_lt; lra); lra|]. apply sqrt_le_1_alt. apply Rle_div_iff; [lra|]. replace (/ 2 ^ 14 * / 2 ^ 14) with (/ 2 ^ 28) by (simpl; lra). apply Rle_trans with (/ 2 ^ 28 * 1); [apply Rmult_le_compat_l; lra|lra].
    - apply Rle_trans with (sqrt (1556 / 1000 * (1556 / 1000))); [apply sqrt_le_1_alt, Rdiv_le_iff; lra|rewrite sqrt_square by lra; lra].
  Qed.
  Lemma rel_pos a A c : rel a A c -> 0 <= c <= 1000 -> 0 < A -> A / 2 <= a <= 2 * A.
  Proof. intros [k [Hk ->]] Hc HA. pose proof uu_num as UN. apply Rabs_le_inv in Hk. assert (c * uu <= / 4) by (rewrite UN; lra). split; nra. Qed.
  Lemma beta_rel : fin (f_mada_beta e) /\ rel (val (f_mada_beta e)) (factor_of (val e)) 32.
  Proof.
    destruct eps_rel as [_ [_ [Fp Rp]]]. destruct f1_spec as [F1 V1]. destruct half_spec as [Fh Vh]. pose proof x_range as XR. pose proof eps2_facts as E2. cbv zeta in E2. pose proof factor_range as FR. unfold f_mada_beta. cbv zeta. pose proof uu_num as UN. pose proof uu_pos as U0.
    assert (P53 : 0 < / 2 ^ 53) by (apply Rinv_0_lt_compat, pow_lt; lra). assert (P28 : 0 < / 2 ^ 28) by (apply Rinv_0_lt_compat, pow_lt; lra).
    destruct (rel_pos _ _ _ Rp) as [Bp Bp']; [split; lra|lra|].
    destruct (fmul_rnd f_half (f_mada_eps e) Fh Fp) as [Fq Vq]; [rewrite Vh; apply small_1000; rewrite Rabs_pos_eq by lra; pose proof p40; lra|]. rewrite Vh in Vq.
    assert (Rq : rel (val (fmul f_half (f_mada_eps e))) (x / 4) (32 / 10)). { rewrite Vq. apply (rel_weaken _ _ (21 / 10 + 1 + / 50)); [lra|]. apply rel_rnd; [lra|apply tiny_500; apply Rle_trans with (/ 2 ^ 53 / 4); [simpl; lra|lra]|]. replace (x / 4) with (/ 2 * (x / 2)) by field. apply rel_scale, Rp. }
    destruct (rel_pos _ _ _ Rq) as [Bq Bq']; [split; lra|lra|]. set (q := fmul f_half (f_mada_eps e)) in *. destruct (fsqrt_spec q Fq) as [Fs Vs]; [lra|]. set (A := sqrt (x / 4)) in *.
    assert (Rs : rel (val (fsqrt q)) A (43 / 10)). { rewrite Vs. apply (rel_weaken _ _ (32 / 10 + 1 + / 50)); [lra|]. apply rel_rnd; [lra|apply tiny_500; apply Rle_trans with (/ 2 ^ 28); [simpl; lra|lra]|]. apply rel_sqrt; [lra|lra|exact Rq]. }
    set (s := fsqrt q) in *. destruct (rel_pos _ _ _ Rs) as [Bs Bs']; [split; lra|lra|].
    assert (R1 : rel (1 - val s) (1 - A) (105 / 10)) by (apply (rel_weaken _ _ (43 / 10 * (242 / 100))); [lra|apply rel_one_minus; [lra|lra|exact Rs]]).
    destruct (fsub_rnd f1 s F1 Fs) as [Ft [_ [d [Hd Ed]]]]; [rewrite V1; apply small_1000, Rabs_le; pose proof p40; split; lra|]. rewrite V1 in Ed.
    assert (Rt : rel (val (fsub f1 s)) (1 - A) (116 / 10)) by (rewrite Ed; apply (rel_weaken _ _ (105 / 10 + 1 + / 100)); [lra|apply rel_comp; [lra|exact Hd|exact R1]]).
    set (t := fsub f1 s) in *. destruct (rel_pos _ _ _ Rt) as [Bt Bt']; [split; lra|lra|].
    assert (Rr : rel (val s / val t) (A / (1 - A)) (16)) by (apply (rel_weaken _ _ (43 / 10 + 116 / 10 + / 100)); [lra|apply rel_div; [lra|lra|lra|exact Rs|exact Rt]]).
    assert (Q0 : / 2 ^ 28 <= A / (1 - A) <= 3). { split; [apply Rle_div_iff; [lra|]; apply Rle_trans with (/ 2 ^ 28 * 1); [apply Rmult_le_compat_l; lra|lra]|apply Rdiv_le_iff; lra]. }
    destruct (rel_pos _ _ _ Rr) as [Br Br']; [split; lra|lra|].
    destruct (fdiv_spec s t Fs) as [Fd Vd]; [lra|rewrite Rabs_pos_eq by lra; apply Rle_lt_trans with (2 ^ 3); [simpl; lra|apply Rlt_pow; [lra|lia]]|].
    assert (Rd : rel (val (fdiv s t)) (A / (1 - A)) (171 / 10)) by (rewrite Vd; apply (rel_weaken _ _ (16 + 1 + / 50)); [lra|apply rel_rnd; [lra|apply tiny_500; apply Rle_trans with (/ 2 ^ 28); [simpl; lra|lra]|exact Rr]]).
    destruct (rel_pos _ _ _ Rd) as [Bd Bd']; [split; lra|lra|]. destruct (fsqrt_spec (fdiv s t) Fd) as [Fb Vb]; [lra|]. split; [exact Fb|]. rewrite Vb. unfold factor_of in *. cbv zeta in *. fold A in FR |- *.
    apply (rel_weaken _ _ (171 / 10 + 1 + / 50)); [lra|]. apply rel_rnd; [lra|apply tiny_500; apply Rle_trans with (/ 2 ^ 14); [simpl; lra|lra]|]. apply rel_sqrt; [lra|lra|exact Rd].
  Qed.

  Lemma f_eq (a b : f64) : fin a -> fin b -> val a = val b -> val a <> 0 -> a = b.
  Proof. intros Fa Fb E N. apply (B2R_inj 53 1024); [| |exact E]; [destruct a|destruct b]; try discriminate; try reflexivity; cbn in *; try (rewrite <- E in *); lra. Qed.

  (** the assertion fails for exactly one number *)
  Lemma assert_iff : andb (fle f0 (f_mada_eps e)) (flt (f_mada_eps e) f1) = true <-> e <> f_nearly_minus1.
  Proof.
    destruct eps_rel as [Fs [Rs [Fp Rp]]]. destruct f1_spec as [F1 V1]. destruct half_spec as [Fh Vh]. pose proof x_range as XR. pose proof x_pos as XP.
    destruct (rel_pos _ _ _ Rp) as [Lp _]; [split; lra|lra|]. assert (C1 : fle f0 (f_mada_eps e) = true) by (apply (fle_true f0 _ fin_f0 Fp); rewrite val_f0; lra). rewrite C1. cbn [andb].
    split.
    - intros H E. subst e. assert (X : flt (f_mada_eps f_nearly_minus1) f1 = false) by (vm_compute; reflexivity). congruence.
    - intros N. apply (flt_true _ _ Fp F1). rewrite V1. destruct (fsub_rnd f1 e F1 Fe) as [_ [Va _]]; [rewrite V1; apply small_1000; rewrite Rabs_pos_eq by lra; pose proof p40; lra|]. rewrite V1 in Va.
      assert (HX : x <= 2 - / 2 ^ 52). { destruct (grid e Fe Be) as [L|[k [E K]]]; [apply Rabs_def2 in L; assert (/ 2 ^ 52 <= / 4) by (simpl; lra); lra|].
        assert (K2 : (- 2 ^ 53 + 2 <= k)%Z). { assert (NK : k <> (-9007199254740991)%Z). { intros ->. apply N. destruct (normalize_exact (-9007199254740991) (-53)) as [Fn Vn]; [vm_compute; reflexivity|lia|]. apply f_eq; [exact Fe|exact Fn| |].
            - unfold f_nearly_minus1. rewrite Vn, E. change (-53)%Z with (- Z.of_nat 53)%Z. rewrite bpow_opp, two_pow. reflexivity.
            - rewrite E. intros Z. apply Rmult_integral in Z. assert (0 < / 2 ^ 53) by (apply Rinv_0_lt_compat, pow_lt; lra). destruct Z; lra. }
          change (2 ^ 53)%Z with 9007199254740992%Z in *. lia. }
        apply IZR_le in K2. rewrite plus_IZR, opp_IZR in K2. change (2 ^ 53)%Z with 9007199254740992%Z in K2. rewrite E. assert (S53 : / 2 ^ 53 = / 9007199254740992) by (simpl; lra). assert (S52 : / 2 ^ 52 = 2 * / 9007199254740992) by (simpl; lra). rewrite S53, S52. lra. }
      set (p2 := binary_normalize 53 1024 eq_refl eq_refl mode_NE 9007199254740991 (-52) false). set (p1 := binary_normalize 53 1024 eq_refl eq_refl mode_NE 9007199254740991 (-53) false).
      assert (V2 : val p2 = 2 - / 2 ^ 52). { destruct (normalize_exact 9007199254740991 (-52)) as [_ V]; [vm_compute; reflexivity|lia|]. unfold p2. rewrite V. change (-52)%Z with (- Z.of_nat 52)%Z. rewrite bpow_opp, two_pow. simpl. lra. }
      assert (W1 : val p1 = 1 - / 2 ^ 53). { destruct (normalize_exact 9007199254740991 (-53)) as [_ V]; [vm_compute; reflexivity|lia|]. unfold p1. rewrite V. change (-53)%Z with (- Z.of_nat 53)%Z. rewrite bpow_opp, two_pow. simpl. lra. }
      assert (A2 : val (fsub f1 e) <= 2 - / 2 ^ 52) by (rewrite Va, <- V2, <- (rnd_val p2), V2; apply rnd_mono; lra).
      destruct (rel_pos _ _ _ Rs) as [La _]; [split; lra|lra|]. destruct (fmul_rnd f_half (fsub f1 e) Fh Fs) as [_ Vm]; [rewrite Vh; apply small_1000; rewrite Rabs_pos_eq by lra; pose proof p40; lra|]. unfold f_mada_eps. rewrite Vm, Vh.
      apply Rle_lt_trans with (1 - / 2 ^ 53); [|simpl; lra]. rewrite <- W1, <- (rnd_val p1), W1. apply rnd_mono. assert (/ 2 ^ 52 = 2 * / 2 ^ 53) by (simpl; lra). lra.
  Qed.
End Factor.

(** ** the normaliser, for exponents bounded by B *)
Section Norm.
  Variables (fexp fln : f64 -> f64).
  Hypothesis Hexp : precise_exp fexp.
  Hypothesis Hln : precise_ln fln.
  Variables (logs : list f64) (B : R).
  Local Notation li i := (nth i logs f0).
  Local Notation S l := (rsum (map (fun i => exp (val (nth i logs f0))) l)).
  Hypothesis B0 : 1 <= B.
  Hypothesis Fx : forall i, (i < length logs)%nat -> fin (li i) /\ Rabs (val (li i)) <= B.
  Hypothesis N1 : (1 <= length logs)%nat.
  Hypothesis NB : INR (length logs) * (B + 22) <= 2 ^ 26.
  Local Notation c := (/ 2 ^ 51 * (B + 22)).

  Lemma n_real : 1 <= INR (length logs). Proof. change 1 with (INR 1). apply le_INR, N1. Qed.
  Lemma B_small : B + 22 <= 2 ^ 26. Proof. pose proof n_real. nra. Qed.
  Lemma n_small : INR (length logs) <= 2 ^ 22. Proof. pose proof n_real. assert (INR (length logs) * 23 <= 2 ^ 26) by nra. assert (2 ^ 26 = 16 * 2 ^ 22) by (simpl; lra). lra. Qed.
  Lemma c_small : 0 < c /\ INR (length logs) * c <= / 2 ^ 25.
  Proof.
    assert (P : 0 < / 2 ^ 51) by (apply Rinv_0_lt_compat, pow_lt; lra). split; [apply Rmult_lt_0_compat; lra|]. replace (INR (length logs) * c) with (/ 2 ^ 51 * (INR (length logs) * (B + 22))) by ring. apply Rle_trans with (/ 2 ^ 51 * 2 ^ 26); [apply Rmult_le_compat_l; lra|simpl; lra].
  Qed.
  Lemma ln_n k : (1 <= k)%nat -> (k <= length logs)%nat -> 0 <= ln (INR k) <= 16.
  Proof.
    intros H1 H. assert (1 <= INR k) by (change 1 with (INR 1); apply le_INR; lia). assert (INR k <= 2 ^ 22) by (eapply Rle_trans; [apply le_INR, H|apply n_small]). split; [rewrite <- ln_1; apply ln_le; lra|]. apply Rle_trans with (ln (2 ^ 22)); [apply ln_le; lra|].
    rewrite ln_pow by lra. pose proof ln2_upper. rewrite INR_IZR_INZ. change (Z.of_nat 22) with 22%Z. lra.
  Qed.
  Lemma sum_range' l : (forall i, In i l -> (i < length logs)%nat) -> INR (length l) * exp (- B) <= S l <= INR (length l) * exp B.
  Proof.
    induction l as [|i l IH]; intros Hl; [simpl; lra|]. cbn [map rsum length]. rewrite S_INR. destruct IH as [I1 I2]; [intros; apply Hl; right; assumption|].
    destruct (Fx i) as [_ Q]; [apply Hl; left; reflexivity|]. apply Rabs_le_inv in Q. assert (exp (- B) <= exp (val (li i)) <= exp B) by (split; apply exp_le_exp; lra). lra.
  Qed.
  Lemma ln_sum l : l <> [] -> (length l <= length logs)%nat -> (forall i, In i l -> (i < length logs)%nat) -> 0 < S l /\ - B <= ln (S l) <= B + 16.
  Proof.
    intros Nl Ll Hl. assert (Ld : (1 <= length l)%nat) by (destruct l; [congruence|simpl; lia]). assert (SB := sum_range' l Hl). destruct (ln_n _ Ld Ll) as [C0 C1]. assert (M1 : 1 <= INR (length l)) by (change 1 with (INR 1); apply le_INR; lia).
    pose proof (exp_pos (- B)) as X1. pose proof (exp_pos B) as X2. assert (SP : 0 < S l) by (destruct SB as [SB _]; set (s := S l) in *; clearbody s; nra). split; [exact SP|]. split; [rewrite <- (ln_exp (- B)); apply ln_le; [lra|destruct SB as [SB _]; set (s := S l) in *; clearbody s; nra]|]. apply Rle_trans with (ln (INR (length l) * exp B)); [apply ln_le; lra|]. rewrite ln_mult, ln_exp by lra. lra.
  Qed.
  Lemma fold_norm' js : forall done v, done <> [] -> (forall i, In i (done ++ js) -> (i < length logs)%nat) -> (length done + length js <= length logs)%nat ->
    fin v -> (forall i, In i done -> val (li i) <= val v) -> Rabs (val v - ln (S done)) <= INR (length done - 1) * c ->
    let r := fold_left (fun v j => f_ada_add fexp fln v (li j)) js v in
    fin r /\ (forall i, In i (done ++ js) -> val (li i) <= val r) /\ Rabs (val r - ln (S (done ++ js))) <= INR (length done + length js - 1) * c.
  Proof.
    destruct c_small as [Cp Cn].
    induction js as [|j js IH]; intros done v Nd Hr Hn Fv Lv Av; cbv zeta.
    - rewrite app_nil_r. cbn [fold_left length]. rewrite Nat.add_0_r. split; [exact Fv|]. split; assumption.
    - cbn [fold_left]. cbn [length] in Hn. destruct (ln_sum done Nd) as [SP LS]; [unfold f64 in *; lia|intros i Hi; apply Hr, in_or_app; left; exact Hi|].
      assert (E1 : INR (length done - 1) * c <= 1). { apply Rle_trans with (INR (length logs) * c); [apply Rmult_le_compat_r; [lra|apply le_INR; unfold f64 in *; lia]|]. eapply Rle_trans; [exact Cn|simpl; lra]. }
      assert (Bv : Rabs (val v) <= B + 17) by (apply Rabs_le; apply Rabs_le_inv in Av; lra).
      destruct (Fx j) as [Fj Bj]; [apply Hr, in_or_app; right; left; reflexivity|]. pose proof B_small as BS. assert (P26 : 2 ^ 26 <= 2 ^ 40) by (apply Rle_pow; [lra|lia]).
      destruct (add_ok fexp fln Hexp Hln v (li j) (B + 17) Fv Fj Bv) as [Fa [La [Lj Aa]]]; [lra|lra|]. set (v' := f_ada_add fexp fln v (li j)) in *.
      assert (EqA : done ++ j :: js = (done ++ [j]) ++ js) by (rewrite <- app_assoc; reflexivity). rewrite EqA.
      replace (length done + length (j :: js) - 1)%nat with (length (done ++ [j]) + length js - 1)%nat by (rewrite app_length; simpl; lia).
      apply IH.
      + intros Q. apply app_eq_nil in Q. destruct Q; discriminate.
      + intros i Hi. apply Hr. rewrite EqA. exact Hi.
      + rewrite app_length. cbn [length]. unfold f64 in *. lia.
      + exact Fa.
      + intros i Hi. apply in_app_or in Hi. destruct Hi as [Hi|[<- |[]]]; [specialize (Lv i Hi); lra|exact Lj].
      + rewrite map_app, rsum_app. cbn [map rsum]. rewrite Rplus_0_r. replace (length (done ++ [j]) - 1)%nat with (Datatypes.S (length done - 1)) by (rewrite app_length; destruct done; [congruence|simpl; lia]). rewrite S_INR.
        assert (LL : Rabs (ln (exp (val v) + exp (val (li j))) - ln (S done + exp (val (li j)))) <= INR (length done - 1) * c).
        { rewrite <- (exp_ln (S done)) by exact SP. eapply Rle_trans; [apply lse_lip, exp_pos|]. exact Av. }
        replace (val v' - ln (S done + exp (val (li j)))) with ((val v' - ln (exp (val v) + exp (val (li j)))) + (ln (exp (val v) + exp (val (li j))) - ln (S done + exp (val (li j))))) by ring.
        eapply Rle_trans; [apply Rabs_triang|]. rewrite Rmult_plus_distr_r, Rmult_1_l. replace (B + 17 + 5) with (B + 22) in Aa by ring. lra.
  Qed.
  Lemma norm_gen ix : Permutation ix (seq 0 (length logs)) ->
    exists z, f_ada_norm fexp fln logs ix = Ok z /\ fin z /\ (forall i, (i < length logs)%nat -> val (li i) <= val z) /\
      Rabs (val z - ln (S (seq 0 (length logs)))) <= INR (length logs) * c /\ Rabs (val z) <= B + 17.
  Proof.
    intros P. destruct c_small as [Cp Cn]. assert (Lx : length ix = length logs) by (rewrite (Permutation_length P); apply seq_length).
    assert (Ix : forall j, In j ix <-> (j < length logs)%nat). { intros j. split; intros Q; [apply (Permutation_in _ P) in Q; apply in_seq in Q; lia|apply (Permutation_in _ (Permutation_sym P)); apply in_seq; lia]. }
    rewrite <- (rsum_perm _ _ (Permutation_map (fun i => exp (val (li i))) P)). destruct ix as [|i ix]; [pose proof N1; simpl in Lx; unfold f64 in *; lia|]. cbn [f_ada_norm]. eexists. split; [reflexivity|].
    destruct (Fx i) as [Fi Bi]; [apply Ix; left; reflexivity|].
    destruct (fold_norm' ix [i] (li i)) as [F [L A]].
    - discriminate.
    - intros j Hj. apply Ix. exact Hj.
    - change (length [i] + length ix)%nat with (length (i :: ix)). rewrite Lx. reflexivity.
    - exact Fi.
    - intros j [<- |[]]. lra.
    - cbn [map rsum length]. rewrite Rplus_0_r, ln_exp, Rminus_diag_eq, Rabs_R0 by reflexivity. simpl INR. lra.
    - cbn [app] in L, A. split; [exact F|]. split; [intros j Hj; apply L, Ix, Hj|].
      assert (A' : Rabs (val (fold_left (fun v j => f_ada_add fexp fln v (li j)) ix (li i)) - ln (S (i :: ix))) <= INR (length logs) * c).
      { eapply Rle_trans; [exact A|]. apply Rmult_le_compat_r; [lra|]. apply le_INR. cbn [length] in Lx |- *. unfold f64 in *. lia. }
      split; [exact A'|]. destruct (ln_sum (i :: ix)) as [SP LS]; [discriminate|rewrite Lx; reflexivity|intros j Hj; apply Ix, Hj|]. assert (E1 : / 2 ^ 25 <= 1) by (simpl; lra).
      apply Rabs_le. apply Rabs_le_inv in A'. lra.
  Qed.

  (** the entries exp(l_i - z): the softmax, up to 2^-22 *)
  Lemma soft_entries ix z : Permutation ix (seq 0 (length logs)) -> f_ada_norm fexp fln logs ix = Ok z -> forall i, (i < length logs)%nat ->
    let d := fexp (fsub (li i) z) in let s := exp (val (li i)) / S (seq 0 (length logs)) in
    fin d /\ 0 <= val d <= 1 /\ Rabs (val d - s) <= / 2 ^ 22 * s + / 2 ^ 1075.
  Proof.
    intros P Ez i Hi. cbv zeta. destruct (norm_gen ix P) as [z' [Ez' [Fz [Lz [Az Bz]]]]]. rewrite Ez in Ez'. injection Ez' as <-. destruct (Fx i Hi) as [Fi Bi]. specialize (Lz i Hi). destruct c_small as [Cp Cn]. pose proof B_small as BS.
    destruct (ln_sum (seq 0 (length logs))) as [SP LS]; [destruct (length logs) eqn:E; [pose proof N1; lia|discriminate]|rewrite seq_length; reflexivity|intros j Hj; apply in_seq in Hj; lia|]. set (Sm := S (seq 0 (length logs))) in *. set (l := val (li i)) in *. pose proof uu_pos as U0.
    assert (BD : Rabs (l - val z) <= 2 * B + 17) by (eapply Rle_trans; [apply Rabs_triang|]; rewrite Rabs_Ropp; lra).
    destruct (fsub_rnd (li i) z Fi Fz) as [Ft [Vt [e [He Ee]]]]; [fold l; apply small_1000; assert (2 ^ 27 <= 2 ^ 40) by (apply Rle_pow; [lra|lia]); assert (2 ^ 27 = 2 * 2 ^ 26) by (simpl; lra); lra|]. fold l in Vt, Ee. set (t := fsub (li i) z) in *.
    assert (T0 : val t <= 0). { rewrite Vt. pose proof (rnd_val f0) as R0. rewrite val_f0 in R0. rewrite <- R0. apply rnd_mono. lra. }
    destruct (Hexp t Ft T0) as [Fd [Bd Ed]]. split; [exact Fd|]. split; [exact Bd|].
    assert (TE : Rabs (val t - (l - ln Sm)) <= / 2 ^ 24). { rewrite Ee. replace ((l - val z) * (1 + e) - (l - ln Sm)) with ((l - val z) * e - (val z - ln Sm)) by ring. eapply Rle_trans; [apply Rabs_triang|]. rewrite Rabs_Ropp, Rabs_mult.
      assert (Rabs (l - val z) * Rabs e <= 2 ^ 27 * uu) by (apply Rmult_le_compat; try apply Rabs_pos; [assert (2 ^ 27 = 2 * 2 ^ 26) by (simpl; lra); lra|exact He]). assert (2 ^ 27 * uu + / 2 ^ 25 <= / 2 ^ 24) by (rewrite uu_num; simpl; lra). lra. }
    set (q := l - ln Sm) in *. assert (EQ : exp l / Sm = exp q) by (unfold q, Rminus; rewrite exp_plus, exp_Ropp, exp_ln by exact SP; reflexivity). rewrite EQ. clearbody q. set (k := val t - q) in *. assert (Vk : val t = q + k) by (unfold k; ring). clearbody k. rewrite Vk, exp_plus in Ed.
    assert (S24 : / 2 ^ 24 = / 16777216) by (simpl; lra). rewrite S24 in TE. assert (KB := exp_bounds k ltac:(lra)). pose proof (exp_pos q) as Q0. pose proof (Rabs_pos k) as K0. set (s := exp q) in *. clearbody s. set (g := exp k) in *. clearbody g. set (D := val (fexp t)) in *. clearbody D. set (h := / 2 ^ 1075) in *. clearbody h.
    assert (SG : s * (1 - 2 * / 16777216) <= s * g <= s * (1 + 2 * / 16777216)) by (split; apply Rmult_le_compat_l; lra).
    assert (S52 : / 2 ^ 52 = / 4503599627370496) by (simpl; lra). rewrite S52 in Ed. assert (S22 : / 2 ^ 22 = / 4194304) by (simpl; lra). rewrite S22. apply Rabs_le_inv in Ed. apply Rabs_le. lra.
  Qed.
End Norm.
