(** Round limits in binary64: saturating casts, relative and absolute errors of the quotients *)
From Coq Require Import ZArith List Bool Reals Lia Lra Psatz.
From Flocq Require Import Core.Core IEEE754.BinarySingleNaN Mult_error.
From Verif Require Import Base Float FloatSpec FloatProofs FloatFacts FloatCheckFacts FloatSplit FloatSplitFacts FloatProjectProofs FloatEdge FloatEdgeFacts FloatTree FloatAdaSpec FloatAdaProofs FloatAdaRun FloatMada FloatMadaProofs FloatRTreeTerm FloatGrowProofs FloatRounds FloatRoundsSpec.
Import ListNotations.
Open Scope R_scope.

(** the casts *)
Lemma sat_down umax (x : f64) : fin x -> 0 <= val x -> Rmin (val x) (INR umax) - 1 < INR (f_sat_usize umax x) <= Rmin (val x) (INR umax).
Proof.
  intros Fx Hx. assert (E : f_sat_usize umax x = Nat.min umax (f_as_usize x)).
  { destruct x as [s|s| |s m e H]; try discriminate; [|reflexivity]. unfold f_as_usize. cbn. symmetry. apply Nat.min_0_r. }
  rewrite E. pose proof (trunc_spec x Hx) as T. set (k := f_as_usize x) in *. clearbody k. clear E.
  destruct (Nat.min_spec umax k) as [[L ->]|[L ->]].
  - assert (INR umax < val x) by (eapply Rlt_le_trans; [apply lt_INR, L|lra]). rewrite Rmin_right by lra. lra.
  - apply le_INR in L. split; [|apply Rmin_glb; lra]. pose proof (Rmin_l (val x) (INR umax)). lra.
Qed.
Lemma ceil_spec (x : f64) : fin x -> fin (f_ceil x) /\ val (f_ceil x) = IZR (Zceil (val x)).
Proof.
  intros Fx. destruct (Bnearbyint_correct 53 1024 _ mode_UP x) as [V [F _]]. split; [unfold f_ceil; rewrite F; exact Fx|]. unfold f_ceil. rewrite V.
  unfold round, F2R, scaled_mantissa, cexp, FIX_exp. simpl. rewrite !Rmult_1_r. reflexivity.
Qed.
Lemma sat_up umax (x : f64) : fin x -> 0 <= val x -> Rmin (val x) (INR umax) <= INR (f_sat_usize umax (f_ceil x)) < Rmin (val x) (INR umax) + 1.
Proof.
  intros Fx Hx. destruct (ceil_spec x Fx) as [Fc Vc]. set (c := f_ceil x) in *. clearbody c. assert (C0 : 0 <= val c) by (rewrite Vc; eapply Rle_trans; [exact Hx|apply Zceil_ub]).
  assert (E : f_sat_usize umax c = Nat.min umax (f_as_usize c)).
  { destruct c as [s|s| |s m e H]; try discriminate; [|reflexivity]. unfold f_as_usize. cbn. symmetry. apply Nat.min_0_r. }
  assert (K : INR (f_as_usize c) = val c).
  { pose proof (trunc_spec c C0) as T. rewrite Vc in T |- *. rewrite INR_IZR_INZ in *. f_equal. rewrite <- plus_IZR in T. destruct T as [T1 T2]. apply le_IZR in T1. apply lt_IZR in T2. lia. }
  rewrite E. pose proof (Zceil_ub (val x)) as U1. pose proof (Zceil_lb (val x)) as U2. rewrite <- Vc in U1, U2. set (k := f_as_usize c) in *. clearbody k. clear E.
  destruct (Nat.min_spec umax k) as [[L ->]|[L ->]].
  - split; [apply Rmin_r|]. assert (I : INR umax + 1 <= INR k) by (rewrite <- S_INR; apply le_INR; lia). rewrite K in I. rewrite Rmin_right by lra. lra.
  - apply le_INR in L. rewrite K in *. split; [eapply Rle_trans; [apply Rmin_l|lra]|]. unfold Rmin. destruct (Rle_dec _ _); lra.
Qed.
Lemma min_near a b u e : Rabs (a - b) <= e -> Rmin b u - e <= Rmin a u <= Rmin b u + e.
Proof. intros H. apply Rabs_le_inv in H. unfold Rmin. destruct (Rle_dec a u), (Rle_dec b u); lra. Qed.
Lemma down_near umax x X e : fin x -> 0 <= val x -> Rabs (val x - X) <= e -> rounded_down umax (f_sat_usize umax x) X e.
Proof. intros Fx Hx H. pose proof (sat_down umax x Fx Hx) as S. pose proof (min_near _ _ (INR umax) _ H) as M. unfold rounded_down. lra. Qed.
Lemma up_near umax x X e : fin x -> 0 <= val x -> Rabs (val x - X) <= e -> rounded_up umax (f_sat_usize umax (f_ceil x)) X e.
Proof. intros Fx Hx H. pose proof (sat_up umax x Fx Hx) as S. pose proof (min_near _ _ (INR umax) _ H) as M. unfold rounded_up. lra. Qed.

Lemma div_nonneg a b : 0 <= a -> 0 < b -> 0 <= a / b.
Proof. intros H K. apply Rmult_le_pos; [exact H|left; apply Rinv_0_lt_compat, K]. Qed.
(** an error of [a] units relative to X, and [s] on top *)
Definition near (x X a s : R) : Prop := Rabs (x - X) <= a * uu * X + s.
Lemma near_weaken x X a s a' s' : 0 <= X -> a <= a' -> s <= s' -> near x X a s -> near x X a' s'.
Proof. unfold near. intros HX Ha Hs H. eapply Rle_trans; [exact H|]. pose proof uu_pos. apply Rplus_le_compat; [|exact Hs]. apply Rmult_le_compat_r; [exact HX|]. nra. Qed.
Lemma near_scale k x X a s : 0 <= k -> near x X a s -> near (k * x) (k * X) a (k * s).
Proof. unfold near. intros Hk H. replace (k * x - k * X) with (k * (x - X)) by ring. rewrite Rabs_mult, (Rabs_pos_eq k) by exact Hk. replace (a * uu * (k * X) + k * s) with (k * (a * uu * X + s)) by ring. apply Rmult_le_compat_l; assumption. Qed.
Lemma near_rnd x X a s : 0 <= X -> 0 <= a <= 20 -> 0 <= s -> near x X a s -> near (rnd x) X (a + 1 + / 50) (1001 / 1000 * s + eta0).
Proof.
  unfold near. intros HX Ha Hs H. pose proof (rnd_near x) as R1. pose proof uu_num as UN. pose proof uu_pos as U0. set (ux := uu * X). assert (UX : 0 <= ux) by (apply Rmult_le_pos; lra).
  assert (Q : Rabs x <= X + (a * ux + s)). { replace x with (X + (x - X)) by ring. eapply Rle_trans; [apply Rabs_triang|]. rewrite (Rabs_pos_eq X) by exact HX. unfold ux. lra. }
  assert (Q2 : uu * Rabs x <= ux + (/ 50 * ux + / 1000 * s)).
  { eapply Rle_trans; [apply Rmult_le_compat_l; [lra|exact Q]|]. replace (uu * (X + (a * ux + s))) with (ux + (uu * a * ux + uu * s)) by (unfold ux; ring). apply Rplus_le_compat_l, Rplus_le_compat; apply Rmult_le_compat_r; try assumption; rewrite UN; lra. }
  replace (rnd x - X) with (rnd x - x + (x - X)) by ring. eapply Rle_trans; [apply Rabs_triang|]. replace ((a + 1 + / 50) * uu * X) with (a * uu * X + ux + / 50 * ux) by (unfold ux; ring). lra.
Qed.
Lemma near_div x X a s d D c : 0 <= X -> 0 <= a <= 10 -> 0 <= s -> 0 <= c <= 10 -> 0 < D -> near x X a s -> rel d D c -> near (x / d) (X / D) (a + c + / 50) (1001 / 1000 * (s / D)).
Proof.
  unfold near. intros HX Ha Hs Hc HD H [k [Hk ->]]. pose proof uu_num as UN. pose proof uu_pos as U0. assert (Hk' : Rabs k <= / 1000000) by (eapply Rle_trans; [exact Hk|]; rewrite UN; lra). apply Rabs_le_inv in Hk'.
  replace (x / (D * (1 + k)) - X / D) with ((x - X + - k * X) / D * / (1 + k)) by (field; lra). rewrite Rabs_mult, (Rabs_pos_eq (/ (1 + k))) by (left; apply Rinv_0_lt_compat; lra).
  assert (I : / (1 + k) <= 10001 / 10000). { apply (Rmult_le_reg_l (1 + k)); [lra|]. rewrite Rinv_r by lra. lra. }
  set (ux := uu * (X / D)). assert (XD : 0 <= X / D) by (apply div_nonneg; lra). assert (UX : 0 <= ux) by (apply Rmult_le_pos; lra). assert (SD : 0 <= s / D) by (apply div_nonneg; lra).
  assert (T : Rabs ((x - X + - k * X) / D) <= (a + c) * ux + s / D).
  { unfold Rdiv. rewrite Rabs_mult, (Rabs_pos_eq (/ D)) by (left; apply Rinv_0_lt_compat; lra). replace ((a + c) * ux + s * / D) with ((a * uu * X + s + c * uu * X) * / D) by (unfold ux, Rdiv; ring). apply Rmult_le_compat_r; [left; apply Rinv_0_lt_compat; lra|].
    eapply Rle_trans; [apply Rabs_triang|]. apply Rplus_le_compat; [exact H|]. rewrite Rabs_mult, Rabs_Ropp, (Rabs_pos_eq X) by exact HX. apply Rmult_le_compat_r; assumption. }
  apply Rle_trans with (((a + c) * ux + s / D) * (10001 / 10000)); [apply Rmult_le_compat; try apply Rabs_pos; try assumption; left; apply Rinv_0_lt_compat; lra|].
  replace ((a + c + / 50) * uu * (X / D)) with ((a + c) * ux + / 50 * ux) by (unfold ux; ring). assert ((a + c) * ux <= 20 * ux) by (apply Rmult_le_compat_r; lra). lra.
Qed.

Lemma rnd_nonneg x : 0 <= x -> 0 <= rnd x.
Proof. intros H. pose proof (rnd_val f0) as R0. rewrite val_f0 in R0. rewrite <- R0. apply rnd_mono. exact H. Qed.
Lemma pow_1000 (k : nat) a : (k <= 1000)%nat -> a <= 2 ^ k -> a <= 2 ^ 1000.
Proof. intros K H. eapply Rle_trans; [exact H|]. apply Rle_pow; [lra|exact K]. Qed.

(** the square of the tolerance *)
Lemma square_spec (t : f64) : fin t -> / 2 ^ 101 <= val t <= 2 ^ 100 -> fin (f_square t) /\ rel (val (f_square t)) (val t ^ 2) (102 / 100) /\ / 2 ^ 202 <= val t ^ 2 <= 2 ^ 200.
Proof.
  intros Ft [L U]. assert (P : 0 < / 2 ^ 101) by (apply Rinv_0_lt_compat, pow_lt; lra). assert (R2 : / 2 ^ 202 <= val t ^ 2 <= 2 ^ 200).
  { split.
    - replace (/ 2 ^ 202) with ((/ 2 ^ 101) ^ 2) by (rewrite pow_inv, <- pow_mult; reflexivity). apply pow_incr. lra.
    - replace (2 ^ 200) with ((2 ^ 100) ^ 2) by (rewrite <- pow_mult; reflexivity). apply pow_incr. lra. }
  assert (E : val t * val t = val t ^ 2) by ring. assert (P2 : 0 < / 2 ^ 202) by (apply Rinv_0_lt_compat, pow_lt; lra).
  destruct (fmul_rnd t t Ft Ft) as [Fs Vs]. { rewrite E, Rabs_pos_eq by lra. apply (pow_1000 200); [lia|apply R2]. }
  unfold f_square. split; [exact Fs|]. split; [|exact R2]. rewrite Vs, E. apply (rel_weaken _ _ (0 + 1 + / 50)); [lra|]. apply rel_rnd; [lra| |apply rel_0].
  rewrite Rabs_pos_eq by lra. eapply Rle_trans; [|apply R2]. apply Rinv_le_contravar; [apply pow_lt; lra|apply Rle_pow; [lra|lia]].
Qed.
Lemma half_tol_spec (t : f64) : usual_tolerance t -> fin (f_half_tol t) /\ val (f_half_tol t) = val t / 2 /\ / 2 ^ 101 <= val (f_half_tol t) <= 2 ^ 100.
Proof.
  intros [Ft [L U]]. assert (P : 0 < / 2 ^ 100) by (apply Rinv_0_lt_compat, pow_lt; lra). destruct (of_usize_spec 2) as [F2 V2]; [simpl; lra|]. assert (V2' : val (f_of_usize 2) = 2) by (rewrite V2; simpl; lra).
  destruct (fdiv_spec t (f_of_usize 2) Ft) as [Fh Vh]; [rewrite V2'; lra|rewrite V2', Rabs_pos_eq by lra; apply Rle_lt_trans with (2 ^ 100); [lra|apply Rlt_pow; [lra|lia]]|]. rewrite V2' in Vh.
  assert (E : rnd (val t / 2) = val t / 2).
  { apply round_generic; [typeclasses eauto|]. replace (val t / 2) with (val t * bpow radix2 (-1)) by (simpl; lra). apply mult_bpow_exact_FLT; [apply (generic_format_B2R 53 1024)|].
    assert (M : (-99 <= mag radix2 (val t))%Z). { apply mag_ge_bpow. rewrite Rabs_pos_eq by lra. eapply Rle_trans; [|exact L]. change (-99 - 1)%Z with (- Z.of_nat 100)%Z. rewrite bpow_opp, two_pow. lra. }
    change (SpecFloat.emin 53 1024) with (-1074)%Z. lia. }
  unfold f_half_tol. rewrite Vh, E. split; [exact Fh|]. split; [reflexivity|]. split; [|lra]. replace (/ 2 ^ 101) with (/ 2 ^ 100 / 2); [lra|]. replace (2 ^ 101) with (2 ^ 100 * 2) by (rewrite Rmult_comm; reflexivity). field.
Qed.

(** a quotient by the square of a tolerance *)
Lemma quotient (num t : f64) X a s : fin num -> 0 <= val num <= 2 ^ 100 -> fin t -> / 2 ^ 101 <= val t <= 2 ^ 100 -> 0 <= X -> 0 <= a <= 5 -> 0 <= s -> near (val num) X a s ->
  fin (fdiv num (f_square t)) /\ 0 <= val (fdiv num (f_square t)) /\ near (val (fdiv num (f_square t))) (X / val t ^ 2) (a + 21 / 10) (1003 / 1000 * (s / val t ^ 2) + eta0).
Proof.
  intros Fn Hn Ft Ht HX Ha Hs N. destruct (square_spec t Ft Ht) as [Fs [Rs [L2 U2]]]. set (D := val t ^ 2) in *. set (d := f_square t) in *. assert (P2 : 0 < / 2 ^ 202) by (apply Rinv_0_lt_compat, pow_lt; lra).
  destruct (rel_pos _ _ _ Rs) as [B1 B2]; [lra|lra|]. assert (Q : Rabs (val num / val d) <= 2 ^ 303).
  { assert (0 <= val num / val d) by (apply div_nonneg; lra). rewrite Rabs_pos_eq by assumption. apply Rdiv_le_iff; [lra|]. apply Rle_trans with (2 ^ 303 * (/ 2 ^ 202 / 2)); [|apply Rmult_le_compat_l; [apply pow_le; lra|lra]].
    replace (2 ^ 303 * (/ 2 ^ 202 / 2)) with (2 ^ 100); [lra|]. replace (2 ^ 303) with (2 ^ 100 * (2 ^ 202 * 2)). - field. - change 303%nat with (100 + (202 + 1))%nat. rewrite !pow_add, pow_1. reflexivity. }
  destruct (fdiv_spec num d Fn) as [Fq Vq]; [lra|eapply Rle_lt_trans; [exact Q|apply Rlt_pow; [lra|lia]]|]. split; [exact Fq|]. split; [rewrite Vq; apply rnd_nonneg, div_nonneg; lra|]. rewrite Vq.
  assert (ND : near (val num / val d) (X / D) (a + 102 / 100 + / 50) (1001 / 1000 * (s / D))) by (apply near_div; try assumption; lra).
  assert (SD : 0 <= s / D) by (apply div_nonneg; lra). assert (XD : 0 <= X / D) by (apply div_nonneg; lra).
  apply (near_weaken _ _ (a + 102 / 100 + / 50 + 1 + / 50) (1001 / 1000 * (1001 / 1000 * (s / D)) + eta0)); [exact XD|lra|lra|]. apply near_rnd; [exact XD|lra|lra|exact ND].
Qed.
