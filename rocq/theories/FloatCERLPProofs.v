(** CERLPBoost in binary64: edges, the softmax bound, the invariant *)
From Coq Require Import ZArith List Bool Reals Lia Lra Psatz.
From Flocq Require Import Core.Core IEEE754.BinarySingleNaN.
From Verif Require Import Base Spec Float FloatSpec FloatProofs FloatFacts FloatCheckFacts FloatProjectSpec FloatProject FloatProjectProofs FloatProjectFacts FloatTree FloatMada FloatMadaProofs FloatRounds FrankWolfe FrankWolfeProofs FloatFW FloatFWSpec FloatFWProofs FloatFWFacts FloatExpDist FloatExpDistSpec FloatExpDistFacts FloatCERLP FloatCERLPSpec.
Import ListNotations.
Open Scope R_scope.

Definition ssum (n : nat) (f : nat -> R) : R := rsum (map f (seq 0 n)).
Lemma ssum_S n f : ssum (S n) f = f 0%nat + ssum n (fun i => f (S i)).
Proof. unfold ssum. cbn [seq map rsum]. rewrite <- seq_shift, map_map. reflexivity. Qed.
Lemma ssum_le n f g : (forall i, (i < n)%nat -> f i <= g i) -> ssum n f <= ssum n g.
Proof. revert f g. induction n as [|n IH]; intros f g Hfg; [unfold ssum; simpl; lra|]. rewrite !ssum_S. apply Rplus_le_compat; [apply Hfg; lia|apply IH; intros i Hi; apply Hfg; lia]. Qed.
Lemma ssum_eq n f g : (forall i, (i < n)%nat -> f i = g i) -> ssum n f = ssum n g.
Proof. intros E. apply Rle_antisym; apply ssum_le; intros i Hi; rewrite E by exact Hi; lra. Qed.
Lemma ssum_plus n f g : ssum n (fun i => f i + g i) = ssum n f + ssum n g.
Proof. revert f g. induction n as [|n IH]; intros f g; [unfold ssum; simpl; ring|]. rewrite !ssum_S, IH. ring. Qed.
Lemma ssum_scale n c f : ssum n (fun i => c * f i) = c * ssum n f.
Proof. revert f. induction n as [|n IH]; intros f; [unfold ssum; simpl; ring|]. rewrite !ssum_S, IH. ring. Qed.
Lemma ssum_const n c : ssum n (fun _ => c) = INR n * c.
Proof. induction n as [|n IH]; [unfold ssum; simpl; ring|]. rewrite ssum_S, IH, S_INR. ring. Qed.
Lemma ssum_abs n f : Rabs (ssum n f) <= ssum n (fun i => Rabs (f i)).
Proof. revert f. induction n as [|n IH]; intros f; [unfold ssum; simpl; rewrite Rabs_R0; lra|]. rewrite !ssum_S. eapply Rle_trans; [apply Rabs_triang|]. specialize (IH (fun i => f (S i))). lra. Qed.
Lemma rsum_ssum (l : list R) : rsum l = ssum (length l) (fun i => nth i l 0).
Proof. induction l as [|x l IH]; [reflexivity|]. cbn [length rsum]. rewrite ssum_S, IH. reflexivity. Qed.
Lemma dot_ssum (a : list f64) : forall b : list f64, length a = length b -> dot_exact a b = ssum (length a) (fun i => val (nth i a f0) * val (nth i b f0)).
Proof.
  induction a as [|x a IH]; intros [|y b] L; try discriminate L; [reflexivity|]. change (dot_exact (x :: a) (y :: b)) with (val x * val y + dot_exact a b). cbn [length]. rewrite ssum_S, IH by (simpl in L; lia). reflexivity.
Qed.
Lemma dot_size_ssum (a : list f64) : forall b : list f64, length a = length b -> dot_size a b = ssum (length a) (fun i => Rabs (val (nth i a f0) * val (nth i b f0))).
Proof.
  induction a as [|x a IH]; intros [|y b] L; try discriminate L; [reflexivity|]. change (dot_size (x :: a) (y :: b)) with (Rabs (val x * val y) + dot_size a b). cbn [length]. rewrite ssum_S, IH by (simpl in L; lia). reflexivity.
Qed.

(** an edge: weights in [0,1] that sum to at most 2, numbers within 2 that are close to given reals *)
Lemma edge_close (d x : list f64) (r : nat -> R) (n : nat) (dl : R) : length d = n -> length x = n -> INR n <= 2 ^ 30 -> 0 <= dl ->
  (forall i, (i < n)%nat -> fin (nth i d f0) /\ 0 <= val (nth i d f0) <= 1) -> ssum n (fun i => val (nth i d f0)) <= 2 ->
  (forall i, (i < n)%nat -> fin (nth i x f0) /\ Rabs (val (nth i x f0)) <= 2 /\ Rabs (val (nth i x f0) - r i) <= dl) ->
  fin (fsum (f_products d x)) /\ Rabs (val (fsum (f_products d x)) - ssum n (fun i => val (nth i d f0) * r i)) <= 9 * uu * INR n + 2 * dl.
Proof.
  intros Ld Lx Hn Hdl Hd Sd Hx. pose proof uu_pos as Up. pose proof uu_small as Us. assert (few (length d)) as Fw by (rewrite Ld; unfold few; apply Rle_trans with (1 := Hn), Rle_pow; [lra|lia]).
  assert (Hds : dot_size d x <= 4).
  { rewrite dot_size_ssum by congruence. rewrite Ld. apply Rle_trans with (ssum n (fun i => 2 * val (nth i d f0))); [apply ssum_le; intros i Hi|rewrite ssum_scale; lra].
    destruct (Hd i Hi) as [_ B]. destruct (Hx i Hi) as [_ [C _]]. rewrite Rabs_mult, (Rabs_pos_eq (val (nth i d f0))) by lra. pose proof (Rabs_pos (val (nth i x f0))). nra. }
  assert (P2 : 4 < 2 ^ 1022) by (apply Rle_lt_trans with (2 ^ 2); [simpl; lra|apply Rlt_pow; [lra|lia]]).
  destruct (P_C77_inner_product_error d x (FLeaf (f_products d x)) eq_refl) as [F E]; [congruence| | |exact Fw|apply Rle_lt_trans with (1 := Hds); exact P2|].
  { intros w Hw. apply (In_nth _ _ f0) in Hw. destruct Hw as [i [Hi <-]]. apply Hd. rewrite <- Ld. exact Hi. }
  { intros w Hw. apply (In_nth _ _ f0) in Hw. destruct Hw as [i [Hi <-]]. apply Hx. rewrite <- Lx. exact Hi. }
  cbn [ftree_sum] in F, E. split; [exact F|]. set (sm := fsum (f_products d x)) in *. rewrite (dot_ssum d x) in E by congruence. rewrite Ld in *.
  assert (E1 : Rabs (val sm - ssum n (fun i => val (nth i d f0) * val (nth i x f0))) <= 9 * uu * INR n).
  { apply Rle_trans with (1 := E). destruct (gam_few _ Fw) as [G _]. pose proof (pos_INR n) as Pn. assert (D0 : 0 <= dot_size d x) by (unfold dot_size; apply rsum_nonneg; intros q Hq; apply in_map_iff in Hq; destruct Hq as [q' [<- _]]; apply Rabs_pos).
    assert (G' : gam n * dot_size d x <= 2 * (INR n * uu) * 4) by (pose proof (gam_nonneg n); apply Rmult_le_compat; lra).
    assert (B : / 2 ^ 1074 <= uu) by (unfold uu; apply Rinv_le_contravar; [apply pow_lt; lra|apply Rle_pow; [lra|lia]]). assert (INR n * / 2 ^ 1074 <= INR n * uu) by (apply Rmult_le_compat_l; [exact Pn|exact B]). lra. }
  assert (E2 : Rabs (ssum n (fun i => val (nth i d f0) * val (nth i x f0)) - ssum n (fun i => val (nth i d f0) * r i)) <= 2 * dl).
  { replace (ssum n (fun i => val (nth i d f0) * val (nth i x f0)) - ssum n (fun i => val (nth i d f0) * r i)) with (ssum n (fun i => val (nth i d f0) * (val (nth i x f0) - r i))).
    - eapply Rle_trans; [apply ssum_abs|]. apply Rle_trans with (ssum n (fun i => dl * val (nth i d f0))); [apply ssum_le; intros i Hi|rewrite ssum_scale; nra].
      destruct (Hd i Hi) as [_ B]. destruct (Hx i Hi) as [_ [_ C]]. rewrite Rabs_mult, (Rabs_pos_eq (val (nth i d f0))) by lra. rewrite Rmult_comm. apply Rmult_le_compat_r; lra.
    - transitivity (ssum n (fun i => val (nth i d f0) * val (nth i x f0) + (-1) * (val (nth i d f0) * r i))); [apply ssum_eq; intros; ring|]. rewrite ssum_plus, ssum_scale. ring. }
  replace (val sm - ssum n (fun i => val (nth i d f0) * r i)) with ((val sm - ssum n (fun i => val (nth i d f0) * val (nth i x f0))) + (ssum n (fun i => val (nth i d f0) * val (nth i x f0)) - ssum n (fun i => val (nth i d f0) * r i))) by ring.
  eapply Rle_trans; [apply Rabs_triang|]. lra.
Qed.

(** the exponential distribution is on average within ln n / eta of the smallest margin *)
Lemma softmax_sum eta ms : ms <> [] -> (forall i, (i < length ms)%nat -> 0 < exact_exp_distribution eta ms i) /\ ssum (length ms) (fun i => exact_exp_distribution eta ms i) = 1.
Proof.
  intros N. set (Z := rsum (map (fun m => exp (- eta * m)) ms)). assert (PZ : 0 < Z) by (apply rsum_pos; [destruct ms; [contradiction|discriminate]|intros q Hq; apply in_map_iff in Hq; destruct Hq as [q' [<- _]]; apply exp_pos]).
  split; [intros i _; apply Rdiv_lt_0_compat; [apply exp_pos|exact PZ]|].
  transitivity (ssum (length ms) (fun i => / Z * exp (- eta * nth i ms 0))); [apply ssum_eq; intros i Hi; unfold exact_exp_distribution; fold Z; unfold Rdiv; ring|]. rewrite ssum_scale.
  assert (E : ssum (length ms) (fun i => exp (- eta * nth i ms 0)) = Z).
  { unfold Z. rewrite rsum_ssum, map_length. apply ssum_eq. intros i Hi. rewrite (map_ext_nth (fun m => exp (- eta * m)) ms 0) by exact Hi. reflexivity. }
  rewrite E. field. lra.
Qed.
Lemma softmax_min eta ms k : 0 < eta -> (k < length ms)%nat -> ssum (length ms) (fun i => exact_exp_distribution eta ms i * nth i ms 0) <= nth k ms 0 + ln (INR (length ms)) / eta.
Proof.
  intros He Hk. assert (N : ms <> []) by (intros ->; simpl in Hk; lia). destruct (softmax_sum eta ms N) as [Sp S1]. set (n := length ms) in *. assert (Pn : 0 < INR n) by (apply lt_0_INR; lia).
  set (Z := rsum (map (fun m => exp (- eta * m)) ms)). assert (Zk : exp (- eta * nth k ms 0) <= Z).
  { apply rsum_in_le; [intros q Hq; apply in_map_iff in Hq; destruct Hq as [q' [<- _]]; left; apply exp_pos|]. apply (in_map (fun m => exp (- eta * m))), nth_In, Hk. }
  assert (PZ : 0 < Z) by (pose proof (exp_pos (- eta * nth k ms 0)); lra).
  assert (K : forall i, (i < n)%nat -> exact_exp_distribution eta ms i * (eta * nth i ms 0) <= / INR n + (-1) * exact_exp_distribution eta ms i + (ln (INR n) - ln Z) * exact_exp_distribution eta ms i).
  { intros i Hi. pose proof (Sp i Hi) as P. set (s := exact_exp_distribution eta ms i) in *. assert (El : eta * nth i ms 0 = - ln s - ln Z).
    { unfold s, exact_exp_distribution. fold Z. unfold Rdiv. rewrite ln_mult by (try apply exp_pos; apply Rinv_0_lt_compat, PZ). rewrite ln_exp, ln_Rinv by exact PZ. ring. }
    assert (L : - ln s <= / (INR n * s) - 1 + ln (INR n)).
    { pose proof (exp_ineq1_le (ln (/ (INR n * s)))) as X. assert (Pns : 0 < INR n * s) by (apply Rmult_lt_0_compat; assumption). rewrite exp_ln in X by (apply Rinv_0_lt_compat, Pns). rewrite ln_Rinv, ln_mult in X by assumption. lra. }
    rewrite El. replace (s * (- ln s - ln Z)) with (s * (- ln s) + - ln Z * s) by ring. assert (s * - ln s <= s * (/ (INR n * s) - 1 + ln (INR n))) by (apply Rmult_le_compat_l; lra).
    replace (s * (/ (INR n * s) - 1 + ln (INR n))) with (/ INR n + -1 * s + ln (INR n) * s) in H by (field; split; lra). lra. }
  apply ssum_le in K. rewrite !ssum_plus, !ssum_scale, ssum_const in K. change (ssum n (exact_exp_distribution eta ms) = 1) in S1. repeat match type of K with context [ssum n (fun i => exact_exp_distribution eta ms i)] => change (ssum n (fun i => exact_exp_distribution eta ms i)) with (ssum n (exact_exp_distribution eta ms)) in K end. rewrite !S1 in K.
  assert (A : ssum n (fun i => exact_exp_distribution eta ms i * (eta * nth i ms 0)) = eta * ssum n (fun i => exact_exp_distribution eta ms i * nth i ms 0)) by (rewrite <- ssum_scale; apply ssum_eq; intros; ring).
  rewrite A in K. replace (INR n * / INR n) with 1 in K by (field; lra). assert (Lz : - eta * nth k ms 0 <= ln Z) by (rewrite <- (ln_exp (- eta * nth k ms 0)); apply ln_le; [apply exp_pos|exact Zk]).
  apply Rmult_le_reg_l with eta; [exact He|]. rewrite Rmult_plus_distr_l. replace (eta * (ln (INR n) / eta)) with (ln (INR n)) by (field; lra). lra.
Qed.
