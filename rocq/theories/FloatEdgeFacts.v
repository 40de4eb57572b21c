(** Property C87: a perfect weak hypothesis is recognised in the first round. *)
From Coq Require Import ZArith List Bool Reals Lia Lra Psatz.
From Flocq Require Import Core.Core IEEE754.BinarySingleNaN Relative Plus_error.
From Verif Require Import Base Float FloatSpec FloatProofs FloatFacts FloatCheckFacts FloatSplitFacts FloatEdge FloatEdgeSpec.
Import ListNotations.
Open Scope R_scope.

Local Notation fmt := (generic_format radix2 (FLT_exp (3 - 1024 - 53) 53)).

(** addition is exact when the sum is a number of the format *)
Lemma fadd_exact x y : fin x -> fin y -> fmt (val x + val y) -> Rabs (val x + val y) < 2 ^ 1023 -> fin (fadd x y) /\ val (fadd x y) = val x + val y.
Proof.
  intros Fx Fy G B. unfold fadd. pose proof (Bplus_correct 53 1024 _ _ mode_NE x y Fx Fy) as C.
  assert (E : rnd (val x + val y) = val x + val y) by (apply round_generic; [typeclasses eauto|exact G]). rewrite E in C. rewrite Rlt_bool_true in C.
  - destruct C as [C1 [C2 _]]. split; [exact C2|exact C1].
  - rewrite big_1024. pose proof big1023. generalize dependent (2 ^ 1023). intros. lra.
Qed.

Lemma fmt_scaled j k : INR j <= 2 ^ 53 -> (k <= 1000)%nat -> fmt (INR j * / 2 ^ k).
Proof.
  intros Hj Hk. destruct Hj as [Hj|Hj].
  - destruct (normalize_exact (Z.of_nat j) (- Z.of_nat k)) as [_ V]; [|lia|].
    + rewrite Z.abs_eq by lia. apply lt_IZR. rewrite <- INR_IZR_INZ. change (IZR (2 ^ 53)) with (bpow radix2 (Z.of_nat 53)). rewrite two_pow. exact Hj.
    + rewrite bpow_opp, two_pow, <- INR_IZR_INZ in V. rewrite <- V. apply format_val.
  - rewrite Hj. rewrite <- (two_pow 53), <- (two_pow k), <- bpow_opp, <- bpow_plus. apply generic_format_bpow. unfold FLT_exp. lia.
Qed.

(** sums of equal dyadic numbers are exact, in every schedule *)
Section Dyadic.
  Variables (w : f64) (k : nat).
  Hypothesis Fw : fin w.
  Hypothesis Vw : val w = / 2 ^ k.
  Hypothesis Hk : (k <= 53)%nat.

  Lemma step j m s1 s2 : INR (j + m) <= 2 ^ k -> fin s1 -> fin s2 -> val s1 = INR j * / 2 ^ k -> val s2 = INR m * / 2 ^ k ->
    fin (fadd s1 s2) /\ val (fadd s1 s2) = INR (j + m) * / 2 ^ k.
  Proof.
    intros Hj F1 F2 V1 V2. assert (P : 0 < 2 ^ k) by (apply pow_lt; lra).
    assert (K : 2 ^ k <= 2 ^ 53) by (apply Rle_pow; [lra|exact Hk]).
    assert (E : val s1 + val s2 = INR (j + m) * / 2 ^ k) by (rewrite V1, V2, plus_INR; ring).
    rewrite <- E. apply fadd_exact; [exact F1|exact F2| |].
    - rewrite E. apply fmt_scaled; [lra|lia].
    - rewrite E. pose proof (pos_INR (j + m)). pose proof big1023. assert (I : 0 < / 2 ^ k) by (apply Rinv_0_lt_compat, P).
      rewrite Rabs_pos_eq by nra. assert (INR (j + m) * / 2 ^ k <= 1) by (apply (Rmult_le_compat_r (/ 2 ^ k)) in Hj; [|lra]; rewrite Rinv_r in Hj; lra).
      generalize dependent (2 ^ 1023). intros. lra.
  Qed.

  Lemma chunk_exact c : forall j s, (forall x, In x c -> fin x /\ val x = / 2 ^ k) -> INR (j + length c) <= 2 ^ k -> fin s -> val s = INR j * / 2 ^ k ->
    fin (fold_left fadd c s) /\ val (fold_left fadd c s) = INR (j + length c) * / 2 ^ k.
  Proof.
    induction c as [|x c IH]; intros j s Hc Hj Fs Vs; cbn [fold_left length]; [rewrite Nat.add_0_r; split; assumption|].
    cbn [length] in Hj. destruct (Hc x (or_introl eq_refl)) as [Fx Vx].
    destruct (step j 1 s x) as [F V]; [|exact Fs|exact Fx|exact Vs|rewrite Vx; simpl; ring|].
    - eapply Rle_trans; [|exact Hj]. apply le_INR. lia.
    - destruct (IH (j + 1)%nat (fadd s x)) as [F' V'].
      + intros z Hz. apply Hc. right. exact Hz.
      + eapply Rle_trans; [|exact Hj]. apply le_INR. lia.
      + exact F.
      + exact V.
      + split; [exact F'|]. rewrite V'. f_equal. f_equal. lia.
  Qed.

  Lemma tree_exact t : (forall x, In x (ftree_items t) -> fin x /\ val x = / 2 ^ k) -> INR (length (ftree_items t)) <= 2 ^ k ->
    fin (ftree_sum t) /\ val (ftree_sum t) = INR (length (ftree_items t)) * / 2 ^ k.
  Proof.
    induction t as [c|l IHl r IHr]; cbn [ftree_items ftree_sum]; intros Hc Hn.
    - apply (chunk_exact c 0 f0); [exact Hc|exact Hn|apply fin_f0|rewrite val_f0; simpl; ring].
    - rewrite app_length in *. destruct IHl as [F1 V1]; [intros x Hx; apply Hc, in_or_app; auto|eapply Rle_trans; [|exact Hn]; apply le_INR; lia|].
      destruct IHr as [F2 V2]; [intros x Hx; apply Hc, in_or_app; auto|eapply Rle_trans; [|exact Hn]; apply le_INR; lia|].
      apply step; assumption.
  Qed.
End Dyadic.

Lemma fmul_exact x y : fin x -> fin y -> fmt (val x * val y) -> Rabs (val x * val y) < 2 ^ 1023 -> fin (fmul x y) /\ val (fmul x y) = val x * val y.
Proof.
  intros Fx Fy G B. unfold fmul. pose proof (Bmult_correct 53 1024 _ _ mode_NE x y) as C.
  assert (E : rnd (val x * val y) = val x * val y) by (apply round_generic; [typeclasses eauto|exact G]). rewrite E in C. rewrite Rlt_bool_true in C.
  - destruct C as [C1 [C2 _]]. split; [rewrite C2, Fx, Fy; reflexivity|exact C1].
  - rewrite big_1024. pose proof big1023. generalize dependent (2 ^ 1023). intros. lra.
Qed.

Lemma abs_sg sg : sg = 1 \/ sg = -1 -> Rabs sg = 1.
Proof. intros [-> | ->]; [apply Rabs_R1|rewrite Rabs_left; lra]. Qed.

(** the products of a perfect hypothesis are the entries of the distribution, for either sign *)
Lemma perfect_products y conf w sg : (forall x, In x y -> f_label x) -> length conf = length y -> (sg = 1 \/ sg = -1) ->
  (forall i, (i < length y)%nat -> fin (nth i conf f0) /\ val (nth i conf f0) = sg * val (nth i y f0)) -> fin w -> Rabs (val w) < 2 ^ 1023 ->
  forall p, p = f_products (f_margins y conf) (repeat w (length y)) ->
  length p = length y /\ forall x, In x p -> fin x /\ val x = sg * val w.
Proof.
  intros Hy Hl Hsg Hc Fw Bw p Dp. assert (L : length p = length y). { rewrite Dp. unfold f_margins, f_products. rewrite map_length, combine_length, map_length, combine_length, repeat_length. lia. }
  split; [exact L|]. intros x Hx. apply (In_nth p x f0) in Hx. destruct Hx as [i [Hi E]]. rewrite L in Hi.
  rewrite Dp in E. unfold f_margins, f_products in E.
  rewrite (nth_map_in _ _ i (f0, f0)) in E by (rewrite combine_length, map_length, combine_length, repeat_length; lia).
  rewrite combine_nth in E by (rewrite map_length, combine_length, repeat_length; lia). cbn [fst snd] in E.
  rewrite (nth_map_in _ _ i (f0, f0)) in E by (rewrite combine_length; lia). rewrite combine_nth in E by lia. cbn [fst snd] in E.
  rewrite (nth_repeat_lt (length y) w i f0 Hi) in E || rewrite nth_repeat_lt in E by exact Hi.
  destruct (Hc i Hi) as [Fc Vc]. destruct (Hy (nth i y f0) (nth_In _ _ Hi)) as [Fy Vy].
  assert (B1 : 4 < 2 ^ 1023) by exact big1023.
  assert (F1f : fmt 1) by (change 1 with (bpow radix2 0); apply generic_format_bpow; unfold FLT_exp; simpl; lia).
  assert (Ev : val (nth i y f0) * val (nth i conf f0) = sg) by (rewrite Vc; destruct Vy as [-> | ->]; lra).
  destruct (fmul_exact (nth i y f0) (nth i conf f0) Fy Fc) as [Fm Vm].
  { rewrite Ev. destruct Hsg as [-> | ->]; [exact F1f|apply generic_format_opp in F1f; exact F1f]. }
  { rewrite Ev. rewrite (abs_sg sg Hsg). generalize dependent (2 ^ 1023). intros. lra. }
  rewrite Ev in Vm. rewrite <- E.
  destruct (fmul_exact (fmul (nth i y f0) (nth i conf f0)) w Fm Fw) as [Fp Vp].
  { rewrite Vm. pose proof (format_val w) as G. destruct Hsg as [-> | ->]; [rewrite Rmult_1_l; exact G|].
    replace (-1 * val w) with (- val w) by ring. apply generic_format_opp, G. }
  { rewrite Vm, Rabs_mult. rewrite (abs_sg sg Hsg), Rmult_1_l. exact Bw. }
  split; [exact Fp|]. rewrite Vp, Vm. reflexivity.
Qed.

Lemma uniform_spec n : (1 <= n)%nat -> INR n <= 2 ^ 53 -> INR n < 2 ^ 53 -> fin (fdiv f1 (f_of_usize n)) /\ val (fdiv f1 (f_of_usize n)) = rnd (/ INR n).
Proof.
  intros H1 _ Hn. assert (N1 : 1 <= INR n) by (change 1 with (INR 1); apply le_INR, H1). destruct (of_usize_spec n Hn) as [Fo Vo].
  destruct (cap_spec (f_of_usize n) Fo ltac:(rewrite Vo; exact N1)) as [Fw Vw]. rewrite Vo in Vw. split; assumption.
Qed.

Lemma rnd_inv_bounds n : (1 <= n)%nat -> 0 <= rnd (/ INR n) <= 1.
Proof.
  intros H1. assert (N1 : 1 <= INR n) by (change 1 with (INR 1); apply le_INR, H1).
  assert (I : 0 < / INR n <= 1) by (split; [apply Rinv_0_lt_compat; lra|rewrite <- Rinv_1; apply Rinv_le_contravar; lra]).
  split; [rewrite <- (round_0 radix2 (SpecFloat.fexp 53 1024) (round_mode mode_NE)); apply rnd_mono; lra|].
  destruct f1_spec as [_ V1]. rewrite <- V1, <- (rnd_val f1), V1. apply rnd_mono. lra.
Qed.

(** ** with 2^k training rows a hypothesis without error passes the test in the first round, in every schedule *)
Lemma P_C87_power_of_two :
  forall (y conf : list f64) (k : nat) (e : f64), (forall x, In x y -> f_label x) -> f_no_error y conf -> INR (length y) = 2 ^ k -> (k < 53)%nat ->
  f_edge y conf (f_uniform (length y)) e -> finite_num e /\ val e = 1 /\ f_perfect e = true.
Proof.
  intros y conf k e Hy [Hl Hc] Hn Hk [t [Ht ->]]. assert (P : 0 < 2 ^ k) by (apply pow_lt; lra).
  assert (P1 : 1 <= 2 ^ k) by (apply pow_R1_Rle; lra). assert (N1 : (1 <= length y)%nat) by (apply INR_le; rewrite Hn; exact P1).
  assert (B53 : 2 ^ k < 2 ^ 53) by (apply Rlt_pow; [lra|exact Hk]).
  destruct (uniform_spec (length y)) as [Fw Vw]; [exact N1|lra|lra|]. rewrite Hn in Vw.
  assert (Fk : fmt (/ 2 ^ k)). { replace (/ 2 ^ k) with (INR 1 * / 2 ^ k) by (simpl; ring). apply fmt_scaled; [simpl; lra|lia]. }
  assert (Er : rnd (/ 2 ^ k) = / 2 ^ k) by (apply round_generic; [typeclasses eauto|exact Fk]). rewrite Er in Vw.
  assert (I1 : 0 < / 2 ^ k <= 1) by (split; [apply Rinv_0_lt_compat, P|rewrite <- Rinv_1; apply Rinv_le_contravar; lra]).
  unfold f_uniform in Ht. set (w := fdiv f1 (f_of_usize (length y))) in *.
  edestruct (perfect_products y conf w 1 Hy Hl (or_introl eq_refl)) as [L Q]; [intros i Hi; destruct (Hc i Hi); split; [assumption|lra]|exact Fw| |exact Ht|].
  { rewrite Vw, Rabs_pos_eq by lra. pose proof big1023. generalize dependent (2 ^ 1023). intros. lra. }
  destruct (tree_exact k ltac:(lia) t) as [Fs Vs].
  { intros x Hx. destruct (Q x Hx) as [F V]. split; [exact F|]. rewrite V, Vw. ring. }
  { rewrite L, Hn. lra. }
  rewrite L, Hn, Rinv_r in Vs by lra. split; [exact Fs|]. split; [exact Vs|].
  unfold f_perfect. destruct f1_spec as [F1 V1]. apply fle_true; [exact F1|apply fin_abs, Fs|]. unfold fabs. rewrite B2R_Babs, Vs, V1, Rabs_R1. lra.
Qed.

(** ** with any number of rows (up to 2^30) its computed edge is within (4 n + 4) 2^-53 of one, in every schedule *)
Lemma P_C87_close_to_one_partial :
  forall (y conf : list f64) (e : f64), (forall x, In x y -> f_label x) -> f_no_error y conf -> (1 <= length y)%nat -> INR (length y) <= 2 ^ 30 ->
  f_edge y conf (f_uniform (length y)) e -> finite_num e /\ Rabs (val e - 1) <= (4 * INR (length y) + 4) * uu.
Proof.
  intros y conf e Hy [Hl Hc] H1 Hn [t [Ht ->]]. pose proof pow30_53 as P30. pose proof big1023 as BB.
  assert (N1 : 1 <= INR (length y)) by (change 1 with (INR 1); apply le_INR, H1).
  destruct (uniform_spec (length y)) as [Fw Vw]; [exact H1|lra|lra|]. pose proof (rnd_inv_bounds _ H1) as Bw.
  unfold f_uniform in Ht. set (w := fdiv f1 (f_of_usize (length y))) in *.
  edestruct (perfect_products y conf w 1 Hy Hl (or_introl eq_refl)) as [L Q]; [intros i Hi; destruct (Hc i Hi); split; [assumption|lra]|exact Fw| |exact Ht|].
  { rewrite Vw, Rabs_pos_eq by lra. clear -Bw BB. generalize dependent (2 ^ 1023). intros. lra. }
  set (l := ftree_items t) in *. set (n := INR (length y)) in *.
  assert (T : total l = n * val w /\ size l = n * val w).
  { unfold n. rewrite <- L. clear Ht L. revert Q. generalize l. clear -Bw Vw. intros l. unfold total, size. induction l as [|x l IH]; intros Q; [simpl; split; ring|].
    destruct IH as [I1 I2]; [intros z Hz; apply Q; right; exact Hz|]. destruct (Q x (or_introl eq_refl)) as [_ V]. cbn [map rsum length]. rewrite I1, I2, V, S_INR.
    rewrite Rabs_pos_eq by (rewrite Vw; lra). split; ring. }
  destruct T as [T1 T2].
  destruct (err_mult (/ n)) as [e0 [h [He [Hh E]]]]. fold eta0 in Hh.
  assert (In : 0 < / n <= 1) by (split; [apply Rinv_0_lt_compat; lra|rewrite <- Rinv_1; apply Rinv_le_contravar; lra]).
  assert (Bn : / 2 ^ 30 <= / n) by (apply Rinv_le_contravar; lra).
  assert (Et : eta0 <= uu * / 2 ^ 40). { eapply Rle_trans; [apply eta0_small|]. unfold uu. simpl. lra. }
  pose proof uu_small as U. pose proof uu_pos as Up.
  assert (W : Rabs (n * val w - 1) <= 2 * uu).
  { rewrite Vw, E. replace (n * (/ n * (1 + e0) + h) - 1) with (e0 + n * h) by (field; lra).
    assert (T3 : Rabs (n * h) <= 2 ^ 30 * (uu * / 2 ^ 40)). { rewrite Rabs_mult, (Rabs_pos_eq n) by lra. apply Rmult_le_compat; try lra; apply Rabs_pos. }
    assert (2 ^ 30 * (uu * / 2 ^ 40) <= uu) by (replace (2 ^ 30 * (uu * / 2 ^ 40)) with (uu * (2 ^ 30 * / 2 ^ 40)) by ring; assert (2 ^ 30 * / 2 ^ 40 <= 1) by (simpl; lra); nra).
    eapply Rle_trans; [apply Rabs_triang|]. lra. }
  assert (Fl : finite_all l) by (intros x Hx; apply (Q x Hx)).
  assert (Few : few (length l)). { unfold few. rewrite L. fold n. assert (2 ^ 30 <= 2 ^ 52) by (apply Rle_pow; [lra|lia]). lra. }
  apply Rabs_le_inv in W.
  assert (Sz : size l < 2 ^ 1023). { rewrite T2. clear -W U BB. generalize dependent (2 ^ 1023). intros. lra. }
  destruct (P_C77_parallel_sum_error t Fl Few Sz) as [Fs D]. fold l in D. split; [exact Fs|].
  destruct (gam_few (length l - 1) (few_le (length l - 1) (length l) (Nat.le_sub_l _ _) Few)) as [G _]. pose proof (gam_nonneg (length l - 1)) as G0.
  assert (Gn : gam (length l - 1) <= 2 * (n * uu)).
  { eapply Rle_trans; [exact G|]. apply Rmult_le_compat_l; [lra|]. apply Rmult_le_compat_r; [lra|]. unfold n. rewrite <- L. apply le_INR. lia. }
  rewrite T1, T2 in D. replace (val (ftree_sum t) - 1) with ((val (ftree_sum t) - n * val w) + (n * val w - 1)) by ring.
  eapply Rle_trans; [apply Rabs_triang|]. assert (Rabs (n * val w - 1) <= 2 * uu) by (apply Rabs_le; lra).
  assert (gam (length l - 1) * (n * val w) <= 2 * (n * uu) * 2) by (apply Rmult_le_compat; lra). lra.
Qed.

Definition f_minus1 : f64 := Bopp f1.
(** ten rows, five of each label; the hypothesis that answers the labels *)
Definition ten_labels : list f64 := repeat f1 5 ++ repeat f_minus1 5.
Definition ten_left_to_right : ftree := FLeaf (f_products (f_margins ten_labels ten_labels) (f_uniform 10)).
Definition ten_halves : ftree :=
  FNode (FLeaf (firstn 5 (f_products (f_margins ten_labels ten_labels) (f_uniform 10)))) (FLeaf (skipn 5 (f_products (f_margins ten_labels ten_labels) (f_uniform 10)))).

Lemma minus1_spec : fin f_minus1 /\ val f_minus1 = -1.
Proof. destruct f1_spec as [F V]. unfold f_minus1. rewrite is_finite_Bopp, B2R_Bopp, V. split; [exact F|lra]. Qed.
Lemma ten_ok : (forall x, In x ten_labels -> f_label x) /\ f_no_error ten_labels ten_labels.
Proof.
  assert (A : forall x, In x ten_labels -> f_label x).
  { intros x Hx. unfold ten_labels in Hx. apply in_app_or in Hx. destruct Hx as [Hx|Hx]; apply repeat_spec in Hx; subst x.
    - destruct f1_spec as [F V]. split; auto.
    - destruct minus1_spec as [F V]. split; auto. }
  split; [exact A|]. split; [reflexivity|]. intros i Hi. split; [|reflexivity]. apply (A _ (nth_In _ _ Hi)).
Qed.

(** ** with ten rows, whether the hypothesis without error is recognised depends on how rayon splits the sum: added from left to right
    its edge is below one and the booster goes on, split in halves it is one and the booster stops *)
Lemma P_C87_ten_rows_refuted :
  exists (y : list f64) (e e' : f64), (forall x, In x y -> f_label x) /\ f_no_error y y /\
    f_edge y y (f_uniform (length y)) e /\ f_edge y y (f_uniform (length y)) e' /\ f_perfect e = true /\ f_perfect e' = false.
Proof.
  exists ten_labels, (ftree_sum ten_halves), (ftree_sum ten_left_to_right). destruct ten_ok as [A B]. split; [exact A|]. split; [exact B|].
  split; [exists ten_halves; split; reflexivity|]. split; [exists ten_left_to_right; split; reflexivity|]. split; vm_compute; reflexivity.
Qed.

(** ** Example: the hypotheses of the power-of-two theorem hold for the labels 1, -1 *)
Example C87_hypotheses_met : (forall x, In x [f1; f_minus1] -> f_label x) /\ f_no_error [f1; f_minus1] [f1; f_minus1] /\ INR (length [f1; f_minus1]) = 2 ^ 1.
Proof.
  assert (A : forall x, In x [f1; f_minus1] -> f_label x).
  { intros x [<-|[<-|[]]]; [destruct f1_spec as [F V]|destruct minus1_spec as [F V]]; split; auto. }
  split; [exact A|]. split; [|simpl; lra]. split; [reflexivity|]. intros i Hi. split; [|reflexivity]. apply (A _ (nth_In _ _ Hi)).
Qed.
