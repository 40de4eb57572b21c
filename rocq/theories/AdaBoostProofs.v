(** Proofs about AdaBoost. *)
From Verif Require Import Base Spec SortLib Utils UtilsProofs WMajority WMajorityProofs Booster AdaBoost.
From Verif Require Export ValidProofs.
Open Scope R_scope.

(** ** The log-domain update *)
Lemma combine_length_eq {A B} (a : list A) (b : list B) :
  length a = length b -> length (combine a b) = length a.
Proof. intros E. rewrite combine_length, E. apply Nat.min_id. Qed.

Lemma fold_normalizer ld rest acc :
  exp (fold_left (normalizer_step ld) rest acc) = exp acc + expsum ld rest.
Proof.
  revert acc; induction rest as [|i rest IH]; intros acc; simpl.
  - unfold expsum; simpl; lra.
  - rewrite IH, expsum_cons. unfold normalizer_step.
    destruct (Rltb acc (nth i ld 0)); rewrite exp_lse; lra.
Qed.

Lemma log_normalizer_any ld indices :
  ld <> [] -> Permutation indices (seq 0 (length ld)) ->
  exists z, log_normalizer ld indices = Ok z /\ exp z = rsum (map exp ld).
Proof.
  intros Hne Hp. destruct indices as [|i0 rest].
  - apply Permutation_length in Hp. rewrite seq_length in Hp. destruct ld; [congruence|discriminate].
  - eexists. split; [reflexivity|]. rewrite fold_normalizer.
    change (exp (nth i0 ld 0) + expsum ld rest) with (expsum ld (i0 :: rest)).
    unfold expsum. rewrite (rsum_over_perm _ _ _ Hp).
    rewrite <- (map_map (fun i => nth i ld 0) exp), map_nth_seq. reflexivity.
Qed.

(** The result of the update is the exponential re-weighting. *)
Lemma exp_update_spec dist margins w :
  dist <> [] -> length dist = length margins -> (forall x, In x dist -> 0 < x) ->
  exists d Z,
    exp_update dist margins w = Ok d /\ length d = length dist /\
    Z = rsum (map (fun i => nth i dist 0 * exp (- w * nth i margins 0)) (seq 0 (length dist))) /\
    0 < Z /\
    (forall i, (i < length dist)%nat -> nth i d 0 = nth i dist 0 * exp (- w * nth i margins 0) / Z).
Proof.
  intros Hne Hlen Hpos. unfold exp_update.
  assert (Hex : existsb (fun d => Rleb d 0) dist = false).
  { destruct (existsb (fun d => Rleb d 0) dist) eqn:E; [|reflexivity].
    apply existsb_exists in E. destruct E as [x [Hx Hb]]. specialize (Hpos x Hx).
    rewrite Rleb_false in Hb by exact Hpos. discriminate. }
  rewrite Hex. set (ld := log_update dist margins w).
  assert (Hld : length ld = length dist).
  { unfold ld, log_update. rewrite map_length. apply combine_length_eq, Hlen. }
  assert (Hldne : ld <> []) by (intros E; rewrite E in Hld; destruct dist; [congruence|discriminate]).
  destruct (log_normalizer_any ld (isort (key_asc ld) (seq 0 (length ld))) Hldne) as [z [Ez Eexp]].
  { apply Permutation_sym, isort_perm. }
  rewrite Ez. simpl bind.
  assert (Hnth : forall i, (i < length dist)%nat -> exp (nth i ld 0) = nth i dist 0 * exp (- w * nth i margins 0)).
  { intros i Hi. unfold ld, log_update. rewrite (combine_nth_map _ dist margins 0 0 Hlen).
    rewrite nth_map_seq by exact Hi. simpl. unfold Rminus. rewrite exp_plus, exp_ln.
    - f_equal. f_equal. ring.
    - apply Hpos, nth_In, Hi. }
  set (Z := rsum (map (fun i => nth i dist 0 * exp (- w * nth i margins 0)) (seq 0 (length dist)))).
  assert (HZ : exp z = Z).
  { rewrite Eexp. rewrite <- (map_nth_seq 0 ld) at 1. rewrite map_map, Hld. unfold Z.
    apply rsum_map_ext. intros i Hi. apply in_seq in Hi. apply Hnth. lia. }
  assert (HZp : 0 < Z) by (rewrite <- HZ; apply exp_pos).
  exists (map (fun d => exp (d - z)) ld), Z.
  split; [reflexivity|]. split; [rewrite map_length; exact Hld|]. split; [reflexivity|]. split; [exact HZp|].
  intros i Hi. rewrite (nth_map_in _ ld i 0) by congruence.
  unfold Rminus. rewrite exp_plus, exp_Ropp, HZ, Hnth by exact Hi. reflexivity.
Qed.

(** ** Margins and edges *)
Section Ada.
  Context {H : Type}.
  Variable conf : H -> nat -> R.
  Variable produce : nat -> list R -> H.
  Variable y : list R.
  Let n := length y.

  Lemma margins_of_hypothesis_spec h : margins_of_hypothesis conf y h = margins_of y (conf h).
  Proof.
    unfold margins_of_hypothesis, margins_of.
    rewrite (combine_nth_map _ (seq 0 (length y)) y 0%nat 0) by apply seq_length.
    rewrite seq_length. apply map_ext_in. intros i Hi. apply in_seq in Hi. cbn [fst snd].
    rewrite seq_nth by lia. reflexivity.
  Qed.

  Lemma margins_length (f : nat -> R) : length (margins_of y f) = n.
  Proof. unfold margins_of. rewrite map_length. apply seq_length. Qed.

  Lemma margins_nth (f : nat -> R) i : (i < n)%nat -> nth i (margins_of y f) 0 = nth i y 0 * f i.
  Proof. intros Hi. unfold margins_of. apply (nth_map_seq (fun i => nth i y 0 * f i)). exact Hi. Qed.

  Lemma edge_inner_product h d :
    length d = n -> inner_product (margins_of_hypothesis conf y h) d = edge_of y d (conf h).
  Proof.
    intros Hd. rewrite margins_of_hypothesis_spec. unfold inner_product.
    rewrite dot_nth by (rewrite margins_length; congruence). rewrite margins_length. unfold edge_of. fold n.
    apply rsum_map_ext. intros i Hi. apply in_seq in Hi. rewrite margins_nth by lia. ring.
  Qed.

  (** Exponential weights of a vote. *)
  Definition expw (wh : list (R * H)) (i : nat) : R := exp (- (nth i y 0 * vote conf wh i)).
  Definition expZ (wh : list (R * H)) : R := rsum (map (expw wh) (seq 0 n)).

  Lemma expZ_pos wh : (0 < n)%nat -> 0 < expZ wh.
  Proof.
    intros Hn. apply rsum_pos.
    - destruct n as [|k]; [lia|]. discriminate.
    - intros x Hx. apply in_map_iff in Hx. destruct Hx as [i [<- _]]. apply exp_pos.
  Qed.

  Lemma vote_app wh w h i : vote conf (wh ++ [(w, h)]) i = vote conf wh i + w * conf h i.
  Proof. unfold vote. rewrite map_app, rsum_app. simpl. lra. Qed.

  Lemma expw_app wh w h i :
    expw (wh ++ [(w, h)]) i = expw wh i * exp (- w * (nth i y 0 * conf h i)).
  Proof. unfold expw. rewrite vote_app, <- exp_plus. f_equal. ring. Qed.

  (** State of a distribution: it is the exponential-loss distribution of the vote [wh]. *)
  Definition exp_dist (wh : list (R * H)) (d : list R) : Prop :=
    length d = n /\ forall i, (i < n)%nat -> nth i d 0 = expw wh i / expZ wh.

  Lemma exp_dist_pos wh d : (0 < n)%nat -> exp_dist wh d -> is_pos_dist d.
  Proof.
    intros Hn [Hl Hd]. pose proof (expZ_pos wh Hn) as HZ. split.
    - intros x Hx. apply (In_nth _ _ 0) in Hx. destruct Hx as [i [Hi <-]]. rewrite Hd by lia.
      apply Rdiv_lt_0_compat; [apply exp_pos|exact HZ].
    - rewrite <- rsum_nth, Hl. rewrite (rsum_map_ext _ (fun i => expw wh i / expZ wh)).
      + rewrite rsum_map_div. fold (expZ wh). field. lra.
      + intros i Hi. apply in_seq in Hi. apply Hd. lia.
  Qed.

  Lemma exp_dist_uniform : (0 < n)%nat -> exp_dist [] (repeat (1 / INR n) n).
  Proof.
    intros Hn. split; [apply repeat_length|]. intros i Hi.
    assert (E1 : forall j, expw [] j = 1).
    { intros j. unfold expw, vote. simpl. rewrite Rmult_0_r, Ropp_0. apply exp_0. }
    assert (E : expZ [] = INR n).
    { unfold expZ. rewrite (rsum_map_ext _ (fun _ => 1)) by (intros; apply E1).
      rewrite rsum_map_const, seq_length. lra. }
    rewrite E, E1. apply nth_repeat_lt; exact Hi.
  Qed.

  (** One exponential update keeps the form, and multiplies the potential by z_t. *)
  Lemma exp_dist_update wh d w h :
    (0 < n)%nat -> exp_dist wh d ->
    exists d', exp_update d (margins_of_hypothesis conf y h) w = Ok d' /\
      exp_dist (wh ++ [(w, h)]) d' /\
      expZ (wh ++ [(w, h)]) =
        expZ wh * rsum (map (fun i => nth i d 0 * exp (- w * (nth i y 0 * conf h i))) (seq 0 n)).
  Proof.
    intros Hn Hd. pose proof (exp_dist_pos wh d Hn Hd) as [Hp _]. destruct Hd as [Hl Hd].
    pose proof (expZ_pos wh Hn) as HZ.
    assert (Hne : d <> []) by (intros ->; simpl in Hl; lia).
    rewrite margins_of_hypothesis_spec.
    destruct (exp_update_spec d (margins_of y (conf h)) w Hne) as [d' [Z [E1 [E2 [E3 [E4 E5]]]]]].
    { rewrite margins_length. exact Hl. } { exact Hp. }
    rewrite Hl in *.
    assert (EZ : expZ (wh ++ [(w, h)]) = expZ wh * Z).
    { rewrite E3, <- rsum_map_mult. unfold expZ at 1. apply rsum_map_ext. intros i Hi. apply in_seq in Hi.
      rewrite expw_app, margins_nth, Hd by lia. field. lra. }
    exists d'. split; [exact E1|]. split.
    - split; [congruence|]. intros i Hi. rewrite E5, EZ, expw_app, margins_nth, Hd by exact Hi.
      field. split; lra.
    - rewrite EZ, E3. f_equal. apply rsum_map_ext. intros i Hi. apply in_seq in Hi.
      rewrite margins_nth by lia. reflexivity.
  Qed.

  (** ** Convexity bound on one round *)
  Lemma exp_convex w m : -1 <= m <= 1 ->
    exp (- w * m) <= (1 + m) / 2 * exp (- w) + (1 - m) / 2 * exp w.
  Proof.
    intros Hm. set (c := - w * m).
    assert (T1 : exp c * (1 + (- w - c)) <= exp (- w)).
    { replace (- w) with (c + (- w - c)) at 2 by ring. rewrite exp_plus.
      apply Rmult_le_compat_l; [left; apply exp_pos|]. apply exp_ge_1x. }
    assert (T2 : exp c * (1 + (w - c)) <= exp w).
    { replace w with (c + (w - c)) at 2 by ring. rewrite exp_plus.
      apply Rmult_le_compat_l; [left; apply exp_pos|]. apply exp_ge_1x. }
    apply Rle_trans with ((1 + m) / 2 * (exp c * (1 + (- w - c))) + (1 - m) / 2 * (exp c * (1 + (w - c)))).
    - right. unfold c at 3 5. field_simplify. unfold c. field_simplify. ring.
    - apply Rplus_le_compat; apply Rmult_le_compat_l; lra.
  Qed.

  Lemma round_bound d (f : nat -> R) w :
    is_dist d -> length d = n ->
    (forall i, (i < n)%nat -> -1 <= nth i y 0 * f i <= 1) ->
    rsum (map (fun i => nth i d 0 * exp (- w * (nth i y 0 * f i))) (seq 0 n)) <=
      (1 + edge_of y d f) / 2 * exp (- w) + (1 - edge_of y d f) / 2 * exp w.
  Proof.
    intros [Hd Hs] Hl Hm.
    apply Rle_trans with (rsum (map (fun i => (exp (- w) + exp w) / 2 * nth i d 0 +
        (exp (- w) - exp w) / 2 * (nth i d 0 * (nth i y 0 * f i))) (seq 0 n))).
    - apply rsum_map_le. intros i Hi. apply in_seq in Hi.
      assert (Hi' : (i < n)%nat) by lia.
      pose proof (exp_convex w _ (Hm i Hi')) as E.
      assert (Hdi : 0 <= nth i d 0) by (apply Hd, nth_In; lia).
      apply (Rmult_le_compat_l (nth i d 0)) in E; [|exact Hdi]. lra.
    - right. rewrite rsum_map_plus, !rsum_map_mult. fold (edge_of y d f).
      rewrite <- Hl at 1. rewrite rsum_nth, Hs. unfold edge_of. fold n. field.
  Qed.

  Definition ada_weight (e : R) : R := ln ((1 + e) / (1 - e)) / 2.

  Lemma ada_weight_exp e : -1 < e < 1 ->
    exp (ada_weight e) = sqrt ((1 + e) / (1 - e)) /\ exp (- ada_weight e) = sqrt ((1 - e) / (1 + e)).
  Proof.
    intros He.
    assert (Hq : 0 < (1 + e) / (1 - e)) by (apply Rdiv_lt_0_compat; lra).
    assert (Hq' : 0 < (1 - e) / (1 + e)) by (apply Rdiv_lt_0_compat; lra).
    unfold ada_weight. split.
    - apply Rsqr_inj; [left; apply exp_pos|apply sqrt_pos|].
      rewrite Rsqr_sqrt by lra. unfold Rsqr. rewrite <- exp_plus.
      replace (ln ((1 + e) / (1 - e)) / 2 + ln ((1 + e) / (1 - e)) / 2) with (ln ((1 + e) / (1 - e))) by lra.
      apply exp_ln; exact Hq.
    - apply Rsqr_inj; [left; apply exp_pos|apply sqrt_pos|].
      rewrite Rsqr_sqrt by lra. unfold Rsqr. rewrite <- exp_plus.
      replace (- (ln ((1 + e) / (1 - e)) / 2) + - (ln ((1 + e) / (1 - e)) / 2))
        with (- ln ((1 + e) / (1 - e))) by lra.
      rewrite exp_Ropp, exp_ln by exact Hq. field. lra.
  Qed.

  Lemma ada_round_value e : -1 < e < 1 ->
    (1 + e) / 2 * exp (- ada_weight e) + (1 - e) / 2 * exp (ada_weight e) = sqrt (1 - e ^ 2).
  Proof.
    intros He. destruct (ada_weight_exp e He) as [-> ->].
    assert (S1 : (1 + e) * sqrt ((1 - e) / (1 + e)) = sqrt (1 - e ^ 2)).
    { rewrite <- (sqrt_pow2 (1 + e)) at 1 by lra. rewrite <- sqrt_mult_alt by (apply pow2_ge_0).
      f_equal. field. lra. }
    assert (S2 : (1 - e) * sqrt ((1 + e) / (1 - e)) = sqrt (1 - e ^ 2)).
    { rewrite <- (sqrt_pow2 (1 - e)) at 1 by lra. rewrite <- sqrt_mult_alt by (apply pow2_ge_0).
      f_equal. field. lra. }
    replace ((1 + e) / 2 * sqrt ((1 - e) / (1 + e)) + (1 - e) / 2 * sqrt ((1 + e) / (1 - e)))
      with (((1 + e) * sqrt ((1 - e) / (1 + e)) + (1 - e) * sqrt ((1 + e) / (1 - e))) / 2) by field.
    rewrite S1, S2. field.
  Qed.

  Lemma ada_weight_pos e : 0 < e < 1 -> 0 < ada_weight e.
  Proof.
    intros He. unfold ada_weight. assert (0 < ln ((1 + e) / (1 - e))).
    { rewrite <- ln_1. apply ln_increasing; [lra|]. apply Rlt_div_iff; lra. }
    lra.
  Qed.

  (** ** Edge bounds *)
  Lemma edge_bounds d (f : nat -> R) :
    is_dist d -> length d = n -> (forall i, (i < n)%nat -> -1 <= nth i y 0 * f i <= 1) ->
    -1 <= edge_of y d f <= 1.
  Proof.
    intros [Hd Hs] Hl Hm. unfold edge_of. fold n.
    assert (E : rsum (map (fun i => nth i d 0) (seq 0 n)) = 1) by (rewrite <- Hl, rsum_nth; exact Hs).
    split.
    - apply Rle_trans with (rsum (map (fun i => -1 * nth i d 0) (seq 0 n))).
      + rewrite rsum_map_mult, E. lra.
      + apply rsum_map_le. intros i Hi. apply in_seq in Hi.
        assert (0 <= nth i d 0) by (apply Hd, nth_In; lia). assert (Hi' : (i < n)%nat) by lia.
        specialize (Hm i Hi'). nra.
    - apply Rle_trans with (rsum (map (fun i => nth i d 0) (seq 0 n))); [|lra].
      apply rsum_map_le. intros i Hi. apply in_seq in Hi.
      assert (0 <= nth i d 0) by (apply Hd, nth_In; lia). assert (Hi' : (i < n)%nat) by lia.
      specialize (Hm i Hi'). nra.
  Qed.

  (** an edge >= 1 under a positive distribution means every margin is 1 *)
  Lemma edge_one d (f : nat -> R) :
    is_pos_dist d -> length d = n -> (forall i, (i < n)%nat -> -1 <= nth i y 0 * f i <= 1) ->
    1 <= edge_of y d f -> forall i, (i < n)%nat -> nth i y 0 * f i = 1.
  Proof.
    intros [Hd Hs] Hl Hm He i Hi.
    assert (Hz : rsum (map (fun i => nth i d 0 * (1 - nth i y 0 * f i)) (seq 0 n)) = 0).
    { apply Rle_antisym.
      - rewrite (rsum_map_ext _ (fun i => nth i d 0 - nth i d 0 * (nth i y 0 * f i))) by (intros; ring).
        rewrite rsum_map_minus. fold (edge_of y d f). rewrite <- Hl at 1. rewrite rsum_nth, Hs.
        unfold edge_of in He. fold n in He. lra.
      - apply rsum_nonneg. intros v Hv. apply in_map_iff in Hv. destruct Hv as [j [<- Hj]]. apply in_seq in Hj.
        assert (0 < nth j d 0) by (apply Hd, nth_In; lia). assert (Hj' : (j < n)%nat) by lia.
        specialize (Hm j Hj'). nra. }
    assert (Hi0 : nth i d 0 * (1 - nth i y 0 * f i) = 0).
    { apply (rsum_nonneg_zero (map (fun i => nth i d 0 * (1 - nth i y 0 * f i)) (seq 0 n))).
      - intros v Hv. apply in_map_iff in Hv. destruct Hv as [j [<- Hj]]. apply in_seq in Hj.
        assert (0 < nth j d 0) by (apply Hd, nth_In; lia). assert (Hj' : (j < n)%nat) by lia.
        specialize (Hm j Hj'). nra.
      - exact Hz.
      - apply (in_map (fun i => nth i d 0 * (1 - nth i y 0 * f i))), in_seq; lia. }
    assert (0 < nth i d 0) by (apply Hd, nth_In; lia). nra.
  Qed.

  (** ** Training error versus the exponential potential *)
  Lemma count_le_rsum (P : nat -> bool) (g : nat -> R) l :
    (forall i, In i l -> 0 <= g i) -> (forall i, In i l -> P i = true -> 1 <= g i) ->
    INR (count P l) <= rsum (map g l).
  Proof.
    induction l as [|a l IH]; intros H0 H1; [simpl; lra|].
    cbn [count map rsum]. assert (IHl : INR (count P l) <= rsum (map g l)).
    { apply IH; intros i Hi; [apply H0|apply H1]; right; exact Hi. }
    destruct (P a) eqn:E.
    - rewrite S_INR. pose proof (H1 a (or_introl eq_refl) E). lra.
    - pose proof (H0 a (or_introl eq_refl)). lra.
  Qed.

  Lemma wrong_margin yi s : pm1 yi -> sign_label s <> yi -> yi * s <= 0.
  Proof.
    unfold sign_label. intros [-> | ->] Hs; destruct (Rle_dec 0 s); try lra; exfalso; apply Hs; reflexivity.
  Qed.

  Lemma n_errors_potential wh :
    (forall i, (i < n)%nat -> pm1 (nth i y 0)) ->
    INR (n_errors y (fun i => sign_label (vote conf wh i))) <= expZ wh.
  Proof.
    intros Hy. unfold n_errors, expZ. fold n. apply count_le_rsum.
    - intros i _. left. apply exp_pos.
    - intros i Hi Hb. apply in_seq in Hi.
      destruct (Req_EM_T (sign_label (vote conf wh i)) (nth i y 0)) as [E|E]; [discriminate|].
      unfold expw. rewrite <- exp_0 at 1. apply exp_le_exp.
      assert (Hi' : (i < n)%nat) by lia.
      pose proof (wrong_margin _ _ (Hy i Hi') E). lra.
  Qed.
End Ada.
