(** SoftBoost with a solver of finite accuracy: what the answers say. *)
From Verif Require Import Base Spec RegSpec LPSpec NearSpec Utils UtilsProofs WMajority WMajorityProofs Booster Reach AdaBoost AdaBoostProofs
  AdaBoostMain AdaBoostMore Num FrankWolfeProofs CERLPProofs Csc ConicSpec CscProofs LPBoost LPBoostProofs LPBoostFacts EdgeLP EdgeProofs ERLP ERLPProofs
  SoftBoost SoftProofs NearFacts.
Open Scope R_scope.

(** ** a vector that is almost a capped distribution is close to one *)
Lemma near_capped nu eps d : 0 < nu <= INR (length d) -> 0 <= eps -> (forall x, In x d -> - eps <= x <= 1 / nu + eps) -> 1 - eps <= rsum d <= 1 + eps ->
  exists d', length d' = length d /\ in_capped_simplex nu d' /\
    rsum (map (fun i => Rabs (nth i d 0 - nth i d' 0)) (seq 0 (length d))) <= (2 * INR (length d) + 1) * eps.
Proof.
  intros Hnu He Hd Hs. set (n := length d) in *. set (cap := 1 / nu) in *.
  assert (Hc : 0 < cap) by (apply Rdiv_lt_0_compat; lra).
  assert (Hnc : 1 <= INR n * cap). { unfold cap. replace (INR n * (1 / nu)) with (INR n / nu) by (field; lra). apply Rle_div_iff; lra. }
  set (c := fun i => Rmin cap (Rmax 0 (nth i d 0))).
  assert (Bc : forall i, 0 <= c i <= cap). { intros i. unfold c, Rmin, Rmax. destruct (Rle_dec 0 (nth i d 0)), (Rle_dec cap _); lra. }
  assert (Dc : forall i, (i < n)%nat -> Rabs (nth i d 0 - c i) <= eps).
  { intros i Hi. specialize (Hd (nth i d 0) (nth_In _ _ Hi)). apply le_rabs. unfold c, Rmin, Rmax. destruct (Rle_dec 0 (nth i d 0)), (Rle_dec cap _); lra. }
  set (S := rsum (map c (seq 0 n))).
  assert (D1 : rsum (map (fun i => Rabs (nth i d 0 - c i)) (seq 0 n)) <= INR n * eps).
  { eapply Rle_trans; [apply (rsum_le_seq (fun i => Rabs (nth i d 0 - c i)) (fun _ => eps)); exact Dc|]. rewrite rsum_map_const, seq_length. lra. }
  assert (DS : Rabs (rsum d - S) <= INR n * eps).
  { assert (E : rsum d - S = rsum (map (fun i => nth i d 0 - c i) (seq 0 n))).
    { rewrite rsum_map_minus. unfold S, n. rewrite rsum_nth. reflexivity. }
    rewrite E. apply le_rabs. split.
    - replace (- (INR n * eps)) with (rsum (map (fun _ : nat => - eps) (seq 0 n))) by (rewrite rsum_map_const, seq_length; ring).
      apply rsum_le_seq. intros i Hi. specialize (Dc i Hi). apply rabs_le in Dc. lra.
    - replace (INR n * eps) with (rsum (map (fun _ : nat => eps) (seq 0 n))) by (rewrite rsum_map_const, seq_length; ring).
      apply rsum_le_seq. intros i Hi. specialize (Dc i Hi). apply rabs_le in Dc. lra. }
  apply rabs_le in DS.
  assert (K : exists f : nat -> R, (forall i, 0 <= f i <= cap) /\ rsum (map f (seq 0 n)) = 1 /\ rsum (map (fun i => Rabs (c i - f i)) (seq 0 n)) <= (INR n + 1) * eps).
  { assert (S0 : 0 <= S) by (apply rsum_nonneg_seq; intros; apply Bc).
    destruct (Rle_lt_dec S 1) as [L|L].
    - destruct (Req_dec S 1) as [E1|E1].
      + exists c. split; [exact Bc|]. split; [exact E1|]. rewrite (rsum_zero (fun i => Rabs (c i - c i))) by (intros; replace (c i - c i) with 0 by ring; apply Rabs_R0). pose proof (pos_INR n). nra.
      + assert (P : 0 < INR n * cap - S) by lra. set (t := (1 - S) / (INR n * cap - S)).
        assert (Ht : 0 <= t <= 1). { unfold t. split; [apply Rle_div_iff; lra|apply Rdiv_le_iff; lra]. }
        assert (Et : t * (INR n * cap - S) = 1 - S) by (unfold t; field; lra).
        assert (Sm : rsum (map (fun i => t * (cap - c i)) (seq 0 n)) = 1 - S).
        { rewrite rsum_map_mult, rsum_map_minus, rsum_map_const, seq_length. fold S. rewrite <- Et. ring. }
        exists (fun i => c i + t * (cap - c i)). split; [|split].
        * intros i. specialize (Bc i). nra.
        * rewrite rsum_map_plus, Sm. unfold S. ring.
        * rewrite (rsum_map_ext _ (fun i => t * (cap - c i))); [rewrite Sm; lra|]. intros i _. specialize (Bc i). replace (c i - (c i + t * (cap - c i))) with (- (t * (cap - c i))) by ring. rewrite Rabs_Ropp. apply Rabs_right. nra.
    - set (t := 1 - 1 / S). assert (Ht : 0 <= t <= 1). { unfold t. assert (0 < 1 / S) by (apply Rdiv_lt_0_compat; lra). assert (1 / S <= 1) by (apply Rdiv_le_iff; lra). lra. }
      assert (Et : (1 - t) * S = 1) by (unfold t; field; lra).
      exists (fun i => (1 - t) * c i). split; [|split].
      * intros i. specialize (Bc i). nra.
      * rewrite rsum_map_mult. exact Et.
      * rewrite (rsum_map_ext _ (fun i => t * c i)); [rewrite rsum_map_mult; fold S; lra|]. intros i _. specialize (Bc i). replace (c i - (1 - t) * c i) with (t * c i) by ring. apply Rabs_right. nra. }
  destruct K as [f [F1 [F2 F3]]]. exists (map f (seq 0 n)). split; [rewrite map_length, seq_length; reflexivity|]. split; [split; [|exact F2]|].
  - intros x Hx. apply in_map_iff in Hx. destruct Hx as [i [<- _]]. apply F1.
  - eapply Rle_trans; [apply (rsum_le_seq _ (fun i => Rabs (nth i d 0 - c i) + Rabs (c i - f i)))|rewrite rsum_map_plus; lra].
    intros i Hi. rewrite (nth_map_seq f) by exact Hi. replace (nth i d 0 - f i) with ((nth i d 0 - c i) + (c i - f i)) by ring. apply Rabs_triang.
Qed.

Lemma edge_move y d d' (f : nat -> R) e : (forall i, (i < length y)%nat -> -1 <= nth i y 0 * f i <= 1) ->
  rsum (map (fun i => Rabs (nth i d 0 - nth i d' 0)) (seq 0 (length y))) <= e -> edge_of y d' f <= edge_of y d f + e.
Proof.
  intros Hf He. assert (edge_of y d' f - edge_of y d f <= e); [|lra]. unfold edge_of. rewrite <- rsum_map_minus. eapply Rle_trans; [|exact He].
  apply rsum_le_seq. intros i Hi. specialize (Hf i Hi). pose proof (Rle_abs (nth i d 0 - nth i d' 0)). pose proof (Rle_abs (- (nth i d 0 - nth i d' 0))) as B. rewrite Rabs_Ropp in B. set (m := nth i y 0 * f i) in *.
  replace (nth i d' 0 * nth i y 0 * f i - nth i d 0 * nth i y 0 * f i) with ((nth i d' 0 - nth i d 0) * m) by (unfold m; ring).
  set (A := Rabs (nth i d 0 - nth i d' 0)) in *. nra.
Qed.

(** ** nonnegative weights of any positive sum *)
Lemma from_slices_nonneg {H} (conf : H -> nat -> R) ws (hs : list H) : length ws = length hs -> (forall x, In x ws -> 0 <= x) -> 0 < rsum ws ->
  exists f, from_slices ws hs = Ok f /\ forall i, wm_confidence conf f i = vote conf (combine (map (fun w => w / rsum ws) ws) hs) i.
Proof.
  intros L H1 H2. pose proof (from_slices_spec conf ws hs) as S.
  assert (K : forall ws hs, length ws = length hs -> (forall x, In x ws -> 0 <= x) ->
     rsum (map fst (@kept H ws hs)) = rsum ws /\ forall i, vote conf (kept ws hs) i = vote conf (combine ws hs) i).
  { clear. unfold kept. induction ws as [|w ws IH]; intros [|h hs] L Hp; simpl in *; try lia; [split; reflexivity|].
    destruct (IH hs ltac:(lia) ltac:(intros; apply Hp; right; assumption)) as [I1 I2]. pose proof (Hp w (or_introl eq_refl)).
    destruct (Rltb_spec 0 w) as [P|P]; simpl.
    - split; [rewrite I1; reflexivity|]. intros i. unfold vote in *; simpl. rewrite I2. reflexivity.
    - assert (w = 0) by lra. subst w. split; [rewrite I1; ring|]. intros i. rewrite I2. unfold vote; simpl. ring. }
  assert (K3 : forall z i ws hs, length ws = length hs -> vote conf (combine ws hs) i / z = @vote H conf (combine (map (fun w => w / z) ws) hs) i).
  { clear. intros z i. unfold vote. induction ws as [|w ws IH]; intros [|h hs] L; cbn [combine map rsum length fst snd] in *; try lia; [unfold Rdiv; ring|]. rewrite <- IH by lia. unfold Rdiv. ring. }
  destruct (K ws hs L H1) as [K1 K2]. destruct (from_slices ws hs) as [f|p].
  - exists f. split; [reflexivity|]. intros i. destruct S as [_ [_ [_ [_ [_ S]]]]]. rewrite S, K1, K2. apply K3, L.
  - destruct S as [_ S]. rewrite S in K1. simpl in K1. lra.
Qed.

Lemma scaled_dist ws : (forall x, In x ws -> 0 <= x) -> 0 < rsum ws -> is_dist (map (fun w => w / rsum ws) ws).
Proof.
  intros H1 H2. split.
  - intros x Hx. apply in_map_iff in Hx. destruct Hx as [w [<- Hw]]. specialize (H1 w Hw). apply Rle_div_iff; lra.
  - assert (E : forall z l, z <> 0 -> rsum (map (fun w => w / z) l) = rsum l / z) by (intros z l Hz; induction l as [|a l IH]; cbn [map rsum]; [field; exact Hz|rewrite IH; field; exact Hz]).
    rewrite E by lra. field. lra.
Qed.

Section NearGamma.
  Context {H : Type}.
  Variable conf : H -> nat -> R.
  Variable y : list R.
  Local Notation n := (length y).
  Variable hs : list H.
  Variables nu eps : R.
  Hypothesis Hnu : 0 < nu.
  Hypothesis Heps : 0 <= eps.
  Let p := gamma_conic conf y 1 (1 / nu) (repeat 0 n) hs.

  Lemma gamma_near a : nearly_solves eps p a ->
    let d := skipn 1 (a_x a) in let ws := skipn (1 + 2 * n) (a_z a) in let g := nth 0 (a_x a) 0 in
    length (a_z a) = (1 + 2 * n + length hs)%nat /\
    length d = n /\ (forall v, In v d -> - eps <= v <= 1 / nu + eps) /\ near_vec eps d /\
    length ws = length hs /\ (forall v, In v ws -> 0 <= v) /\ near_vec eps ws /\
    (forall h, In h hs -> edge_of y d (conf h) <= g + eps) /\
    (forall d', capped nu y d' -> g - 2 * eps <= edge_of y d' (vote conf (combine ws hs))).
  Proof.
    intros [Lx [Lz [F [St [Gap _]]]]] d ws g. unfold p, gamma_conic in Lx, Lz, F, St, Gap.
    pose proof (gamma_q_length y (repeat 0 n) (repeat_length _ _)) as Lq.
    pose proof (edge_b_length conf y true 1 hs (csc_zeros (n + 1) (n + 1)) (1 :: repeat 0 n) (1 / nu) 0) as Lb.
    specialize (Lb Lq). rewrite Lb in Lz, F, Gap. cbn [k_q] in Lx, St, Gap. rewrite Lq in Lx, St, Gap. cbn [offs] in Lx, St, Gap.
    set (A := csc_of (1 + 2 * n + length hs) (edge_cols conf y true 1 hs)) in *.
    set (x := a_x a) in *. set (z := a_z a) in *. cbn [k_P k_A] in St, Gap.
    assert (Nd : forall i, nth i d 0 = nth (1 + i) x 0) by (intros; apply nth_skipn_add).
    assert (Nw : forall t, nth t ws 0 = nth (1 + 2 * n + t) z 0) by (intros; apply nth_skipn_add).
    assert (Ld : length d = n) by (unfold d; rewrite skipn_length, Lx; lia).
    assert (Lw : length ws = length hs) by (unfold ws; rewrite skipn_length, Lz; lia).
    assert (F0 : 1 - eps <= rsum (map (fun i => nth (1 + i) x 0) (seq 0 n)) <= 1 + eps).
    { pose proof (F 0%nat ltac:(lia)) as F0. rewrite (edge_senses conf y true 1 hs) in F0 by (exact Lq || lia). cbn [Nat.eqb] in F0. unfold slack in F0. rewrite (edge_b0 conf y true 1 hs) in F0 by exact Lq. cbn [k_A] in F0. unfold A in F0. rewrite row_total in F0. cbn [offs] in F0. apply rabs_le in F0. lra. }
    assert (F1 : forall i, (i < n)%nat -> - eps <= nth (1 + i) x 0 /\ 0 <= nth (S i) z 0).
    { intros i Hi. pose proof (F (S i) ltac:(lia)) as F1. rewrite (edge_senses conf y true 1 hs) in F1 by (exact Lq || lia). cbn [Nat.eqb] in F1. unfold slack in F1. rewrite (edge_b1 conf y true 1 hs) in F1 by (exact Lq || exact Hi). cbn [k_A] in F1. unfold A in F1. rewrite row_pos in F1 by exact Hi. cbn [offs] in F1. lra. }
    assert (F2 : forall i, (i < n)%nat -> nth (1 + i) x 0 <= 1 / nu + eps /\ 0 <= nth (n + S i) z 0).
    { intros i Hi. pose proof (F (n + S i)%nat ltac:(lia)) as F2. rewrite (edge_senses conf y true 1 hs) in F2 by (exact Lq || lia). rewrite (proj2 (Nat.eqb_neq (n + S i) 0)) in F2 by lia. unfold slack in F2. rewrite (edge_b2 conf y true 1 hs) in F2 by (exact Lq || exact Hi). cbn [k_A] in F2. unfold A in F2. rewrite row_cap in F2 by exact Hi. cbn [offs] in F2. lra. }
    assert (F3 : forall t, (t < length hs)%nat -> rsum (map (fun i => nth (1 + i) x 0 * marg conf y hs t i) (seq 0 n)) <= g + eps /\ 0 <= nth (1 + 2 * n + t) z 0).
    { intros t Ht. pose proof (F (1 + 2 * n + t)%nat ltac:(lia)) as F3. rewrite (edge_senses conf y true 1 hs) in F3 by (exact Lq || lia). rewrite (proj2 (Nat.eqb_neq (1 + 2 * n + t) 0)) in F3 by lia. unfold slack in F3. rewrite (edge_b3 conf y true 1 hs) in F3 by (exact Lq || exact Ht). cbn [k_A] in F3. unfold A in F3. rewrite row_edge in F3 by exact Ht. cbn [offs gof] in F3. fold g in F3. lra. }
    clear F.
    assert (S0 : 1 - eps <= rsum (map (fun t => nth (1 + 2 * n + t) z 0) (seq 0 (length hs))) <= 1 + eps).
    { pose proof (St 0%nat ltac:(lia)) as S0. rewrite row_dot_zeros in S0. cbn [nth] in S0. unfold A in S0. rewrite (col_gam conf y true 1 hs z eq_refl) in S0. apply rabs_le in S0. lra. }
    assert (S1 : forall i, (i < n)%nat -> - nth 0 z 0 + nth (S i) z 0 - nth (n + S i) z 0 - eps <= rsum (map (fun t => nth (1 + 2 * n + t) z 0 * marg conf y hs t i) (seq 0 (length hs)))).
    { intros i Hi. pose proof (St (1 + i)%nat ltac:(lia)) as S1. rewrite row_dot_zeros in S1. cbn [nth Nat.add] in S1. rewrite nth_repeat in S1.
      unfold A in S1. pose proof (col_ex conf y true 1 hs z i Hi) as C. cbn [offs Nat.add] in C. cbn [Nat.add] in S1. rewrite C in S1. apply rabs_le in S1. cbn [Nat.add]. lra. }
    assert (G : g + nth 0 z 0 + 1 / nu * rsum (map (fun i => nth (n + S i) z 0) (seq 0 n)) <= eps /\ - eps <= g + nth 0 z 0 + 1 / nu * rsum (map (fun i => nth (n + S i) z 0) (seq 0 n))).
    { rewrite (rsum_zero (fun c => row_dot (csc_zeros (n + 1) (n + 1)) x c * nth c x 0)) in Gap by (intros; rewrite row_dot_zeros; ring).
      rewrite (rsum_split (fun c => nth c (1 :: repeat 0 n) 0 * nth c x 0)), rsum_one in Gap. cbn [nth] in Gap. fold g in Gap.
      rewrite (rsum_zero (fun i => nth (1 + i) (1 :: repeat 0 n) 0 * nth (1 + i) x 0)) in Gap by (intros i Hi; cbn [Nat.add nth]; rewrite nth_repeat; ring).
      replace (1 + 2 * n + length hs)%nat with (1 + n + n + length hs)%nat in Gap by lia. rewrite !rsum_split, rsum_one in Gap.
      rewrite (edge_b0 conf y true 1 hs) in Gap by exact Lq.
      rewrite (rsum_zero (fun i => nth (1 + i) _ 0 * nth (1 + i) z 0)) in Gap by (intros i Hi; cbn [Nat.add]; rewrite (edge_b1 conf y true 1 hs) by (exact Lq || exact Hi); ring).
      rewrite (rsum_map_ext (fun i => nth (1 + n + i) _ 0 * nth (1 + n + i) z 0) (fun i => 1 / nu * nth (n + S i) z 0)) in Gap by
        (intros i Hi; apply in_seq in Hi; replace (1 + n + i)%nat with (n + S i)%nat by lia; rewrite (edge_b2 conf y true 1 hs) by (exact Lq || lia); reflexivity).
      rewrite rsum_map_mult in Gap.
      rewrite (rsum_zero (fun i => nth (1 + n + n + i) _ 0 * nth (1 + n + n + i) z 0)) in Gap by
        (intros i Hi; replace (1 + n + n + i)%nat with (1 + 2 * n + i)%nat by lia; rewrite (edge_b3 conf y true 1 hs) by (exact Lq || exact Hi); ring).
      apply rabs_le in Gap. lra. }
    split; [exact Lz|]. split; [exact Ld|]. split; [|split; [|split; [exact Lw|split; [|split; [|split]]]]].
    - intros v Hv. apply (In_nth _ _ 0) in Hv. destruct Hv as [i [Hi <-]]. rewrite Nd. rewrite Ld in Hi. specialize (F1 i Hi). specialize (F2 i Hi). lra.
    - unfold near_vec. rewrite <- (rsum_nth d), Ld. rewrite (rsum_map_ext _ (fun i => nth (1 + i) x 0)) by (intros; apply Nd). exact F0.
    - intros v Hv. apply (In_nth _ _ 0) in Hv. destruct Hv as [t [Ht <-]]. rewrite Nw. rewrite Lw in Ht. apply F3, Ht.
    - unfold near_vec. rewrite <- (rsum_nth ws), Lw. rewrite (rsum_map_ext _ (fun t => nth (1 + 2 * n + t) z 0)) by (intros; apply Nw). exact S0.
    - intros h Hh. apply In_nth_error in Hh. destruct Hh as [t Ht]. assert (HtT : (t < length hs)%nat) by (apply nth_error_Some; congruence).
      rewrite (edge_marg conf y hs d t h Ld Ht). rewrite (rsum_map_ext _ (fun i => nth (1 + i) x 0 * marg conf y hs t i)) by (intros; rewrite Nd; reflexivity). apply F3, HtT.
    - intros d' [Ld' [C1 C2]].
      assert (E : - nth 0 z 0 - 1 / nu * rsum (map (fun i => nth (n + S i) z 0) (seq 0 n)) - eps <= edge_of y d' (vote conf (combine ws hs))); [|lra].
      assert (D2 : rsum (map (fun i => nth i d' 0) (seq 0 n)) = 1) by (rewrite <- Ld', rsum_nth; exact C2).
      unfold edge_of.
      replace (- nth 0 z 0 - 1 / nu * rsum (map (fun i => nth (n + S i) z 0) (seq 0 n)) - eps) with
        (rsum (map (fun i => (- nth 0 z 0 - eps) * nth i d' 0 - 1 / nu * nth (n + S i) z 0) (seq 0 n))) by (rewrite rsum_map_minus, !rsum_map_mult, D2; ring).
      apply rsum_le_seq. intros i Hi. rewrite (vote_marg conf y hs ws i Lw Hi).
      rewrite (rsum_map_ext _ (fun t => nth (1 + 2 * n + t) z 0 * marg conf y hs t i)) by (intros; rewrite Nw; reflexivity).
      specialize (S1 i Hi). specialize (F1 i Hi). specialize (F2 i Hi). assert (Hi2 : (i < length d')%nat) by lia. specialize (C1 (nth i d' 0) (nth_In _ _ Hi2)).
      set (m := rsum (map (fun t => nth (1 + 2 * n + t) z 0 * marg conf y hs t i) (seq 0 (length hs)))) in *. set (q := nth i d' 0) in *.
      assert (Q1 : q * (- nth 0 z 0 + nth (S i) z 0 - nth (n + S i) z 0 - eps) <= q * m) by (apply Rmult_le_compat_l; lra).
      assert (Q2 : 0 <= q * nth (S i) z 0) by (apply Rmult_le_pos; lra). assert (Q3 : q * nth (n + S i) z 0 <= 1 / nu * nth (n + S i) z 0) by (apply Rmult_le_compat_r; lra). lra.
  Qed.
End NearGamma.
