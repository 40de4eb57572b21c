(** Property C89: AdaBoost and AdaBoostV change the weights of the examples gently. *)
From Verif Require Import Base UtilsFacts Spec SortLib Utils UtilsProofs WMajority WMajorityProofs Booster AdaBoost
  AdaBoostProofs AdaBoostMain AdaBoostMore AdaBoostV AdaBoostVProofs AdaBoostFacts AdaBoostVFacts.
Open Scope R_scope.

Lemma firstn_S_snoc {A} (l : list A) k x : (k < length l)%nat -> firstn (S k) l = firstn k l ++ [nth k l x].
Proof.
  revert k. induction l as [|a l IH]; intros [|k] Hk; simpl in *; try lia; [reflexivity|]. f_equal. apply IH. lia.
Qed.

Lemma nth_firstn_lt {A} (l : list A) k m x : (k < m)%nat -> nth k (firstn m l) x = nth k l x.
Proof.
  revert k m. induction l as [|a l IH]; intros [|k] [|m] Hk; simpl; try lia; try reflexivity. apply IH. lia.
Qed.

Lemma nth_edges {H} (conf : H -> nat -> R) produce y tr k : (k < length tr)%nat ->
  nth k (edges conf produce y tr) 0 = edge_of y (nth k tr []) (conf (produce (S k) (nth k tr []))).
Proof.
  intros Hk. unfold edges. rewrite (combine_nth_map _ (seq 1 (length tr)) tr 0%nat []) by apply seq_length.
  rewrite seq_length, nth_map_seq by exact Hk. cbn [fst snd]. rewrite seq_nth by exact Hk. reflexivity.
Qed.

Lemma edges_firstn {H} (conf : H -> nat -> R) produce y tr k :
  edges conf produce y (firstn k tr) = firstn k (edges conf produce y tr).
Proof.
  induction tr as [|d tr IH] using rev_ind; [rewrite firstn_nil; simpl; rewrite firstn_nil; reflexivity|].
  destruct (le_lt_dec k (length tr)) as [L|L].
  - rewrite firstn_app_le by exact L. rewrite IH, edges_app, firstn_app_le by (rewrite edges_length; exact L). reflexivity.
  - rewrite !firstn_all2; [reflexivity| |]; rewrite ?edges_length, app_length; simpl; lia.
Qed.

Section Gentle.
  Context {H : Type}.
  Variable conf : H -> nat -> R.
  Variable y : list R.
  Local Notation n := (length y).

  (** one exponential step, entry by entry *)
  Lemma exp_dist_next wh d d' w h i :
    exp_dist conf y wh d -> exp_dist conf y (wh ++ [(w, h)]) d' -> (i < n)%nat ->
    nth i d' 0 = nth i d 0 * exp (- w * (nth i y 0 * conf h i)) /
      rsum (map (fun j => nth j d 0 * exp (- w * (nth j y 0 * conf h j))) (seq 0 n)).
  Proof.
    intros Hd Hd' Hi. assert (Hn : (0 < n)%nat) by lia.
    destruct (exp_dist_update conf y wh d w h Hn Hd) as [d2 [_ [_ EZ]]].
    pose proof (expZ_pos conf y wh Hn) as Z1. pose proof (expZ_pos conf y (wh ++ [(w, h)]) Hn) as Z2.
    set (Z := rsum (map _ _)) in *.
    assert (HZ : 0 < Z). { rewrite EZ in Z2. apply (Rmult_lt_reg_l (expZ conf y wh)); [exact Z1|]. lra. }
    destruct Hd as [_ Hd]. destruct Hd' as [_ Hd']. rewrite Hd', Hd by exact Hi. rewrite EZ, expw_app. field. lra.
  Qed.

  Lemma exp_dist_step_lower wh d d' w h i c :
    exp_dist conf y wh d -> exp_dist conf y (wh ++ [(w, h)]) d' -> (i < n)%nat -> 0 < c ->
    (forall j, (j < n)%nat -> -1 <= nth j y 0 * conf h j <= 1) ->
    ((1 + edge_of y d (conf h)) / 2 * exp (- w) + (1 - edge_of y d (conf h)) / 2 * exp w) * c <= exp (- Rabs w) ->
    c * nth i d 0 <= nth i d' 0.
  Proof.
    intros Hd Hd' Hi Hc Hm Hb. assert (Hn : (0 < n)%nat) by lia.
    pose proof (exp_dist_pos conf y wh d Hn Hd) as [P1 P2].
    assert (Hdi : 0 < nth i d 0) by (apply P1, nth_In; destruct Hd as [-> _]; exact Hi).
    rewrite (exp_dist_next wh d d' w h i Hd Hd' Hi).
    assert (Hisd : is_dist d) by (split; [intros x Hx; left; apply P1, Hx|exact P2]).
    pose proof (round_bound y d (conf h) w Hisd (proj1 Hd) Hm) as B. set (Z := rsum (map _ _)) in *.
    assert (HZ : 0 < Z).
    { unfold Z. apply rsum_pos; [intros X; apply map_eq_nil in X; apply (f_equal (@length nat)) in X; rewrite seq_length in X; simpl in X; lia|]. intros x Hx. apply in_map_iff in Hx.
      destruct Hx as [j [<- Hj]]. apply in_seq in Hj. apply Rmult_lt_0_compat; [|apply exp_pos].
      apply P1, nth_In. destruct Hd as [-> _]. lia. }
    apply Rle_div_iff; [exact HZ|].
    assert (E : exp (- Rabs w) <= exp (- w * (nth i y 0 * conf h i))).
    { apply exp_le_exp. specialize (Hm i Hi). pose proof (Rle_abs w) as A1. pose proof (Rle_abs (- w)) as A2.
      rewrite Rabs_Ropp in A2. pose proof (Rabs_pos w). nra. }
    assert (Z * c <= exp (- Rabs w)) by nra. nra.
  Qed.
End Gentle.

(** the value of the AdaBoost step: sqrt(1-e^2) * 1/(1+|e|) = exp(-|w|) *)
Lemma ada_step_const e : -1 < e < 1 ->
  ((1 + e) / 2 * exp (- ada_weight e) + (1 - e) / 2 * exp (ada_weight e)) * (/ (1 + Rabs e)) = exp (- Rabs (ada_weight e)).
Proof.
  assert (P : forall e, 0 <= e < 1 ->
    ((1 + e) / 2 * exp (- ada_weight e) + (1 - e) / 2 * exp (ada_weight e)) * (/ (1 + e)) = exp (- ada_weight e)).
  { clear e. intros e He. rewrite ada_weight_ln by lra.
    set (w := (ln (1 + e) - ln (1 - e)) / 2).
    assert (S : (1 - e) * exp w = (1 + e) * exp (- w)).
    { rewrite <- (exp_ln (1 - e)), <- (exp_ln (1 + e)) at 1 by lra. rewrite <- !exp_plus. f_equal. unfold w. field. }
    apply (Rmult_eq_reg_r (1 + e)); [|lra]. rewrite Rmult_assoc, Rinv_l, Rmult_1_r by lra. lra. }
  intros He.
  assert (Neg : ada_weight (- e) = - ada_weight e) by (rewrite !ada_weight_ln by lra; replace (1 + - e) with (1 - e) by ring; replace (1 - - e) with (1 + e) by ring; field).
  assert (Nn : forall a, 0 <= a < 1 -> 0 <= ada_weight a).
  { intros a Ha. destruct (Req_dec a 0) as [->|N].
    - unfold ada_weight. replace ((1 + 0) / (1 - 0)) with 1 by field. rewrite ln_1. lra.
    - left. apply ada_weight_pos. lra. }
  destruct (Rle_or_lt 0 e) as [L|L].
  - rewrite (Rabs_pos_eq e) by exact L. rewrite (Rabs_pos_eq (ada_weight e)) by (apply Nn; lra). apply P. lra.
  - rewrite (Rabs_left e) by exact L. pose proof (Nn (- e) ltac:(lra)) as W. rewrite Neg in W.
    rewrite <- (Rabs_Ropp (ada_weight e)), (Rabs_pos_eq (- ada_weight e)) by exact W.
    pose proof (P (- e) ltac:(lra)) as Q. rewrite Neg in Q. rewrite <- Q. rewrite Ropp_involutive.
    replace (1 + - - e) with (1 + e) by ring. f_equal. lra.
Qed.

Lemma adav_step_const r g : -1 < r -> r <= g -> g < 1 ->
  let w := ada_weight g - ada_weight r in
  ((1 + g) / 2 * exp (- w) + (1 - g) / 2 * exp w) * ((1 + r) / (1 + g)) = exp (- Rabs w).
Proof.
  intros Hr Hrg Hg w.
  assert (Hw0 : 0 <= w).
  { unfold w. destruct (Req_dec r g) as [->|N]; [lra|]. pose proof (ada_weight_lt r g Hr ltac:(lra) Hg). lra. }
  rewrite (Rabs_pos_eq w Hw0).
  assert (Hw : w = (ln (1 + g) - ln (1 - g)) / 2 - (ln (1 + r) - ln (1 - r)) / 2).
  { unfold w. rewrite !ada_weight_ln by lra. reflexivity. }
  assert (S : (1 + g) * (1 - r) * exp (- w) = (1 - g) * (1 + r) * exp w).
  { rewrite <- (exp_ln (1 + g)), <- (exp_ln (1 - g)), <- (exp_ln (1 + r)), <- (exp_ln (1 - r)) by lra.
    rewrite <- !exp_plus. f_equal. rewrite Hw. field. }
  apply (Rmult_eq_reg_r (1 + g)); [|lra].
  replace (((1 + g) / 2 * exp (- w) + (1 - g) / 2 * exp w) * ((1 + r) / (1 + g)) * (1 + g))
    with ((1 + r) * (1 + g) / 2 * exp (- w) + (1 - g) * (1 + r) * exp w / 2) by (field; lra).
  rewrite <- S. field.
Qed.

(** every round that was followed by another query had its edge strictly between -1 and 1 *)
Lemma ada_past_small {H} (conf : H -> nat -> R) produce y fuel s k tr :
  trace_of (run (adaboost conf produce y) fuel s) = tr -> (S k < length tr)%nat ->
  -1 < nth k (edges conf produce y tr) 0 < 1.
Proof.
  set (Q := fun tr => Forall small (firstn (length tr - 1) (edges conf produce y tr))).
  assert (Full : forall tr, Forall small (edges conf produce y tr) -> Q tr).
  { intros t0 F. unfold Q. apply Forall_forall. intros x Hx. eapply Forall_forall; [exact F|].
    rewrite <- (firstn_skipn (length t0 - 1)). apply in_or_app. left. exact Hx. }
  assert (Snoc : forall tr d, Forall small (edges conf produce y tr) -> Q (tr ++ [d])).
  { intros t0 d F. unfold Q. rewrite app_length. simpl. rewrite edges_app.
    replace (length t0 + 1 - 1)%nat with (length (edges conf produce y t0)) by (rewrite edges_length; lia).
    rewrite firstn_app, Nat.sub_diag, firstn_all. simpl. rewrite app_nil_r. exact F. }
  destruct (run_inv (adaboost conf produce y) (AInv conf produce y (ada_limit y s)) Q (fun _ _ => True) s) with (fuel := fuel) as [G _].
  - constructor.
  - intros s0. apply ada_pre_inv.
  - intros t s' tr0 Hinv. apply Full. apply Hinv.
  - intros t s' tr0 Hinv. assert (F : Forall small (edges conf produce y tr0)) by apply Hinv.
    destruct (ada_boost_step conf produce y _ _ _ _ Hinv) as [[HL E]|[[HL [Hed [He [s1 [E [Ew Eh]]]]]]|[HL [He [s1 [E Hinv']]]]]];
      simpl b_boost; rewrite E.
    + rewrite app_nil_r. split; [apply Full, F|]. destruct (b_post _ _); exact I.
    + split; [apply Snoc, F|]. destruct (b_post _ _); exact I.
    + exact Hinv'.
  - intros E Hk. rewrite E in G. unfold Q in G.
    eapply Forall_forall in G; [exact G|].
    rewrite <- (nth_firstn_lt _ k (length tr - 1) 0) by lia.
    apply nth_In. rewrite firstn_length, edges_length. lia.
Qed.

Lemma adav_past_fine {H} (conf : H -> nat -> R) produce y fuel s k tr :
  trace_of (run (adaboostv conf produce y) fuel s) = tr -> (S k < length tr)%nat ->
  -1 < nth k (edges conf produce y tr) 0 < 1 /\
  -1 < min_edge (firstn (S k) (edges conf produce y tr)) - v_tolerance s < 1.
Proof.
  set (tol := v_tolerance s).
  set (Q := fun tr => fine tol (firstn (length tr - 1) (edges conf produce y tr))).
  assert (FP : forall es k, fine tol es -> fine tol (firstn k es)).
  { intros es j [F1 F2]. split.
    - apply Forall_forall. intros x Hx. eapply Forall_forall; [exact F1|].
      rewrite <- (firstn_skipn j). apply in_or_app. left. exact Hx.
    - intros q Hq. rewrite firstn_length in Hq. rewrite firstn_firstn, Nat.min_l by lia. apply F2. lia. }
  assert (Snoc : forall tr d, fine tol (edges conf produce y tr) -> Q (tr ++ [d])).
  { intros t0 d F. unfold Q. rewrite app_length. simpl. rewrite edges_app.
    replace (length t0 + 1 - 1)%nat with (length (edges conf produce y t0)) by (rewrite edges_length; lia).
    rewrite firstn_app, Nat.sub_diag, firstn_all. simpl. rewrite app_nil_r. exact F. }
  destruct (run_inv (adaboostv conf produce y) (VInv conf produce y tol (adav_limit y s)) Q (fun _ _ => True) s) with (fuel := fuel) as [G _].
  - split; [constructor|]. simpl. intros; lia.
  - intros s0. apply adav_pre_inv.
  - intros t s' tr0 Hinv. apply FP. apply Hinv.
  - intros t s' tr0 Hinv. assert (F : fine tol (edges conf produce y tr0)) by apply Hinv.
    destruct (adav_boost_step conf produce y _ _ _ _ _ Hinv) as
        [[HL E]|[[HL [Hed [He [s1 [E [Ew Eh]]]]]]|[[HL [He [Hr E]]]|[HL [He [s1 [E Hinv']]]]]]];
        simpl b_boost; rewrite E.
    + rewrite app_nil_r. split; [apply FP, F|]. destruct (b_post _ _); exact I.
    + split; [apply Snoc, F|]. destruct (b_post _ _); exact I.
    + apply Snoc, F.
    + exact Hinv'.
  - intros E Hk. rewrite E in G. unfold Q in G. destruct G as [G1 G2]. split.
    + eapply Forall_forall in G1; [exact G1|].
      rewrite <- (nth_firstn_lt _ k (length tr - 1) 0) by lia.
      apply nth_In. rewrite firstn_length, edges_length. lia.
    + specialize (G2 (S k)). rewrite firstn_length, edges_length in G2.
      rewrite firstn_firstn in G2. replace (Init.Nat.min (S k) (length tr - 1)) with (S k) in G2 by lia. apply G2. lia.
Qed.

Lemma margin_range y v i : pm1 (nth i y 0) -> -1 <= v <= 1 -> -1 <= nth i y 0 * v <= 1.
Proof. intros [-> | ->]; lra. Qed.

Lemma ada_consecutive {H} (conf : H -> nat -> R) produce y fuel s k tr :
  trace_of (run (adaboost conf produce y) fuel s) = tr -> (S k < length tr)%nat ->
  exists wh, exp_dist conf y wh (nth k tr []) /\
    exp_dist conf y (wh ++ [(ada_weight (nth k (edges conf produce y tr) 0), produce (S k) (nth k tr []))]) (nth (S k) tr []).
Proof.
  intros E Hk. destruct (ada_run_spec conf produce y fuel s) as [[Hg _] _]. rewrite E in Hg.
  exists (ada_history conf produce y (firstn k tr)). split; [apply Hg; lia|].
  pose proof (Hg (S k) Hk) as G. rewrite (firstn_S_snoc tr k []) in G by lia. rewrite ada_history_app in G.
  rewrite firstn_length, Nat.min_l in G by lia. rewrite nth_edges by lia. exact G.
Qed.

Lemma adav_consecutive {H} (conf : H -> nat -> R) produce y fuel s k tr :
  trace_of (run (adaboostv conf produce y) fuel s) = tr -> (S k < length tr)%nat ->
  exists wh, exp_dist conf y wh (nth k tr []) /\
    exp_dist conf y (wh ++ [(ada_weight (nth k (edges conf produce y tr) 0) -
                             ada_weight (min_edge (firstn (S k) (edges conf produce y tr)) - v_tolerance s),
                             produce (S k) (nth k tr []))]) (nth (S k) tr []).
Proof.
  intros E Hk. destruct (adav_run_spec conf produce y fuel s) as [[Hg _] _]. rewrite E in Hg.
  exists (adav_history conf produce y (v_tolerance s) (firstn k tr)). split; [apply Hg; lia|].
  pose proof (Hg (S k) Hk) as G. rewrite (firstn_S_snoc tr k []) in G by lia. rewrite adav_history_app in G.
  rewrite <- (firstn_S_snoc tr k []) in G by lia. rewrite edges_firstn in G.
  rewrite firstn_length, Nat.min_l in G by lia. rewrite (nth_edges conf produce y tr k) by lia. exact G.
Qed.

(** ** C89: from one AdaBoost query to the next no example loses more than the factor 1 + |edge|, hence never half
    of its weight, whatever the weak learner answers *)
Lemma P_C89_adaboost_weights_fall_gently :
  forall (H : Type) (conf : H -> nat -> R) (produce : nat -> list R -> H) (y : list R) (s : ada) (fuel k i : nat) tr,
  (forall j, (j < length y)%nat -> pm1 (nth j y 0)) ->
  (forall h j, (j < length y)%nat -> -1 <= conf h j <= 1) ->
  trace_of (run (adaboost conf produce y) fuel s) = tr -> (S k < length tr)%nat -> (i < length y)%nat ->
  nth i (nth k tr []) 0 / (1 + Rabs (nth k (edges conf produce y tr) 0)) <= nth i (nth (S k) tr []) 0 /\
  nth i (nth k tr []) 0 / 2 < nth i (nth (S k) tr []) 0.
Proof.
  intros H conf produce y s fuel k i tr Hy Hc E Hk Hi.
  pose proof (ada_past_small conf produce y fuel s k tr E Hk) as He.
  destruct (ada_consecutive conf produce y fuel s k tr E Hk) as [wh [D1 D2]].
  set (e := nth k (edges conf produce y tr) 0) in *. set (h := produce (S k) (nth k tr [])) in *.
  assert (Ee : edge_of y (nth k tr []) (conf h) = e) by (unfold e; rewrite nth_edges by lia; reflexivity).
  assert (Ha : 0 <= Rabs e < 1) by (split; [apply Rabs_pos|apply Rabs_def1; lra]).
  assert (B : / (1 + Rabs e) * nth i (nth k tr []) 0 <= nth i (nth (S k) tr []) 0).
  { apply (exp_dist_step_lower conf y wh (nth k tr []) (nth (S k) tr []) (ada_weight e) h i (/ (1 + Rabs e)) D1 D2 Hi).
    - apply Rinv_0_lt_compat. lra.
    - intros j Hj. apply margin_range; [apply Hy, Hj|apply Hc, Hj].
    - rewrite Ee, ada_step_const by exact He. lra. }
  assert (Hp : 0 < nth i (nth k tr []) 0).
  { assert (Hn : (0 < length y)%nat) by lia. destruct (exp_dist_pos conf y wh _ Hn D1) as [P _]. apply P, nth_In.
    destruct D1 as [-> _]. exact Hi. }
  split; [unfold Rdiv; rewrite Rmult_comm; exact B|].
  assert (/ 2 < / (1 + Rabs e)) by (apply Rinv_lt_contravar; nra). nra.
Qed.

(** ... so after k rounds an example still has more than 2^-k of the weight it started with *)
Lemma P_C89_adaboost_weights_bounded_below :
  forall (H : Type) (conf : H -> nat -> R) (produce : nat -> list R -> H) (y : list R) (s : ada) (fuel k i : nat) tr,
  (forall j, (j < length y)%nat -> pm1 (nth j y 0)) ->
  (forall h j, (j < length y)%nat -> -1 <= conf h j <= 1) ->
  trace_of (run (adaboost conf produce y) fuel s) = tr -> (k < length tr)%nat -> (i < length y)%nat ->
  1 / (INR (length y) * 2 ^ k) <= nth i (nth k tr []) 0.
Proof.
  intros H conf produce y s fuel k i tr Hy Hc E Hk Hi.
  assert (Hn : 0 < INR (length y)) by (apply INR_pos; lia).
  induction k as [|k IH].
  - destruct tr as [|d tr]; [simpl in Hk; lia|]. rewrite (P_C04_adaboost_starts_uniform _ _ _ _ _ _ _ _ E).
    simpl nth. rewrite nth_repeat_lt by exact Hi. simpl. right. field. lra.
  - destruct (P_C89_adaboost_weights_fall_gently H conf produce y s fuel k i tr Hy Hc E Hk Hi) as [_ B].
    specialize (IH ltac:(lia)). pose proof (pow_lt 2 k ltac:(lra)) as P.
    replace (1 / (INR (length y) * 2 ^ S k)) with (1 / (INR (length y) * 2 ^ k) / 2) by (simpl; field; lra). lra.
Qed.

(** ... and when the answer is a +1/-1 classifier the new weights are exactly d/(1+e) on the examples it got right
    and d/(1-e) on those it got wrong *)
Lemma P_C89_adaboost_new_weights_exact :
  forall (H : Type) (conf : H -> nat -> R) (produce : nat -> list R -> H) (y : list R) (s : ada) (fuel k i : nat) tr e,
  (forall j, (j < length y)%nat -> pm1 (nth j y 0)) ->
  (forall h j, (j < length y)%nat -> pm1 (conf h j)) ->
  trace_of (run (adaboost conf produce y) fuel s) = tr -> (S k < length tr)%nat -> (i < length y)%nat ->
  e = nth k (edges conf produce y tr) 0 ->
  (conf (produce (S k) (nth k tr [])) i = nth i y 0 -> nth i (nth (S k) tr []) 0 = nth i (nth k tr []) 0 / (1 + e)) /\
  (conf (produce (S k) (nth k tr [])) i <> nth i y 0 -> nth i (nth (S k) tr []) 0 = nth i (nth k tr []) 0 / (1 - e)).
Proof.
  intros H conf produce y s fuel k i tr e Hy Hc E Hk Hi Ee.
  pose proof (ada_past_small conf produce y fuel s k tr E Hk) as He. rewrite <- Ee in He.
  destruct (ada_consecutive conf produce y fuel s k tr E Hk) as [wh [D1 D2]]. rewrite <- Ee in D2.
  set (h := produce (S k) (nth k tr [])) in *. set (d := nth k tr []) in *.
  assert (Eh : edge_of y d (conf h) = e) by (rewrite Ee, nth_edges by lia; reflexivity).
  rewrite (exp_dist_next conf y wh d (nth (S k) tr []) (ada_weight e) h i D1 D2 Hi).
  assert (Hn : (0 < length y)%nat) by lia. destruct (exp_dist_pos conf y wh d Hn D1) as [P1 P2]. destruct D1 as [Hl _].
  assert (M : forall j, (j < length y)%nat -> pm1 (nth j y 0 * conf h j)).
  { intros j Hj. destruct (Hy j Hj) as [-> | ->], (Hc h j Hj) as [-> | ->]; unfold pm1; lra. }
  set (w := ada_weight e).
  assert (Z : rsum (map (fun j => nth j d 0 * exp (- w * (nth j y 0 * conf h j))) (seq 0 (length y))) =
              (1 + e) / 2 * exp (- w) + (1 - e) / 2 * exp w).
  { rewrite (rsum_map_ext _ (fun j => (exp (- w) + exp w) / 2 * nth j d 0 +
        (exp (- w) - exp w) / 2 * (nth j d 0 * (nth j y 0 * conf h j)))).
    - rewrite rsum_map_plus, !rsum_map_mult. change (rsum (map (fun x => nth x d 0 * (nth x y 0 * conf h x)) (seq 0 (length y))))
        with (edge_of y d (conf h)). rewrite Eh. rewrite <- Hl at 1. rewrite rsum_nth, P2. field.
    - intros j Hj. apply in_seq in Hj. destruct (M j ltac:(lia)) as [-> | ->].
      + replace (- w * 1) with (- w) by ring. field.
      + replace (- w * -1) with w by ring. field. }
  rewrite Z.
  assert (S : (1 - e) * exp w = (1 + e) * exp (- w)).
  { unfold w. rewrite ada_weight_ln by lra. set (v := (ln (1 + e) - ln (1 - e)) / 2).
    rewrite <- (exp_ln (1 - e)), <- (exp_ln (1 + e)) at 1 by lra. rewrite <- !exp_plus. f_equal. unfold v. field. }
  pose proof (exp_pos w) as X1. pose proof (exp_pos (- w)) as X2.
  assert (Z1 : (1 + e) / 2 * exp (- w) + (1 - e) / 2 * exp w = (1 + e) * exp (- w)) by lra.
  split; intros Hr.
  - assert (Hm : nth i y 0 * conf h i = 1) by (rewrite Hr; destruct (Hy i Hi) as [-> | ->]; lra).
    rewrite Hm, Z1. replace (- w * 1) with (- w) by ring. field. lra.
  - assert (Hm : nth i y 0 * conf h i = -1) by (destruct (Hy i Hi) as [Ey | Ey], (Hc h i Hi) as [Ec | Ec]; rewrite Ey, Ec in *; lra).
    rewrite Hm, Z1, <- S. replace (- w * -1) with w by ring. field. lra.
Qed.

(** ** C89: AdaBoostV moves the weights even less: an example keeps at least the share (1+rho)/(1+edge), rho being the
    smallest edge so far minus the tolerance *)
Lemma P_C89_adaboostv_weights_fall_gently :
  forall (H : Type) (conf : H -> nat -> R) (produce : nat -> list R -> H) (y : list R) (s : adav) (fuel k i : nat) tr rho,
  0 <= v_tolerance s ->
  (forall j, (j < length y)%nat -> pm1 (nth j y 0)) ->
  (forall h j, (j < length y)%nat -> -1 <= conf h j <= 1) ->
  trace_of (run (adaboostv conf produce y) fuel s) = tr -> (S k < length tr)%nat -> (i < length y)%nat ->
  rho = fold_right Rmin 1 (firstn (S k) (edges conf produce y tr)) - v_tolerance s ->
  0 < (1 + rho) / (1 + nth k (edges conf produce y tr) 0) <= 1 /\
  nth i (nth k tr []) 0 * ((1 + rho) / (1 + nth k (edges conf produce y tr) 0)) <= nth i (nth (S k) tr []) 0.
Proof.
  intros H conf produce y s fuel k i tr rho Htol Hy Hc E Hk Hi Er. fold (min_edge (firstn (S k) (edges conf produce y tr))) in Er.
  destruct (adav_past_fine conf produce y fuel s k tr E Hk) as [He Hr]. rewrite <- Er in Hr.
  destruct (adav_consecutive conf produce y fuel s k tr E Hk) as [wh [D1 D2]]. rewrite <- Er in D2.
  assert (Hre : rho <= nth k (edges conf produce y tr) 0).
  { rewrite Er. assert (min_edge (firstn (S k) (edges conf produce y tr)) <= nth k (edges conf produce y tr) 0).
    { apply min_edge_le. rewrite (firstn_S_snoc _ k 0) by (rewrite edges_length; lia). apply in_or_app. right. left. reflexivity. }
    lra. }
  set (e := nth k (edges conf produce y tr) 0) in *. set (h := produce (S k) (nth k tr [])) in *.
  assert (Ee : edge_of y (nth k tr []) (conf h) = e) by (unfold e; rewrite nth_edges by lia; reflexivity).
  assert (Hq : 0 < (1 + rho) / (1 + e)) by (apply Rdiv_lt_0_compat; lra).
  split; [split; [exact Hq|apply Rdiv_le_iff; lra]|].
  rewrite Rmult_comm.
  apply (exp_dist_step_lower conf y wh (nth k tr []) (nth (S k) tr []) (ada_weight e - ada_weight rho) h i _ D1 D2 Hi Hq).
  - intros j Hj. apply margin_range; [apply Hy, Hj|apply Hc, Hj].
  - rewrite Ee. rewrite (adav_step_const rho e) by lra. lra.
Qed.

(** the hypotheses are met: three rounds against a constant +1/-1-bounded hypothesis of edge 1/2 *)
Example C89_nonvacuous :
  exists tr f, run (adaboost (fun (h : nat -> R) i => Rmax (-1) (Rmin 1 (h i))) (fun _ _ i => nth i y2 0 / 2) y2) 4
                   (ada_force_quit_at (ada_init y2) 3) = Finished tr f /\ length tr = 3%nat /\
    (forall i, (i < length y2)%nat -> pm1 (nth i y2 0)) /\
    (forall (h : nat -> R) j, -1 <= Rmax (-1) (Rmin 1 (h j)) <= 1).
Proof.
  set (conf := fun (h : nat -> R) (i : nat) => Rmax (-1) (Rmin 1 (h i))).
  set (pr := fun (_ : nat) (_ : list R) (i : nat) => nth i y2 0 / 2).
  set (s := ada_force_quit_at (@ada_init (nat -> R) y2) 3).
  pose proof (P_C08_adaboost_round_limit _ conf pr y2 s 4) as [_ T]. specialize (T ltac:(simpl; lia)).
  assert (C : forall t d i, conf (pr t d) i = nth i y2 0 / 2).
  { intros t d i. unfold conf, pr. assert (-1 / 2 <= nth i y2 0 / 2 <= 1 / 2).
    { unfold y2. destruct i as [|[|[|i]]]; simpl; lra. }
    rewrite Rmin_right by lra. rewrite Rmax_right by lra. reflexivity. }
  assert (Hlen : forall tr, trace_of (run (adaboost conf pr y2) 4 s) = tr ->
            Forall (fun e => e = 1 / 2) (edges conf pr y2 tr)).
  { intros tr Etr. apply Forall_forall. intros e He. unfold edges in He. apply in_map_iff in He.
    destruct He as [[t d] [<- Hp]]. apply in_combine_r in Hp. rewrite <- Etr in Hp.
    destruct (P_C04_adaboost_queries_are_distributions _ _ _ _ _ _ _ Hp) as [Hl [Hp1 Hp2]].
    destruct d as [|a [|b [|c d]]]; simpl in Hl; try lia. simpl in Hp2.
    unfold edge_of. simpl. rewrite !C. simpl. lra. }
  destruct (run (adaboost conf pr y2) 4 s) as [tr f|tr p|tr] eqn:E.
  - exists tr, f. split; [reflexivity|]. split; [|split; [apply y2_pm1|]].
    + destruct (ada_run_spec conf pr y2 4 s) as [_ HF].
      destruct (HF tr f E) as [_ [[HL _]|[tr0 [d [Et [_ [_ [Hd _]]]]]]]]; [exact HL|].
      exfalso. pose proof (Hlen tr eq_refl) as He.
      rewrite Et, edges_app in He. apply Forall_app in He. destruct He as [_ He]. apply Forall_inv in He.
      rewrite Et, app_length in Hd. simpl in Hd. rewrite Nat.add_1_r in Hd. rewrite He in Hd. lra.
    + intros h j. split; [apply Rmax_l|]. apply Rmax_lub; [lra|apply Rmin_l].
  - exfalso. eapply (P_C08_adaboost_no_crash _ conf pr y2 s 4 tr p); [apply y2_valid|simpl; lia| |exact E].
    eapply Forall_impl; [|apply (Hlen tr); reflexivity]. simpl. intros a ->. lra.
  - contradiction.
Qed.

(** ... and with genuine +1/-1 classifiers: three examples, a learner that errs on one light example per round *)
Definition y3 : list R := [1; 1; -1].
Definition err_at (k i : nat) : R := if Nat.eqb i k then - nth i y3 0 else nth i y3 0.
Definition light_learner (_ : nat) (d : list R) : nat := if Rltb (nth 0 d 0) (1 / 2) then 0%nat else 1%nat.

Example C89_classifiers_nonvacuous :
  exists tr f, run (adaboost (fun h i => if Nat.ltb i 3 then err_at h i else 1) light_learner y3) 4
                   (ada_force_quit_at (ada_init y3) 3) = Finished tr f /\ length tr = 3%nat /\
    (forall i, (i < length y3)%nat -> pm1 (nth i y3 0)) /\
    (forall h j, (j < length y3)%nat -> pm1 (if Nat.ltb j 3 then err_at h j else 1)).
Proof.
  set (conf := fun (h i : nat) => if Nat.ltb i 3 then err_at h i else 1).
  set (s := ada_force_quit_at (@ada_init nat y3) 3).
  assert (Hv : is_valid_binary_instance y3 = Ok tt).
  { apply ValidProofs.valid_pm1; [|simpl; auto|simpl; auto]. intros v Hv. simpl in Hv. intuition lra. }
  assert (Hy : forall i, (i < length y3)%nat -> pm1 (nth i y3 0)).
  { unfold pm1. intros [|[|[|i]]] Hi; simpl in *; try lra; lia. }
  pose proof (P_C08_adaboost_round_limit _ conf light_learner y3 s 4) as [_ T]. specialize (T ltac:(simpl; lia)).
  assert (Hlen : forall tr, trace_of (run (adaboost conf light_learner y3) 4 s) = tr ->
            Forall (fun e => 0 < e < 1) (edges conf light_learner y3 tr)).
  { intros tr Etr. apply Forall_forall. intros e He. unfold edges in He. apply in_map_iff in He.
    destruct He as [[t d] [<- Hp]]. apply in_combine_r in Hp. rewrite <- Etr in Hp.
    destruct (P_C04_adaboost_queries_are_distributions _ _ _ _ _ _ _ Hp) as [Hl [Hp1 Hp2]].
    destruct d as [|a [|b [|c [|c' d]]]]; simpl in Hl; try lia. simpl in Hp2.
    assert (0 < a) by (apply Hp1; simpl; auto). assert (0 < b) by (apply Hp1; simpl; auto). assert (0 < c) by (apply Hp1; simpl; auto).
    unfold edge_of, light_learner. simpl. destruct (Rltb_spec a (1 / 2)) as [L|L]; unfold conf, err_at; simpl; lra. }
  destruct (run (adaboost conf light_learner y3) 4 s) as [tr f|tr p|tr] eqn:E.
  - exists tr, f. split; [reflexivity|]. split; [|split; [exact Hy|]].
    + destruct (ada_run_spec conf light_learner y3 4 s) as [_ HF].
      destruct (HF tr f E) as [_ [[HL _]|[tr0 [d [Et [_ [_ [Hd _]]]]]]]]; [exact HL|].
      exfalso. pose proof (Hlen tr eq_refl) as He.
      rewrite Et, edges_app in He. apply Forall_app in He. destruct He as [_ He]. apply Forall_inv in He.
      rewrite Et, app_length in Hd. simpl in Hd. rewrite Nat.add_1_r in Hd. lra.
    + intros h j Hj. destruct (Nat.ltb_spec j 3); [|left; reflexivity]. unfold err_at.
      destruct (Hy j Hj) as [-> | ->]; destruct (Nat.eqb j h); unfold pm1; lra.
  - exfalso. eapply (P_C08_adaboost_no_crash _ conf light_learner y3 s 4 tr p); [exact Hv|simpl; lia| |exact E].
    eapply Forall_impl; [|apply (Hlen tr); reflexivity]. simpl. intros a Ha. lra.
  - contradiction.
Qed.
