(** Proofs about the Frank-Wolfe routine. *)
From Verif Require Import Base Spec SortLib Utils UtilsProofs WMajority WMajorityProofs Booster AdaBoost AdaBoostProofs AdaBoostMore Num Hoeffding FrankWolfe.
Open Scope R_scope.

(** ** Bisection *)
Lemma bisect_ok (grad : R -> res R) : forall fuel lb ub, lb <= ub -> ub - lb <= SUB_TOLERANCE * 2 ^ fuel ->
  (forall s, lb <= s <= ub -> exists g, grad s = Ok g) -> exists s, bisect fuel grad lb ub = Ok s /\ lb <= s <= ub.
Proof.
  induction fuel as [|fuel IH]; intros lb ub Hle Hw Hg; cbn [bisect]; destruct (Rltb_spec SUB_TOLERANCE (ub - lb)) as [L|L].
  - simpl in Hw. lra.
  - exists ((lb + ub) / 2). split; [reflexivity|lra].
  - destruct (Hg ((lb + ub) / 2) ltac:(lra)) as [g Eg]. rewrite Eg. cbn [bind]. simpl in Hw.
    destruct (Rltb_spec g 0); [|destruct (Rltb_spec 0 g)].
    + destruct (IH ((lb + ub) / 2) ub) as [s [E Hs]]; [lra|lra|intros s Hs; apply Hg; lra|]. exists s. split; [exact E|lra].
    + destruct (IH lb ((lb + ub) / 2)) as [s [E Hs]]; [lra|lra|intros s Hs; apply Hg; lra|]. exists s. split; [exact E|lra].
    + exists ((lb + ub) / 2). split; [reflexivity|lra].
  - exists ((lb + ub) / 2). split; [reflexivity|lra].
Qed.

Lemma pow2_ge_INR k : INR k <= 2 ^ k.
Proof. induction k as [|k IH]; [simpl; lra|]. rewrite S_INR. simpl. assert (1 <= 2 ^ k) by (apply pow_R1_Rle; lra). lra. Qed.

Lemma bisect_fuel_enough w : w <= SUB_TOLERANCE * 2 ^ bisect_fuel w.
Proof.
  unfold bisect_fuel, SUB_TOLERANCE. pose proof (ceil_usize_ge (w * 1000000000)) as C. pose proof (pow2_ge_INR (S (ceil_usize (w * 1000000000)))) as P.
  rewrite S_INR in P. set (q := 2 ^ S (ceil_usize (w * 1000000000))) in *. lra.
Qed.

(** when the gradient is positive all along, the bisection goes to the left end *)
Lemma bisect_positive (grad : R -> res R) : forall fuel lb ub s, lb <= ub ->
  (forall s, lb <= s <= ub -> exists g, grad s = Ok g /\ 0 < g) -> bisect fuel grad lb ub = Ok s -> s - lb <= SUB_TOLERANCE / 2.
Proof.
  induction fuel as [|fuel IH]; intros lb ub s Hle Hg; cbn [bisect]; destruct (Rltb_spec SUB_TOLERANCE (ub - lb)) as [L|L].
  - discriminate.
  - intros E; injection E as <-. lra.
  - destruct (Hg ((lb + ub) / 2) ltac:(lra)) as [g [Eg Hp]]. rewrite Eg. cbn [bind].
    rewrite Rltb_false, Rltb_true by lra. intros E. apply IH in E; [lra|lra|]. intros t Ht. apply Hg. lra.
  - intros E; injection E as <-. lra.
Qed.

(** ** Interior points *)
Lemma interior_point_ok s k ws : 0 <= s <= 1 ->
  exists ws', interior_point s k ws = Ok ws' /\ length ws' = length ws /\
    forall i, (i < length ws)%nat -> nth i ws' 0 = nth i ws 0 + s * ((if Nat.eqb i k then 1 else 0) - nth i ws 0).
Proof.
  intros Hs. unfold interior_point, check_stepsize. rewrite (Rleb_true 0 s), (Rleb_true s 1) by lra. cbn [andb assert_ bind].
  eexists. split; [reflexivity|]. rewrite (combine_nth_map _ _ _ 0%nat 0) by apply seq_length. rewrite seq_length.
  split; [rewrite map_length, seq_length; reflexivity|]. intros i Hi. rewrite nth_map_seq by exact Hi. cbn [fst snd]. rewrite nth_seq0 by exact Hi.
  destruct (Nat.eqb i k); ring.
Qed.

Lemma interior_point_panic s k ws : ~ (0 <= s <= 1) -> interior_point s k ws = Panic AssertFailed.
Proof.
  intros Hs. unfold interior_point, check_stepsize. destruct (Rleb_spec 0 s); [|reflexivity]. destruct (Rleb_spec s 1); [lra|reflexivity].
Qed.

Lemma rsum_indicator k m : (k < m)%nat -> rsum (map (fun i => if Nat.eqb i k then 1 else 0) (seq 0 m)) = 1.
Proof.
  intros H. assert (G : forall m a, (k < a \/ a + m <= k)%nat -> rsum (map (fun i => if Nat.eqb i k then 1 else 0) (seq a m)) = 0).
  { clear. induction m as [|m IH]; intros a Ha; [reflexivity|]. simpl. rewrite IH by lia. destruct (Nat.eqb_spec a k); [lia|lra]. }
  replace m with (k + S (m - S k))%nat by lia. rewrite seq_app, map_app, rsum_app. simpl. rewrite !G by lia. rewrite Nat.eqb_refl. lra.
Qed.

Lemma nth_is_dist ws : is_dist ws -> (forall i, (i < length ws)%nat -> 0 <= nth i ws 0) /\ rsum (map (fun i => nth i ws 0) (seq 0 (length ws))) = 1.
Proof. intros [H1 H2]. split; [intros i Hi; apply H1, nth_In, Hi|]. rewrite rsum_nth. exact H2. Qed.

Lemma is_dist_nth ws : (forall i, (i < length ws)%nat -> 0 <= nth i ws 0) -> rsum (map (fun i => nth i ws 0) (seq 0 (length ws))) = 1 -> is_dist ws.
Proof. intros H1 H2. rewrite rsum_nth in H2. split; [|exact H2]. intros x Hx. apply (In_nth _ _ 0) in Hx. destruct Hx as [i [Hi <-]]. apply H1, Hi. Qed.

Lemma interior_sum s k ws ws' : (k < length ws)%nat -> length ws' = length ws ->
  (forall i, (i < length ws)%nat -> nth i ws' 0 = nth i ws 0 + s * ((if Nat.eqb i k then 1 else 0) - nth i ws 0)) ->
  rsum ws' = (1 - s) * rsum ws + s.
Proof.
  intros Hk Hl Hn. rewrite <- (rsum_nth ws'), Hl. erewrite rsum_map_ext; [|intros i Hi; apply in_seq in Hi; apply Hn; lia].
  rewrite rsum_map_plus, rsum_map_mult, rsum_map_minus, rsum_indicator by exact Hk. rewrite rsum_nth. ring.
Qed.

Lemma interior_dist s k ws ws' : 0 <= s <= 1 -> (k < length ws)%nat -> is_dist ws -> length ws' = length ws ->
  (forall i, (i < length ws)%nat -> nth i ws' 0 = nth i ws 0 + s * ((if Nat.eqb i k then 1 else 0) - nth i ws 0)) -> is_dist ws'.
Proof.
  intros Hs Hk Hd Hl Hn. destruct (nth_is_dist ws Hd) as [H1 _]. split.
  - intros x Hx. apply (In_nth _ _ 0) in Hx. destruct Hx as [i [Hi <-]]. rewrite Hn by lia. specialize (H1 i ltac:(lia)). destruct (Nat.eqb i k); nra.
  - rewrite (interior_sum s k ws ws' Hk Hl Hn), (proj2 Hd). ring.
Qed.

Lemma unit_dist k m : (k < m)%nat -> is_dist (upd k 1 (repeat 0 m)) /\ length (upd k 1 (repeat 0 m)) = m.
Proof.
  intros H. assert (L : length (upd k 1 (repeat 0 m)) = m) by (rewrite upd_length, repeat_length; reflexivity). split; [|exact L].
  assert (N : forall i, (i < m)%nat -> nth i (upd k 1 (repeat 0 m)) 0 = if Nat.eqb i k then 1 else 0).
  { intros i Hi. destruct (Nat.eqb_spec i k) as [->|E]; [rewrite upd_nth_same by (rewrite repeat_length; lia); reflexivity|]. rewrite upd_nth_other by congruence. apply nth_repeat_lt, Hi. }
  apply is_dist_nth; rewrite L.
  - intros i Hi. rewrite N by exact Hi. destruct (Nat.eqb i k); lra.
  - etransitivity; [|apply (rsum_indicator k m H)]. apply rsum_map_ext. intros i Hi. apply in_seq in Hi. apply N. lia.
Qed.

(** ** Margins of weighted votes *)
Section Votes.
  Context {H : Type}.
  Variable conf : H -> nat -> R.
  Variable y : list R.

  Lemma margins_of_weighted_spec ws hs : margins_of_weighted_hypothesis conf y ws hs = margins_of y (vote conf (combine ws hs)).
  Proof.
    unfold margins_of_weighted_hypothesis, margins_of. rewrite (combine_nth_map _ (seq 0 (length y)) y 0%nat 0) by apply seq_length.
    rewrite seq_length. apply map_ext_in. intros i Hi. apply in_seq in Hi. cbn [fst snd]. rewrite nth_seq0 by lia. reflexivity.
  Qed.

  Lemma edge_of_hypothesis_spec d h : length d = length y -> edge_of_hypothesis conf y d h = edge_of y d (conf h).
  Proof.
    intros Hd. unfold edge_of_hypothesis. rewrite margins_of_hypothesis_spec. rewrite (combine_nth_map _ _ _ 0 0) by (rewrite margins_length; congruence).
    rewrite margins_length. unfold edge_of. apply rsum_map_ext. intros i Hi. apply in_seq in Hi. cbn [fst snd]. rewrite margins_nth by lia. reflexivity.
  Qed.

  Lemma edge_of_weighted_spec d ws hs : length d = length y -> edge_of_weighted_hypothesis conf y d ws hs = edge_of y d (vote conf (combine ws hs)).
  Proof.
    intros Hd. unfold edge_of_weighted_hypothesis. rewrite margins_of_weighted_spec. rewrite (combine_nth_map _ _ _ 0 0) by (rewrite margins_length; congruence).
    rewrite margins_length. unfold edge_of. apply rsum_map_ext. intros i Hi. apply in_seq in Hi. cbn [fst snd]. rewrite margins_nth by lia. reflexivity.
  Qed.

  Lemma exp_distribution_spec eta nu ws hs : exp_distribution conf eta nu y ws hs = exp_distribution_from_margins eta nu (margins_of y (vote conf (combine ws hs))).
  Proof. unfold exp_distribution, exp_distribution_from_margins, log_exp_distribution. rewrite margins_of_weighted_spec. reflexivity. Qed.

  Lemma vote_nth ws hs (h0 : H) i : length ws = length hs ->
    vote conf (combine ws hs) i = rsum (map (fun j => nth j ws 0 * conf (nth j hs h0) i) (seq 0 (length hs))).
  Proof. intros L. unfold vote. rewrite (combine_nth_map _ ws hs 0 h0 L), L. reflexivity. Qed.

  Lemma interior_vote s k ws ws' hs (h : H) i : nth_error hs k = Some h -> length ws = length hs -> length ws' = length ws ->
    (forall j, (j < length ws)%nat -> nth j ws' 0 = nth j ws 0 + s * ((if Nat.eqb j k then 1 else 0) - nth j ws 0)) ->
    vote conf (combine ws' hs) i = vote conf (combine ws hs) i + s * (conf h i - vote conf (combine ws hs) i).
  Proof.
    intros Hk L L' Hn. assert (Hlt : (k < length hs)%nat) by (apply nth_error_Some; congruence).
    rewrite !(vote_nth _ hs h) by congruence.
    rewrite (rsum_map_ext (fun j => nth j ws' 0 * conf (nth j hs h) i) (fun j => nth j ws 0 * conf (nth j hs h) i + s * ((if Nat.eqb j k then 1 else 0) * conf (nth j hs h) i - nth j ws 0 * conf (nth j hs h) i))).
    - rewrite rsum_map_plus, rsum_map_mult, rsum_map_minus.
      assert (E : rsum (map (fun j => (if Nat.eqb j k then 1 else 0) * conf (nth j hs h) i) (seq 0 (length hs))) = conf h i).
      { rewrite (rsum_map_ext _ (fun j => conf h i * (if Nat.eqb j k then 1 else 0))).
        - rewrite rsum_map_mult, rsum_indicator by exact Hlt. ring.
        - intros j Hj. destruct (Nat.eqb_spec j k) as [->|]; [|ring]. rewrite (nth_error_nth hs k h Hk). ring. }
      rewrite E. ring.
    - intros j Hj. apply in_seq in Hj. rewrite Hn by lia. ring.
  Qed.

  Lemma vote_bounded ws hs i : length ws = length hs -> is_dist ws -> (forall h, In h hs -> -1 <= conf h i <= 1) -> -1 <= vote conf (combine ws hs) i <= 1.
  Proof.
    intros L [H1 H2] Hc. apply convex_bounded.
    - intros [w h] Hp. apply in_combine_l in Hp. apply H1, Hp.
    - assert (E : map fst (combine ws hs) = ws). { clear -L. revert hs L; induction ws as [|w ws IH]; intros [|h hs] L; simpl in *; try lia; [reflexivity|]. f_equal. apply IH. lia. }
      rewrite E. exact H2.
    - intros [w h] Hp. apply in_combine_r in Hp. apply Hc, Hp.
  Qed.

  (** the step size of the short-step rule *)
  Lemma fold_plus_gen {A} (f : A -> R) l a : fold_left (fun a p => a + f p) l a = a + rsum (map f l).
  Proof. revert a; induction l as [|x l IH]; intros a; simpl; [lra|]. rewrite IH. lra. Qed.

  Lemma fold_max_gen {A} (f : A -> R) l a : a <= fold_left (fun a p => Rmax a (f p)) l a /\ (forall x, In x l -> f x <= fold_left (fun a p => Rmax a (f p)) l a).
  Proof.
    revert a; induction l as [|x l IH]; intros a; simpl; [split; [lra|intros x []]|]. destruct (IH (Rmax a (f x))) as [I1 I2].
    split; [eapply Rle_trans; [apply Rmax_l|exact I1]|]. intros z [<-|Hz]; [eapply Rle_trans; [apply Rmax_r|exact I1]|apply I2, Hz].
  Qed.

  Lemma fold_max_le {A} (f : A -> R) l a b : a <= b -> (forall x, In x l -> f x <= b) -> fold_left (fun a p => Rmax a (f p)) l a <= b.
  Proof.
    revert a; induction l as [|x l IH]; intros a Ha Hf; simpl; [exact Ha|]. apply IH; [|intros z Hz; apply Hf; right; exact Hz].
    apply Rmax_lub; [exact Ha|apply Hf; left; reflexivity].
  Qed.

  (** the exponential distribution along a segment always exists *)
  Lemma seg_grad_ok c base dir s : (0 < length base)%nat -> length base = length dir -> 1 <= fw_nu c <= INR (length base) ->
    exists g, seg_grad c base dir s = Ok g.
  Proof.
    intros Hb Hl Hnu. unfold seg_grad, exp_distribution_from_margins, project.
    assert (Lm : length (map (fun yf => - fw_eta c * yf) (seg_margins base dir s)) = length base).
    { rewrite map_length. unfold seg_margins. rewrite map_length, combine_length, <- Hl. apply Nat.min_id. }
    destruct (project_with_spec _ (fw_nu c) _ (sorted_indices_ok (map (fun yf => - fw_eta c * yf) (seg_margins base dir s)))) as [xi [d [E _]]]; [rewrite Lm; exact Hnu|].
    rewrite E. cbn [bind]. eexists. reflexivity.
  Qed.
End Votes.
