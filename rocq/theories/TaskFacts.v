(** Facts about label encodings: C45. *)
From Verif Require Import Base Spec AdaBoost AdaBoostMore Task.
Open Scope R_scope.

Lemma as_usize_INR k : as_usize (INR k) = k.
Proof. unfold as_usize. rewrite INR_IZR_INZ, Int_part_IZR, Nat2Z.id. reflexivity. Qed.

Lemma last_max_spec : forall l k best v full,
  (forall j, nth (k + j) full 0 = nth j l 0) -> (length full = k + length l)%nat -> (best < k)%nat -> nth best full 0 = v ->
  (forall j, (j < k)%nat -> nth j full 0 <= v) -> (forall j, (best < j < k)%nat -> nth j full 0 < v) ->
  let m := last_max k best v l in
  (m < length full)%nat /\ (forall j, (j < length full)%nat -> nth j full 0 <= nth m full 0) /\
  (forall j, (m < j < length full)%nat -> nth j full 0 < nth m full 0).
Proof.
  induction l as [|x l IH]; intros k best v full Hn Hl Hb Hv Hle Hlt; cbn [last_max].
  - simpl in *. rewrite Nat.add_0_r in Hl. rewrite Hl, Hv. split; [exact Hb|]. split; assumption.
  - pose proof (Hn 0%nat) as Hx. rewrite Nat.add_0_r in Hx. simpl in Hx, Hl.
    assert (Hn' : forall j, nth (S k + j) full 0 = nth j l 0).
    { intros j. replace (S k + j)%nat with (k + S j)%nat by lia. rewrite Hn. reflexivity. }
    destruct (Rleb_spec v x) as [L|L].
    + apply IH; [exact Hn'|lia|lia|exact Hx| |].
      * intros j Hj. destruct (Nat.eq_dec j k) as [->|]; [lra|]. specialize (Hle j ltac:(lia)). lra.
      * intros j Hj. lia.
    + apply IH; [exact Hn'|lia|lia|exact Hv| |].
      * intros j Hj. destruct (Nat.eq_dec j k) as [->|]; [lra|]. apply Hle. lia.
      * intros j Hj. destruct (Nat.eq_dec j k) as [->|]; [lra|]. apply Hlt. lia.
Qed.

(** ** C45: label encodings.  A score vector is turned into the last of its most likely classes *)
Lemma P_C45_discretize :
  forall y K, match discretize y K with
  | Ok v => exists m, v = INR m /\ (m < K)%nat /\ length y = K /\ (forall j, (j < K)%nat -> nth j y 0 <= nth m y 0) /\
      (forall j, (m < j < K)%nat -> nth j y 0 < nth m y 0)
  | Panic _ => length y <> K \/ y = []
  end.
Proof.
  intros y K. unfold discretize, bind, assert_. destruct (Nat.eqb_spec (length y) K) as [E|E]; [|left; exact E].
  destruct y as [|x t]; [right; reflexivity|]. exists (last_max 1 0 x t). split; [reflexivity|].
  destruct (last_max_spec t 1 0 x (x :: t)) as [A [B C]]; try lia; try reflexivity.
  - intros j Hj. assert (j = 0%nat) by lia. subst. simpl. lra.
  - rewrite <- E. split; [exact A|]. split; [reflexivity|]. split; assumption.
Qed.

(** class label -> one-hot vector -> class label *)
Lemma P_C45_multiclass_round_trip :
  forall K k, (k < K)%nat -> exists v, vectorize (INR k) K = Ok v /\ length v = K /\ discretize v K = Ok (INR k).
Proof.
  intros K k Hk. unfold vectorize. destruct (Nat.eqb_spec K 1) as [->|Hne].
  - assert (k = 0%nat) by lia. subst. exists [INR 0]. split; [reflexivity|]. split; reflexivity.
  - assert (E : (if Rleb (INR k) 0 then 0%nat else as_usize (INR k)) = k).
    { destruct (Rleb_spec (INR k) 0) as [L|L]; [|apply as_usize_INR]. destruct k; [reflexivity|]. pose proof (lt_0_INR (S k) ltac:(lia)). lra. }
    rewrite E. destruct (Nat.ltb_spec k K); [|lia]. exists (upd k 1 (repeat 0 K)). split; [reflexivity|].
    assert (L : length (upd k 1 (repeat 0 K)) = K) by (rewrite upd_length, repeat_length; reflexivity). split; [exact L|].
    pose proof (P_C45_discretize (upd k 1 (repeat 0 K)) K) as D. destruct (discretize (upd k 1 (repeat 0 K)) K) as [v|p].
    + destruct D as [m [-> [Hm [_ [Hmax _]]]]]. f_equal. f_equal. specialize (Hmax k Hk).
      rewrite upd_nth_same in Hmax by (rewrite repeat_length; exact Hk). destruct (Nat.eq_dec k m) as [->|Hkm]; [reflexivity|].
      rewrite upd_nth_other in Hmax by exact Hkm. rewrite nth_repeat_lt in Hmax by exact Hm. lra.
    + destruct D as [D|D]; [congruence|]. rewrite D in L. simpl in L. lia.
Qed.

(** binary label -> two scores -> binary label *)
Lemma P_C45_binary_round_trip :
  forall y, pm1 y -> exists v, vectorize y 2 = Ok v /\ binarize v = Ok y.
Proof.
  intros y [-> | ->]; unfold vectorize; simpl.
  - rewrite Rleb_false by lra. replace (as_usize 1) with 1%nat by (symmetry; apply (as_usize_INR 1)). simpl. eexists. split; [reflexivity|]. simpl.
    rewrite Rltb_false by lra. reflexivity.
  - rewrite Rleb_true by lra. simpl. eexists. split; [reflexivity|]. simpl. rewrite Rltb_true by lra. f_equal.
Qed.

(** two non-negative scores (for instance probabilities): the sign is that of the more likely class *)
Lemma P_C45_two_scores_partial :
  forall a b, 0 <= a -> 0 <= b -> exists c, binarize [a; b] = Ok c /\ (a <= b -> sign_label c = 1) /\ (b < a -> sign_label c = -1) /\
    Rabs c = Rmax a b.
Proof.
  intros a b Ha Hb. simpl. eexists. split; [reflexivity|]. destruct (Rltb_spec b a) as [L|L].
  - split; [lra|]. split; [intros _; unfold sign_label; destruct (Rle_dec 0 (- a)); [lra|reflexivity]|].
    rewrite Rabs_Ropp, Rabs_pos_eq by lra. symmetry. apply Rmax_left. lra.
  - split; [intros _; unfold sign_label; destruct (Rle_dec 0 b); [reflexivity|contradiction]|]. split; [lra|].
    rewrite Rabs_pos_eq by lra. symmetry. apply Rmax_right. lra.
Qed.

(** with negative scores (an output layer without softmax) the sign is wrong *)
Lemma P_C45_two_scores_refuted :
  exists a b c, b < a /\ binarize [a; b] = Ok c /\ sign_label c = 1.
Proof.
  exists (-1), (-2), 1. split; [lra|]. simpl. rewrite Rltb_true by lra. split; [f_equal; lra|]. unfold sign_label. destruct (Rle_dec 0 1); [reflexivity|lra].
Qed.

(** a single score is documented as the confidence of +1; the result has the opposite sign: every score above 1/2
    is read as -1 and every score below 1/2 as +1 *)
Lemma P_C45_scalar_score_refuted :
  forall p, exists c, binarize [p] = Ok c /\ (1 / 2 < p -> sign_label c = -1) /\ (p <= 1 / 2 -> sign_label c = 1).
Proof.
  intros p. eexists. split; [reflexivity|]. unfold sign_label. split; intros H; destruct (Rle_dec 0 (1 - 2 * p)); lra || reflexivity.
Qed.

(** labels that are not below the number of classes are rejected *)
Lemma P_C45_vectorize_rejects :
  forall k K, K <> 1%nat -> (K <= k)%nat -> (0 < k)%nat -> vectorize (INR k) K = Panic IndexOutOfBounds.
Proof.
  intros k K H1 H2 H3. unfold vectorize. destruct (Nat.eqb_spec K 1); [contradiction|].
  rewrite Rleb_false by (apply lt_0_INR; exact H3). rewrite as_usize_INR. destruct (Nat.ltb_spec k K); [lia|reflexivity].
Qed.
