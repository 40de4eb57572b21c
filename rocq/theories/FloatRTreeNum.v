(** Numerical lemmas for the regression tree learner in binary64: exact counts, sums of gradients, one term of the score. *)
From Coq Require Import ZArith List Bool Reals Lia Lra Psatz Permutation String.
From Flocq Require Import Core.Core IEEE754.BinarySingleNaN Relative Plus_error Mult_error.
From Verif Require Import Base TreeSpec Float FloatSpec FloatProofs FloatFacts FloatCheckFacts FloatProjectProofs FloatEdgeFacts FloatMadaProofs FloatTree FloatTreeSpec FloatGrowProofs FloatGrowthProofs FloatBestProofs FloatBestFeature FloatBestGrow FloatRTree.
Import ListNotations.
Open Scope R_scope.

(** ** counts *)
Definition cnt (k : nat) (x : f64) : Prop := fin x /\ val x = INR k.
Lemma rnd_INR k : INR k < 2 ^ 53 -> rnd (INR k) = INR k.
Proof. intros H. destruct (of_usize_spec k H) as [_ V]. rewrite <- V. apply rnd_val. Qed.
Lemma small53 x : x < 2 ^ 53 -> x <= 2 ^ 1000.
Proof. intros H. apply Rle_trans with (2 ^ 53); [lra|]. apply Rle_pow; [lra|lia]. Qed.
Lemma cnt_add a b x y : cnt a x -> cnt b y -> INR (a + b) < 2 ^ 53 -> cnt (a + b) (fadd x y).
Proof.
  intros [Fx Vx] [Fy Vy] H. assert (E : val x + val y = INR (a + b)) by (rewrite Vx, Vy, plus_INR; reflexivity).
  destruct (fadd_rnd x y Fx Fy) as [F [V _]]; [rewrite E, Rabs_pos_eq by apply pos_INR; apply small53, H|]. split; [exact F|]. rewrite V, E. apply rnd_INR, H.
Qed.
Lemma cnt_sub a b x y : cnt (a + b) x -> cnt b y -> INR (a + b) < 2 ^ 53 -> cnt a (fsub x y).
Proof.
  intros [Fx Vx] [Fy Vy] H. rewrite plus_INR in *. assert (E : val x - val y = INR a) by (rewrite Vx, Vy; ring). pose proof (pos_INR a). pose proof (pos_INR b).
  destruct (fsub_rnd x y Fx Fy) as [F [V _]]; [rewrite E, Rabs_pos_eq by lra; apply small53; lra|]. split; [exact F|]. rewrite V, E. apply rnd_INR. lra.
Qed.
Lemma cnt_0 : cnt 0 f0.
Proof. split; [apply fin_f0|rewrite val_f0; reflexivity]. Qed.

Lemma whole l : (forall x, In x l -> exists k, cnt k x) -> exists K, ftotal l = INR K.
Proof.
  induction l as [|a l IH]; intros H; [exists 0%nat; reflexivity|]. destruct (H a (or_introl eq_refl)) as [k [_ V]]. destruct IH as [K E]; [intros; apply H; right; assumption|].
  exists (k + K)%nat. unfold ftotal in *. cbn [map rsum]. rewrite V, E, plus_INR. reflexivity.
Qed.
Lemma chunk_whole l : forall a k, cnt k a -> (forall x, In x l -> exists k, cnt k x) -> forall K, INR k + ftotal l = INR K -> INR K < 2 ^ 53 -> cnt K (fold_left fadd l a).
Proof.
  induction l as [|b l IH]; intros a k Ca H K E B.
  - cbn [fold_left]. unfold ftotal in E. cbn [map rsum] in E. rewrite Rplus_0_r in E. apply INR_eq in E. subst K. exact Ca.
  - cbn [fold_left]. destruct (H b (or_introl eq_refl)) as [kb [Fb Vb]]. destruct (whole l) as [K' E']; [intros; apply H; right; assumption|].
    unfold ftotal in *. cbn [map rsum] in E. apply (IH _ (k + kb)%nat).
    + apply cnt_add; [exact Ca|split; assumption|]. rewrite plus_INR. rewrite E', Vb in E. pose proof (pos_INR K'). lra.
    + intros; apply H; right; assumption.
    + rewrite plus_INR, <- Vb. lra.
    + exact B.
Qed.
Lemma tree_whole t : (forall x, In x (ftree_items t) -> exists k, cnt k x) -> forall K, ftotal (ftree_items t) = INR K -> INR K < 2 ^ 53 -> cnt K (ftree_sum t).
Proof.
  induction t as [c|l IHl r IHr]; cbn [ftree_items ftree_sum]; intros H K E B.
  - apply (chunk_whole c f0 0); [apply cnt_0|exact H|rewrite E; simpl; ring|exact B].
  - assert (Hl : forall x, In x (ftree_items l) -> exists k, cnt k x) by (intros; apply H, in_or_app; left; assumption).
    assert (Hr : forall x, In x (ftree_items r) -> exists k, cnt k x) by (intros; apply H, in_or_app; right; assumption).
    destruct (whole _ Hl) as [K1 E1]. destruct (whole _ Hr) as [K2 E2]. assert (EK : INR (K1 + K2) = INR K) by (rewrite <- E, plus_INR, <- E1, <- E2; unfold ftotal; rewrite map_app, rsum_app; reflexivity).
    apply INR_eq in EK. subst K. rewrite plus_INR in B. pose proof (pos_INR K1). pose proof (pos_INR K2).
    apply cnt_add; [apply IHl; [exact Hl|exact E1|lra]|apply IHr; [exact Hr|exact E2|lra]|rewrite plus_INR; lra].
Qed.
Lemma sched_whole sched l K : summing sched -> (forall x, In x l -> exists k, cnt k x) -> ftotal l = INR K -> INR K < 2 ^ 53 -> cnt K (sched l).
Proof.
  intros Hs H E B. destruct (Hs l) as [t [Pt Et]]. rewrite Et. apply tree_whole; [|rewrite (proj1 (total_perm _ _ Pt)); exact E|exact B].
  intros x Hx. apply H, (Permutation_in x Pt Hx).
Qed.
Lemma fsum_summing : summing fsum.
Proof. intros l. exists (FLeaf l). split; [apply Permutation_refl|reflexivity]. Qed.

(** ** sums of gradients *)
Lemma rsum_bound {A} (f h : A -> R) l : (forall x, In x l -> Rabs (f x) <= h x) -> Rabs (rsum (map f l)) <= rsum (map h l).
Proof.
  induction l as [|a l IH]; intros H; cbn [map rsum]; [rewrite Rabs_R0; lra|]. eapply Rle_trans; [apply Rabs_triang|]. pose proof (H a (or_introl eq_refl)). assert (Rabs (rsum (map f l)) <= rsum (map h l)) by (apply IH; intros; apply H; right; assumption). lra.
Qed.
Lemma rsum_const {A} c (l : list A) : rsum (map (fun _ => c) l) = c * INR (length l).
Proof. induction l as [|a l IH]; [simpl; ring|]. change (length (a :: l)) with (S (length l)). cbn [map rsum]. rewrite IH, S_INR. ring. Qed.
Lemma rsum_diff {A} (f h : A -> R) l : rsum (map f l) - rsum (map h l) = rsum (map (fun x => f x - h x) l).
Proof. induction l as [|a l IH]; cbn [map rsum]; [lra|]. rewrite <- IH. lra. Qed.

Lemma p16 : 2 ^ 16 = 65536. Proof. simpl; lra. Qed.
Lemma u34 : / 2 ^ 34 = / 17179869184. Proof. f_equal. simpl. lra. Qed.

Section Sums.
  Variables (g : list f64) (r : nat -> R) (B : R).
  Hypothesis B0 : / 2 ^ 400 <= B <= 2 ^ 400.
  Definition near_row (i : nat) : Prop := fin (nth i g f0) /\ Rabs (val (nth i g f0) - r i) <= uu * B /\ Rabs (r i) <= B.

  Lemma B_pos : 0 < B.
  Proof. assert (0 < / 2 ^ 400) by (apply Rinv_0_lt_compat, pow_lt; lra). lra. Qed.

  Lemma near_sum sched (I : list nat) : summing sched -> INR (length I) <= 2 ^ 16 -> (forall i, In i I -> near_row i) ->
    fin (sched (map (fun i => nth i g f0) I)) /\ Rabs (val (sched (map (fun i => nth i g f0) I)) - TreeSpec.total r I) <= / 2 ^ 34 * B * INR (length I).
  Proof.
    intros Hs L H. pose proof B_pos as Bp. pose proof uu_pos as Up. pose proof uu_small as Us. set (l := map (fun i => nth i g f0) I).
    assert (Ll : length l = length I) by (unfold l; apply map_length). pose proof (pos_INR (length I)) as Np.
    assert (Sz : size l <= 2 * B * INR (length I)).
    { unfold size, l. rewrite map_map, <- rsum_const. apply rsum_map_le. intros i Hi. destruct (H i Hi) as [_ [H1 H2]]. apply Rabs_le_inv in H1. apply Rabs_le_inv in H2. apply Rabs_le.
      assert (uu * B <= / 9007199254740992 * B) by (apply Rmult_le_compat_r; lra). lra. }
    assert (Df : Rabs (ftotal l - TreeSpec.total r I) <= uu * B * INR (length I)).
    { unfold ftotal, TreeSpec.total, l. rewrite map_map, rsum_diff, <- rsum_const. apply rsum_bound. intros i Hi. apply (H i Hi). }
    destruct (sched_err sched l Hs) as [F A].
    - intros x Hx. unfold l in Hx. apply in_map_iff in Hx. destruct Hx as [i [<- Hi]]. apply (H i Hi).
    - unfold few. rewrite Ll. eapply Rle_trans; [exact L|]. apply Rle_pow; [lra|lia].
    - eapply Rle_lt_trans; [exact Sz|]. apply Rle_lt_trans with (2 * 2 ^ 400 * 2 ^ 16).
      + apply Rmult_le_compat; [lra|exact Np|lra|exact L].
      + replace (2 * 2 ^ 400 * 2 ^ 16) with (2 ^ 417); [apply Rlt_pow; [lra|lia]|]. replace 417%nat with (1 + 400 + 16)%nat by reflexivity. rewrite !pow_add, pow_1. reflexivity.
    - split; [exact F|]. rewrite Ll in A. destruct (gam_few (length I)) as [G1 _]; [unfold few; eapply Rle_trans; [exact L|]; apply Rle_pow; [lra|lia]|].
      rewrite p16 in L. pose proof (gam_nonneg (length I)) as G0.
      assert (Gs : gam (length I) <= 131072 * uu) by (eapply Rle_trans; [exact G1|]; assert (INR (length I) * uu <= 65536 * uu) by (apply Rmult_le_compat_r; lra); lra).
      assert (BN : 0 <= B * INR (length I)) by (apply Rmult_le_pos; lra).
      assert (A2 : gam (length I) * size l <= 131072 * uu * (2 * (B * INR (length I)))). { apply Rmult_le_compat; [exact G0| |exact Gs|lra]. unfold size. apply rsum_nonneg. intros x Hx. apply in_map_iff in Hx. destruct Hx as [z [<- _]]. apply Rabs_pos. }
      apply Rabs_le_inv in A. apply Rabs_le_inv in Df. rewrite u34. apply Rabs_le. set (X := B * INR (length I)) in *.
      assert (UX : uu * X <= / 9007199254740992 * X) by (apply Rmult_le_compat_r; lra). replace (uu * B * INR (length I)) with (uu * X) in Df by (unfold X; ring).
      replace (/ 17179869184 * B * INR (length I)) with (/ 17179869184 * X) by (unfold X; ring). split; nra.
  Qed.
End Sums.
