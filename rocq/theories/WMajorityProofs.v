(** Proofs about the weighted majority vote. *)
From Verif Require Import Base Spec Utils UtilsProofs WMajority.
Open Scope R_scope.

Lemma map_Rabs_pos l : (forall x, In x l -> 0 < x) -> map Rabs l = l.
Proof.
  induction l as [|x l IH]; simpl; intros H; [reflexivity|].
  f_equal; [apply Rabs_pos_eq; left; apply H; left; reflexivity|]. apply IH. intros z Hz; apply H; right; exact Hz.
Qed.

Section WM.
  Context {H : Type}.
  Variable conf : H -> nat -> R.

  Lemma kept_pos ws (hs : list H) x : In x (map fst (kept ws hs)) -> 0 < x.
  Proof.
    intros Hx. apply in_map_iff in Hx. destruct Hx as [p [<- Hp]]. apply filter_In in Hp.
    destruct Hp as [_ Hp]. destruct (Rltb_spec 0 (fst p)); [assumption|discriminate].
  Qed.

  (** Everything about [from_slices]: what it returns, and when it panics. *)
  Lemma from_slices_spec ws (hs : list H) :
    match from_slices ws hs with
    | Ok f =>
        let z := rsum (map fst (kept ws hs)) in
        0 < z /\
        combine (wm_weights f) (wm_hypotheses f) = map (fun p => (fst p / z, snd p)) (kept ws hs) /\
        length (wm_weights f) = length (wm_hypotheses f) /\
        (forall w, In w (wm_weights f) -> 0 < w) /\ rsum (wm_weights f) = 1 /\
        (forall i, wm_confidence conf f i = vote conf (kept ws hs) i / z)
    | Panic p => p = AssertFailed /\ kept ws hs = []
    end.
  Proof.
    unfold from_slices. set (k := kept ws hs).
    assert (Hpos : forall x, In x (map fst k) -> 0 < x) by (intros x; apply kept_pos).
    unfold normalize. rewrite (map_Rabs_pos _ Hpos).
    destruct (Reqb_spec (rsum (map fst k)) 0) as [E|E]; simpl.
    - split; [reflexivity|]. destruct k as [|p k']; [reflexivity|].
      assert (0 < rsum (map fst (p :: k'))) by (apply rsum_pos; [discriminate|exact Hpos]). lra.
    - set (z := rsum (map fst k)) in *.
      assert (Hz : 0 <= z) by (apply rsum_nonneg; intros x Hx; left; apply Hpos; exact Hx).
      assert (Hzp : 0 < z) by lra.
      assert (Hcomb : combine (map (fun it => it / z) (map fst k)) (map snd k)
                      = map (fun p => (fst p / z, snd p)) k).
      { rewrite map_map. clearbody z. clear. induction k as [|p k' IH]; [reflexivity|]. simpl. f_equal.
        exact IH. }
      split; [exact Hzp|]. split; [exact Hcomb|]. split; [rewrite !map_length; reflexivity|].
      split. { intros w Hw. apply in_map_iff in Hw. destruct Hw as [v [<- Hv]].
               apply Rdiv_lt_0_compat; [apply Hpos; exact Hv|exact Hzp]. }
      split. { rewrite (rsum_map_div z (fun x => x)), map_id. fold z. field. lra. }
      intros i. unfold wm_confidence. simpl. rewrite Hcomb, map_map. simpl.
      unfold vote. rewrite <- rsum_map_div. apply rsum_map_ext. intros p _. unfold Rdiv. ring.
  Qed.

  Lemma kept_all ws (hs : list H) :
    (forall w, In w ws -> 0 < w) -> length ws = length hs -> kept ws hs = combine ws hs.
  Proof.
    revert hs; induction ws as [|w ws IH]; intros [|h hs] Hp Hl; simpl in *; try lia; [reflexivity|].
    unfold kept. simpl. rewrite Rltb_true by (apply Hp; left; reflexivity). f_equal.
    apply IH; [|lia]. intros v Hv; apply Hp; right; exact Hv.
  Qed.

  (** |convex combination| <= 1 *)
  Lemma kept_nonneg ws (hs : list H) : (forall w, In w ws -> 0 <= w) -> length ws = length hs ->
    rsum (map fst (kept ws hs)) = rsum ws /\ forall i, vote conf (kept ws hs) i = vote conf (combine ws hs) i.
  Proof.
    revert hs. unfold kept. induction ws as [|w ws IH]; intros [|h hs] Hp L; simpl in *; try lia; [split; reflexivity|].
    destruct (IH hs ltac:(intros; apply Hp; right; assumption) ltac:(lia)) as [I1 I2]. pose proof (Hp w (or_introl eq_refl)).
    destruct (Rltb_spec 0 w) as [P|P]; simpl.
    - split; [rewrite I1; reflexivity|]. intros i. unfold vote in *; simpl. rewrite I2. reflexivity.
    - assert (w = 0) by lra. subst w. split; [rewrite I1; ring|]. intros i. rewrite I2. unfold vote; simpl. ring.
  Qed.

  Lemma convex_bounded (wh : list (R * H)) i :
    (forall p, In p wh -> 0 <= fst p) -> rsum (map fst wh) = 1 ->
    (forall p, In p wh -> -1 <= conf (snd p) i <= 1) ->
    -1 <= vote conf wh i <= 1.
  Proof.
    intros Hp Hs Hc. unfold vote. split.
    - apply Rle_trans with (rsum (map (fun p => -1 * fst p) wh)).
      + rewrite rsum_map_mult, Hs. lra.
      + apply rsum_map_le. intros p Hpp. specialize (Hp p Hpp). specialize (Hc p Hpp). nra.
    - apply Rle_trans with (rsum (map fst wh)); [|lra].
      apply rsum_map_le. intros p Hpp. specialize (Hp p Hpp). specialize (Hc p Hpp). nra.
  Qed.

  Lemma predict_sign c : predict_of_confidence c = sign_label c.
  Proof. unfold predict_of_confidence, sign_label, Rleb. destruct (Rle_dec 0 c); reflexivity. Qed.

  Lemma sign_label_scale c z : 0 < z -> sign_label (c / z) = sign_label c.
  Proof.
    intros Hz. unfold sign_label.
    destruct (Rle_dec 0 (c / z)) as [L|L]; destruct (Rle_dec 0 c) as [M|M]; try reflexivity; exfalso.
    - apply Rle_div_iff in L; lra.
    - apply L. apply Rle_div_iff; lra.
  Qed.
End WM.
