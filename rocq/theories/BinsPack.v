(** [packed] (BinsProofs.v) with the assumption on emptiness only for the bins themselves. *)
From Coq Require Import Lia Lra.
From Verif Require Import Base Spec BinSearch Feature Bins BinsSpec BinsProofs.
Open Scope R_scope.
Lemma packed_by {P} (addf : nat -> P -> P) (d0 : P) (empty : P -> bool) bins packs (x : nat -> R) idx s e :
  let foldf := fun I => fold_left (fun p i => addf i p) I d0 in
  chain s e bins -> idx <> [] -> (forall i, In i idx -> s <= x i < e) ->
  length packs = length bins ->
  (forall k, (k < length bins)%nat -> nth k packs d0 = foldf (filter (fun i => bin_contains (nth k bins b0) (x i)) idx)) ->
  (forall k, (k < length bins)%nat -> empty (foldf (filter (fun i => bin_contains (nth k bins b0) (x i)) idx)) = match filter (fun i => bin_contains (nth k bins b0) (x i)) idx with [] => true | _ => false end) ->
  exists out e', remove_empty empty bins packs = Ok out /\ s < e' <= e /\
    chain s e' (map fst out) /\
    (forall i, In i idx -> s <= x i < e') /\
    (forall b p, In (b, p) out -> p = foldf (filter (fun i => bin_contains b (x i)) idx) /\ exists i, In i idx /\ in_bin b (x i)) /\
    (forall b, In b bins -> exists t, In t (s :: map (fun o => b_end (fst o)) out) /\ forall i, In i idx -> (x i < b_end b <-> x i < t)) /\
    (forall b p, In (b, p) out -> exists b', In b' bins /\ forall i, In i idx -> (x i < b_end b <-> x i < b_end b')).
Proof.
  intros foldf C Hne Hx Hlp Hpk Hem.
  set (I := fun k => filter (fun i => bin_contains (nth k bins b0) (x i)) idx).
  assert (HI : forall k, incl (I k) idx) by (intros k i Hi; apply filter_In in Hi; tauto).
  assert (Hex : exists p, In p packs /\ empty p = false).
  { destruct idx as [|i idx']; [congruence|]. destruct (chain_find _ _ _ _ C (Hx i (or_introl eq_refl))) as [k [Hk Hb]].
    exists (nth k packs d0). split; [apply nth_In; lia|]. rewrite Hpk by exact Hk. rewrite (Hem k) by exact Hk. fold (I k).
    assert (In i (I k)) by (apply filter_In; split; [left; reflexivity|apply bin_contains_spec, Hb]). destruct (I k); [contradiction|reflexivity]. }
  destruct (remove_empty_spec empty bins packs s e C Hlp Hex) as [out [Eo [Hs [Hc HF]]]].
  set (kept := filter (fun bp => negb (empty (snd bp))) (combine bins packs)) in *.
  (* what is kept *)
  assert (Kin : forall b p, In (b, p) kept -> exists k, (k < length bins)%nat /\ b = nth k bins b0 /\ p = foldf (I k) /\ I k <> []).
  { intros b p H. apply filter_In in H. destruct H as [H E]. destruct (in_combine_nth _ _ _ _ b0 d0 H) as [k [H1 [H2 [H3 H4]]]].
    exists k. split; [exact H1|]. split; [exact H3|]. rewrite Hpk in H4 by exact H1. fold (I k) in H4. split; [exact H4|].
    simpl in E. intros EI. rewrite H4 in E. unfold I in E, EI. rewrite (Hem k H1), EI in E. discriminate. }
  assert (Kall : forall i, In i idx -> exists j, (j < length kept)%nat /\ in_bin (fst (nth j kept (b0, d0))) (x i)).
  { intros i Hi. destruct (chain_find _ _ _ _ C (Hx i Hi)) as [k [Hk Hb]].
    assert (Hin : In (nth k (combine bins packs) (b0, d0)) kept).
    { apply filter_In. split; [apply nth_In; rewrite combine_length; lia|]. rewrite combine_nth by lia. simpl. rewrite Hpk by exact Hk. rewrite (Hem k) by exact Hk. fold (I k).
      assert (Hik : In i (I k)) by (apply filter_In; split; [exact Hi|apply bin_contains_spec, Hb]). destruct (I k); [contradiction|reflexivity]. }
    apply (In_nth _ _ (b0, d0)) in Hin. destruct Hin as [j [Hj Ej]]. exists j. split; [exact Hj|]. rewrite Ej, combine_nth by lia. exact Hb. }
  pose proof (Forall2_length' _ _ _ HF) as Hlen.
  assert (Hsub : forall j y, (j < length kept)%nat -> in_bin (fst (nth j kept (b0, d0))) y -> in_bin (fst (nth j out (b0, d0))) y).
  { intros j y Hj [A B]. pose proof (Forall2_nth' _ _ _ (b0, d0) (b0, d0) HF j Hj) as [S1 S2]. split; lra. }
  assert (Onth : forall j, (j < length out)%nat -> nth j (map fst out) b0 = fst (nth j out (b0, d0))) by (intros j Hj; apply nth_map_in; exact Hj).
  assert (Huniq : forall j i, (j < length out)%nat -> In i idx -> in_bin (fst (nth j out (b0, d0))) (x i) -> in_bin (fst (nth j kept (b0, d0))) (x i)).
  { intros j i Hj Hi Hb. destruct (Kall i Hi) as [j' [Hj' Hb']]. pose proof (Hsub _ _ Hj' Hb') as Ho.
    assert (j = j'); [|subst; exact Hb']. rewrite <- !Onth in * by lia. eapply (chain_unique (map fst out)); eauto; rewrite map_length; lia. }
  assert (Hsnd : forall j, (j < length out)%nat -> snd (nth j out (b0, d0)) = snd (nth j kept (b0, d0))).
  { intros j Hj. rewrite <- !(map_nth snd). rewrite Hs. reflexivity. }
  set (e' := b_end (last (map fst kept) b0)) in *. exists out, e'. split; [exact Eo|].
  assert (Hko : (0 < length kept)%nat).
  { destruct idx as [|i ?]; [congruence|]. destruct (Kall i (or_introl eq_refl)) as [j [Hj _]]. lia. }
  assert (Hlast : exists b p, In (b, p) kept /\ e' = b_end b).
  { unfold e'. assert (In (last (map fst kept) b0) (map fst kept)).
    { destruct (map fst kept) as [|a l] eqn:E; [apply (f_equal (@length bin)) in E; rewrite map_length in E; simpl in E; lia|].
      clear. revert a. induction l as [|b l IH]; intros a; [left; reflexivity|]. right. apply IH. }
    apply in_map_iff in H. destruct H as [[b p] [E H]]. exists b, p. split; [exact H|]. simpl in E. rewrite <- E. reflexivity. }
  assert (Hkb : forall b p, In (b, p) kept -> In b bins).
  { intros b p H. destruct (Kin _ _ H) as [k [Hk [-> _]]]. apply nth_In, Hk. }
  split.
  { destruct Hlast as [b [p [H ->]]]. destruct (Kin _ _ H) as [k [Hk [-> _]]]. pose proof (chain_nth _ _ _ C k Hk). lra. }
  split; [exact Hc|]. split.
  { intros i Hi. destruct (Kall i Hi) as [j [Hj Hb]]. apply (Hsub j) in Hb; [|exact Hj]. rewrite <- Onth in Hb by lia.
    pose proof (chain_nth _ _ _ Hc j) as Q. rewrite map_length in Q. specialize (Q ltac:(lia)). destruct Hb. lra. }
  assert (G : gapped s (map fst kept)).
  { unfold kept. apply gapped_filter. assert (E : map fst (combine bins packs) = bins).
    { clear -Hlp. revert packs Hlp. induction bins as [|a l IH]; intros [|p packs] H; simpl in *; try lia; [reflexivity|]. rewrite IH by lia. reflexivity. }
    rewrite E. eapply chain_gapped, C. }
  split; [|split].
  - intros b p H. apply (In_nth _ _ (b0, d0)) in H. destruct H as [j [Hj Ej]]. assert (Hjk : (j < length kept)%nat) by lia.
    destruct (nth j kept (b0, d0)) as [kb kp] eqn:Ek. assert (Hin : In (kb, kp) kept) by (rewrite <- Ek; apply nth_In; lia).
    destruct (Kin _ _ Hin) as [k [Hk [Ekb [Ekp Hnil]]]].
    assert (Eq : forall i, In i idx -> bin_contains b (x i) = bin_contains kb (x i)).
    { intros i Hi. specialize (Huniq j i Hj Hi). specialize (Hsub j (x i) Hjk). rewrite Ej in *. rewrite Ek in *. simpl in *. destruct (bin_contains b (x i)) eqn:E1.
      - apply bin_contains_spec in E1. symmetry. apply bin_contains_spec. apply Huniq, E1.
      - destruct (bin_contains kb (x i)) eqn:E2; [|reflexivity]. apply bin_contains_spec in E2. apply Hsub, bin_contains_spec in E2. congruence. }
    split.
    + pose proof (Hsnd j Hj) as E. rewrite Ej, Ek in E. simpl in E. rewrite E, Ekp. f_equal. unfold I. apply filter_ext_in'. intros i Hi. rewrite Eq by exact Hi. rewrite Ekb. reflexivity.
    + destruct (I k) as [|i Ik] eqn:EI; [congruence|]. assert (Hi : In i (I k)) by (rewrite EI; left; reflexivity). apply filter_In in Hi. destruct Hi as [Hi Hb].
      exists i. split; [exact Hi|]. apply bin_contains_spec. rewrite Eq by exact Hi. rewrite Ekb. exact Hb.
  - intros b Hb. apply (In_nth _ _ b0) in Hb. destruct Hb as [k [Hk Ekb]].
    assert (Dich : forall c, In c bins -> b_end c <= b_end b \/ b_end b <= b_start c).
    { intros c Hcin. apply (In_nth _ _ b0) in Hcin. destruct Hcin as [k' [Hk' Ekc]]. subst b c.
      destruct (Nat.lt_trichotomy k k') as [L|[->|L]].
      - right. apply (chain_mono _ _ _ C). lia.
      - left. lra.
      - left. pose proof (chain_mono _ _ _ C k' k ltac:(lia)). pose proof (chain_nth _ _ _ C k Hk). lra. }
    assert (Dich2 : forall c, In c (map fst kept) -> b_end c <= b_end b \/ b_end b <= b_start c).
    { intros c Hcin. apply in_map_iff in Hcin. destruct Hcin as [[c' p] [E Hin]]. simpl in E. subst c'. apply Dich. eapply Hkb, Hin. }
    destruct (separate kept out s s e' (b_end b) HF G Hc Dich2) as [t [Ht Hsep]]. exists t. split; [exact Ht|].
    intros i Hi. destruct (Kall i Hi) as [j [Hj Hb]]. pose proof (Hsub j _ Hj Hb) as Ho. destruct (Hsep j d0 Hj) as [S1 S2].
    assert (Hcin : In (fst (nth j kept (b0, d0))) (map fst kept)) by (apply in_map, nth_In, Hj).
    destruct Hb as [B1 B2]. destruct Ho as [O1 O2]. destruct (Dich2 _ Hcin) as [Q|Q].
    + specialize (S1 Q d0). lra.
    + specialize (S2 Q d0). lra.
  - intros b p H. apply (In_nth _ _ (b0, d0)) in H. destruct H as [j [Hj Ej]]. assert (Hjk : (j < length kept)%nat) by lia.
    exists (fst (nth j kept (b0, d0))). split.
    { destruct (nth j kept (b0, d0)) as [kb kp] eqn:Ek. simpl. apply (Hkb kb kp). rewrite <- Ek. apply nth_In, Hjk. }
    intros i Hi. destruct (Kall i Hi) as [j' [Hj' Hb']]. pose proof (Hsub j' _ Hj' Hb') as Ho.
    assert (Cm := chain_mono _ _ _ Hc). rewrite map_length in Cm.
    assert (Gm : forall a c, (a < c < length kept)%nat -> b_end (fst (nth a kept (b0, d0))) <= b_start (fst (nth c kept (b0, d0)))).
    { intros a c Hac. revert G. revert Hac. clear. revert s a c. induction kept as [|[q pq] kept IH]; intros s a c Hac G; simpl in *; [lia|]. destruct G as [A [B G]].
      destruct c as [|c]; [lia|]. destruct a as [|a]; simpl.
      - clear -G Hac. revert G. generalize (b_end q). revert c Hac. induction kept as [|[r pr] kept IH]; intros c Hac z G; simpl in *; [lia|]. destruct G as [A [B G]]. destruct c as [|c]; simpl; [exact A|].
        assert (b_end r <= b_start (fst (nth c kept (b0, d0)))) by (apply IH; [lia|exact G]). lra.
      - apply (IH (b_end q)); [lia|exact G]. }
    destruct Hb' as [B1 B2]. destruct Ho as [O1 O2]. replace b with (fst (nth j out (b0, d0))) by (rewrite Ej; reflexivity).
    destruct (Nat.lt_trichotomy j j') as [L|[->|L]].
    + pose proof (Cm j j' ltac:(lia)) as Q. rewrite !Onth in Q by lia. pose proof (Gm j j' ltac:(lia)). lra.
    + split; intros; assumption.
    + pose proof (Cm j' j ltac:(lia)) as Q. rewrite !Onth in Q by lia. pose proof (Gm j' j ltac:(lia)).
      pose proof (chain_nth _ _ _ Hc j) as Q2. rewrite map_length, Onth in Q2 by lia. specialize (Q2 Hj).
      assert (Hkin : In (nth j kept (b0, d0)) kept) by (apply nth_In, Hjk). destruct (nth j kept (b0, d0)) as [kb kp] eqn:Ek. destruct (Kin _ _ Hkin) as [k [Hk [Ekb _]]].
      pose proof (chain_nth _ _ _ C k Hk) as Q3. rewrite <- Ekb in Q3. simpl in *. lra.
Qed.