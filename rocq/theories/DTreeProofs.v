(** Proofs about the decision tree learner, part 1: packs and splits. *)
From Coq Require Import String.
From Verif Require Import Base Spec BinSearch Feature Sample SampleSpec SampleFacts Bins BinsSpec BinsProofs TreeSpec DTree.
Open Scope R_scope.

(** ** label maps *)
Definition lw_val (m : lw) (z : Z) : R := or0 (lw_get m z).
Definition keys (m : lw) : list Z := map fst m.

Lemma lw_add_keys m z w z' : In z' (keys (lw_add m z w)) <-> z' = z \/ In z' (keys m).
Proof.
  induction m as [|[a v] m IH]; simpl; [intuition|]. destruct (Z.eqb_spec a z) as [->|Hne]; simpl; [intuition|]. rewrite IH. intuition.
Qed.
Lemma lw_add_nodup m z w : NoDup (keys m) -> NoDup (keys (lw_add m z w)).
Proof.
  induction m as [|[a v] m IH]; simpl; intros H; [constructor; [intros []|constructor]|].
  inversion H as [|? ? H1 H2]; subst. destruct (Z.eqb_spec a z) as [->|Hne]; simpl; [constructor; assumption|].
  constructor; [|apply IH, H2]. rewrite lw_add_keys. intros [E|E]; [congruence|contradiction].
Qed.
Lemma lw_val_cons a v m z : lw_val ((a, v) :: m) z = if Z.eqb a z then v else lw_val m z.
Proof. unfold lw_val, lw_get. simpl. destruct (Z.eqb a z); reflexivity. Qed.
Lemma lw_add_val m z w z' : lw_val (lw_add m z w) z' = lw_val m z' + if Z.eqb z z' then w else 0.
Proof.
  induction m as [|[a v] m IH]; cbn [lw_add].
  - rewrite lw_val_cons. unfold lw_val, lw_get. simpl. destruct (Z.eqb z z'); simpl; lra.
  - destruct (Z.eqb_spec a z) as [->|Hne]; rewrite !lw_val_cons.
    + destruct (Z.eqb z z'); lra.
    + destruct (Z.eqb_spec a z') as [->|Hne']; [|apply IH]. destruct (Z.eqb_spec z z'); [congruence|lra].
Qed.
Lemma lw_add_total m z w : lw_total (lw_add m z w) = lw_total m + w.
Proof. unfold lw_total. induction m as [|[a v] m IH]; simpl; [lra|]. destruct (Z.eqb a z); simpl; [lra|]. simpl in IH. lra. Qed.
Lemma lw_add_edge m z w : pack_edge (lw_add m z w) = pack_edge m + IZR z * w.
Proof. unfold pack_edge. induction m as [|[a v] m IH]; simpl; [lra|]. destruct (Z.eqb_spec a z) as [->|]; simpl; lra. Qed.
Lemma lw_add_pos m z w : 0 < w -> (forall p, In p m -> 0 < snd p) -> forall p, In p (lw_add m z w) -> 0 < snd p.
Proof.
  induction m as [|[a v] m IH]; simpl; intros Hw H p Hp.
  - destruct Hp as [<-|[]]. simpl. lra.
  - destruct (Z.eqb a z); simpl in Hp.
    + destruct Hp as [<-|Hp]; [simpl; pose proof (H _ (or_introl eq_refl)); simpl in *; lra|apply H; right; exact Hp].
    + destruct Hp as [<-|Hp]; [apply H; left; reflexivity|]. apply IH; auto.
Qed.

Lemma lw_get_in m z v : NoDup (keys m) -> (lw_get m z = Some v <-> In (z, v) m).
Proof.
  unfold lw_get. induction m as [|[k' v'] m IH]; intros Hn; simpl.
  - split; [discriminate|intros []].
  - simpl in Hn. inversion Hn as [|? ? Hni Hn']; subst. destruct (Z.eqb_spec k' z) as [->|Hne].
    + split; [intros E; inversion E; auto|]. intros [E|H]; [inversion E; reflexivity|]. exfalso. apply Hni. apply in_map_iff. exists (z, v). auto.
    + rewrite (IH Hn'). split; [auto|]. intros [E|H]; [inversion E; congruence|exact H].
Qed.
Lemma lw_get_none m z : lw_get m z = None <-> ~ In z (keys m).
Proof.
  unfold lw_get, keys. induction m as [|[k' v'] m IH]; simpl; [intuition|]. destruct (Z.eqb_spec k' z) as [->|Hne].
  - split; [discriminate|intros H; exfalso; apply H; left; reflexivity].
  - rewrite IH. intuition.
Qed.
Lemma lw_val_in m z v : NoDup (keys m) -> In (z, v) m -> lw_val m z = v.
Proof. intros N H. unfold lw_val. apply (lw_get_in m z v N) in H. rewrite H. reflexivity. Qed.
Lemma lw_val_out m z : ~ In z (keys m) -> lw_val m z = 0.
Proof. intros H. unfold lw_val. apply lw_get_none in H. rewrite H. reflexivity. Qed.

(** a sum over the entries is a sum over any list of labels that covers the keys *)
Lemma lw_sum_over (g : R -> R) labels m : g 0 = 0 -> NoDup labels -> NoDup (keys m) -> (forall z, In z (keys m) -> In z labels) ->
  rsum (map (fun zw => g (snd zw)) m) = rsum (map (fun z => g (lw_val m z)) labels).
Proof.
  intros G0 NL. revert m. induction labels as [|z L IH]; intros m NM Hin.
  - destruct m as [|[a v] m]; [reflexivity|]. exfalso. apply (Hin a). left. reflexivity.
  - inversion NL as [|? ? NZ NL']; subst.
    set (m' := filter (fun p => negb (Z.eqb (fst p) z)) m).
    assert (Hm : rsum (map (fun zw => g (snd zw)) m) = g (lw_val m z) + rsum (map (fun zw => g (snd zw)) m') /\ (forall z', z' <> z -> lw_val m' z' = lw_val m z') /\ NoDup (keys m') /\ (forall z', In z' (keys m') <-> In z' (keys m) /\ z' <> z)).
    { unfold m'. clear -NM G0. induction m as [|[a v] m IHm].
      - simpl. unfold lw_val, lw_get. simpl. rewrite G0. split; [lra|]. split; [reflexivity|]. split; [constructor|]. intros z'. tauto.
      - simpl in NM. inversion NM as [|? ? N1 N2]; subst. destruct (IHm N2) as [A [B [C D]]]. cbn [filter fst]. destruct (Z.eqb_spec a z) as [->|Hne]; cbn [negb].
        + split; [|split; [|split; [exact C|]]].
          * rewrite lw_val_cons, Z.eqb_refl. simpl. rewrite A. rewrite (lw_val_out m z N1), G0. lra.
          * intros z' Hz'. rewrite lw_val_cons. destruct (Z.eqb_spec z z'); [congruence|]. apply B, Hz'.
          * intros z'. rewrite D. simpl. split; [intros [H1 H2]; auto|]. intros [[->|H1] H2]; [congruence|auto].
        + split; [|split; [|split]].
          * rewrite lw_val_cons. destruct (Z.eqb_spec a z); [congruence|]. simpl. rewrite A. lra.
          * intros z' Hz'. rewrite !lw_val_cons. destruct (Z.eqb a z'); [reflexivity|apply B, Hz'].
          * simpl. constructor; [|exact C]. intros Hin. apply D in Hin. tauto.
          * intros z'. simpl. rewrite D. split; [intros [->|[H1 H2]]; [split; [auto|congruence]|auto]|]. intros [[->|H1] H2]; auto. }
    destruct Hm as [A [B [C D]]]. rewrite A. simpl. f_equal. rewrite IH.
    + apply rsum_map_ext. intros z' Hz'. rewrite B; [reflexivity|]. intros ->. contradiction.
    + exact NL'.
    + exact C.
    + intros z' Hz'. apply D in Hz'. destruct Hz' as [H1 H2]. apply Hin in H1. destruct H1 as [->|H1]; [congruence|exact H1].
Qed.

(** ** sums of filtered rows *)
Lemma sum_where_split (g : nat -> R) (p : nat -> bool) idx :
  sum_where g p idx + sum_where g (fun i => negb (p i)) idx = rsum (map g idx).
Proof. unfold sum_where. induction idx as [|i idx IH]; simpl; [lra|]. destruct (p i); simpl; lra. Qed.

Lemma sum_where_cons g p i idx : sum_where g p (i :: idx) = (if p i then g i else 0) + sum_where g p idx.
Proof. unfold sum_where. simpl. destruct (p i); simpl; lra. Qed.

Lemma sum_where_ext g p q idx : (forall i, In i idx -> p i = q i) -> sum_where g p idx = sum_where g q idx.
Proof. intros H. unfold sum_where. rewrite (filter_ext_in' p q idx H). reflexivity. Qed.

(** an indicator version: how many of the first k+1 bins of a chain hold v *)
Lemma chain_prefix_zero l : forall s e v, chain s e l -> v < s -> forall g k, rsum (map (fun b => if bin_contains b v then g else 0) (firstn k l)) = 0.
Proof.
  induction l as [|b t IH]; intros s e v C Hv g k; [destruct k; reflexivity|]. simpl in C. destruct C as [E [L C]].
  destruct k as [|k]; [reflexivity|]. simpl. rewrite (IH _ _ v C) by lra. unfold bin_contains. rewrite Rleb_false by lra. simpl. lra.
Qed.
Lemma chain_prefix l : forall s e v g, chain s e l -> s <= v -> forall k, (k < length l)%nat ->
  rsum (map (fun b => if bin_contains b v then g else 0) (firstn (S k) l)) = if Rlt_dec v (b_end (nth k l b0)) then g else 0.
Proof.
  induction l as [|b t IH]; intros s e v g C Hv k Hk; [simpl in Hk; lia|]. simpl in C. destruct C as [E [L C]].
  change (firstn (S k) (b :: t)) with (b :: firstn k t). cbn [map rsum]. unfold bin_contains at 1. rewrite Rleb_true by lra. simpl.
  destruct k as [|k].
  - simpl. unfold Rltb. destruct (Rlt_dec v (b_end b)); lra.
  - simpl in Hk. destruct (Rltb_spec v (b_end b)) as [Hlt|Hge].
    + rewrite (chain_prefix_zero _ _ _ _ C Hlt). pose proof (chain_nth _ _ _ C k ltac:(lia)) as Q. destruct (Rlt_dec v (b_end (nth k t b0))); lra.
    + rewrite (IH _ _ v g C) by (lra || lia). lra.
Qed.

Lemma prefix_sum (x : nat -> R) (g : nat -> R) l s e idx k : chain s e l -> (forall i, In i idx -> s <= x i) -> (k < length l)%nat ->
  rsum (map (fun b => sum_where g (fun i => bin_contains b (x i)) idx) (firstn (S k) l)) = sum_where g (below x (b_end (nth k l b0))) idx.
Proof.
  intros C Hx Hk. induction idx as [|i idx IH].
  - unfold sum_where. simpl. rewrite rsum_map_const. lra.
  - rewrite sum_where_cons. rewrite <- IH by (intros j Hj; apply Hx; right; exact Hj).
    rewrite (rsum_map_ext _ (fun b => (if bin_contains b (x i) then g i else 0) + sum_where g (fun j => bin_contains b (x j)) idx)) by (intros b _; apply sum_where_cons).
    rewrite rsum_map_plus. rewrite (chain_prefix _ _ _ _ _ C (Hx i (or_introl eq_refl)) k Hk). unfold below. destruct (Rlt_dec (x i) (b_end (nth k l b0))); reflexivity.
Qed.

Lemma all_sum (x : nat -> R) (g : nat -> R) l s e idx : chain s e l -> l <> [] -> (forall i, In i idx -> s <= x i < e) ->
  rsum (map (fun b => sum_where g (fun i => bin_contains b (x i)) idx) l) = rsum (map g idx).
Proof.
  intros C Hne Hx. assert (Hl : (length l - 1 < length l)%nat) by (destruct l; [congruence|simpl; lia]).
  pose proof (prefix_sum x g l s e idx (length l - 1) C ltac:(intros; apply Hx; assumption) Hl) as P.
  replace (S (length l - 1)) with (length l) in P by lia. rewrite firstn_all in P. rewrite P. rewrite (chain_last _ _ _ C Hne).
  unfold sum_where. f_equal. f_equal. rewrite <- (filter_ext_in' (fun _ => true)); [|intros i Hi; unfold below; specialize (Hx i Hi); destruct (Rlt_dec (x i) e); [reflexivity|lra]].
  clear. induction idx as [|i idx IH]; simpl; [reflexivity|]. rewrite IH. reflexivity.
Qed.

(** ** histograms *)
Definition histo (lab : nat -> Z) (d : nat -> R) (I : list nat) : lw := fold_left (fun m i => lw_add m (lab i) (d i)) I [].

Section Histo.
  Variables (lab : nat -> Z) (d : nat -> R).
  Let step m i := lw_add m (lab i) (d i).
  Lemma histo_gen I : forall m, NoDup (keys m) ->
    let h := fold_left step I m in
    NoDup (keys h) /\ (forall z, In z (keys h) <-> In z (keys m) \/ exists i, In i I /\ lab i = z) /\
    (forall z, lw_val h z = lw_val m z + label_weight lab d z I) /\
    lw_total h = lw_total m + total d I /\
    pack_edge h = pack_edge m + rsum (map (fun i => IZR (lab i) * d i) I).
  Proof.
    induction I as [|i I IH]; intros m Nm; cbv zeta.
    - simpl. unfold label_weight, sum_where, total. simpl. split; [exact Nm|]. split; [|split; [|split]]; try (intros; lra).
      intros z. split; [auto|]. intros [H|[i [[] _]]]. exact H.
    - cbn [fold_left]. destruct (IH (step m i)) as [A [B [C [D E]]]]; [apply lw_add_nodup, Nm|]. unfold step in *. split; [exact A|]. split; [|split; [|split]].
      + intros z. rewrite B, lw_add_keys. split.
        * intros [[->|H]|[j [Hj <-]]]; [right; exists i; split; [left; reflexivity|reflexivity]|left; exact H|right; exists j; split; [right; exact Hj|reflexivity]].
        * intros [H|[j [[->|Hj] <-]]]; [left; right; exact H|left; left; reflexivity|right; exists j; auto].
      + intros z. rewrite C, lw_add_val. unfold label_weight. rewrite sum_where_cons. lra.
      + rewrite D, lw_add_total. unfold total. simpl. lra.
      + rewrite E, lw_add_edge. simpl. lra.
  Qed.
  Lemma histo_spec I : let h := histo lab d I in
    NoDup (keys h) /\ (forall z, In z (keys h) <-> exists i, In i I /\ lab i = z) /\
    (forall z, lw_val h z = label_weight lab d z I) /\ lw_total h = total d I /\
    pack_edge h = rsum (map (fun i => IZR (lab i) * d i) I).
  Proof.
    pose proof (histo_gen I [] (NoDup_nil Z)) as H. cbv zeta in *. unfold step in H. destruct H as [A [B [C [D E]]]]. split; [exact A|]. split; [|split; [|split]].
    - intros z. unfold histo. rewrite B. simpl. intuition.
    - intros z. unfold histo. rewrite C. unfold lw_val, lw_get. simpl. lra.
    - unfold histo. rewrite D. unfold lw_total. simpl. lra.
    - unfold histo. rewrite E. unfold pack_edge. simpl. lra.
  Qed.
  Lemma histo_pos I : (forall i, In i I -> 0 < d i) -> forall p, In p (histo lab d I) -> 0 < snd p.
  Proof.
    unfold histo. assert (G : forall I m, (forall i, In i I -> 0 < d i) -> (forall p, In p m -> 0 < snd p) -> forall p, In p (fold_left step I m) -> 0 < snd p).
    { clear I. induction I as [|i I IH]; intros m HI Hm; [exact Hm|]. cbn [fold_left]. apply IH; [intros j Hj; apply HI; right; exact Hj|].
      apply lw_add_pos; [apply HI; left; reflexivity|exact Hm]. }
    intros HI. apply G; [exact HI|]. intros p [].
  Qed.
  Lemma histo_nil I : is_nil (histo lab d I) = match I with [] => true | _ => false end.
  Proof.
    destruct I as [|i I]; [reflexivity|]. destruct (histo_spec (i :: I)) as [_ [B _]]. cbv zeta in B. specialize (B (lab i)).
    destruct (histo lab d (i :: I)) as [|p m]; [|reflexivity]. exfalso. apply B. exists i. split; [left; reflexivity|reflexivity].
  Qed.
End Histo.

Definition scale (W : R) (m : lw) : lw := map (fun zw => (fst zw, snd zw / W)) m.
Lemma scale_keys W m : keys (scale W m) = keys m.
Proof. unfold keys, scale. rewrite map_map. reflexivity. Qed.
Lemma scale_val W m z : lw_val (scale W m) z = lw_val m z / W.
Proof.
  induction m as [|[a v] m IH]; [unfold lw_val, lw_get; simpl; lra|]. unfold scale. cbn [map fst snd]. fold (scale W m).
  rewrite !lw_val_cons. destruct (Z.eqb a z); [reflexivity|apply IH].
Qed.
Lemma scale_total W m : lw_total (scale W m) = lw_total m / W.
Proof. unfold lw_total, scale. rewrite map_map. simpl. apply rsum_map_div. Qed.
Lemma scale_edge W m : pack_edge (scale W m) = pack_edge m / W.
Proof. unfold pack_edge, scale. rewrite map_map. cbn [fst snd]. rewrite <- rsum_map_div. apply rsum_map_ext. intros a _. unfold Rdiv. ring. Qed.

(** ** [pack] *)
Section Pack.
  Variables (bins : list bin) (f : feature) (y dist : list R) (idx : list nat) (x : nat -> R) (s e : R).
  Let d i := nth i dist 0.
  Let lab i := as_int 32 (nth i y 0).
  Hypothesis C : chain s e bins.
  Hypothesis Hne : idx <> [].
  Hypothesis Hx : forall i, In i idx -> feat_index f i = Ok (x i) /\ s <= x i < e.
  Hypothesis Hy : forall i, In i idx -> (i < length y)%nat /\ (i < length dist)%nat /\ 0 < d i.

  Lemma total_pos : 0 < total d idx.
  Proof. unfold total. apply rsum_pos; [destruct idx; [congruence|discriminate]|]. intros v Hv. apply in_map_iff in Hv. destruct Hv as [i [<- Hi]]. apply Hy, Hi. Qed.

  Lemma dt_pack_spec : exists out e',
    dt_pack bins idx f y dist = Ok out /\ s < e' <= e /\ chain s e' (map fst out) /\ out <> [] /\
    (forall i, In i idx -> s <= x i < e') /\
    (forall b m, In (b, m) out -> m = scale (total d idx) (histo lab d (filter (fun i => bin_contains b (x i)) idx)) /\ exists i, In i idx /\ in_bin b (x i)) /\
    (forall b, In b bins -> exists t, In t (s :: map (fun o => b_end (fst o)) out) /\ forall i, In i idx -> (x i < b_end b <-> x i < t)) /\
    (forall b m, In (b, m) out -> exists b', In b' bins /\ forall i, In i idx -> (x i < b_end b <-> x i < b_end b')).
  Proof.
    unfold dt_pack.
    destruct (pack_loop_spec (dt_add y dist) (fun i p => lw_add p (lab i) (d i)) [] bins f x s e C idx (repeat [] (length bins))) as [packs [E [L N]]].
    { intros i Hi. destruct (Hx i Hi) as [E1 E2]. split; [exact E1|]. split; [exact E2|]. intros p. unfold dt_add.
      destruct (Hy i Hi) as [Ly [Ld _]]. unfold get_. rewrite (nth_error_nth' y 0 Ly). cbn [bind]. rewrite (nth_error_nth' dist 0 Ld). reflexivity. }
    { rewrite repeat_length. reflexivity. }
    rewrite E. cbn [bind].
    assert (N' : forall k, (k < length bins)%nat -> nth k packs [] = histo lab d (filter (fun i => bin_contains (nth k bins b0) (x i)) idx)).
    { intros k Hk. rewrite N by exact Hk. rewrite nth_repeat_lt by exact Hk. reflexivity. }
    assert (Hne2 : bins <> []).
    { intros E0. destruct idx as [|i ?] eqn:Ei; [congruence|]. destruct (Hx i (or_introl eq_refl)) as [_ H]. rewrite E0 in C. simpl in C. lra. }
    assert (Et : rsum (map lw_total packs) = total d idx).
    { unfold total. rewrite <- (all_sum x d bins s e idx C Hne2) by (intros i Hi; apply Hx, Hi).
      assert (M1 : map lw_total packs = map (fun k => lw_total (nth k packs [])) (seq 0 (length bins))) by (rewrite <- L, <- (map_map (fun k => nth k packs []) lw_total), map_nth_seq; reflexivity).
      assert (M2 : forall F : bin -> R, map F bins = map (fun k => F (nth k bins b0)) (seq 0 (length bins))) by (intros F; rewrite <- (map_map (fun k => nth k bins b0) F), map_nth_seq; reflexivity).
      rewrite M1, M2. apply rsum_map_ext. intros k Hk. apply in_seq in Hk.
      rewrite N' by lia. destruct (histo_spec lab d (filter (fun i => bin_contains (nth k bins b0) (x i)) idx)) as [_ [_ [_ [D _]]]]. exact D. }
    rewrite Et. rewrite Rltb_true by exact total_pos. cbn [assert_ bind].
    destruct (packed (P:=lw) (fun i p => lw_add p (lab i) (d i)) [] is_nil bins packs x idx s e C Hne) as [out [e' [Eo [He [Hc [Ha [Hp [Hs Hr]]]]]]]].
    { intros i Hi. apply Hx, Hi. }
    { exact L. }
    { exact N'. }
    { intros I _. apply histo_nil. }
    unfold lw in *. rewrite Eo. cbn [bind].
    set (out' := map (fun bp : bin * list (Z * R) => (fst bp, map (fun zw => (fst zw, snd zw / total d idx)) (snd bp))) out).
    exists out', e'. split; [reflexivity|]. split; [exact He|].
    assert (Ef : map fst out' = map fst out) by (unfold out'; rewrite map_map; reflexivity).
    assert (Ee : map (fun o => b_end (fst o)) out' = map (fun o => b_end (fst o)) out) by (unfold out'; rewrite map_map; reflexivity).
    split; [rewrite Ef; exact Hc|]. split.
    { intros E0. unfold out' in E0. apply map_eq_nil in E0. subst out. simpl in Hc. lra. }
    split; [exact Ha|]. split; [|split].
    - intros b m Hin. apply in_map_iff in Hin. destruct Hin as [[b2 p] [Eb Hin]]. simpl in Eb. inversion Eb; subst. destruct (Hp _ _ Hin) as [-> Hi]. split; [reflexivity|exact Hi].
    - rewrite Ee. exact Hs.
    - intros b m Hin. apply in_map_iff in Hin. destruct Hin as [[b2 p] [Eb Hin]]. simpl in Eb. inversion Eb; subst. eapply Hr, Hin.
  Qed.
End Pack.
