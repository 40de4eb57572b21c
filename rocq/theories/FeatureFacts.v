(** Facts about feature columns: C39. *)
From Verif Require Import Base Utils SortLib Spec SampleSpec BinSearch Feature UtilsProofs.
Open Scope R_scope.

Lemma SS_lt_nodup l : StronglySorted lt l -> NoDup l.
Proof.
  induction 1 as [|a l Hs IH Hf]; constructor; [|exact IH]. intros Hin. rewrite Forall_forall in Hf. specialize (Hf a Hin). lia.
Qed.

Lemma nodup_fst_unique (e : list (nat * R)) i x x' : NoDup (map fst e) -> In (i, x) e -> In (i, x') e -> x = x'.
Proof.
  induction e as [|[j z] e IH]; simpl; intros Hn H1 H2; [contradiction|]. inversion Hn as [|? ? Hni Hn']; subst.
  destruct H1 as [H1|H1], H2 as [H2|H2].
  - congruence.
  - exfalso. inversion H1; subst. apply Hni. apply in_map_iff. exists (i, x'). auto.
  - exfalso. inversion H2; subst. apply Hni. apply in_map_iff. exists (i, x). auto.
  - apply IH; assumption.
Qed.

Lemma sparse_index_spec e idx : increasing_rows e ->
  (forall x, In (idx, x) e -> sparse_index e idx = x) /\ ((forall x, ~ In (idx, x) e) -> sparse_index e idx = 0).
Proof.
  intros Hinc. unfold sparse_index. set (cmp := fun k => Nat.compare (fst (nth k e (0%nat, 0))) idx).
  assert (Hnth : forall k, (k < length e)%nat -> fst (nth k e (0%nat, 0)) = nth k (map fst e) 0%nat).
  { intros k Hk. rewrite (nth_map_in fst e k (0%nat, 0)) by exact Hk. reflexivity. }
  assert (Ho : ordered_cmp cmp (length e)).
  { intros i j Hij. unfold cmp. rewrite !Hnth by lia.
    pose proof (StronglySorted_nth lt (map fst e) 0%nat Hinc i j ltac:(lia) ltac:(rewrite map_length; lia)) as L.
    rewrite Nat.compare_lt_iff, Nat.compare_lt_iff, !Nat.compare_gt_iff. lia. }
  pose proof (binary_search_spec cmp (length e) Ho) as B. destruct (binary_search cmp (length e)) as [pos|p].
  - destruct B as [Hp He]. unfold cmp in He. apply Nat.compare_eq_iff in He.
    assert (Hin : In (idx, snd (nth pos e (0%nat, 0))) e).
    { rewrite <- He at 1. rewrite <- surjective_pairing. apply nth_In. exact Hp. }
    split; [|intros Hno; exfalso; exact (Hno _ Hin)]. intros x Hx.
    apply (nodup_fst_unique e idx); [apply SS_lt_nodup; exact Hinc|exact Hin|exact Hx].
  - destruct B as [_ [B1 B2]]. split; [|reflexivity]. intros x Hx. exfalso.
    apply (In_nth _ _ (0%nat, 0)) in Hx. destruct Hx as [k [Hk Ek]].
    assert (C : cmp k = Eq) by (unfold cmp; rewrite Ek; apply Nat.compare_eq_iff; reflexivity).
    destruct (Nat.lt_ge_cases k p) as [L|L]; [rewrite B1 in C by lia|rewrite B2 in C by lia]; discriminate.
Qed.

Lemma entry_dec (e : list (nat * R)) i : (exists x, In (i, x) e) \/ (forall x, ~ In (i, x) e).
Proof.
  destruct (in_dec Nat.eq_dec i (map fst e)) as [Hin|Hno].
  - left. apply in_map_iff in Hin. destruct Hin as [[j x] [E H]]. simpl in E. subst. eauto.
  - right. intros x H. apply Hno. apply in_map_iff. exists (i, x). auto.
Qed.

Lemma sparse_index_col n e col i : increasing_rows e -> represents n e col -> (i < n)%nat -> sparse_index e i = nth i col 0.
Proof.
  intros Hi [_ [R1 R2]] Hin. destruct (sparse_index_spec e i Hi) as [S1 S2].
  destruct (entry_dec e i) as [[x Hx]|Hno]; [rewrite (S1 x Hx); symmetry; apply R1; exact Hx|rewrite (S2 Hno); symmetry; apply R2; assumption].
Qed.

Lemma scatter_spec : forall e t, NoDup (map fst e) -> (forall i x, In (i, x) e -> (i < length t)%nat) ->
  exists t', scatter e t = Ok t' /\ length t' = length t /\ (forall i x, In (i, x) e -> nth i t' 0 = x) /\
    (forall i, (forall x, ~ In (i, x) e) -> nth i t' 0 = nth i t 0).
Proof.
  induction e as [|[j z] e IH]; intros t Hn Hb; simpl.
  - exists t. repeat split; auto. intros i x [].
  - simpl in Hn. inversion Hn as [|? ? Hni Hn']; subst.
    pose proof (Hb j z (or_introl eq_refl)) as Hj. destruct (Nat.ltb_spec j (length t)); [|lia].
    destruct (IH (upd j z t) Hn') as [t' [E [L [S1 S2]]]]; [intros i x Hx; rewrite upd_length; apply (Hb i x); right; exact Hx|].
    exists t'. split; [exact E|]. split; [rewrite L, upd_length; reflexivity|]. split.
    + intros i x [Hx|Hx]; [|apply S1; exact Hx]. inversion Hx; subst. rewrite S2; [apply upd_nth_same; exact Hj|].
      intros x' Hx'. apply Hni. apply in_map_iff. exists (i, x'). auto.
    + intros i Hno. rewrite S2 by (intros x Hx; apply (Hno x); right; exact Hx). apply upd_nth_other.
      intros ->. apply (Hno z). left. reflexivity.
Qed.

(** sums over the rows, split at the stored entries *)
Fixpoint zsum (G : nat -> R) (n k : nat) (e : list (nat * R)) : R :=
  match e with
  | [] => rsum (map G (seq k (n - k)))
  | (i, _) :: t => rsum (map G (seq k (i - k))) + zsum G n (S i) t
  end.

Lemma sparse_sum G n : forall e k, StronglySorted lt (map fst e) -> (forall i x, In (i, x) e -> (k <= i < n)%nat) -> (k <= n)%nat ->
  rsum (map G (seq k (n - k))) = rsum (map (fun p => G (fst p)) e) + zsum G n k e.
Proof.
  induction e as [|[i x] e IH]; intros k Hs Hb Hk; simpl; [lra|].
  pose proof (Hb i x (or_introl eq_refl)) as Hi. simpl in Hs. inversion Hs as [|? ? Hs' Hf]; subst.
  assert (E : seq k (n - k) = seq k (i - k) ++ i :: seq (S i) (n - S i)).
  { replace (n - k)%nat with ((i - k) + S (n - S i))%nat by lia. rewrite seq_app. simpl. replace (k + (i - k))%nat with i by lia. reflexivity. }
  rewrite E, map_app, rsum_app. simpl. rewrite IH; [lra|exact Hs'| |lia].
  intros j z Hj. rewrite Forall_forall in Hf. specialize (Hf j ltac:(apply in_map_iff; exists (j, z); auto)).
  pose proof (Hb j z (or_intror Hj)). lia.
Qed.

Lemma zsum_ext G Z n : forall e k, StronglySorted lt (map fst e) -> (forall i x, In (i, x) e -> (k <= i < n)%nat) ->
  (forall i, (k <= i < n)%nat -> (forall x, ~ In (i, x) e) -> G i = Z i) -> zsum G n k e = zsum Z n k e.
Proof.
  induction e as [|[i x] e IH]; intros k Hs Hb He; simpl.
  - apply rsum_map_ext. intros i Hi. apply in_seq in Hi. apply He; [lia|]. intros x [].
  - pose proof (Hb i x (or_introl eq_refl)) as Hi. simpl in Hs. inversion Hs as [|? ? Hs' Hf]; subst. rewrite Forall_forall in Hf.
    f_equal.
    + apply rsum_map_ext. intros j Hj. apply in_seq in Hj. apply He; [lia|]. intros z [Hz|Hz]; [inversion Hz; subst; lia|].
      specialize (Hf j ltac:(apply in_map_iff; exists (j, z); auto)). lia.
    + apply IH; [exact Hs'| |].
      * intros j z Hj. specialize (Hf j ltac:(apply in_map_iff; exists (j, z); auto)). pose proof (Hb j z (or_intror Hj)). lia.
      * intros j Hj Hno. apply He; [lia|]. intros z [Hz|Hz]; [inversion Hz; subst; lia|exact (Hno z Hz)].
Qed.

Lemma zsum_zero n e : forall k, zsum (fun _ => 0) n k e = 0.
Proof. induction e as [|[i x] e IH]; intros k; simpl; [|rewrite IH]; rewrite rsum_map_const; lra. Qed.

Lemma zsum_scale c G n e : forall k, zsum (fun i => G i * c) n k e = zsum G n k e * c.
Proof.
  assert (S : forall l, rsum (map (fun i : nat => G i * c) l) = rsum (map G l) * c).
  { induction l as [|a l IH]; simpl; [lra|rewrite IH; lra]. }
  induction e as [|[i x] e IH]; intros k; simpl; [apply S|]. rewrite S, IH. lra.
Qed.

Lemma get_ok (w : list R) i : (i < length w)%nat -> get_ w i = Ok (nth i w 0).
Proof. intros H. unfold get_. rewrite (nth_error_nth' w 0 H). reflexivity. Qed.

Lemma skipn_cons_nth {A} (d : A) : forall l k, (k < length l)%nat -> skipn k l = nth k l d :: skipn (S k) l.
Proof. induction l as [|a l IH]; intros [|k] H; simpl in *; try lia; [reflexivity|]. apply IH. lia. Qed.

Lemma slice_ok (w : list R) a b : (a <= b <= length w)%nat -> slice_ w a b = Ok (map (fun i => nth i w 0) (seq a (b - a))).
Proof.
  intros H. unfold slice_. destruct (Nat.leb_spec a b); [|lia]. destruct (Nat.leb_spec b (length w)); [|lia]. simpl. f_equal.
  assert (G : forall m a, (a + m <= length w)%nat -> firstn m (skipn a w) = map (fun i => nth i w 0) (seq a m)).
  { induction m as [|m IH]; intros a0 Hm; [reflexivity|]. simpl. rewrite (skipn_cons_nth 0) by lia. simpl. f_equal. apply (IH (S a0)). lia. }
  apply G. lia.
Qed.

Lemma sparse_mean_ok n w : length w = n -> forall e, (forall i x, In (i, x) e -> (i < n)%nat) ->
  sparse_weighted_mean e w = Ok (rsum (map (fun p => nth (fst p) w 0 * snd p) e)).
Proof.
  intros Hw. induction e as [|[i x] e IH]; intros Hb; simpl; [reflexivity|].
  rewrite get_ok by (rewrite Hw; apply (Hb i x); left; reflexivity). simpl.
  rewrite IH by (intros; eapply Hb; right; eassumption). reflexivity.
Qed.

Lemma sparse_var_ok n w use mean : length w = n -> forall e var zw prev,
  StronglySorted lt (map fst e) -> (forall i x, In (i, x) e -> (prev <= i < n)%nat) -> (prev <= n)%nat ->
  sparse_variance_loop use mean w e var zw prev =
  Ok (var + rsum (map (fun p => if use (fst p) then nth (fst p) w 0 * (snd p - mean) ^ 2 else 0) e)
      + (zw + zsum (fun i => nth i w 0) n prev e) * mean ^ 2).
Proof.
  intros Hw. induction e as [|[i x] e IH]; intros var zw prev Hs Hb Hp; cbn [sparse_variance_loop zsum map rsum fst snd].
  - rewrite slice_ok by lia. cbn [bind]. rewrite Hw. f_equal. lra.
  - pose proof (Hb i x (or_introl eq_refl)) as Hi. simpl in Hs. inversion Hs as [|? ? Hs' Hf]; subst. rewrite Forall_forall in Hf.
    rewrite slice_ok by lia. cbn [bind]. rewrite get_ok by lia. cbn [bind].
    rewrite IH; [|exact Hs'| |lia].
    + replace (i + 1)%nat with (S i) by lia. f_equal. destruct (use i); lra.
    + intros j z Hj. specialize (Hf j ltac:(apply in_map_iff; exists (j, z); auto)). pose proof (Hb j z (or_intror Hj)). lia.
Qed.

Section Col.
  Variables (n : nat) (e : list (nat * R)) (col w : list R).
  Hypothesis Hinc : increasing_rows e.
  Hypothesis Hrep : represents n e col.
  Hypothesis Hw : length w = n.

  Lemma ent_lt i x : In (i, x) e -> (0 <= i < n)%nat.
  Proof. intros H. destruct Hrep as [_ [R1 _]]. pose proof (R1 i x H). lia. Qed.

  Lemma col_mean : sparse_weighted_mean e w = Ok (dense_weighted_mean col w).
  Proof.
    rewrite (sparse_mean_ok n w Hw) by (intros i x H; apply (ent_lt i x) in H; lia). f_equal.
    unfold dense_weighted_mean. destruct Hrep as [Hl [R1 R2]].
    rewrite (combine_nth_map _ col w 0 0) by congruence. rewrite Hl. cbn [fst snd].
    replace n with (n - 0)%nat at 1 by lia. rewrite (sparse_sum _ n e 0 Hinc ent_lt) by lia.
    rewrite (zsum_ext _ (fun _ => 0) n e 0 Hinc ent_lt), zsum_zero.
    - rewrite Rplus_0_r. apply rsum_map_ext. intros [i x] Hix. simpl. destruct (R1 i x Hix) as [_ ->]. lra.
    - intros i Hi Hno. rewrite (R2 i) by (try lia; exact Hno). lra.
  Qed.

  Lemma col_variance mean : sparse_weighted_variance mean e w = Ok (dense_weighted_variance mean col w).
  Proof.
    unfold sparse_weighted_variance. rewrite (sparse_var_ok n w _ mean Hw e 0 0 0 Hinc ent_lt) by lia. f_equal.
    unfold dense_weighted_variance. destruct Hrep as [Hl [R1 R2]].
    rewrite (combine_nth_map _ col w 0 0) by congruence. rewrite Hl. cbn [fst snd].
    replace n with (n - 0)%nat at 2 by lia. rewrite (sparse_sum _ n e 0 Hinc ent_lt) by lia.
    rewrite (zsum_ext (fun i => nth i w 0 * (nth i col 0 - mean) ^ 2) (fun i => nth i w 0 * mean ^ 2) n e 0 Hinc ent_lt), (zsum_scale (mean ^ 2)).
    - rewrite !Rplus_0_l. f_equal. apply rsum_map_ext. intros [i x] Hix. simpl. destruct (R1 i x Hix) as [_ ->]. lra.
    - intros i Hi Hno. rewrite (R2 i) by (try lia; exact Hno). ring.
  Qed.
End Col.

(** distinct values *)
Lemma distinct_scan_spec : forall l v, StronglySorted Rle (v :: l) ->
  exists d, NoDup d /\ length d = distinct_scan v l /\ forall x, In x d <-> In x l /\ x <> v.
Proof.
  induction l as [|u l IH]; intros v Hs; simpl.
  - exists []. split; [constructor|]. split; [reflexivity|]. intros x. simpl. tauto.
  - inversion Hs as [|? ? Hs' Hf]; subst. inversion Hf as [|? ? Hvu Hf']; subst. destruct (IH u Hs') as [d [Hn [Hl Hd]]].
    destruct (Reqb_spec u v) as [->|Hne].
    + exists d. split; [exact Hn|]. split; [exact Hl|]. intros x. rewrite Hd. intuition congruence.
    + exists (u :: d). split; [constructor; [rewrite Hd; tauto|exact Hn]|]. split; [simpl; congruence|].
      intros x. simpl. rewrite Hd. inversion Hs' as [|? ? _ Hfu]; subst. rewrite Forall_forall in Hfu. split.
      * intros [<-|[Hx Hxu]]; [auto|]. split; [auto|]. specialize (Hfu x Hx). lra.
      * intros [[<-|Hx] Hxv]; [auto|]. destruct (Req_dec x u); [left; auto|right; auto].
Qed.

Lemma Rle_isort_sorted l : StronglySorted Rle (isort Rleb l).
Proof.
  assert (S : StronglySorted (fun a b => Rleb a b = true) (isort Rleb l)).
  { apply isort_sorted.
    - intros a b. destruct (Rleb_spec a b); [auto|right; apply Rleb_true; lra].
    - intros a b c. destruct (Rleb_spec a b); [|discriminate]. destruct (Rleb_spec b c); [|discriminate]. intros _ _. apply Rleb_true. lra. }
  induction S as [|a l' S IH F]; constructor; [exact IH|]. eapply Forall_impl; [|exact F]. intros b Hb. simpl in Hb. destruct (Rleb_spec a b); [assumption|discriminate].
Qed.

Lemma inner_distinct_spec l : distinct_count l (inner_distinct_value_count l).
Proof.
  unfold inner_distinct_value_count. pose proof (isort_perm Rleb l) as P. pose proof (Rle_isort_sorted l) as S.
  destruct (isort Rleb l) as [|v t] eqn:E.
  - exists []. split; [constructor|]. split; [reflexivity|]. intros x. split; [intros []|]. intros Hx. apply (Permutation_in _ P) in Hx. exact Hx.
  - destruct (distinct_scan_spec t v S) as [d [Hn [Hl Hd]]]. exists (v :: d). split; [constructor; [rewrite Hd; tauto|exact Hn]|].
    split; [simpl; congruence|]. intros x. simpl. rewrite Hd. split.
    + intros H. apply (Permutation_in _ (Permutation_sym P)). simpl. tauto.
    + intros H. apply (Permutation_in _ P) in H. simpl in H. destruct (Req_dec x v); [left; auto|]. right. destruct H; [congruence|auto].
Qed.

Lemma distinct_count_unique l l' m m' : (forall x, In x l <-> In x l') -> distinct_count l m -> distinct_count l' m' -> m = m'.
Proof.
  intros He [d [Hn [Hl Hd]]] [d' [Hn' [Hl' Hd']]]. subst. apply Nat.le_antisymm; apply NoDup_incl_length; try assumption; intros x Hx.
  - apply Hd', He, Hd, Hx.
  - apply Hd, He, Hd', Hx.
Qed.

(** ** C39: a sparse column reads like the dense column it represents.
    [col] is the dense column; the sparse entries are stored by increasing row *)
Lemma P_C39_sparse_reads_like_dense :
  forall nm nm' n e col, increasing_rows e -> represents n e col ->
  (forall i, (i < n)%nat -> feat_index (Sparse nm e n) i = feat_index (Dense nm' col) i /\ feat_index (Dense nm' col) i = Ok (nth i col 0)) /\
  into_target (Sparse nm e n) = Ok col /\
  (forall w, length w = n -> weighted_mean_and_variance (Sparse nm e n) w = weighted_mean_and_variance (Dense nm' col) w).
Proof.
  intros nm nm' n e col Hi Hr. split; [|split].
  - intros i Hin. simpl. rewrite (sparse_index_col n e col i Hi Hr Hin). destruct Hr as [Hl _].
    rewrite (nth_error_nth' col 0) by lia. split; reflexivity.
  - simpl. destruct Hr as [Hl [R1 R2]].
    destruct (scatter_spec e (repeat 0 n)) as [t [E [L [S1 S2]]]]; [apply SS_lt_nodup; exact Hi|intros i x H; rewrite repeat_length; apply (R1 i x H)|].
    rewrite E. f_equal. rewrite repeat_length in L. apply (list_eq_nth 0); [congruence|]. intros i Hin.
    destruct (entry_dec e i) as [[x Hx]|Hno].
    + rewrite (S1 i x Hx). symmetry. apply R1. exact Hx.
    + rewrite (S2 i Hno), nth_repeat_lt by lia. symmetry. apply R2; [lia|exact Hno].
  - intros w Hw. unfold weighted_mean_and_variance, weighted_mean.
    destruct (check_capped_simplex_condition w 1) as [[]|p]; cbn [bind]; [|reflexivity].
    rewrite (col_mean n e col w Hi Hr Hw). cbn [bind]. rewrite (col_variance n e col w Hi Hr Hw). reflexivity.
Qed.

(** the number of distinct values agrees if no zero is stored explicitly *)
Lemma P_C39_distinct_values_partial :
  forall nm nm' n e col, increasing_rows e -> represents n e col -> (forall i x, In (i, x) e -> x <> 0) ->
  distinct_value_count (Sparse nm e n) = distinct_value_count (Dense nm' col) /\
  distinct_count col (distinct_value_count (Dense nm' col)).
Proof.
  intros nm nm' n e col Hi [Hl [R1 R2]] Hz. split; [|apply inner_distinct_spec]. simpl.
  assert (Hnd : NoDup (map fst e)) by (apply SS_lt_nodup; exact Hi).
  assert (Hval : forall x, In x (map snd e) -> In x col).
  { intros x Hx. apply in_map_iff in Hx. destruct Hx as [[i z] [<- H]]. destruct (R1 i z H) as [Hin <-]. simpl. apply nth_In. lia. }
  unfold has_zero. destruct (Nat.ltb_spec (length e) n) as [Hlt|Hge].
  - assert (Hm : exists i, (i < n)%nat /\ forall x, ~ In (i, x) e).
    { destruct (existsb (fun i => negb (existsb (Nat.eqb i) (map fst e))) (seq 0 n)) eqn:E.
      - apply existsb_exists in E. destruct E as [i [Hi' E]]. apply in_seq in Hi'. exists i. split; [lia|]. intros x Hx.
        apply negb_true_iff in E. assert (existsb (Nat.eqb i) (map fst e) = true); [|congruence].
        apply existsb_exists. exists i. split; [apply in_map_iff; exists (i, x); auto|apply Nat.eqb_refl].
      - exfalso. assert (I : incl (seq 0 n) (map fst e)).
        { intros i Hi'. destruct (in_dec Nat.eq_dec i (map fst e)) as [|Hno]; [assumption|exfalso].
          assert (existsb (fun i => negb (existsb (Nat.eqb i) (map fst e))) (seq 0 n) = true); [|congruence].
          apply existsb_exists. exists i. split; [exact Hi'|]. apply negb_true_iff. apply not_true_is_false. intros T.
          apply existsb_exists in T. destruct T as [j [Hj T]]. apply Nat.eqb_eq in T. subst. contradiction. }
        pose proof (NoDup_incl_length (seq_NoDup n 0) I) as L. rewrite seq_length, map_length in L. lia. }
    destruct Hm as [i0 [Hi0 Hno]].
    apply (distinct_count_unique (0 :: map snd e) col).
    + intros x. split.
      * intros [<-|Hx]; [|apply Hval; exact Hx]. rewrite <- (R2 i0 Hi0 Hno). apply nth_In. lia.
      * intros Hx. apply (In_nth _ _ 0) in Hx. destruct Hx as [i [Hin <-]]. destruct (entry_dec e i) as [[z Hzz]|Hn0].
        -- right. apply in_map_iff. exists (i, z). split; [|exact Hzz]. simpl. symmetry. apply R1. exact Hzz.
        -- left. symmetry. apply R2; [lia|exact Hn0].
    + destruct (inner_distinct_spec (map snd e)) as [d [Hn [Hd1 Hd2]]]. exists (0 :: d). split.
      * constructor; [|exact Hn]. rewrite Hd2. intros Hx. apply in_map_iff in Hx. destruct Hx as [[i z] [Ez H]]. simpl in Ez. exact (Hz i z H Ez).
      * split; [simpl; lia|]. intros x. simpl. rewrite Hd2. tauto.
    + apply inner_distinct_spec.
  - rewrite Nat.add_0_r. apply (distinct_count_unique (map snd e) col); [|apply inner_distinct_spec|apply inner_distinct_spec].
    intros x. split; [apply Hval|]. intros Hx. apply (In_nth _ _ 0) in Hx. destruct Hx as [i [Hin <-]].
    assert (I : incl (seq 0 n) (map fst e)).
    { apply NoDup_length_incl; [exact Hnd|rewrite seq_length, map_length; exact Hge|].
      intros j Hj. apply in_map_iff in Hj. destruct Hj as [[j' z] [E H]]. simpl in E. subst. apply in_seq. pose proof (R1 j z H). lia. }
    assert (Hj : In i (map fst e)) by (apply I, in_seq; lia). apply in_map_iff in Hj. destruct Hj as [[j z] [E H]]. simpl in E. subst.
    apply in_map_iff. exists (i, z). split; [|exact H]. simpl. symmetry. apply R1. exact H.
Qed.

(** an explicitly stored zero is counted twice *)
Lemma P_C39_distinct_values_refuted :
  exists n e col, increasing_rows e /\ represents n e col /\
  forall nm nm', distinct_value_count (Sparse nm e n) = 2%nat /\ distinct_value_count (Dense nm' col) = 1%nat.
Proof.
  exists 2%nat, [(0%nat, 0)], [0; 0]. split; [repeat constructor|]. split.
  - split; [reflexivity|]. split.
    + intros i x [H|[]]. inversion H; subst. split; [lia|reflexivity].
    + intros [|[|i]] Hi _; try reflexivity. lia.
  - intros nm nm'. split; [reflexivity|]. simpl. unfold inner_distinct_value_count. simpl. rewrite Rleb_true by lra. simpl. rewrite Reqb_true by lra. reflexivity.
Qed.

Lemma total_label_sum y target w : length target = length w ->
  total_weight_for_label y target w = rsum (map (fun i => if Reqb (nth i target 0) y then nth i w 0 else 0) (seq 0 (length w))).
Proof.
  unfold total_weight_for_label. revert w; induction target as [|t target IH]; intros [|a w] E; simpl in *; try lia; [reflexivity|].
  rewrite <- seq_shift, map_map. destruct (Reqb t y); simpl; rewrite IH by lia; lra.
Qed.

(** the number of zero rows of a sparse column that stores no zeros, and whether it has any *)
Lemma P_C39_zero_rows_partial :
  forall n e col, increasing_rows e -> represents n e col -> (forall i x, In (i, x) e -> x <> 0) ->
  (exists zeros, zero_counts e n = Ok (length zeros) /\ NoDup zeros /\ forall i, In i zeros <-> (i < n)%nat /\ nth i col 0 = 0) /\
  (has_zero e n = true <-> exists i, (i < n)%nat /\ nth i col 0 = 0).
Proof.
  intros n e col Hi [Hl [R1 R2]] Hz.
  set (isz := fun i => Reqb (nth i col 0) 0). set (zeros := filter isz (seq 0 n)). set (others := filter (fun i => negb (isz i)) (seq 0 n)).
  assert (Hzin : forall i, In i zeros <-> (i < n)%nat /\ nth i col 0 = 0).
  { intros i. unfold zeros. rewrite filter_In, in_seq. unfold isz. destruct (Reqb_spec (nth i col 0) 0); split; intros [A B]; try (split; [lia|assumption]); try discriminate; try contradiction; split; [lia|reflexivity]. }
  assert (Hp : Permutation others (map fst e)).
  { apply NoDup_Permutation; [apply NoDup_filter, seq_NoDup|apply SS_lt_nodup; exact Hi|]. intros i. unfold others. rewrite filter_In, in_seq, in_map_iff. unfold isz. split.
    - intros [A B]. destruct (Reqb_spec (nth i col 0) 0) as [E|E]; [discriminate|]. 
      destruct (in_dec Nat.eq_dec i (map fst e)) as [I|I]; [apply in_map_iff in I; exact I|]. exfalso. apply E, R2; [lia|]. intros x Hx. apply I. apply in_map_iff. exists (i, x). auto.
    - intros [[j x] [<- Hx]]. destruct (R1 j x Hx) as [A B]. cbn [fst]. split; [lia|]. rewrite B. destruct (Reqb_spec x 0) as [E|E]; [exfalso; apply (Hz j x Hx E)|reflexivity]. }
  assert (Hlen : (length zeros + length e = n)%nat).
  { rewrite <- (map_length fst e), <- (Permutation_length Hp). unfold zeros, others. rewrite <- (seq_length n 0) at 3. generalize (seq 0 n). induction l as [|i l IH]; [reflexivity|]. cbn [filter]. destruct (isz i); cbn [negb length]; lia. }
  split.
  - exists zeros. split; [|split; [apply NoDup_filter, seq_NoDup|exact Hzin]]. unfold zero_counts. destruct (Nat.ltb_spec n (length e)); [lia|]. f_equal. lia.
  - unfold has_zero. rewrite Nat.ltb_lt. split.
    + intros Hlt. destruct zeros as [|i zs]; [simpl in Hlen; lia|]. exists i. apply Hzin. left. reflexivity.
    + intros [i Hi']. apply Hzin in Hi'. destruct zeros; [destruct Hi'|]. simpl in Hlen. lia.
Qed.


(** per-label statistics of a dense column *)
Lemma P_C39_dense_label_statistics :
  forall nm y col target w, length col = length w -> length target = length w ->
  let sel i (x : R) := if Reqb (nth i target 0) y then x else 0 in
  let total := rsum (map (fun i => sel i (nth i w 0)) (seq 0 (length w))) in
  total <> 0 ->
  exists mean var, weighted_mean_and_variance_for_label (Dense nm col) y target w = Ok (mean, var) /\
    mean = rsum (map (fun i => sel i (nth i w 0 * nth i col 0)) (seq 0 (length w))) / total /\
    var = rsum (map (fun i => sel i (nth i w 0 * (nth i col 0 - mean) ^ 2)) (seq 0 (length w))) / total.
Proof.
  intros nm y col target w Hc Ht sel total Hne.
  assert (El : label_total y target w = total).
  { unfold label_total. rewrite total_label_sum by exact Ht. cbv zeta. rewrite Reqb_false; [reflexivity|exact Hne]. }
  assert (G : forall F : R -> R -> R,
     rsum (map (fun q => let '((f, t), wi) := q in if Reqb t y then F f wi else 0) (combine (combine col target) w)) =
     rsum (map (fun i => sel i (F (nth i col 0) (nth i w 0))) (seq 0 (length w)))).
  { intros F. rewrite (combine_nth_map _ (combine col target) w (0, 0) 0) by (rewrite combine_length; lia).
    rewrite combine_length, Hc, Ht, Nat.min_id. apply rsum_map_ext. intros i Hi.
    rewrite combine_nth by congruence. unfold sel. reflexivity. }
  eexists; eexists. split; [reflexivity|]. split.
  - unfold dense_mean_for_label. rewrite El. f_equal. rewrite (G (fun f wi => f * wi)). apply rsum_map_ext. intros i _. unfold sel. destruct (Reqb (nth i target 0) y); lra.
  - unfold dense_variance_for_label. rewrite El, (G (fun f wi => wi * (f - _) ^ 2)). reflexivity.
Qed.

(** per-label statistics of a sparse column are wrong: the mean adds up the rows of the other labels *)
Lemma P_C39_sparse_label_mean_refuted :
  exists n e col y target w, increasing_rows e /\ represents n e col /\ length target = n /\ length w = n /\ is_dist w /\
  forall nm nm', weighted_mean_for_label (Sparse nm e n) y target w = Ok 0 /\ weighted_mean_for_label (Dense nm' col) y target w = Ok 2.
Proof.
  exists 2%nat, [(0%nat, 2)], [2; 0], 1, [1; -1], [1 / 2; 1 / 2]. split; [repeat constructor|]. split.
  { split; [reflexivity|]. split.
    - intros i x [H|[]]. inversion H; subst. split; [lia|reflexivity].
    - intros [|[|i]] Hi Hno; try reflexivity; [exfalso; apply (Hno 2); left; reflexivity|lia]. }
  split; [reflexivity|]. split; [reflexivity|]. split; [split; [intros x [<-|[<-|[]]]; lra|simpl; lra]|].
  intros nm nm'. simpl. unfold sparse_mean_for_label, dense_mean_for_label. cbn [combine sparse_mean_loop].
  assert (El : label_total 1 [1; -1] [1 / 2; 1 / 2] = 1 / 2).
  { unfold label_total, total_weight_for_label. cbn [combine filter fst]. rewrite (Reqb_true 1), (Reqb_false (-1)) by lra. cbn [map snd rsum].
    rewrite Reqb_false by lra. lra. }
  rewrite El. rewrite (Reqb_true 1) by lra. cbn [bind map rsum]. rewrite (Reqb_false (-1)) by lra. rewrite ?(Reqb_true 1 1) by lra. split; apply (f_equal Ok); lra.
Qed.

(** ... and the variance counts the zero rows of all labels: rows (0, 0, 2) with labels (1, -1, 1), label 1 *)
Lemma P_C39_sparse_label_variance_refuted :
  exists n e col y target w mean, increasing_rows e /\ represents n e col /\ length target = n /\ length w = n /\ is_dist w /\
  exists v, sparse_variance_for_label mean y e target w = Ok v /\ v <> dense_variance_for_label mean y col target w.
Proof.
  exists 3%nat, [(2%nat, 2)], [0; 0; 2], 1, [1; -1; 1], [1 / 4; 1 / 2; 1 / 4], 1. split; [repeat constructor|]. split.
  { split; [reflexivity|]. split.
    - intros i x [H|[]]. inversion H; subst. split; [lia|reflexivity].
    - intros [|[|[|i]]] Hi Hno; try reflexivity; [exfalso; apply (Hno 2); left; reflexivity|lia]. }
  split; [reflexivity|]. split; [reflexivity|]. split; [split; [intros x [<-|[<-|[<-|[]]]]; lra|simpl; lra]|].
  assert (El : label_total 1 [1; -1; 1] [1 / 4; 1 / 2; 1 / 4] = 1 / 2).
  { unfold label_total, total_weight_for_label. cbn [combine filter fst]. rewrite (Reqb_true 1), (Reqb_false (-1)) by lra. cbn [map snd rsum].
    rewrite Reqb_false by lra. lra. }
  unfold sparse_variance_for_label, dense_variance_for_label. rewrite El. cbn. unfold slice_. cbn.
  rewrite (Reqb_true 1), (Reqb_false (-1)) by lra. eexists. split; [reflexivity|]. lra.
Qed.

(** what the per-label mean of a sparse column is, for every sparse column: the k-th stored entry is given the label of row k (not of its own row), the entries
    whose label is [y] are left out and the others added up; only the divisor is the weight of label [y] *)
Lemma P_C39_sparse_label_mean_partial :
  forall nm n e col y target w, increasing_rows e -> represents n e col -> length target = n -> length w = n ->
  let total := rsum (map (fun i => if Reqb (nth i target 0) y then nth i w 0 else 0) (seq 0 n)) in total <> 0 ->
  weighted_mean_for_label (Sparse nm e n) y target w =
  Ok (rsum (map (fun k => if Reqb (nth k target 0) y then 0 else nth (fst (nth k e (0%nat, 0))) w 0 * snd (nth k e (0%nat, 0))) (seq 0 (length e))) / total).
Proof.
  intros nm n e col y target w Hinc Hrep Ht Hw total Hne. cbn [weighted_mean_for_label]. unfold sparse_mean_for_label.
  assert (El : label_total y target w = total) by (unfold label_total; rewrite total_label_sum by congruence; cbv zeta; rewrite Hw; rewrite Reqb_false; [reflexivity|exact Hne]).
  assert (Len : (length e <= n)%nat). { rewrite <- (map_length fst), <- (seq_length n 0). apply NoDup_incl_length; [apply SS_lt_nodup, Hinc|]. intros i Hi. apply in_map_iff in Hi. destruct Hi as [[j x] [<- Hx]]. apply in_seq. pose proof (ent_lt n e col w Hrep Hw j x Hx). cbn [fst]. lia. }
  assert (G : forall (e : list (nat * R)) target, (length e <= length target)%nat -> (forall i x, In (i, x) e -> (i < n)%nat) -> sparse_mean_loop y (combine e target) w =
    Ok (rsum (map (fun k => if Reqb (nth k target 0) y then 0 else nth (fst (nth k e (0%nat, 0))) w 0 * snd (nth k e (0%nat, 0))) (seq 0 (length e))))).
  { clear - Hw. induction e as [|[i x] e IH]; intros [|t target] L Hb; cbn [length] in *; try (cbn; reflexivity); [lia|]. cbn [combine sparse_mean_loop]. rewrite IH by (try lia; intros j z Hj; apply (Hb j z); right; exact Hj). cbn [seq map rsum nth fst snd].
    rewrite <- seq_shift, map_map. cbn [nth]. destruct (Reqb t y); cbn [bind]; [reflexivity|]. unfold get_. destruct (nth_error w i) as [a|] eqn:E.
    - cbn [bind]. rewrite (nth_error_nth w i 0 E). reflexivity.
    - exfalso. apply nth_error_None in E. specialize (Hb i x (or_introl eq_refl)). lia. }
  rewrite El, (G e target) by (try (rewrite Ht; exact Len); intros i x Hx; pose proof (ent_lt n e col w Hrep Hw i x Hx); lia). reflexivity.
Qed.

(** what the per-label variance of a sparse column is, for every sparse column: the rows that are not stored count whatever their label; so it is the variance of
    the dense column whenever every row that is not stored has the label *)
Lemma P_C39_sparse_label_variance_partial :
  forall n e col y target w mean, increasing_rows e -> represents n e col -> length target = n -> length w = n ->
  let stored i := existsb (fun p => Nat.eqb (fst p) i) e in let total := rsum (map (fun i => if Reqb (nth i target 0) y then nth i w 0 else 0) (seq 0 n)) in total <> 0 ->
  sparse_variance_for_label mean y e target w =
    Ok (rsum (map (fun i => if orb (negb (stored i)) (Reqb (nth i target 0) y) then nth i w 0 * (nth i col 0 - mean) ^ 2 else 0) (seq 0 n)) / total) /\
  ((forall i, (i < n)%nat -> stored i = false -> nth i target 0 = y) -> sparse_variance_for_label mean y e target w = Ok (dense_variance_for_label mean y col target w)).
Proof.
  intros n e col y target w mean Hinc Hrep Ht Hw stored total Hne.
  assert (El : label_total y target w = total) by (unfold label_total; rewrite total_label_sum by congruence; cbv zeta; rewrite Hw; rewrite Reqb_false; [reflexivity|exact Hne]).
  assert (IL : forall i x, In (i, x) e -> (0 <= i < n)%nat) by (intros i x; apply (ent_lt n e col w Hrep Hw)).
  assert (ST : forall i, stored i = true <-> exists x, In (i, x) e). { intros i. unfold stored. rewrite existsb_exists. split; [intros [[j x] [Hx E]]; apply Nat.eqb_eq in E; cbn in E; subst; exists x; exact Hx|intros [x Hx]; exists (i, x); split; [exact Hx|apply Nat.eqb_refl]]. }
  assert (E1 : sparse_variance_for_label mean y e target w = Ok (rsum (map (fun i => if orb (negb (stored i)) (Reqb (nth i target 0) y) then nth i w 0 * (nth i col 0 - mean) ^ 2 else 0) (seq 0 n)) / total)).
  { unfold sparse_variance_for_label. assert (FA : forallb (fun p => Nat.ltb (fst p) (length target)) e = true) by (apply forallb_forall; intros [i x] Hx; apply Nat.ltb_lt; cbn [fst]; pose proof (IL i x Hx); lia). rewrite FA.
    rewrite (sparse_var_ok n w _ mean Hw e 0 0 0 Hinc IL) by lia. cbn [bind]. rewrite El. f_equal. f_equal. destruct Hrep as [Hl [R1 R2]].
    replace n with (n - 0)%nat at 2 by lia. rewrite (sparse_sum _ n e 0 Hinc IL) by lia.
    rewrite (zsum_ext (fun i => if orb (negb (stored i)) (Reqb (nth i target 0) y) then nth i w 0 * (nth i col 0 - mean) ^ 2 else 0) (fun i => nth i w 0 * mean ^ 2) n e 0 Hinc IL), (zsum_scale (mean ^ 2)).
    - rewrite !Rplus_0_l. f_equal. apply rsum_map_ext. intros [i x] Hix. cbn [fst snd]. assert (S : stored i = true) by (apply ST; exists x; exact Hix). rewrite S. cbn [negb orb]. destruct (R1 i x Hix) as [_ ->]. reflexivity.
    - intros i Hi Hno. assert (S : stored i = false) by (apply Bool.not_true_iff_false; rewrite ST; intros [x Hx]; exact (Hno x Hx)). rewrite S. cbn [negb orb]. rewrite (R2 i) by (try lia; exact Hno). ring. }
  split; [exact E1|]. intros Al. rewrite E1. f_equal. unfold dense_variance_for_label. rewrite El. f_equal. destruct Hrep as [Hl _].
  rewrite (combine_nth_map _ (combine col target) w (0, 0) 0) by (rewrite combine_length; lia). rewrite combine_length, Hl, Ht, Nat.min_id. apply rsum_map_ext. intros i Hi. apply in_seq in Hi.
  rewrite combine_nth by congruence. destruct (stored i) eqn:S; cbn [negb orb]; [reflexivity|]. rewrite (Reqb_true (nth i target 0) y) by (apply Al; [lia|exact S]). reflexivity.
Qed.

Example C39_nonvacuous : increasing_rows [(1%nat, 5); (3%nat, 2)] /\ represents 4 [(1%nat, 5); (3%nat, 2)] [0; 5; 0; 2].
Proof.
  split; [repeat constructor|]. split; [reflexivity|]. split.
  - intros i x [H|[H|[]]]; inversion H; subst; split; try lia; reflexivity.
  - intros [|[|[|[|i]]]] Hi Hno; try reflexivity; [exfalso; apply (Hno 5); left; reflexivity|exfalso; apply (Hno 2); right; left; reflexivity|lia].
Qed.
