(** Facts about samples: C40, C49. *)
From Coq Require DecimalNat.
From Coq Require Import String DecimalString.
From Coq Require Import List.
From Verif Require Import Base SortLib Spec SampleSpec BinSearch Feature FeatureFacts Sample.
Open Scope list_scope.
Open Scope R_scope.

(** ** hash maps *)
Definition names_ok (m : hm) (names : list string) : Prop :=
  NoDup (map fst m) /\
  forall nm i, In (nm, i) m <-> (nth_error names i = Some nm /\ forall j, (i < j)%nat -> nth_error names j <> Some nm).

Lemma hm_insert_keys m k v : NoDup (map fst m) -> NoDup (map fst (hm_insert m k v)).
Proof.
  intros Hn. unfold hm_insert. simpl. constructor.
  - intros Hin. apply in_map_iff in Hin. destruct Hin as [[k' v'] [E H]]. simpl in E. subst. apply filter_In in H. destruct H as [_ H].
    simpl in H. rewrite String.eqb_refl in H. discriminate.
  - induction m as [|[k' v'] m IH]; simpl; [constructor|]. simpl in Hn. inversion Hn as [|? ? Hni Hn']; subst.
    destruct (negb (String.eqb k' k)); simpl; [|apply IH; exact Hn']. constructor; [|apply IH; exact Hn'].
    intros Hin. apply Hni. apply in_map_iff in Hin. destruct Hin as [p [E H]]. apply filter_In in H. apply in_map_iff. exists p. tauto.
Qed.

Lemma hm_insert_in m k v nm i : In (nm, i) (hm_insert m k v) <-> (nm = k /\ i = v) \/ (nm <> k /\ In (nm, i) m).
Proof.
  unfold hm_insert. simpl. rewrite filter_In. simpl. destruct (String.eqb_spec nm k) as [->|Hne]; simpl.
  - split; [intros [E|[_ E]]; [inversion E; auto|discriminate]|intros [[_ ->]|[E _]]; [auto|congruence]].
  - split; [intros [E|[H _]]; [inversion E; congruence|auto]|intros [[E _]|[_ H]]; [congruence|auto]].
Qed.

Lemma combine_snoc {A B} (a : A) (b : B) : forall l1 l2, length l1 = length l2 -> combine (l1 ++ [a]) (l2 ++ [b]) = combine l1 l2 ++ [(a, b)].
Proof. induction l1 as [|x l1 IH]; intros [|y l2] E; simpl in *; try lia; [reflexivity|]. f_equal. apply IH. lia. Qed.

Lemma index_names_snoc names a : index_names (names ++ [a]) = hm_insert (index_names names) a (length names).
Proof.
  unfold index_names, hm_collect. rewrite app_length. simpl length. rewrite Nat.add_1_r, seq_S. simpl.
  assert (E : combine (names ++ [a]) (seq 0 (length names) ++ [length names]) = combine names (seq 0 (length names)) ++ [(a, length names)]).
  { apply combine_snoc. symmetry. apply seq_length. }
  rewrite E, fold_left_app. reflexivity.
Qed.

Lemma index_names_ok names : names_ok (index_names names) names.
Proof.
  induction names as [|a names IH] using rev_ind.
  - split; [constructor|]. intros nm i. split; [intros []|]. intros [E _]. destruct i; discriminate.
  - rewrite index_names_snoc. destruct IH as [Hn IH]. split; [apply hm_insert_keys; exact Hn|]. intros nm i. rewrite hm_insert_in, IH. split.
    + intros [[-> ->]|[Hne [H1 H2]]].
      * split; [rewrite nth_error_app2, Nat.sub_diag by lia; reflexivity|]. intros j Hj.
        assert (N : nth_error (names ++ [a]) j = None) by (apply nth_error_None; rewrite app_length; simpl; lia). rewrite N. discriminate.
      * assert (Hi : (i < length names)%nat) by (apply nth_error_Some; congruence).
        split; [rewrite nth_error_app1 by exact Hi; exact H1|]. intros j Hj E.
        destruct (Nat.lt_ge_cases j (length names)) as [L|L]; [rewrite nth_error_app1 in E by exact L; exact (H2 j Hj E)|].
        rewrite nth_error_app2 in E by exact L. destruct (j - length names)%nat as [|q]; simpl in E; [inversion E; congruence|destruct q; discriminate].
    + intros [H1 H2]. destruct (Nat.lt_ge_cases i (length names)) as [L|L].
      * right. rewrite nth_error_app1 in H1 by exact L. split.
        -- intros ->. apply (H2 (length names) L). rewrite nth_error_app2, Nat.sub_diag by lia. reflexivity.
        -- split; [exact H1|]. intros j Hj E. apply (H2 j Hj). assert (j < length names)%nat by (apply nth_error_Some; congruence).
           rewrite nth_error_app1 by assumption. exact E.
      * left. rewrite nth_error_app2 in H1 by exact L. destruct (i - length names)%nat as [|q] eqn:Eq; simpl in H1; [|destruct q; discriminate].
        inversion H1. split; [reflexivity|lia].
Qed.

Lemma hm_get_in m k v : NoDup (map fst m) -> (hm_get m k = Some v <-> In (k, v) m).
Proof.
  unfold hm_get. induction m as [|[k' v'] m IH]; intros Hn; simpl.
  - split; [discriminate|intros []].
  - simpl in Hn. inversion Hn as [|? ? Hni Hn']; subst. destruct (String.eqb_spec k' k) as [->|Hne].
    + split; [intros E; inversion E; auto|]. intros [E|H]; [inversion E; reflexivity|]. exfalso. apply Hni. apply in_map_iff. exists (k, v). auto.
    + rewrite (IH Hn'). split; [auto|]. intros [E|H]; [inversion E; congruence|exact H].
Qed.

(** ** well-formed columns and samples *)
Definition col_ok (n : nat) (f : feature) : Prop :=
  match f with
  | Dense _ v => length v = n
  | Sparse _ e m => m = n /\ increasing_rows e /\ forall i x, In (i, x) e -> (i < n)%nat
  end.

Definition fval (f : feature) (i : nat) : R := match f with Dense _ v => nth i v 0 | Sparse _ e _ => sparse_index e i end.

Lemma feat_index_ok n f i : col_ok n f -> (i < n)%nat -> feat_index f i = Ok (fval f i).
Proof.
  destruct f as [nm v|nm e m]; simpl; intros H Hi; [|reflexivity]. rewrite (nth_error_nth' v 0) by lia. reflexivity.
Qed.

Lemma read_row_ok n fs i : Forall (col_ok n) fs -> (i < n)%nat -> read_row fs i = Ok (map (fun f => fval f i) fs).
Proof.
  induction 1 as [|f fs Hf _ IH]; intros Hi; simpl; [reflexivity|].
  rewrite (feat_index_ok n f i Hf Hi). cbn [bind]. rewrite (IH Hi). reflexivity.
Qed.

Record good (s : sample) : Prop := {
  good_nf : s_n_feature s = length (s_features s);
  good_cols : Forall (col_ok (s_n_sample s)) (s_features s);
  good_names : names_ok (s_names s) (map feat_name (s_features s));
}.

Lemma at_ok s i : good s -> length (s_target s) = s_n_sample s -> (i < s_n_sample s)%nat ->
  at_ s i = Ok (map (fun f => fval f i) (s_features s), nth i (s_target s) 0).
Proof.
  intros G Ht Hi. unfold at_. rewrite (read_row_ok _ _ _ (good_cols s G) Hi). cbn [bind]. rewrite get_ok by lia. reflexivity.
Qed.

Lemma by_name_ok s i d : good s -> NoDup (map feat_name (s_features s)) -> (i < length (s_features s))%nat ->
  by_name s (feat_name (nth i (s_features s) d)) = Ok (nth i (s_features s) d).
Proof.
  intros G Hn Hi. unfold by_name. destruct (good_names s G) as [Hk Hin].
  assert (E : hm_get (s_names s) (feat_name (nth i (s_features s) d)) = Some i).
  { apply hm_get_in; [exact Hk|]. apply Hin. split.
    - rewrite nth_error_map, (nth_error_nth' _ d Hi). reflexivity.
    - intros j Hj E. rewrite nth_error_map in E. destruct (nth_error (s_features s) j) as [f|] eqn:Ej; [|discriminate]. simpl in E. inversion E as [En].
      assert (Lj : (j < length (s_features s))%nat) by (apply nth_error_Some; congruence).
      assert (i = j); [|lia]. apply (NoDup_nth (map feat_name (s_features s)) (feat_name d)); try assumption; try (rewrite map_length; assumption).
      rewrite !map_nth. rewrite (nth_error_nth _ _ d Ej). symmetry. exact En. }
  rewrite E. rewrite (nth_error_nth' _ d Hi). reflexivity.
Qed.

(** *** set_target *)
Lemma position_spec p fs k : position p fs = Some k ->
  (k < length fs)%nat /\ (forall d, p (nth k fs d) = true) /\ forall j d, (j < k)%nat -> p (nth j fs d) = false.
Proof.
  revert k; induction fs as [|f fs IH]; intros k E; simpl in E; [discriminate|]. destruct (p f) eqn:Ep.
  - inversion E; subst. simpl. split; [lia|]. split; [intros; exact Ep|intros; lia].
  - destruct (position p fs) as [k'|]; [|discriminate]. inversion E; subst. destruct (IH k' eq_refl) as [H1 [H2 H3]]. simpl.
    split; [lia|]. split; [exact H2|]. intros [|j] d Hj; [exact Ep|apply H3; lia].
Qed.

Lemma into_target_ok n f : col_ok n f -> into_target f = Ok (map (fun i => fval f i) (seq 0 n)).
Proof.
  destruct f as [nm v|nm e m]; simpl.
  - intros <-. f_equal. symmetry. apply map_nth_seq.
  - intros [-> [Hi Hb]]. destruct (scatter_spec e (repeat 0 n)) as [t [E [L [S1 S2]]]]; [apply SS_lt_nodup; exact Hi|intros i x H; rewrite repeat_length; apply (Hb i x H)|].
    rewrite E. f_equal. rewrite repeat_length in L. apply (list_eq_nth 0); [rewrite map_length, seq_length; exact L|].
    intros i Hin. rewrite nth_map_seq by lia. destruct (sparse_index_spec e i Hi) as [I1 I2]. destruct (entry_dec e i) as [[x Hx]|Hno].
    + rewrite (I1 x Hx). apply S1. exact Hx.
    + rewrite (I2 Hno), (S2 i Hno). apply nth_repeat_lt. lia.
Qed.

Lemma remove_nth_in {A} k (l : list A) a : In a (remove_nth k l) -> In a l.
Proof.
  unfold remove_nth. intros H. apply in_app_or in H. destruct H as [H|H].
  - rewrite <- (firstn_skipn k l). apply in_or_app. left. exact H.
  - rewrite <- (firstn_skipn (S k) l). apply in_or_app. right. exact H.
Qed.

Lemma remove_nth_length {A} k (l : list A) : (k < length l)%nat -> length (remove_nth k l) = (length l - 1)%nat.
Proof. intros H. unfold remove_nth. rewrite app_length, firstn_length, skipn_length. lia. Qed.

Lemma set_target_good s nm s' : good s -> set_target s nm = Ok s' ->
  good s' /\ s_n_sample s' = s_n_sample s /\ length (s_target s') = s_n_sample s' /\
  exists k d, (k < length (s_features s))%nat /\ feat_name (nth k (s_features s) d) = nm /\
    (forall j, (j < k)%nat -> feat_name (nth j (s_features s) d) <> nm) /\
    s_features s' = remove_nth k (s_features s) /\
    s_target s' = map (fun i => fval (nth k (s_features s) d) i) (seq 0 (s_n_sample s)).
Proof.
  intros G E. unfold set_target in E. destruct (position _ (s_features s)) as [k|] eqn:Ep; [|discriminate].
  destruct (position_spec _ _ _ Ep) as [Hk [Hp Hb]].
  assert (Hc : col_ok (s_n_sample s) (nth k (s_features s) (new_dense String.EmptyString))).
  { pose proof (good_cols s G) as F. rewrite Forall_forall in F. apply F, nth_In, Hk. }
  rewrite (into_target_ok _ _ Hc) in E. cbn [bind] in E. destruct (Nat.eqb_spec (s_n_feature s) 0); [discriminate|]. inversion E; subst s'; clear E. simpl.
  split; [|split; [reflexivity|]]. 2: split; [rewrite map_length, seq_length; reflexivity|]. 
  - constructor; simpl.
    + rewrite remove_nth_length by exact Hk. rewrite (good_nf s G). reflexivity.
    + apply Forall_forall. intros f Hf. pose proof (good_cols s G) as F. rewrite Forall_forall in F. apply F, (remove_nth_in k), Hf.
    + apply index_names_ok.
  - exists k, (new_dense String.EmptyString). split; [exact Hk|]. split; [apply String.eqb_eq; apply (Hp (new_dense String.EmptyString))|]. split; [|split; reflexivity].
    intros j Hj. apply String.eqb_neq. apply (Hb j (new_dense String.EmptyString) Hj).
Qed.

(** *** replace_names *)
Lemma replace_name_ok n f nm : col_ok n f -> col_ok n (replace_name f nm).
Proof. destruct f; exact (fun H => H). Qed.
Lemma replace_name_val f nm i : fval (replace_name f nm) i = fval f i.
Proof. destruct f; reflexivity. Qed.
Lemma replace_name_name f nm : feat_name (replace_name f nm) = nm.
Proof. destruct f; reflexivity. Qed.

Lemma replace_names_spec s names : good s ->
  match replace_names s names with
  | Ok (s', old) => length names = s_n_feature s /\ good s' /\ s_n_sample s' = s_n_sample s /\ s_n_feature s' = s_n_feature s /\
      s_target s' = s_target s /\ map feat_name (s_features s') = names /\ old = map feat_name (s_features s) /\
      s_features s' = map (fun p => replace_name (snd p) (fst p)) (combine names (s_features s))
  | Panic p => length names <> s_n_feature s
  end.
Proof.
  intros G. unfold replace_names, bind, assert_. destruct (Nat.eqb_spec (length names) (s_n_feature s)) as [E|E]; [|exact E].
  pose proof (good_nf s G) as Hnf. assert (El : length names = length (s_features s)) by congruence.
  rewrite El, skipn_all, app_nil_r.
  assert (E1 : map feat_name (map (fun p => replace_name (snd p) (fst p)) (combine names (s_features s))) = names).
  { clear -El. revert El. generalize (s_features s). induction names as [|a names IH]; intros [|f l] L; simpl in *; try lia; [reflexivity|].
    rewrite replace_name_name. f_equal. apply IH. lia. }
  assert (E2 : map (fun p : string * feature => feat_name (snd p)) (combine names (s_features s)) = map feat_name (s_features s)).
  { clear -El. revert El. generalize (s_features s). induction names as [|a names IH]; intros [|f l] L; simpl in *; try lia; [reflexivity|]. f_equal. apply IH. lia. }
  split; [congruence|]. simpl. split; [|repeat split; assumption]. constructor; simpl.
  - simpl. rewrite map_length, combine_length, El, Nat.min_id. exact Hnf.
  - simpl. apply Forall_forall. intros f Hf. apply in_map_iff in Hf. destruct Hf as [[a g] [<- Hg]]. apply in_combine_r in Hg. simpl.
    apply replace_name_ok. pose proof (good_cols s G) as F. rewrite Forall_forall in F. apply F, Hg.
  - apply index_names_ok.
Qed.

(** *** reading a CSV file *)
Lemma append_csv_row_ok : forall row cols, length row = length cols ->
  append_csv_row cols row = Ok (map (fun p => fst p ++ [snd p]) (combine cols row)).
Proof.
  induction row as [|x row IH]; intros [|c cols] E; simpl in *; try lia; [reflexivity|]. rewrite IH by lia. reflexivity.
Qed.

Lemma append_csv_rows_ok m : forall rows cols, length cols = m -> (forall r, In r rows -> length r = m) ->
  exists cols', append_csv_rows cols rows = Ok cols' /\ length cols' = m /\
    forall j, (j < m)%nat -> nth j cols' [] = nth j cols [] ++ map (fun r => nth j r 0) rows.
Proof.
  induction rows as [|r rows IH]; intros cols Hl Hr; simpl.
  - exists cols. split; [reflexivity|]. split; [exact Hl|]. intros j _. rewrite app_nil_r. reflexivity.
  - pose proof (Hr r (or_introl eq_refl)) as Hlr. rewrite append_csv_row_ok by congruence. cbn [bind].
    destruct (IH (map (fun p => fst p ++ [snd p]) (combine cols r))) as [cols' [E [L N]]].
    + rewrite map_length, combine_length. lia.
    + intros r' H; apply Hr; right; exact H.
    + exists cols'. split; [exact E|]. split; [exact L|]. intros j Hj. rewrite N by exact Hj.
      rewrite (nth_map_in _ (combine cols r) j ([], 0)) by (rewrite combine_length; lia).
      rewrite combine_nth by congruence. simpl. rewrite <- app_assoc. reflexivity.
Qed.

Lemma csv_good header rows s m :
  (forall r, In r rows -> length r = m) ->
  match header with Some h => length h = m | None => rows <> [] end ->
  from_csv header rows = Ok s ->
  good s /\ s_n_sample s = length rows /\ s_n_feature s = m /\ s_target s = [] /\
  map feat_name (s_features s) = match header with Some h => h | None => map default_name (seq 1 m) end /\
  (forall j d, (j < m)%nat -> exists nm, nth j (s_features s) d = Dense nm (map (fun r => nth j r 0) rows)).
Proof.
  intros Hr Hh E. unfold from_csv in E.
  set (names := match header, rows with Some h, _ => h | None, r :: _ => map default_name (seq 1 (length r)) | None, [] => [] end) in *.
  assert (Hn : names = match header with Some h => h | None => map default_name (seq 1 m) end).
  { unfold names. destruct header; [reflexivity|]. destruct rows as [|r rows]; [congruence|]. rewrite (Hr r (or_introl eq_refl)). reflexivity. }
  assert (Hlen : length names = m). { rewrite Hn. destruct header; [exact Hh|]. rewrite map_length, seq_length. reflexivity. }
  destruct (append_csv_rows_ok m rows (repeat [] (length names))) as [cols [Ec [Lc Nc]]]; [rewrite repeat_length; exact Hlen|exact Hr|].
  rewrite Ec in E. cbn [bind] in E. inversion E; subst s; clear E. simpl.
  assert (Ef : map feat_name (map (fun p : string * list R => Dense (fst p) (snd p)) (combine names cols)) = names).
  { clear -Hlen Lc. rewrite map_map. simpl. assert (L : length names = length cols) by congruence. clear Hlen Lc. revert cols L.
    induction names as [|a names IH]; intros [|c cols] L; simpl in *; try lia; [reflexivity|]. f_equal. apply IH. lia. }
  assert (Hcol : forall j d, (j < m)%nat -> nth j (map (fun p : string * list R => Dense (fst p) (snd p)) (combine names cols)) d =
     Dense (nth j names String.EmptyString) (map (fun r => nth j r 0) rows)).
  { intros j d Hj. rewrite (nth_map_in _ (combine names cols) j (String.EmptyString, [])) by (rewrite combine_length; lia).
    rewrite combine_nth by congruence. simpl. rewrite Nc by exact Hj. rewrite nth_repeat_lt by lia. reflexivity. }
  split; [constructor; simpl|].
  - reflexivity.
  - apply Forall_forall. intros f Hf. apply (In_nth _ _ (Dense String.EmptyString [])) in Hf. destruct Hf as [j [Hj <-]].
    rewrite map_length, combine_length in Hj. rewrite Hcol by lia. simpl. apply map_length.
  - apply index_names_ok.
  - split; [reflexivity|]. split; [rewrite map_length, combine_length; lia|]. split; [reflexivity|].
    split; [rewrite Ef; exact Hn|]. intros j d Hj. eexists. apply Hcol. exact Hj.
Qed.

(** *** reading an SVMLight file *)
Definition entries_of (j : nat) (lines : list (nat * list (nat * R))) : list (nat * R) :=
  flat_map (fun l => map (fun w => (fst l, snd w)) (filter (fun w => Nat.eqb (fst w) j) (snd l))) lines.

Lemma nth_grow fs i j : nth j (grow fs i) [] = nth j fs [].
Proof.
  unfold grow. destruct (Nat.lt_ge_cases j (length fs)) as [L|L]; [apply app_nth1; exact L|].
  rewrite app_nth2 by exact L. rewrite (nth_overflow fs) by exact L.
  destruct (Nat.lt_ge_cases (j - length fs) (S i - length fs)) as [L2|L2]; [apply nth_repeat_lt; exact L2|apply nth_overflow; rewrite repeat_length; exact L2].
Qed.

Lemma grow_length fs i : (i < length (grow fs i))%nat.
Proof. unfold grow. rewrite app_length, repeat_length. lia. Qed.

Lemma svm_word_nth r fs w j : nth j (svm_word r fs w) [] = nth j fs [] ++ (if Nat.eqb (fst w) j then [(r, snd w)] else []).
Proof.
  unfold svm_word. destruct (Nat.eqb_spec (fst w) j) as [<-|Hne].
  - rewrite upd_nth_same by apply grow_length. rewrite nth_grow. reflexivity.
  - rewrite upd_nth_other by exact Hne. rewrite nth_grow, app_nil_r. reflexivity.
Qed.

Lemma svm_line_nth r j : forall ws fs, nth j (svm_line r fs ws) [] = nth j fs [] ++ map (fun w => (r, snd w)) (filter (fun w => Nat.eqb (fst w) j) ws).
Proof.
  unfold svm_line. induction ws as [|w ws IH]; intros fs; simpl; [rewrite app_nil_r; reflexivity|].
  rewrite IH, svm_word_nth, <- app_assoc. destruct (Nat.eqb (fst w) j); reflexivity.
Qed.

Lemma svm_lines_nth j : forall lines r fs,
  nth j (svm_lines r fs lines) [] = nth j fs [] ++ entries_of j (combine (seq r (length lines)) (map snd lines)).
Proof.
  induction lines as [|l lines IH]; intros r fs; simpl; [rewrite app_nil_r; reflexivity|].
  rewrite IH, svm_line_nth, <- app_assoc. reflexivity.
Qed.

Lemma entries_in j lines : forall r i x,
  In (i, x) (entries_of j (combine (seq r (length lines)) lines)) <-> (r <= i < r + length lines)%nat /\ In (j, x) (nth (i - r) lines []).
Proof.
  induction lines as [|ws lines IH]; intros r i x; simpl.
  - split; [intros []|]. intros [H _]. lia.
  - unfold entries_of in *. simpl. rewrite in_app_iff, (IH (S r) i x). rewrite in_map_iff. split.
    + intros [[w [E H]]|[H1 H2]].
      * inversion E; subst. apply filter_In in H. destruct H as [H He]. apply Nat.eqb_eq in He. split; [lia|]. rewrite Nat.sub_diag. simpl.
        destruct w as [a b]. simpl in *. subst. exact H.
      * split; [lia|]. replace (i - r)%nat with (S (i - S r)) by lia. simpl. exact H2.
    + intros [H1 H2]. destruct (Nat.eq_dec i r) as [->|Hne].
      * left. rewrite Nat.sub_diag in H2. simpl in H2. exists (j, x). split; [reflexivity|]. apply filter_In. split; [exact H2|apply Nat.eqb_refl].
      * right. split; [lia|]. replace (i - r)%nat with (S (i - S r)) in H2 by lia. exact H2.
Qed.

Lemma entries_increasing j lines : (forall ws, In ws lines -> NoDup (map fst ws)) -> forall r,
  increasing_rows (entries_of j (combine (seq r (length lines)) lines)).
Proof.
  unfold increasing_rows. intros Hnd. induction lines as [|ws lines IH]; intros r; simpl; [constructor|].
  unfold entries_of in *. simpl. rewrite map_app.
  assert (T : forall i, In i (map fst (flat_map (fun l => map (fun w => (fst l, snd w)) (filter (fun w => Nat.eqb (fst w) j) (snd l))) (combine (seq (S r) (length lines)) lines))) -> (r < i)%nat).
  { intros i Hi. apply in_map_iff in Hi. destruct Hi as [[i' x] [E H]]. simpl in E. subst. apply (entries_in j lines (S r)) in H. lia. }
  specialize (IH (fun ws' H => Hnd ws' (or_intror H)) (S r)).
  assert (F : map fst (map (fun w : nat * R => (r, snd w)) (filter (fun w => Nat.eqb (fst w) j) ws)) = [] \/
              map fst (map (fun w : nat * R => (r, snd w)) (filter (fun w => Nat.eqb (fst w) j) ws)) = [r]).
  { specialize (Hnd ws (or_introl eq_refl)). clear -Hnd. induction ws as [|[a x] ws IH]; simpl in *; [auto|]. inversion Hnd as [|? ? Hni Hn]; subst.
    destruct (Nat.eqb_spec a j) as [->|Hne]; [|apply IH; exact Hn]. right. simpl.
    assert (E : filter (fun w : nat * R => Nat.eqb (fst w) j) ws = []); [|rewrite E; reflexivity].
    clear -Hni. induction ws as [|[b z] ws IH]; simpl in *; [reflexivity|]. destruct (Nat.eqb_spec b j) as [->|]; [exfalso; apply Hni; auto|]. apply IH. tauto. }
  destruct F as [F|F]; rewrite F; [exact IH|]. simpl. constructor; [exact IH|]. apply Forall_forall. exact T.
Qed.

Lemma append_inj_l p a b : String.append p a = String.append p b -> a = b.
Proof. induction p as [|c p IH]; simpl; intros E; [exact E|]. inversion E. apply IH. assumption. Qed.

Lemma append_nonempty a c : String.append a (String.String c String.EmptyString) <> String.EmptyString.
Proof. destruct a; discriminate. Qed.

Lemma append_inj_r c : forall a b, String.append a (String.String c String.EmptyString) = String.append b (String.String c String.EmptyString) -> a = b.
Proof.
  induction a as [|x a IH]; intros [|z b] E; simpl in E; try reflexivity.
  - inversion E as [[E1 E2]]. destruct b; discriminate.
  - inversion E as [[E1 E2]]. destruct a; discriminate.
  - inversion E. f_equal. apply IH. assumption.
Qed.

Lemma default_name_inj i j : default_name i = default_name j -> i = j.
Proof.
  unfold default_name. intros E. apply append_inj_l in E. apply append_inj_r in E.
  assert (U : Nat.to_uint i = Nat.to_uint j).
  { pose proof (DecimalString.NilEmpty.usu (Nat.to_uint i)) as A. pose proof (DecimalString.NilEmpty.usu (Nat.to_uint j)) as B. rewrite E in A. congruence. }
  rewrite <- (DecimalNat.Unsigned.of_to i), <- (DecimalNat.Unsigned.of_to j), U. reflexivity.
Qed.

Definition svm_feature (lines : list (R * list (nat * R))) (j : nat) : feature :=
  Sparse (default_name (S j)) (entries_of j (combine (seq 0 (length lines)) (map snd lines))) (length lines).

Lemma svm_features lines : s_features (from_svmlight lines) =
  filter (fun f => negb (feat_is_empty f)) (map (svm_feature lines) (seq 0 (length (svm_lines 0 [] lines)))).
Proof.
  unfold from_svmlight, remove_allzero. cbv zeta. cbn [s_features]. f_equal.
  rewrite (combine_nth_map _ (seq 0 (length (svm_lines 0 [] lines))) (svm_lines 0 [] lines) 0%nat []) by apply seq_length.
  rewrite seq_length. apply map_ext_in. intros j Hj. apply in_seq in Hj. cbn [fst snd]. rewrite nth_seq0 by lia.
  rewrite svm_lines_nth. unfold svm_feature. rewrite (nth_overflow []) by (simpl; lia). reflexivity.
Qed.

Lemma svm_good lines : (forall l, In l lines -> NoDup (map fst (snd l))) ->
  good (from_svmlight lines) /\ NoDup (map feat_name (s_features (from_svmlight lines))) /\
  s_n_sample (from_svmlight lines) = length lines /\ s_target (from_svmlight lines) = map fst lines.
Proof.
  intros Hnd. split; [constructor|split; [|split; reflexivity]].
  - reflexivity.
  - rewrite svm_features. apply Forall_forall. intros f Hf. apply filter_In in Hf. destruct Hf as [Hf _]. apply in_map_iff in Hf.
    destruct Hf as [j [<- _]]. simpl. split; [reflexivity|]. rewrite <- (map_length snd lines). split.
    + apply entries_increasing. intros ws Hw. apply in_map_iff in Hw. destruct Hw as [l [<- Hl]]. apply Hnd, Hl.
    + intros i x Hx. apply entries_in in Hx. lia.
  - apply index_names_ok.
  - rewrite svm_features.
    assert (G : forall l, NoDup l -> NoDup (map feat_name (filter (fun f => negb (feat_is_empty f)) (map (svm_feature lines) l)))).
    { induction l as [|j l IH]; intros Hn; simpl; [constructor|]. inversion Hn as [|? ? Hni Hn']; subst. destruct (negb _); simpl; [|apply IH; exact Hn'].
      constructor; [|apply IH; exact Hn']. intros Hin. apply in_map_iff in Hin. destruct Hin as [f [E Hf]]. apply filter_In in Hf. destruct Hf as [Hf _].
      apply in_map_iff in Hf. destruct Hf as [j' [<- Hj]]. simpl in E. apply default_name_inj in E. inversion E; subst. contradiction. }
    apply G, seq_NoDup.
Qed.

(** ** C49: reading, renaming and setting the target, in any order. *)
Lemma made_good s : made s -> good s.
Proof.
  induction 1 as [header rows s Hr Hh E|cols n target Hc|lines Hl|s nm s' _ IH E|s names s' old _ IH E].
  - destruct (csv_good header rows s _ Hr) as [G _]; [destruct header; [reflexivity|apply Hh; reflexivity]|exact E|exact G].
  - constructor; simpl; [rewrite map_length; reflexivity| |apply index_names_ok].
    apply Forall_forall. intros f Hf. apply in_map_iff in Hf. destruct Hf as [c [<- Hin]]. simpl. apply Hc, Hin.
  - apply svm_good. exact Hl.
  - apply (set_target_good s nm s' IH E).
  - pose proof (replace_names_spec s names IH) as S. rewrite E in S. tauto.
Qed.

Lemma P_C49_sample_bookkeeping :
  forall s, made s ->
  snd (shape s) = length (s_features s) /\
  (forall f i, In f (s_features s) -> (i < fst (shape s))%nat -> exists x, feat_index f i = Ok x) /\
  (NoDup (map feat_name (s_features s)) -> forall f, In f (s_features s) -> by_name s (feat_name f) = Ok f) /\
  (forall nm f, by_name s nm = Ok f -> In f (s_features s) /\ feat_name f = nm) /\
  (forall i, length (s_target s) = fst (shape s) -> (i < fst (shape s))%nat ->
     exists xs, at_ s i = Ok (xs, nth i (s_target s) 0) /\ Forall2 (fun f x => feat_index f i = Ok x) (s_features s) xs).
Proof.
  intros s M. pose proof (made_good s M) as G. unfold shape. simpl. split; [apply (good_nf s G)|]. 
  pose proof (good_cols s G) as F. rewrite Forall_forall in F. split; [|split; [|split]].
  - intros f i Hf Hi. exists (fval f i). apply (feat_index_ok (s_n_sample s)); [apply F; exact Hf|exact Hi].
  - intros Hn f Hf. apply (In_nth _ _ (new_dense String.EmptyString)) in Hf. destruct Hf as [i [Hi <-]]. apply by_name_ok; assumption.
  - intros nm f E. unfold by_name in E. destruct (hm_get (s_names s) nm) as [k|] eqn:Eg; [|discriminate].
    destruct (good_names s G) as [Hk Hin]. apply hm_get_in in Eg; [|exact Hk]. apply Hin in Eg. destruct Eg as [Eg _].
    destruct (nth_error (s_features s) k) as [g|] eqn:En; [|discriminate]. inversion E; subst. split; [eapply nth_error_In; exact En|].
    rewrite nth_error_map, En in Eg. simpl in Eg. congruence.
  - intros i Ht Hi. exists (map (fun f => fval f i) (s_features s)). split; [apply at_ok; assumption|].
    assert (FF : forall l, Forall (col_ok (s_n_sample s)) l -> Forall2 (fun f x => feat_index f i = Ok x) l (map (fun f => fval f i) l)).
    { induction 1 as [|f l Hf _ IH]; simpl; constructor; [apply (feat_index_ok (s_n_sample s)); assumption|exact IH]. }
    apply FF. apply (good_cols s G).
Qed.

(** a rectangular CSV table is read as it is: cell (i, j) is the j-th number of the i-th row *)
Lemma P_C49_csv_cells :
  forall header rows s m, (forall r, In r rows -> length r = m) ->
  match header with Some h => length h = m | None => rows <> [] end ->
  from_csv header rows = Ok s ->
  shape s = (length rows, m) /\
  map feat_name (s_features s) = match header with Some h => h | None => map default_name (seq 1 m) end /\
  forall i j, (i < length rows)%nat -> (j < m)%nat ->
    exists f, nth_error (s_features s) j = Some f /\ feat_index f i = Ok (nth j (nth i rows []) 0).
Proof.
  intros header rows s m Hr Hh E. destruct (csv_good header rows s m Hr Hh E) as [G [Hn [Hm [_ [Hnames Hcol]]]]].
  split; [unfold shape; congruence|]. split; [exact Hnames|]. intros i j Hi Hj.
  destruct (Hcol j (new_dense String.EmptyString) Hj) as [nm Hc]. exists (Dense nm (map (fun r => nth j r 0) rows)). split.
  - rewrite (nth_error_nth' _ (new_dense String.EmptyString)) by (rewrite <- (good_nf s G); lia). f_equal. exact Hc.
  - simpl. rewrite nth_error_map, (nth_error_nth' rows []) by exact Hi. reflexivity.
Qed.

(** every rectangular table can be read; a table with a row longer than the header panics *)
Lemma P_C49_csv_accepts :
  forall header rows m, (forall r, In r rows -> length r = m) ->
  match header with Some h => length h = m | None => rows <> [] end -> exists s, from_csv header rows = Ok s.
Proof.
  intros header rows m Hr Hh. unfold from_csv.
  set (names := match header, rows with Some h, _ => h | None, r :: _ => map default_name (seq 1 (length r)) | None, [] => [] end).
  assert (Hlen : length names = m).
  { unfold names. destruct header; [exact Hh|]. destruct rows as [|r rows]; [congruence|]. rewrite map_length, seq_length. apply Hr. left. reflexivity. }
  destruct (append_csv_rows_ok m rows (repeat [] (length names))) as [cols [Ec _]]; [rewrite repeat_length; exact Hlen|exact Hr|].
  rewrite Ec. cbn [bind]. eexists. reflexivity.
Qed.

(** a row that is too short is accepted silently and shifts the later rows of the missing columns: the file
    "a,b / 1 / 2,3" is read with b = 3 in its first row and row 1 cannot be read *)
Lemma P_C49_csv_short_row_refuted :
  forall a b : string, exists s, from_csv (Some [a; b]) [[1]; [2; 3]] = Ok s /\ fst (shape s) = 2%nat /\
    exists f, nth_error (s_features s) 1 = Some f /\ feat_index f 0 = Ok 3 /\ feat_index f 1 = Panic IndexOutOfBounds.
Proof. intros a b. eexists. split; [reflexivity|]. split; [reflexivity|]. eexists. split; [reflexivity|]. split; reflexivity. Qed.

(** SVMLight: the feature of index j is the column "Feat. [j+1]"; it reads x at row i if "j:x" is in line i and 0 if
    j does not occur in line i; a feature that never occurs is not a column *)
Lemma P_C49_svmlight_cells :
  forall lines, (forall l, In l lines -> NoDup (map fst (snd l))) ->
  let s := from_svmlight lines in
  fst (shape s) = length lines /\ s_target s = map fst lines /\
  forall j, match by_name s (default_name (S j)) with
            | Ok f => (exists l x, In l lines /\ In (j, x) (snd l)) /\
                forall i, (i < length lines)%nat ->
                (forall x, In (j, x) (snd (nth i lines (0, []))) -> feat_index f i = Ok x) /\
                ((forall x, ~ In (j, x) (snd (nth i lines (0, [])))) -> feat_index f i = Ok 0)
            | Panic _ => forall l x, In l lines -> ~ In (j, x) (snd l)
            end.
Proof.
  intros lines Hnd s. destruct (svm_good lines Hnd) as [G [Hn [Hs Ht]]]. fold s in G, Hn, Hs, Ht.
  split; [exact Hs|]. split; [exact Ht|]. intros j.
  assert (Hnth : forall i, (i < length lines)%nat -> nth (i - 0) (map snd lines) [] = snd (nth i lines (0, []))).
  { intros i Hi. rewrite Nat.sub_0_r. rewrite (nth_map_in snd lines i (0, [])) by exact Hi. reflexivity. }
  destruct (by_name s (default_name (S j))) as [f|p] eqn:E.
  - destruct (P_C49_sample_bookkeeping s (made_svmlight lines Hnd)) as [_ [_ [_ [B _]]]]. destruct (B _ _ E) as [Hin Hname].
    unfold s in Hin. rewrite svm_features in Hin. apply filter_In in Hin. destruct Hin as [Hin Hne]. apply in_map_iff in Hin. destruct Hin as [j' [<- _]].
    simpl in Hname. apply default_name_inj in Hname. inversion Hname; subst j'. clear Hname. simpl in Hne.
    unfold feat_is_empty in Hne. simpl in Hne. rewrite <- (map_length snd lines) in Hne.
    split.
    + destruct (entries_of j (combine (seq 0 (length (map snd lines))) (map snd lines))) as [|[i x] t] eqn:Ee; [discriminate|].
      assert (Hx : In (i, x) (entries_of j (combine (seq 0 (length (map snd lines))) (map snd lines)))) by (rewrite Ee; left; reflexivity).
      apply entries_in in Hx. rewrite map_length in Hx. destruct Hx as [Hi Hx]. exists (nth i lines (0, [])), x. split; [apply nth_In; lia|].
      rewrite <- Hnth by lia. exact Hx.
    + intros i Hi. simpl.
      assert (Hinc : increasing_rows (entries_of j (combine (seq 0 (length (map snd lines))) (map snd lines)))).
      { apply entries_increasing. intros ws Hw. apply in_map_iff in Hw. destruct Hw as [l [<- Hl]]. apply Hnd, Hl. }
      rewrite map_length in Hinc. destruct (sparse_index_spec _ i Hinc) as [S1 S2]. split.
      * intros x Hx. f_equal. apply S1. rewrite <- (map_length snd lines). apply entries_in. rewrite map_length. split; [lia|]. rewrite Hnth by exact Hi. exact Hx.
      * intros Hno. f_equal. apply S2. intros x Hx. rewrite <- (map_length snd lines) in Hx. apply entries_in in Hx. rewrite Hnth in Hx by exact Hi. apply (Hno x). tauto.
  - intros l x Hl Hx. apply (In_nth _ _ (0, [])) in Hl. destruct Hl as [i [Hi El]]. subst l.
    set (f := svm_feature lines j).
    assert (Hent : In (i, x) (entries_of j (combine (seq 0 (length (map snd lines))) (map snd lines)))).
    { apply entries_in. rewrite map_length. split; [lia|]. rewrite Hnth by exact Hi. exact Hx. }
    assert (Hin : In f (s_features s)).
    { unfold s. rewrite svm_features. apply filter_In. split.
      - apply in_map_iff. exists j. split; [reflexivity|]. apply in_seq. split; [lia|]. simpl.
        destruct (Nat.lt_ge_cases j (length (svm_lines 0 [] lines))) as [|L]; [assumption|exfalso].
        pose proof (svm_lines_nth j lines 0 []) as N. rewrite nth_overflow in N by exact L. rewrite (nth_overflow []) in N by (simpl; lia). simpl app in N.
        rewrite map_length, <- N in Hent. exact Hent.
      - unfold f, feat_is_empty. simpl. rewrite <- (map_length snd lines). destruct (entries_of j _); [contradiction|reflexivity]. }
    pose proof (P_C49_sample_bookkeeping s (made_svmlight lines Hnd)) as [_ [_ [B _]]]. specialize (B Hn f Hin). simpl in B. congruence.
Qed.

(** set_target takes the first column of that name out of the features; every other column keeps its place *)
Lemma P_C49_set_target :
  forall s nm s', made s -> set_target s nm = Ok s' ->
  exists before c after, s_features s = before ++ c :: after /\ feat_name c = nm /\ (forall f, In f before -> feat_name f <> nm) /\
    s_features s' = before ++ after /\ shape s' = (fst (shape s), (snd (shape s) - 1)%nat) /\
    length (s_target s') = fst (shape s) /\
    forall i, (i < fst (shape s))%nat -> feat_index c i = Ok (nth i (s_target s') 0).
Proof.
  intros s nm s' M E. pose proof (made_good s M) as G. destruct (set_target_good s nm s' G E) as [G' [Hn [Ht [k [d [Hk [Hnm [Hb [Hf Htar]]]]]]]]].
  exists (firstn k (s_features s)), (nth k (s_features s) d), (skipn (S k) (s_features s)).
  split. { rewrite <- (firstn_skipn k (s_features s)) at 1. f_equal. apply skipn_cons_nth. exact Hk. }
  split; [exact Hnm|]. split.
  { intros f Hin. apply (In_nth _ _ d) in Hin. destruct Hin as [j [Hj <-]]. rewrite firstn_length in Hj.
    assert (Ej : nth j (firstn k (s_features s)) d = nth j (s_features s) d).
    { rewrite <- (firstn_skipn k (s_features s)) at 2. rewrite app_nth1; [reflexivity|]. rewrite firstn_length. lia. }
    rewrite Ej. apply Hb. lia. }
  split; [exact Hf|]. split.
  { unfold shape. simpl. f_equal; [exact Hn|]. rewrite (good_nf s' G'), Hf, remove_nth_length, (good_nf s G) by exact Hk. reflexivity. }
  split; [simpl; congruence|]. intros i Hi. simpl in Hi. rewrite Htar, nth_map_seq by exact Hi.
  apply (feat_index_ok (s_n_sample s)); [|exact Hi]. pose proof (good_cols s G) as F. rewrite Forall_forall in F. apply F, nth_In, Hk.
Qed.

(** replace_names panics exactly when the number of names is wrong; it changes the names and nothing else *)
Lemma P_C49_replace_names :
  forall s names, made s ->
  match replace_names s names with
  | Ok (s', old) => length names = snd (shape s) /\ map feat_name (s_features s') = names /\ old = map feat_name (s_features s) /\
      shape s' = shape s /\ s_target s' = s_target s /\
      forall i, (i < fst (shape s))%nat -> read_row (s_features s') i = read_row (s_features s) i
  | Panic _ => length names <> snd (shape s)
  end.
Proof.
  intros s names M. pose proof (made_good s M) as G. pose proof (replace_names_spec s names G) as S.
  destruct (replace_names s names) as [[s' old]|p]; [|exact S]. destruct S as [H1 [G' [H2 [H3 [H4 [H5 [H6 H7]]]]]]].
  split; [exact H1|]. split; [exact H5|]. split; [exact H6|]. split; [unfold shape; congruence|]. split; [exact H4|].
  intros i Hi. simpl in Hi. rewrite (read_row_ok (s_n_sample s) (s_features s) i (good_cols s G) Hi).
  rewrite (read_row_ok (s_n_sample s) (s_features s') i); [|rewrite <- H2; apply (good_cols s' G')|exact Hi]. f_equal.
  rewrite H7, map_map. assert (El : length names = length (s_features s)) by (rewrite <- (good_nf s G); exact H1). clear -El. revert El.
  generalize (s_features s). induction names as [|a names IH]; intros [|f l] L; simpl in *; try lia; [reflexivity|].
  rewrite replace_name_val. f_equal. apply IH. lia.
Qed.

Example C49_nonvacuous : exists s, from_csv None [[1; 5]; [2; 6]] = Ok s /\ made s.
Proof.
  destruct (P_C49_csv_accepts None [[1; 5]; [2; 6]] 2) as [s E].
  - intros r [<-|[<-|[]]]; reflexivity.
  - discriminate.
  - exists s. split; [exact E|]. apply (made_csv None [[1; 5]; [2; 6]] s); [intros r [<-|[<-|[]]]; reflexivity|discriminate|exact E].
Qed.

(** ** C40: splitting a sample *)
Definition extend (rows : list (nat * nat)) (f src : feature) : feature :=
  match f with
  | Dense nm v => Dense nm (v ++ map (fun p => fval src (snd p)) rows)
  | Sparse nm e n => Sparse nm (e ++ map (fun p => (fst p, fval src (snd p))) rows) n
  end.

Lemma append_cols_map i (vals : list R) fs : length fs = length vals ->
  append_cols i fs vals = map (fun p => feat_append (fst p) i (snd p)) (combine fs vals).
Proof. revert vals; induction fs as [|f fs IH]; intros [|v vals] E; simpl in *; try lia; [reflexivity|]. f_equal. apply IH. lia. Qed.

Lemma append_rows_spec s : good s -> length (s_target s) = s_n_sample s -> forall rows acc,
  (forall p, In p rows -> (snd p < s_n_sample s)%nat) -> length (s_features acc) = length (s_features s) ->
  append_rows s rows acc = Ok (mkSample (s_names acc) (map (fun q => extend rows (fst q) (snd q)) (combine (s_features acc) (s_features s)))
     (s_target acc ++ map (fun p => nth (snd p) (s_target s) 0) rows) (s_n_sample acc) (s_n_feature acc)).
Proof.
  intros G Ht. induction rows as [|[i ii] rows IH]; intros acc Hb Hl; simpl.
  - f_equal. destruct acc as [nm fs t n nf]. simpl in *. rewrite app_nil_r. f_equal. clear -Hl. revert Hl. generalize (s_features s).
    induction fs as [|f fs IH]; intros [|g l] L; simpl in *; try lia; [reflexivity|]. f_equal; [|apply IH; lia].
    destruct f; unfold extend; simpl; rewrite app_nil_r; reflexivity.
  - rewrite (at_ok s ii G Ht) by (apply (Hb (i, ii)); left; reflexivity). cbn [bind fst snd].
    rewrite IH; [|intros p Hp; apply Hb; right; exact Hp|].
    + unfold sample_append. cbn [s_names s_features s_target s_n_sample s_n_feature]. f_equal. f_equal.
      * rewrite append_cols_map by (rewrite map_length; exact Hl). clear -Hl. revert Hl. generalize (s_features s) as l. generalize (s_features acc) as fs.
        induction fs as [|f fs IH]; intros [|g l] L; simpl in *; try lia; [reflexivity|]. f_equal; [|apply IH; lia].
        destruct f; simpl; rewrite <- app_assoc; reflexivity.
      * rewrite <- app_assoc. reflexivity.
    + unfold sample_append. cbn [s_features]. rewrite append_cols_map by (rewrite map_length; exact Hl). rewrite map_length, combine_length, map_length. lia.
Qed.

Definition empty_col (n : nat) (nm : string) (f : feature) : feature := if is_sparse f then Sparse nm [] n else Dense nm [].

Lemma init_columns_spec src a b : forall m acc,
  length (fst acc) = length src -> length (snd acc) = length src ->
  NoDup (map snd m) -> (forall nm i, In (nm, i) m -> exists f, nth_error src i = Some f /\ feat_name f = nm) ->
  exists r, init_columns src a b m acc = Ok r /\ length (fst r) = length src /\ length (snd r) = length src /\
    forall i d, (i < length src)%nat ->
      (In i (map snd m) -> nth i (fst r) d = empty_col a (feat_name (nth i src d)) (nth i src d) /\ nth i (snd r) d = empty_col b (feat_name (nth i src d)) (nth i src d)) /\
      (~ In i (map snd m) -> nth i (fst r) d = nth i (fst acc) d /\ nth i (snd r) d = nth i (snd acc) d).
Proof.
  induction m as [|[nm i] m IH]; intros acc L1 L2 Hn Hs; simpl.
  - exists acc. split; [reflexivity|]. split; [exact L1|]. split; [exact L2|]. intros j d Hj. split; [intros []|auto].
  - destruct (Hs nm i (or_introl eq_refl)) as [f [Ef Enm]]. rewrite Ef. simpl in Hn. inversion Hn as [|? ? Hni Hn']; subst.
    assert (Hi : (i < length src)%nat) by (apply nth_error_Some; congruence).
    destruct (IH (upd i (if is_sparse f then set_n_sample (new_sparse (feat_name f)) a else new_dense (feat_name f)) (fst acc),
                  upd i (if is_sparse f then set_n_sample (new_sparse (feat_name f)) b else new_dense (feat_name f)) (snd acc))) as [r [E [R1 [R2 R3]]]].
    + cbn [fst]. rewrite upd_length. exact L1.
    + cbn [snd]. rewrite upd_length. exact L2.
    + exact Hn'.
    + intros nm' i' H. apply Hs. right. exact H.
    + exists r. split; [exact E|]. split; [exact R1|]. split; [exact R2|]. intros j d Hj. destruct (R3 j d Hj) as [A B]. cbn [fst snd] in B. split.
      * intros [<-|Hin]; [|apply A; exact Hin]. destruct (B Hni) as [B1 B2]. rewrite B1, B2, !upd_nth_same by congruence.
        rewrite (nth_error_nth src i d Ef). unfold empty_col. destruct (is_sparse f); split; reflexivity.
      * intros Hno. destruct (B (fun H => Hno (or_intror H))) as [B1 B2]. rewrite B1, B2, !upd_nth_other by (intros ->; apply Hno; left; reflexivity). split; reflexivity.
Qed.

Lemma names_ok_perm m names : names_ok m names -> NoDup names ->
  NoDup (map snd m) /\ (forall i, In i (map snd m) <-> (i < length names)%nat) /\ (forall nm i, In (nm, i) m -> nth_error names i = Some nm).
Proof.
  intros [Hk Hin] Hn. split; [|split].
  - assert (Hinj : forall nm nm' i, In (nm, i) m -> In (nm', i) m -> nm = nm').
    { intros nm nm' i H1 H2. apply Hin in H1, H2. destruct H1 as [H1 _], H2 as [H2 _]. congruence. }
    clear Hin. induction m as [|[nm i] m IH]; simpl; [constructor|]. simpl in Hk. inversion Hk as [|? ? Hni Hk']; subst. constructor.
    + intros Hx. apply in_map_iff in Hx. destruct Hx as [[nm' i'] [E H]]. simpl in E. subst. apply Hni.
      rewrite (Hinj nm nm' i (or_introl eq_refl) (or_intror H)). apply in_map_iff. exists (nm', i). auto.
    + apply IH; [exact Hk'|]. intros a b j H1 H2. apply (Hinj a b j); right; assumption.
  - intros i. split.
    + intros Hx. apply in_map_iff in Hx. destruct Hx as [[nm i'] [E H]]. simpl in E. subst. apply Hin in H. apply nth_error_Some. destruct H. congruence.
    + intros Hi. destruct (nth_error names i) as [nm|] eqn:E; [|apply nth_error_None in E; lia]. apply in_map_iff. exists (nm, i). split; [reflexivity|].
      apply Hin. split; [exact E|]. intros j Hj Ej. assert (i = j); [|lia].
      apply (proj1 (NoDup_nth_error names) Hn); [exact Hi|congruence].
  - intros nm i H. apply Hin in H. apply H.
Qed.

(** all facts about a split at once *)
Definition window (n start end_ : nat) (ix : list nat) : list (nat * nat) := skipn start (firstn end_ (combine (seq 0 (length ix)) ix)).

Lemma split_spec s ix start end_ :
  good s -> length (s_target s) = s_n_sample s -> NoDup (map feat_name (s_features s)) ->
  length ix = s_n_sample s -> (forall i, In i ix -> (i < s_n_sample s)%nat) -> (start <= end_ <= s_n_sample s)%nat ->
  let e := combine (seq 0 (length ix)) ix in
  let tr_rows := firstn start e ++ skipn end_ e in
  let te_rows := skipn start (firstn end_ e) in
  exists train test, split_sample s ix start end_ = Ok (train, test) /\
    s_n_sample train = (s_n_sample s - (end_ - start))%nat /\ s_n_sample test = (end_ - start)%nat /\
    s_n_feature train = length (s_features s) /\ s_n_feature test = length (s_features s) /\
    s_names train = s_names s /\ s_names test = s_names s /\
    s_target train = map (fun p => nth (snd p) (s_target s) 0) tr_rows /\
    s_target test = map (fun p => nth (snd p) (s_target s) 0) te_rows /\
    s_features train = map (fun f => extend tr_rows (empty_col (s_n_sample s - (end_ - start)) (feat_name f) f) f) (s_features s) /\
    s_features test = map (fun f => extend te_rows (empty_col (end_ - start) (feat_name f) f) f) (s_features s).
Proof.
  intros G Ht Hnd Hlx Hix Hse e tr_rows te_rows. unfold split_sample.
  destruct (Nat.ltb_spec end_ start); [lia|]. destruct (Nat.ltb_spec (s_n_sample s) (end_ - start)); [lia|]. cbv zeta.
  set (a := (s_n_sample s - (end_ - start))%nat). set (b := (end_ - start)%nat).
  destruct (names_ok_perm _ _ (good_names s G) Hnd) as [P1 [P2 P3]].
  destruct (init_columns_spec (s_features s) a b (s_names s) (repeat (new_sparse "dummy"%string) (length (s_features s)), repeat (new_sparse "dummy"%string) (length (s_features s)))) as [[fa fb] [E [L1 [L2 N]]]].
  - apply repeat_length.
  - apply repeat_length.
  - exact P1.
  - intros nm i Hx. apply P3 in Hx. rewrite nth_error_map in Hx. destruct (nth_error (s_features s) i) as [f|]; [|discriminate]. exists f. simpl in Hx. split; congruence.
  - rewrite E. cbn [bind fst snd] in *.
    assert (Efa : fa = map (fun f => empty_col a (feat_name f) f) (s_features s)).
    { apply (list_eq_nth (new_dense String.EmptyString)); [rewrite map_length; exact L1|]. intros i Hi. rewrite L1 in Hi.
      rewrite (nth_map_in _ (s_features s) i (new_dense String.EmptyString)) by exact Hi. destruct (N i (new_dense String.EmptyString) Hi) as [N1 _]. apply N1. apply P2. rewrite map_length. exact Hi. }
    assert (Efb : fb = map (fun f => empty_col b (feat_name f) f) (s_features s)).
    { apply (list_eq_nth (new_dense String.EmptyString)); [rewrite map_length; exact L2|]. intros i Hi. rewrite L2 in Hi.
      rewrite (nth_map_in _ (s_features s) i (new_dense String.EmptyString)) by exact Hi. destruct (N i (new_dense String.EmptyString) Hi) as [N1 _]. apply N1. apply P2. rewrite map_length. exact Hi. }
    assert (Hin : forall p, In p e -> (snd p < s_n_sample s)%nat).
    { intros [i ii] Hp. apply in_combine_r in Hp. apply Hix. exact Hp. }
    assert (Hf : forall k l (p : nat * nat), In p (firstn k l) -> In p l).
    { intros k l p Hp. rewrite <- (firstn_skipn k l). apply in_or_app. left. exact Hp. }
    assert (Hs' : forall k l (p : nat * nat), In p (skipn k l) -> In p l).
    { intros k l p Hp. rewrite <- (firstn_skipn k l). apply in_or_app. right. exact Hp. }
    assert (El : length e = s_n_sample s) by (unfold e; rewrite combine_length, seq_length; lia).
    assert (Efull : firstn (s_n_sample s) e = e) by (rewrite <- El; apply firstn_all).
    rewrite (append_rows_spec s G Ht (firstn start e)); [|intros p Hp; apply Hin, (Hf start), Hp|exact L1]. cbn [bind].
    fold e. rewrite (append_rows_spec s G Ht (skipn start (firstn end_ e))); [|intros p Hp; apply Hin, (Hf end_), (Hs' start), Hp|exact L2]. cbn [bind].
    rewrite (append_rows_spec s G Ht (skipn end_ (firstn (s_n_sample s) e))); cbn [s_features s_names s_target s_n_sample s_n_feature].
    3: { rewrite map_length, combine_length, L1. lia. }
    2: { intros p Hp; apply Hin, (Hf (s_n_sample s)), (Hs' end_), Hp. }
    cbn [bind]. rewrite Efull.
    eexists; eexists. split; [reflexivity|]. cbn [s_features s_names s_target s_n_sample s_n_feature]. repeat split; try reflexivity.
    + unfold tr_rows. rewrite map_app. reflexivity.
    + rewrite Efa. generalize (s_features s). clear. induction l as [|f l IH]; simpl; [reflexivity|]. f_equal; [|exact IH].
      unfold empty_col, tr_rows. destruct (is_sparse f); unfold extend; rewrite map_app, app_assoc; reflexivity.
    + rewrite Efb. generalize (s_features s). clear. induction l as [|f l IH]; simpl; [reflexivity|]. f_equal. exact IH.
Qed.

Lemma nth_enum (ix : list nat) k d : (k < length ix)%nat -> nth k (combine (seq 0 (length ix)) ix) d = (k, nth k ix 0%nat).
Proof. intros H. rewrite (nth_indep _ d (0%nat, 0%nat)) by (rewrite combine_length, seq_length; lia). rewrite combine_nth by apply seq_length. rewrite nth_seq0 by exact H. reflexivity. Qed.

Lemma nth_firstn {A} (d : A) : forall k l i, (i < k)%nat -> nth i (firstn k l) d = nth i l d.
Proof. induction k as [|k IH]; intros l i H; [lia|]. destruct l as [|a l]; [reflexivity|]. destruct i as [|i]; [reflexivity|]. simpl. apply IH. lia. Qed.
Lemma nth_skipn {A} (d : A) : forall k l i, nth i (skipn k l) d = nth (k + i) l d.
Proof. induction k as [|k IH]; intros [|a l] i; simpl; try reflexivity; [destruct i; reflexivity|apply IH]. Qed.

Lemma tr_rows_nth (ix : list nat) start end_ k d : (start <= end_ <= length ix)%nat -> (k < length ix - (end_ - start))%nat ->
  let e := combine (seq 0 (length ix)) ix in
  nth k (firstn start e ++ skipn end_ e) d = (let q := if Nat.ltb k start then k else (k + (end_ - start))%nat in (q, nth q ix 0%nat)).
Proof.
  intros H Hk e. assert (El : length e = length ix) by (unfold e; rewrite combine_length, seq_length; lia).
  destruct (Nat.ltb_spec k start) as [L|L].
  - rewrite app_nth1 by (rewrite firstn_length; lia). rewrite nth_firstn by exact L. apply nth_enum. lia.
  - rewrite app_nth2 by (rewrite firstn_length; lia). rewrite firstn_length, El, Nat.min_l by lia. rewrite nth_skipn.
    replace (end_ + (k - start))%nat with (k + (end_ - start))%nat by lia. apply nth_enum. lia.
Qed.

Lemma te_rows_nth (ix : list nat) start end_ k d : (start <= end_ <= length ix)%nat -> (k < end_ - start)%nat ->
  let e := combine (seq 0 (length ix)) ix in nth k (skipn start (firstn end_ e)) d = ((start + k)%nat, nth (start + k) ix 0%nat).
Proof.
  intros H Hk e. rewrite nth_skipn, nth_firstn by lia. apply nth_enum. lia.
Qed.

Lemma tr_rows_length (ix : list nat) start end_ : (start <= end_ <= length ix)%nat ->
  let e := combine (seq 0 (length ix)) ix in length (firstn start e ++ skipn end_ e) = (length ix - (end_ - start))%nat.
Proof. intros H e. unfold e. rewrite app_length, firstn_length, skipn_length, combine_length, seq_length. lia. Qed.
Lemma te_rows_length (ix : list nat) start end_ : (start <= end_ <= length ix)%nat ->
  let e := combine (seq 0 (length ix)) ix in length (skipn start (firstn end_ e)) = (end_ - start)%nat.
Proof. intros H e. unfold e. rewrite skipn_length, firstn_length, combine_length, seq_length. lia. Qed.

(** ** C40: for dense columns, the test half consists of the rows of the window, the train half of the other rows,
    each in the order of the permutation; every cell and target follows its row *)
Lemma P_C40_split_dense :
  forall s ix start end_, made s -> length (s_target s) = fst (shape s) -> NoDup (map feat_name (s_features s)) ->
  (forall f, In f (s_features s) -> is_sparse f = false) ->
  Permutation ix (seq 0 (fst (shape s))) -> (start <= end_ <= fst (shape s))%nat ->
  let n := fst (shape s) in let w := (end_ - start)%nat in
  exists train test, split_sample s ix start end_ = Ok (train, test) /\
    shape train = ((n - w)%nat, snd (shape s)) /\ shape test = (w, snd (shape s)) /\
    map feat_name (s_features train) = map feat_name (s_features s) /\ map feat_name (s_features test) = map feat_name (s_features s) /\
    (forall k, (k < w)%nat -> exists xy, at_ test k = Ok xy /\ at_ s (nth (start + k) ix 0%nat) = Ok xy) /\
    (forall k, (k < n - w)%nat -> exists xy, at_ train k = Ok xy /\ at_ s (nth (if Nat.ltb k start then k else (k + w)%nat) ix 0%nat) = Ok xy).
Proof.
  intros s ix start end_ M Ht Hnd Hd Hp Hse n w. pose proof (made_good s M) as G. simpl in Ht, Hp, Hse.
  pose proof (Permutation_length Hp) as Hlx. rewrite seq_length in Hlx.
  assert (Hix : forall i, In i ix -> (i < s_n_sample s)%nat) by (intros i Hi; apply (Permutation_in _ Hp), in_seq in Hi; lia).
  destruct (split_spec s ix start end_ G Ht Hnd Hlx Hix Hse) as [train [test [E [H1 [H2 [H3 [H4 [H5 [H6 [H7 [H8 [H9 H10]]]]]]]]]]]].
  set (e := combine (seq 0 (length ix)) ix) in *.
  exists train, test. split; [exact E|]. unfold shape. simpl. unfold n, w. simpl.
  split; [rewrite H1, H3, (good_nf s G); reflexivity|]. split; [rewrite H2, H4, (good_nf s G); reflexivity|].
  assert (Hname : forall rows m, map feat_name (map (fun f => extend rows (empty_col m (feat_name f) f) f) (s_features s)) = map feat_name (s_features s)).
  { intros rows m. rewrite map_map. apply map_ext. intros f. unfold empty_col. destruct (is_sparse f); reflexivity. }
  split; [rewrite H9; apply Hname|]. split; [rewrite H10; apply Hname|].
  assert (Hread : forall rows m k, (k < length rows)%nat ->
     read_row (map (fun f => extend rows (empty_col m (feat_name f) f) f) (s_features s)) k = Ok (map (fun f => fval f (snd (nth k rows (0%nat, 0%nat)))) (s_features s))).
  { intros rows m k Hk. rewrite (read_row_ok (length rows)); [|apply Forall_forall; intros f Hf; apply in_map_iff in Hf; destruct Hf as [g [<- Hg]]; unfold empty_col; rewrite (Hd g Hg); simpl; apply map_length|exact Hk].
    f_equal. rewrite map_map. apply map_ext_in. intros f Hf. unfold empty_col. rewrite (Hd f Hf). simpl.
    rewrite (nth_map_in _ rows k (0%nat, 0%nat)) by exact Hk. reflexivity. }
  split.
  - intros k Hk. pose proof (te_rows_nth ix start end_ k (0%nat, 0%nat) ltac:(lia) Hk) as N. pose proof (te_rows_length ix start end_ ltac:(lia)) as L.
    fold e in N, L. cbv zeta in N, L. eexists. split.
    + unfold at_. rewrite H10, Hread by (rewrite L; exact Hk). cbn [bind]. rewrite H8, get_ok by (rewrite map_length, L; exact Hk). cbn [bind].
      rewrite (nth_map_in _ _ k (0%nat, 0%nat)) by (rewrite L; exact Hk). rewrite N. cbn [snd]. reflexivity.
    + apply at_ok; [exact G|exact Ht|]. apply Hix, nth_In. lia.
  - intros k Hk. pose proof (tr_rows_nth ix start end_ k (0%nat, 0%nat) ltac:(lia) ltac:(lia)) as N. pose proof (tr_rows_length ix start end_ ltac:(lia)) as L.
    fold e in N, L. cbv zeta in N, L. eexists. split.
    + unfold at_. rewrite H9, Hread by (rewrite L; lia). cbn [bind]. rewrite H7, get_ok by (rewrite map_length, L; lia). cbn [bind].
      rewrite (nth_map_in _ _ k (0%nat, 0%nat)) by (rewrite L; lia). rewrite N. cbn [snd]. reflexivity.
    + apply at_ok; [exact G|exact Ht|]. apply Hix, nth_In. destruct (Nat.ltb_spec k start); lia.
Qed.

(** for sparse columns the entries keep their position in the permutation instead of their row in the half: the
    k-th row of the test half reads the k-th row of the permutation if the window contains k, and zero otherwise *)
Lemma P_C40_split_sparse_refuted :
  forall s ix start end_ j nm e0 m, made s -> length (s_target s) = fst (shape s) -> NoDup (map feat_name (s_features s)) ->
  Permutation ix (seq 0 (fst (shape s))) -> (start <= end_ <= fst (shape s))%nat ->
  nth_error (s_features s) j = Some (Sparse nm e0 m) ->
  exists train test f g, split_sample s ix start end_ = Ok (train, test) /\
    nth_error (s_features test) j = Some f /\ nth_error (s_features train) j = Some g /\
    (forall k, feat_index f k = if andb (Nat.leb start k) (Nat.ltb k end_) then feat_index (Sparse nm e0 m) (nth k ix 0%nat) else Ok 0) /\
    (forall k, (k < start)%nat -> feat_index g k = feat_index (Sparse nm e0 m) (nth k ix 0%nat)) /\
    (forall k, (start <= k < end_)%nat -> feat_index g k = Ok 0).
Proof.
  intros s ix start end_ j nm e0 m M Ht Hnd Hp Hse Hj. pose proof (made_good s M) as G. simpl in Ht, Hp, Hse.
  pose proof (Permutation_length Hp) as Hlx. rewrite seq_length in Hlx.
  assert (Hix : forall i, In i ix -> (i < s_n_sample s)%nat) by (intros i Hi; apply (Permutation_in _ Hp), in_seq in Hi; lia).
  destruct (split_spec s ix start end_ G Ht Hnd Hlx Hix Hse) as [train [test [E [_ [_ [_ [_ [_ [_ [_ [_ [H9 H10]]]]]]]]]]]].
  set (e := combine (seq 0 (length ix)) ix) in *.
  exists train, test. eexists; eexists. split; [exact E|].
  rewrite H9, H10, !nth_error_map, Hj. simpl. split; [reflexivity|]. split; [reflexivity|].
  set (val := fun p : nat * nat => (fst p, sparse_index e0 (snd p))).
  assert (Inc : forall rows, StronglySorted lt (map fst rows) -> increasing_rows (map val rows)).
  { intros rows S. unfold increasing_rows. rewrite map_map. exact S. }
  assert (Ee : map fst e = seq 0 (length ix)).
  { unfold e. assert (L : length (seq 0 (length ix)) = length ix) by apply seq_length. revert L. generalize (seq 0 (length ix)). generalize ix.
    clear. induction ix as [|a ix IH]; intros [|b l] L; simpl in *; try lia; [reflexivity|]. f_equal. apply IH. lia. }
  assert (Sseq : forall k a, StronglySorted lt (seq a k)).
  { induction k as [|k IH]; intros a; simpl; constructor; [apply IH|]. apply Forall_forall. intros x Hx. apply in_seq in Hx. lia. }
  assert (Sfe : forall k l, StronglySorted lt l -> StronglySorted lt (firstn k l)).
  { intros k l S. revert k. induction S as [|a l S IH F]; intros [|k]; simpl; constructor; [apply IH|]. rewrite Forall_forall in *.
    intros x Hx. apply F. rewrite <- (firstn_skipn k l). apply in_or_app. left. exact Hx. }
  assert (Ssk : forall k l, StronglySorted lt l -> StronglySorted lt (skipn k l)).
  { intros k l S. revert k. induction S as [|a l S IH F]; intros [|k]; simpl; try constructor; auto. }
  assert (In_e : forall i ii, In (i, ii) e <-> (i < length ix)%nat /\ ii = nth i ix 0%nat).
  { intros i ii. split.
    - intros H. apply (In_nth _ _ (0%nat, 0%nat)) in H. destruct H as [k [Hk Ek]]. unfold e in Hk. rewrite combine_length, seq_length, Nat.min_id in Hk.
      unfold e in Ek. rewrite nth_enum in Ek by exact Hk. inversion Ek; subst. auto.
    - intros [Hi ->]. rewrite <- (nth_enum ix i (0%nat, 0%nat) Hi). apply nth_In. unfold e. rewrite combine_length, seq_length. lia. }
  assert (Le : length e = length ix) by (unfold e; rewrite combine_length, seq_length; lia).
  assert (In_f : forall k i ii, In (i, ii) (firstn k e) -> (i < k)%nat).
  { intros k i ii H. apply (In_nth _ _ (0%nat, 0%nat)) in H. destruct H as [q [Hq Eq]]. rewrite firstn_length in Hq. rewrite nth_firstn in Eq by lia.
    unfold e in Eq. rewrite nth_enum in Eq by lia. inversion Eq; subst. lia. }
  assert (In_fk : forall k i, (i < k)%nat -> (i < length ix)%nat -> In (i, nth i ix 0%nat) (firstn k e)).
  { intros k i Hk Hi. rewrite <- (nth_enum ix i (0%nat, 0%nat) Hi). fold e. rewrite <- (nth_firstn _ k e i Hk). apply nth_In. rewrite firstn_length. lia. }
  assert (In_s : forall k l i ii, (forall q, (q < length l)%nat -> exists z, nth q l (0%nat, 0%nat) = (q, z)) -> In (i, ii) (skipn k l) -> (k <= i)%nat).
  { intros k l i ii Hl H. apply (In_nth _ _ (0%nat, 0%nat)) in H. destruct H as [q [Hq Eq]]. rewrite skipn_length in Hq. rewrite nth_skipn in Eq.
    destruct (Hl (k + q)%nat ltac:(lia)) as [z Ez]. rewrite Ez in Eq. inversion Eq; subst. lia. }
  assert (He_enum : forall q, (q < length e)%nat -> exists z, nth q e (0%nat, 0%nat) = (q, z)).
  { intros q Hq. exists (nth q ix 0%nat). unfold e. apply nth_enum. lia. }
  assert (Hf_enum : forall k q, (q < length (firstn k e))%nat -> exists z, nth q (firstn k e) (0%nat, 0%nat) = (q, z)).
  { intros k q Hq. rewrite firstn_length in Hq. rewrite nth_firstn by lia. apply He_enum. lia. }
  assert (In_sk : forall k l i, (k <= i < length l)%nat -> In (nth i l (0%nat, 0%nat)) (skipn k l)).
  { intros k l i Hi. replace i with (k + (i - k))%nat by lia. rewrite <- nth_skipn. apply nth_In. rewrite skipn_length. lia. }
  split; [|split].
  - intros k.
    assert (I : increasing_rows (map val (skipn start (firstn end_ e)))).
    { apply Inc. rewrite <- skipn_map, <- firstn_map, Ee. apply Ssk, Sfe, Sseq. }
    destruct (sparse_index_spec _ k I) as [S1 S2].
    destruct (Nat.leb_spec start k) as [L1|L1]; simpl.
    + destruct (Nat.ltb_spec k end_) as [L2|L2]; simpl; f_equal.
      * apply S1. apply in_map_iff. exists (k, nth k ix 0%nat). split; [reflexivity|].
        assert (En : nth k (firstn end_ e) (0%nat, 0%nat) = (k, nth k ix 0%nat)) by (rewrite nth_firstn by exact L2; apply nth_enum; lia).
        rewrite <- En. apply In_sk. rewrite firstn_length. lia.
      * apply S2. intros x Hx. apply in_map_iff in Hx. destruct Hx as [[i ii] [Ev Hin]]. inversion Ev; subst.
        assert (In (k, ii) (firstn end_ e)) by (rewrite <- (firstn_skipn start (firstn end_ e)); apply in_or_app; right; exact Hin).
        pose proof (In_f _ _ _ H). lia.
    + f_equal. apply S2. intros x Hx. apply in_map_iff in Hx. destruct Hx as [[i ii] [Ev Hin]]. inversion Ev; subst.
      pose proof (In_s start (firstn end_ e) k ii (Hf_enum end_) Hin). lia.
  - intros k Hk.
    assert (I : increasing_rows (map val (firstn start e ++ skipn end_ e))).
    { apply Inc. rewrite map_app, <- skipn_map, <- firstn_map, Ee.
      assert (A : forall l1 l2, StronglySorted lt l1 -> StronglySorted lt l2 -> (forall x z, In x l1 -> In z l2 -> (x < z)%nat) -> StronglySorted lt (l1 ++ l2)).
      { induction l1 as [|a l1 IH]; intros l2 A1 A2 A3; simpl; [exact A2|]. inversion A1; subst. constructor; [apply IH; try assumption; intros; apply A3; [right|]; assumption|].
        apply Forall_app. split; [assumption|]. apply Forall_forall. intros z Hz. apply A3; [left; reflexivity|exact Hz]. }
      apply A; [apply Sfe, Sseq|apply Ssk, Sseq|]. intros x z Hx Hz.
      assert (x < start)%nat. { rewrite <- Ee, firstn_map in Hx. apply in_map_iff in Hx. destruct Hx as [[i ii] [Ei Hi]]. simpl in Ei. subst. apply (In_f _ _ _ Hi). }
      assert (end_ <= z)%nat. { rewrite <- Ee, skipn_map in Hz. apply in_map_iff in Hz. destruct Hz as [[i ii] [Ei Hi]]. simpl in Ei. subst. apply (In_s _ _ _ _ He_enum Hi). }
      lia. }
    destruct (sparse_index_spec _ k I) as [S1 _]. cbn [feat_index]. f_equal. apply S1. apply in_map_iff. exists (k, nth k ix 0%nat). split; [reflexivity|].
    apply in_or_app. left. apply In_fk; lia.
  - intros k Hk.
    assert (I : increasing_rows (map val (firstn start e ++ skipn end_ e))).
    { apply Inc. rewrite map_app, <- skipn_map, <- firstn_map, Ee.
      assert (A : forall l1 l2, StronglySorted lt l1 -> StronglySorted lt l2 -> (forall x z, In x l1 -> In z l2 -> (x < z)%nat) -> StronglySorted lt (l1 ++ l2)).
      { induction l1 as [|a l1 IH]; intros l2 A1 A2 A3; simpl; [exact A2|]. inversion A1; subst. constructor; [apply IH; try assumption; intros; apply A3; [right|]; assumption|].
        apply Forall_app. split; [assumption|]. apply Forall_forall. intros z Hz. apply A3; [left; reflexivity|exact Hz]. }
      apply A; [apply Sfe, Sseq|apply Ssk, Sseq|]. intros x z Hx Hz.
      assert (x < start)%nat. { rewrite <- Ee, firstn_map in Hx. apply in_map_iff in Hx. destruct Hx as [[i ii] [Ei Hi]]. simpl in Ei. subst. apply (In_f _ _ _ Hi). }
      assert (end_ <= z)%nat. { rewrite <- Ee, skipn_map in Hz. apply in_map_iff in Hz. destruct Hz as [[i ii] [Ei Hi]]. simpl in Ei. subst. apply (In_s _ _ _ _ He_enum Hi). }
      lia. }
    destruct (sparse_index_spec _ k I) as [_ S2]. cbn [feat_index]. f_equal. apply S2. intros x Hx. apply in_map_iff in Hx. destruct Hx as [[i ii] [Ev Hin]]. inversion Ev; subst.
    apply in_app_or in Hin. destruct Hin as [Hin|Hin]; [apply In_f in Hin; lia|apply (In_s end_ e k ii He_enum) in Hin; lia].
Qed.

(** split panics exactly when the window is not inside the sample (for a sample that can be split at all) *)
Lemma P_C40_split_window_partial :
  forall s ix start end_, (end_ < start)%nat -> split_sample s ix start end_ = Panic Arith.
Proof. intros s ix start end_ H. unfold split_sample. destruct (Nat.ltb_spec end_ start); [reflexivity|lia]. Qed.

(** ** C49: the dummy sample: n examples, one (empty) feature, the first n/2 labels are 1 and the others are -1 *)
Lemma P_C49_dummy :
  forall n, shape (sample_dummy n) = (n, 1%nat) /\ length (s_target (sample_dummy n)) = n /\ length (s_features (sample_dummy n)) = 1%nat /\
    forall i, (i < n)%nat -> nth i (s_target (sample_dummy n)) 0 = if Nat.ltb i (n / 2) then 1 else -1.
Proof.
  intros n. assert (L : (n / 2 <= n)%nat) by (apply Nat.div_le_upper_bound; lia). unfold sample_dummy. cbn [s_target s_features s_n_sample s_n_feature shape].
  split; [reflexivity|]. split; [rewrite app_length, !repeat_length; lia|]. split; [reflexivity|]. intros i Hi. set (m := (n / 2)%nat) in *. destruct (Nat.ltb_spec i m).
  - rewrite app_nth1 by (rewrite repeat_length; lia). apply nth_repeat_lt. exact H.
  - rewrite app_nth2 by (rewrite repeat_length; lia). rewrite repeat_length. apply nth_repeat_lt. lia.
Qed.

(** The check every booster starts with ("the target class is not specified"): it accepts a sample read from an SVMLight
    file, accepts a sample whose target column has been chosen, and stops the program on a CSV file (with at least
    one row) whose target column has not been chosen. *)
Lemma P_C49_target_check :
  forall s, made s ->
  (forall nm s', set_target s nm = Ok s' -> target_is_specified s' = Ok tt) /\
  (forall header rows m, (forall r, In r rows -> length r = m) -> match header with Some h => length h = m | None => rows <> [] end ->
     from_csv header rows = Ok s -> rows <> [] -> target_is_specified s = Panic AssertFailed) /\
  (forall lines, (forall l, In l lines -> NoDup (map fst (snd l))) -> target_is_specified (from_svmlight lines) = Ok tt) /\
  (target_is_specified s = Ok tt -> forall i, (i < fst (shape s))%nat -> exists xs, at_ s i = Ok (xs, nth i (s_target s) 0)).
Proof.
  intros s M. unfold target_is_specified. split; [|split; [|split]].
  - intros nm s' E. destruct (P_C49_set_target s nm s' M E) as [b [c [a [_ [_ [_ [_ [Hs [Ht _]]]]]]]]].
    assert (Es : s_n_sample s' = fst (shape s)) by (change (s_n_sample s') with (fst (shape s')); rewrite Hs; reflexivity).
    rewrite Es, Ht, Nat.eqb_refl. reflexivity.
  - intros header rows m Hr Hh E Hne. destruct (P_C49_csv_cells header rows s m Hr Hh E) as [Hs _].
    assert (Es : s_n_sample s = length rows) by (change (s_n_sample s) with (fst (shape s)); rewrite Hs; reflexivity).
    assert (Et : s_target s = []) by (unfold from_csv in E; destruct (append_csv_rows _ rows); cbn [bind] in E; [injection E as <-; reflexivity|discriminate]).
    rewrite Es, Et. destruct rows; [congruence|reflexivity].
  - intros lines Hnd. destruct (P_C49_svmlight_cells lines Hnd) as [Hs [Ht _]]. change (s_n_sample (from_svmlight lines)) with (fst (shape (from_svmlight lines))).
    rewrite Hs, Ht, map_length, Nat.eqb_refl. reflexivity.
  - intros E i Hi. destruct (P_C49_sample_bookkeeping s M) as [_ [_ [_ [_ A]]]].
    destruct (A i) as [xs [A1 _]]; [|exact Hi|exists xs; exact A1]. unfold assert_ in E. destruct (Nat.eqb_spec (s_n_sample s) (length (s_target s))); [symmetry; assumption|discriminate].
Qed.
