(** Facts about cross validation: C41. *)
From Verif Require Import Base SortLib Spec SampleSpec BinSearch Feature FeatureFacts Sample SampleFacts AdaBoost AdaBoostMore CrossVal.
Open Scope R_scope.

Lemma configured_ok s c : configured s c ->
  cv_sample c = s /\ cv_current_fold c = 0%nat /\ Permutation (cv_ix c) (seq 0 (fst (shape s))) /\
  (cv_train_size c <= fst (shape s))%nat /\ ((0 < fst (shape s))%nat -> (cv_train_size c < fst (shape s))%nat).
Proof.
  assert (K : forall r, 0 <= r -> r < 1 -> (as_usize (r * INR (fst (shape s))) <= fst (shape s))%nat /\
     ((0 < fst (shape s))%nat -> (as_usize (r * INR (fst (shape s))) < fst (shape s))%nat)).
  { intros r H0 H1. pose proof (pos_INR (fst (shape s))) as P. 
    assert (A : INR (as_usize (r * INR (fst (shape s)))) <= r * INR (fst (shape s))) by (apply as_usize_le, Rmult_le_pos; assumption).
    split; [apply INR_le; assert (r * INR (fst (shape s)) <= 1 * INR (fst (shape s))) by (apply Rmult_le_compat_r; lra); simpl in *; lra|]. intros Hn. apply INR_lt. apply lt_INR in Hn. simpl in Hn. assert (r * INR (fst (shape s)) < 1 * INR (fst (shape s))) by (apply Rmult_lt_compat_r; assumption). simpl in *. lra. }
  induction 1 as [|c r c' _ IH E|c k _ IH|c ix _ IH P].
  - unfold cv_new; cbn [cv_sample cv_current_fold cv_ix cv_train_size]. split; [reflexivity|]. split; [reflexivity|]. split; [reflexivity|].
    rewrite Rmult_comm. apply K; lra.
  - unfold cv_train_ratio, bind, assert_ in E. destruct IH as [Es [E0 [P _]]]. rewrite Es in E.
    destruct (Rltb_spec 0 r); [|discriminate]. destruct (Rltb_spec r 1); [|discriminate]. simpl in E. inversion E; subst; clear E.
    cbn [cv_sample cv_current_fold cv_ix cv_train_size]. split; [reflexivity|]. split; [exact E0|]. split; [exact P|]. apply K; lra.
  - exact IH.
  - destruct IH as [Es [E0 [P0 T]]]. cbn [cv_shuffle cv_sample cv_current_fold cv_ix cv_train_size]. split; [exact Es|]. split; [exact E0|].
    split; [exact (Permutation_trans P P0)|exact T].
Qed.

Lemma seq_window_perm n a b : (a <= b <= n)%nat -> Permutation (seq a (b - a) ++ (seq 0 a ++ seq b (n - b))) (seq 0 n).
Proof.
  intros H. rewrite app_assoc. rewrite (Permutation_app_comm (seq a (b - a)) (seq 0 a)). rewrite <- app_assoc.
  replace (seq a (b - a) ++ seq b (n - b)) with (seq a (n - a)).
  - change (seq a (n - a)) with (seq (0 + a) (n - a)). rewrite <- seq_app. replace (a + (n - a))%nat with n by lia. reflexivity.
  - replace (n - a)%nat with ((b - a) + (n - b))%nat by lia. rewrite seq_app. replace (a + (b - a))%nat with b by lia. reflexivity.
Qed.

(** the i-th window *)
Definition win_lo (ts i : nat) : nat := (i * ts)%nat.
Definition win_hi (n ts i : nat) : nat := Nat.min ((i + 1) * ts) n.
Definition win (n ts i : nat) : list nat := seq (win_lo ts i) (win_hi n ts i - win_lo ts i).

Lemma win_prefix n ts : forall k, ((k - 1) * ts <= n)%nat -> flat_map (win n ts) (seq 0 k) = seq 0 (Nat.min (k * ts) n).
Proof.
  induction k as [|k IH]; intros H; [reflexivity|].
  rewrite seq_S, flat_map_app. simpl flat_map at 2. rewrite app_nil_r.
  rewrite IH by nia. unfold win, win_lo, win_hi. simpl plus. 
  replace (k * ts)%nat with (Nat.min (k * ts) n) at 2 by nia.
  replace (Nat.min (k * ts) n) with (0 + Nat.min (k * ts) n)%nat at 2 by lia. rewrite <- seq_app. f_equal. nia.
Qed.

Lemma flat_map_map_perm {A B} (f : A -> B) (w : nat -> list A) ks : map f (flat_map w ks) = flat_map (fun k => map f (w k)) ks.
Proof. induction ks as [|k ks IH]; simpl; [reflexivity|]. rewrite map_app, IH. reflexivity. Qed.

Lemma flat_map_concat {A} (w : nat -> list A) ks : flat_map w ks = concat (map w ks).
Proof. induction ks as [|k ks IH]; simpl; [reflexivity|]. rewrite IH. reflexivity. Qed.

Lemma NoDup_app_prefix {A} (a b : list A) : NoDup (a ++ b) -> NoDup a.
Proof. induction a as [|x a IH]; simpl; intros H; [constructor|]. inversion H; subst. constructor; [|apply IH; assumption]. intros Hx. apply H2, in_or_app; auto. Qed.

Lemma cv_for_spec s c (rows : nat -> sample * sample -> Prop) : forall fuel j,
  (forall i, (j <= i < j + fuel)%nat -> exists p, fold_at (mkCV (cv_train_size c) 0 (cv_n_folds c) s (cv_ix c)) i = Ok p /\ rows i p) ->
  (j + fuel = cv_n_folds c)%nat ->
  exists l, cv_for fuel (mkCV (cv_train_size c) j (cv_n_folds c) s (cv_ix c)) = Ok l /\ length l = fuel /\
    forall k d, (k < fuel)%nat -> rows (j + k)%nat (nth k l d).
Proof.
  induction fuel as [|fuel IH]; intros j Hf Hj; cbn [cv_for]; unfold cv_next; cbn [cv_n_folds cv_current_fold cv_train_size cv_sample cv_ix].
  - destruct (Nat.leb_spec (cv_n_folds c) j); [|lia]. exists []. split; [reflexivity|]. split; [reflexivity|]. intros; lia.
  - destruct (Nat.leb_spec (cv_n_folds c) j); [lia|]. destruct (Hf j ltac:(lia)) as [p [Ep Rp]].
    assert (E : fold_at (mkCV (cv_train_size c) j (cv_n_folds c) s (cv_ix c)) j = Ok p) by exact Ep.
    rewrite E. cbn [bind fst snd]. destruct (IH (j + 1)%nat) as [l [El [Ll Nl]]]; [intros i Hi; apply Hf; lia|lia|].
    rewrite El. cbn [bind]. exists (p :: l). split; [reflexivity|]. split; [simpl; lia|]. intros [|k] d Hk; simpl; [rewrite Nat.add_0_r; exact Rp|].
    replace (j + S k)%nat with (j + 1 + k)%nat by lia. apply Nl. lia.
Qed.

Lemma cv_for_panic s c : forall fuel j p, (j + fuel = cv_n_folds c)%nat ->
  (exists i, (j <= i < j + fuel)%nat /\ fold_at (mkCV (cv_train_size c) 0 (cv_n_folds c) s (cv_ix c)) i = Panic p /\
     forall i', (j <= i' < i)%nat -> exists q, fold_at (mkCV (cv_train_size c) 0 (cv_n_folds c) s (cv_ix c)) i' = Ok q) ->
  cv_for fuel (mkCV (cv_train_size c) j (cv_n_folds c) s (cv_ix c)) = Panic p.
Proof.
  induction fuel as [|fuel IH]; intros j p Hj [i [Hi [Ei Hb]]]; [lia|].
  cbn [cv_for]; unfold cv_next; cbn [cv_n_folds cv_current_fold cv_train_size cv_sample cv_ix].
  destruct (Nat.leb_spec (cv_n_folds c) j); [lia|].
  destruct (Nat.eq_dec i j) as [->|Hne].
  - assert (E : fold_at (mkCV (cv_train_size c) j (cv_n_folds c) s (cv_ix c)) j = Panic p) by exact Ei. rewrite E. reflexivity.
  - destruct (Hb j ltac:(lia)) as [q Eq].
    assert (E : fold_at (mkCV (cv_train_size c) j (cv_n_folds c) s (cv_ix c)) j = Ok q) by exact Eq. rewrite E. cbn [bind fst snd].
    rewrite (IH (j + 1)%nat p); [reflexivity|lia|]. exists i. split; [lia|]. split; [exact Ei|]. intros i' Hi'. apply Hb. lia.
Qed.

Definition fold_ok (s : sample) (ix : list nat) (ts i : nat) (p : sample * sample) : Prop :=
  let n := fst (shape s) in
  let te := map (fun k => nth k ix 0%nat) (win n ts i) in
  let tr := map (fun k => nth k ix 0%nat) (seq 0 (win_lo ts i) ++ seq (win_hi n ts i) (n - win_hi n ts i)) in
  shape (snd p) = (length te, snd (shape s)) /\ shape (fst p) = (length tr, snd (shape s)) /\
  (forall k, (k < length te)%nat -> exists xy, at_ (snd p) k = Ok xy /\ at_ s (nth k te 0%nat) = Ok xy) /\
  (forall k, (k < length tr)%nat -> exists xy, at_ (fst p) k = Ok xy /\ at_ s (nth k tr 0%nat) = Ok xy).

Lemma nth_map_default {A B} (f : A -> B) l k d d' : (k < length l)%nat -> nth k (map f l) d = f (nth k l d').
Proof. intros H. rewrite (nth_map_in f l k d') by exact H. reflexivity. Qed.

Lemma fold_at_spec s c i : made s -> length (s_target s) = fst (shape s) -> NoDup (map feat_name (s_features s)) ->
  (forall f, In f (s_features s) -> is_sparse f = false) -> configured s c ->
  let n := fst (shape s) in let ts := (n - cv_train_size c)%nat in
  (i * ts <= n)%nat -> exists p, fold_at c i = Ok p /\ fold_ok s (cv_ix c) ts i p.
Proof.
  intros M Ht Hnd Hd C n ts Hi. destruct (configured_ok s c C) as [Es [_ [Hp [Hts _]]]].
  unfold fold_at. rewrite Es. fold n. destruct (Nat.ltb_spec n (cv_train_size c)); [lia|]. fold ts.
  set (lo := (i * ts)%nat). set (hi := Nat.min ((i + 1) * ts) n).
  assert (Hw : (lo <= hi <= n)%nat) by (unfold lo, hi; nia).
  destruct (P_C40_split_dense s (cv_ix c) lo hi M Ht Hnd Hd Hp Hw) as [train [test [E [S1 [S2 [_ [_ [R1 R2]]]]]]]].
  exists (train, test). split; [exact E|]. unfold fold_ok. fold n. cbn [fst snd].
  assert (Ew : win n ts i = seq lo (hi - lo)) by reflexivity. change (win_lo ts i) with lo. change (win_hi n ts i) with hi. rewrite Ew.
  rewrite !map_length, app_length, !seq_length. fold n in S1, S2, R1, R2.
  split; [exact S2|]. split; [rewrite S1; f_equal; lia|]. split.
  - intros k Hk. rewrite (nth_map_default _ _ k 0%nat 0%nat) by (rewrite seq_length; lia). rewrite seq_nth by lia. apply R1. exact Hk.
  - intros k Hk. rewrite (nth_map_default _ _ k 0%nat 0%nat) by (rewrite app_length, !seq_length; lia).
    assert (Ek : nth k (seq 0 lo ++ seq hi (n - hi)) 0%nat = if Nat.ltb k lo then k else (k + (hi - lo))%nat).
    { destruct (Nat.ltb_spec k lo); [rewrite app_nth1 by (rewrite seq_length; lia); apply seq_nth; lia|].
      rewrite app_nth2 by (rewrite seq_length; lia). rewrite seq_length, seq_nth by lia. lia. }
    rewrite Ek. apply R2. lia.
Qed.

Lemma fold_at_panic s c i : configured s c -> (fst (shape s) < i * (fst (shape s) - cv_train_size c))%nat -> fold_at c i = Panic Arith.
Proof.
  intros C Hi. destruct (configured_ok s c C) as [Es [_ [Hp [Hts _]]]]. unfold fold_at. rewrite Es. destruct (Nat.ltb _ _); [reflexivity|].
  apply P_C40_split_window_partial. lia.
Qed.

(** ** C41: the folds, when the windows fit: every fold's test rows and train rows together are all rows; the test
    folds are pairwise disjoint; and they cover the sample if folds * test size >= sample size *)
Lemma P_C41_folds_partial :
  forall s c, made s -> length (s_target s) = fst (shape s) -> NoDup (map feat_name (s_features s)) ->
  (forall f, In f (s_features s) -> is_sparse f = false) -> configured s c ->
  let n := fst (shape s) in let ts := (n - cv_train_size c)%nat in
  ((cv_n_folds c - 1) * ts <= n)%nat ->
  exists folds (test_rows train_rows : nat -> list nat),
    cv_folds c = Ok folds /\ length folds = cv_n_folds c /\
    (forall k d, (k < cv_n_folds c)%nat ->
       let train := fst (nth k folds d) in let test := snd (nth k folds d) in
       Permutation (test_rows k ++ train_rows k) (seq 0 n) /\
       shape test = (length (test_rows k), snd (shape s)) /\ shape train = (length (train_rows k), snd (shape s)) /\
       (forall i, (i < length (test_rows k))%nat -> exists xy, at_ test i = Ok xy /\ at_ s (nth i (test_rows k) 0%nat) = Ok xy) /\
       (forall i, (i < length (train_rows k))%nat -> exists xy, at_ train i = Ok xy /\ at_ s (nth i (train_rows k) 0%nat) = Ok xy)) /\
    NoDup (flat_map test_rows (seq 0 (cv_n_folds c))) /\
    ((n <= cv_n_folds c * ts)%nat -> Permutation (flat_map test_rows (seq 0 (cv_n_folds c))) (seq 0 n)).
Proof.
  intros s c M Ht Hnd Hd C n ts Hfit. destruct (configured_ok s c C) as [Es [E0 [Hp _]]].
  pose proof (Permutation_length Hp) as Hlx. rewrite seq_length in Hlx. fold n in Hlx, Hp.
  assert (Ec : c = mkCV (cv_train_size c) 0 (cv_n_folds c) s (cv_ix c)) by (destruct c; simpl in *; subst; reflexivity).
  destruct (cv_for_spec s c (fold_ok s (cv_ix c) ts) (cv_n_folds c) 0) as [folds [Ef [Lf Nf]]].
  - intros i Hi. rewrite <- Ec. apply (fold_at_spec s c i M Ht Hnd Hd C). fold n. fold ts. nia.
  - reflexivity.
  - exists folds, (fun i => map (fun k => nth k (cv_ix c) 0%nat) (win n ts i)),
      (fun i => map (fun k => nth k (cv_ix c) 0%nat) (seq 0 (win_lo ts i) ++ seq (win_hi n ts i) (n - win_hi n ts i))).
    split; [unfold cv_folds; rewrite E0, Nat.sub_0_r; rewrite Ec at 1 2; cbn [cv_n_folds]; exact Ef|]. split; [exact Lf|].
    assert (Hall : map (fun k => nth k (cv_ix c) 0%nat) (seq 0 n) = cv_ix c) by (rewrite <- Hlx; apply map_nth_seq).
    split; [|split].
    + intros k d Hk. specialize (Nf k d Hk). simpl plus in Nf. destruct Nf as [A1 [A2 [A3 A4]]]. fold n in A1, A2, A3, A4. cbv zeta.
      split; [|split; [exact A1|split; [exact A2|split; [exact A3|exact A4]]]].
      rewrite <- map_app. apply Permutation_trans with (map (fun k => nth k (cv_ix c) 0%nat) (seq 0 n)); [|rewrite Hall; exact Hp].
      apply Permutation_map. apply seq_window_perm. unfold win_lo, win_hi. nia.
    + rewrite <- (flat_map_map_perm (fun k => nth k (cv_ix c) 0%nat)). rewrite win_prefix by exact Hfit.
      assert (Hn : NoDup (cv_ix c)) by (apply (Permutation_NoDup (Permutation_sym Hp)), seq_NoDup). rewrite <- Hall in Hn.
      replace n with (Nat.min (cv_n_folds c * ts) n + (n - Nat.min (cv_n_folds c * ts) n))%nat in Hn by lia.
      rewrite seq_app, map_app in Hn. apply NoDup_app_prefix in Hn. exact Hn.
    + intros Hcov. rewrite <- (flat_map_map_perm (fun k => nth k (cv_ix c) 0%nat)). rewrite win_prefix by exact Hfit.
      rewrite Nat.min_r by exact Hcov. rewrite Hall. exact Hp.
Qed.

(** the exact condition for a panic *)
Lemma P_C41_panic_iff :
  forall s c, made s -> length (s_target s) = fst (shape s) -> NoDup (map feat_name (s_features s)) ->
  (forall f, In f (s_features s) -> is_sparse f = false) -> configured s c ->
  ((exists p, cv_folds c = Panic p) <-> (fst (shape s) < (cv_n_folds c - 1) * (fst (shape s) - cv_train_size c))%nat).
Proof.
  intros s c M Ht Hnd Hd C. set (n := fst (shape s)). set (ts := (n - cv_train_size c)%nat).
  destruct (Nat.lt_ge_cases n ((cv_n_folds c - 1) * ts)) as [L|L].
  - split; [intros _; exact L|intros _]. destruct (configured_ok s c C) as [Es [E0 _]].
    assert (Ec : c = mkCV (cv_train_size c) 0 (cv_n_folds c) s (cv_ix c)) by (destruct c; simpl in *; subst; reflexivity).
    exists Arith. unfold cv_folds. rewrite E0, Nat.sub_0_r. rewrite Ec at 2.
    apply cv_for_panic; [reflexivity|].
    assert (Hts : (0 < ts)%nat) by nia.
    set (i := S (n / ts)). pose proof (Nat.div_mod n ts ltac:(lia)) as DM. pose proof (Nat.mod_upper_bound n ts ltac:(lia)) as MB.
    assert (i <= cv_n_folds c - 1)%nat. { unfold i. assert (n / ts < cv_n_folds c - 1)%nat; [|lia]. apply Nat.div_lt_upper_bound; lia. }
    exists i. split; [lia|]. rewrite <- Ec. split.
    + apply (fold_at_panic s c i C). fold n. fold ts. unfold i. nia.
    + intros i' Hi'. destruct (fold_at_spec s c i' M Ht Hnd Hd C) as [q [Eq _]]; [fold n; fold ts; unfold i in Hi'; nia|]. exists q. exact Eq.
  - split; [|intros; lia]. intros [p Ep]. destruct (P_C41_folds_partial s c M Ht Hnd Hd C L) as [f [_ [_ [Ef _]]]]. congruence.
Qed.

Lemma default_train_size n : as_usize (INR n * 0.8) = (4 * n / 5)%nat.
Proof.
  assert (Hr : 0 <= INR n * 0.8) by (pose proof (pos_INR n); lra).
  pose proof (as_usize_le _ Hr) as A. pose proof (as_usize_gt (INR n * 0.8)) as B.
  pose proof (Nat.div_mod (4 * n) 5 ltac:(lia)) as DM. pose proof (Nat.mod_upper_bound (4 * n) 5 ltac:(lia)) as MB.
  set (a := as_usize (INR n * 0.8)) in *. set (q := (4 * n / 5)%nat) in *.
  assert (5 * a <= 4 * n)%nat. { apply INR_le. rewrite !mult_INR. simpl (INR 5). simpl (INR 4). lra. }
  assert (4 * n < 5 * a + 5)%nat. { apply INR_lt. rewrite plus_INR, !mult_INR. simpl (INR 5). simpl (INR 4). lra. }
  lia.
Qed.

(** with the defaults (5 folds, ratio 0.8) the folds panic for exactly six sample sizes, and for every other size
    the five test folds partition the sample *)
Lemma P_C41_default_refuted :
  forall s, made s -> length (s_target s) = fst (shape s) -> NoDup (map feat_name (s_features s)) ->
  (forall f, In f (s_features s) -> is_sparse f = false) ->
  ((exists p, cv_folds (cv_new s) = Panic p) <-> In (fst (shape s)) [1; 2; 3; 6; 7; 11]%nat).
Proof.
  intros s M Ht Hnd Hd. rewrite (P_C41_panic_iff s (cv_new s) M Ht Hnd Hd (conf_new s)). unfold cv_new. cbn [cv_n_folds cv_train_size].
  rewrite default_train_size. set (n := fst (shape s)).
  pose proof (Nat.div_mod (4 * n) 5 ltac:(lia)) as DM. pose proof (Nat.mod_upper_bound (4 * n) 5 ltac:(lia)) as MB.
  simpl In. split; intros H; [|simpl in H; destruct H as [H|[H|[H|[H|[H|[H|[]]]]]]]; rewrite <- H; apply Nat.ltb_lt; reflexivity].
  assert (n < 15)%nat by lia. clearbody n. clear -H H0.
  do 15 (destruct n as [|n]; [try (exfalso; apply Nat.ltb_lt in H; discriminate); tauto|]). lia.
Qed.

Lemma P_C41_default_partition :
  forall s, made s -> length (s_target s) = fst (shape s) -> NoDup (map feat_name (s_features s)) ->
  (forall f, In f (s_features s) -> is_sparse f = false) -> ~ In (fst (shape s)) [1; 2; 3; 6; 7; 11]%nat ->
  exists folds (test_rows : nat -> list nat), cv_folds (cv_new s) = Ok folds /\ length folds = 5%nat /\
    Permutation (flat_map test_rows (seq 0 5)) (seq 0 (fst (shape s))) /\
    forall k d, (k < 5)%nat -> fst (shape (snd (nth k folds d))) = length (test_rows k) /\
      forall i, (i < length (test_rows k))%nat -> exists xy, at_ (snd (nth k folds d)) i = Ok xy /\ at_ s (nth i (test_rows k) 0%nat) = Ok xy.
Proof.
  intros s M Ht Hnd Hd Hn. pose proof (P_C41_default_refuted s M Ht Hnd Hd) as D. pose proof (P_C41_panic_iff s (cv_new s) M Ht Hnd Hd (conf_new s)) as I.
  destruct (P_C41_folds_partial s (cv_new s) M Ht Hnd Hd (conf_new s)) as [folds [te [tr [E [L [F [_ Cov]]]]]]].
  - apply Nat.nlt_ge. intros X. apply Hn, D, I, X.
  - exists folds, te. split; [exact E|]. split; [exact L|]. split.
    + apply Cov. unfold cv_new. cbn [cv_n_folds cv_train_size]. rewrite default_train_size.
      pose proof (Nat.div_mod (4 * fst (shape s)) 5 ltac:(lia)). pose proof (Nat.mod_upper_bound (4 * fst (shape s)) 5 ltac:(lia)). lia.
    + intros k d Hk. destruct (F k d Hk) as [_ [S [_ [R _]]]]. split; [rewrite S; reflexivity|exact R].
Qed.

(** every fold of a non-empty sample that does not start at the end of the sample is non-empty *)
Lemma P_C41_test_size_positive :
  forall s c, configured s c -> (0 < fst (shape s))%nat -> (0 < fst (shape s) - cv_train_size c)%nat.
Proof. intros s c C H. destruct (configured_ok s c C) as [_ [_ [_ [_ T]]]]. specialize (T H). lia. Qed.

Example C41_nonvacuous : forall a b : string, a <> b -> exists s, made s /\ length (s_target s) = fst (shape s) /\ fst (shape s) = 5%nat /\
  NoDup (map feat_name (s_features s)) /\ (forall f, In f (s_features s) -> is_sparse f = false).
Proof.
  intros a b Hab. exists (from_dataframe [(a, [1; 2; 3; 4; 5]); (b, [2; 4; 6; 8; 10])] 5 [1; 1; 1; -1; -1]).
  split; [apply made_dataframe; intros c [<-|[<-|[]]]; reflexivity|]. split; [reflexivity|]. split; [reflexivity|]. split.
  - simpl. constructor; [intros [E|[]]; congruence|]. constructor; [intros []|constructor].
  - intros f [<-|[<-|[]]]; reflexivity.
Qed.

(** ** C41: the configuration is obeyed: the ratio must lie strictly between 0 and 1, every full fold then trains on
    floor(ratio * n) examples, and the number of folds is the one asked for *)
Lemma P_C41_configuration :
  forall s c r, made s -> length (s_target s) = fst (shape s) -> NoDup (map feat_name (s_features s)) ->
  (forall f, In f (s_features s) -> is_sparse f = false) -> configured s c ->
  let n := fst (shape s) in
  ((exists c', cv_train_ratio c r = Ok c') <-> 0 < r < 1) /\
  (forall c' m folds t, cv_train_ratio c r = Ok c' -> cv_folds (cv_set_n_folds c' m) = Ok folds -> INR t <= r * INR n < INR t + 1 ->
     length folds = m /\
     forall k d, (k < m)%nat -> ((k + 1) * (n - t) <= n)%nat ->
       fst (shape (fst (nth k folds d))) = t /\ fst (shape (snd (nth k folds d))) = (n - t)%nat).
Proof.
  intros s c r M Ht Hnd Hd C n. split.
  - unfold cv_train_ratio. destruct (Rltb_spec 0 r), (Rltb_spec r 1); cbn [andb assert_ bind]; split; try lra; intros H; try (destruct H; discriminate). eexists. reflexivity.
  - intros c' m folds t Er Ef Bt. assert (C1 : configured s c') by (apply (conf_ratio s c r); assumption). assert (C2 : configured s (cv_set_n_folds c' m)) by (apply conf_folds, C1).
    assert (T : cv_train_size c' = t).
    { destruct (configured_ok s c C) as [Es _]. unfold cv_train_ratio in Er. destruct (Rltb_spec 0 r), (Rltb_spec r 1); cbn [andb assert_ bind] in Er; try discriminate. injection Er as <-. cbn [cv_train_size]. rewrite Es. fold n.
      assert (Hp : 0 <= r * INR n) by (apply Rmult_le_pos; [lra|apply pos_INR]).
      pose proof (as_usize_le (r * INR n) Hp) as U1. pose proof (as_usize_gt (r * INR n)) as U2. destruct Bt as [B1 B2]. apply Nat.le_antisymm; apply Nat.lt_succ_r; apply INR_lt; rewrite S_INR; change (s_n_sample s) with n; clear -U1 U2 B1 B2; lra. }
    destruct (configured_ok s _ C2) as [_ [_ [_ [Tn _]]]]. cbn [cv_set_n_folds cv_train_size] in Tn. fold n in Tn. rewrite T in Tn.
    assert (Fit : ((m - 1) * (n - t) <= n)%nat).
    { apply Nat.nlt_ge. intros X. pose proof (P_C41_panic_iff s _ M Ht Hnd Hd C2) as P. cbn [cv_set_n_folds cv_n_folds cv_train_size] in P. rewrite T in P. fold n in P. destruct (proj2 P X) as [p Ep]. unfold cv_set_n_folds in Ef, Ep. rewrite T in Ef, Ep. rewrite Ef in Ep. discriminate. }
    assert (Fit' : ((cv_n_folds (cv_set_n_folds c' m) - 1) * (n - cv_train_size (cv_set_n_folds c' m)) <= n)%nat) by (cbn [cv_set_n_folds cv_n_folds cv_train_size]; rewrite T; exact Fit).
    destruct (configured_ok s _ C2) as [Es [E0 _]].
    assert (Ec : cv_set_n_folds c' m = mkCV t 0 m s (cv_ix c')) by (unfold cv_set_n_folds in *; cbn [cv_sample cv_current_fold] in *; rewrite T, E0, Es; reflexivity).
    rewrite Ec in *. destruct (cv_for_spec s (mkCV t 0 m s (cv_ix c')) (fold_ok s (cv_ix c') (n - t)) m 0) as [folds' [Ef' [Lf Nf]]]; [|reflexivity|].
    { intros i Hi. destruct (fold_at_spec s (mkCV t 0 m s (cv_ix c')) i M Ht Hnd Hd C2) as [p Hp]; [cbn [cv_train_size]; fold n; nia|]. exists p. exact Hp. }
    unfold cv_folds in Ef. cbn [cv_n_folds cv_current_fold cv_train_size cv_ix] in *. rewrite Nat.sub_0_r in Ef. rewrite Ef in Ef'. injection Ef' as <-. split; [exact Lf|].
    intros k d Hk Hf. destruct (Nf k d Hk) as [A1 [A2 _]]. simpl plus in *. fold n in A1, A2. rewrite A1, A2. cbn [fst]. rewrite !map_length, app_length. unfold win. rewrite !seq_length. unfold win_lo, win_hi. rewrite Nat.min_l by exact Hf. split; nia.
Qed.
