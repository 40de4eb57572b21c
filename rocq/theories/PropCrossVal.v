(** Facts about cross validation: C41. *)
From Verif Require Import Base SortLib Spec SampleSpec BinSearch Feature FeatureFacts Sample SampleFacts AdaBoost AdaBoostMore CrossVal CrossValFacts.
Open Scope R_scope.


(** ** C41: the folds, when the windows fit: every fold's test rows and train rows together are all rows; the test
    folds are pairwise disjoint; and they cover the sample if folds * test size >= sample size *)

Theorem C41_folds_partial :
  forall s c, made s -> length (s_target s) = fst (shape s) -> NoDup (map feat_name (s_features s)) ->
  (forall f, In f (s_features s) -> is_sparse f = false) -> configured s c ->
  let n := fst (shape s) in let ts := (n - cv_train_size c)%nat in
  ((cv_n_folds c - 1) * ts <= n)%nat ->
  exists folds (test_rows train_rows : nat -> list nat),
    cv_folds c = Ok folds /\ length folds = cv_n_folds c /\
    (forall k d, (k < cv_n_folds c)%nat ->
       let train := fst (nth k folds d) in let test := snd (nth k folds d) in
       Permutation (test_rows k ++ train_rows k) (seq 0 n) /\
       shape test = (length (test_rows k), snd (shape s)) /\ shape train = (length (train_rows k), snd (shape s)) /\
       (forall i, (i < length (test_rows k))%nat -> exists xy, at_ test i = Ok xy /\ at_ s (nth i (test_rows k) 0%nat) = Ok xy) /\
       (forall i, (i < length (train_rows k))%nat -> exists xy, at_ train i = Ok xy /\ at_ s (nth i (train_rows k) 0%nat) = Ok xy)) /\
    NoDup (flat_map test_rows (seq 0 (cv_n_folds c))) /\
    ((n <= cv_n_folds c * ts)%nat -> Permutation (flat_map test_rows (seq 0 (cv_n_folds c))) (seq 0 n)).
Proof. exact P_C41_folds_partial. Qed.
Print Assumptions C41_folds_partial.

(** the exact condition for a panic *)
Theorem C41_panic_iff :
  forall s c, made s -> length (s_target s) = fst (shape s) -> NoDup (map feat_name (s_features s)) ->
  (forall f, In f (s_features s) -> is_sparse f = false) -> configured s c ->
  ((exists p, cv_folds c = Panic p) <-> (fst (shape s) < (cv_n_folds c - 1) * (fst (shape s) - cv_train_size c))%nat).
Proof. exact P_C41_panic_iff. Qed.
Print Assumptions C41_panic_iff.

(** with the defaults (5 folds, ratio 0.8) the folds panic for exactly six sample sizes, and for every other size
    the five test folds partition the sample *)
Theorem C41_default_refuted :
  forall s, made s -> length (s_target s) = fst (shape s) -> NoDup (map feat_name (s_features s)) ->
  (forall f, In f (s_features s) -> is_sparse f = false) ->
  ((exists p, cv_folds (cv_new s) = Panic p) <-> In (fst (shape s)) [1; 2; 3; 6; 7; 11]%nat).
Proof. exact P_C41_default_refuted. Qed.
Print Assumptions C41_default_refuted.

Theorem C41_default_partition :
  forall s, made s -> length (s_target s) = fst (shape s) -> NoDup (map feat_name (s_features s)) ->
  (forall f, In f (s_features s) -> is_sparse f = false) -> ~ In (fst (shape s)) [1; 2; 3; 6; 7; 11]%nat ->
  exists folds (test_rows : nat -> list nat), cv_folds (cv_new s) = Ok folds /\ length folds = 5%nat /\
    Permutation (flat_map test_rows (seq 0 5)) (seq 0 (fst (shape s))) /\
    forall k d, (k < 5)%nat -> fst (shape (snd (nth k folds d))) = length (test_rows k) /\
      forall i, (i < length (test_rows k))%nat -> exists xy, at_ (snd (nth k folds d)) i = Ok xy /\ at_ s (nth i (test_rows k) 0%nat) = Ok xy.
Proof. exact P_C41_default_partition. Qed.
Print Assumptions C41_default_partition.

(** every fold of a non-empty sample that does not start at the end of the sample is non-empty *)
Theorem C41_test_size_positive :
  forall s c, configured s c -> (0 < fst (shape s))%nat -> (0 < fst (shape s) - cv_train_size c)%nat.
Proof. exact P_C41_test_size_positive. Qed.
Print Assumptions C41_test_size_positive.

Example C41_nonvacuous : forall a b : string, a <> b -> exists s, made s /\ length (s_target s) = fst (shape s) /\ fst (shape s) = 5%nat /\
  NoDup (map feat_name (s_features s)) /\ (forall f, In f (s_features s) -> is_sparse f = false).
Proof.
  intros a b Hab. exists (from_dataframe [(a, [1; 2; 3; 4; 5]); (b, [2; 4; 6; 8; 10])] 5 [1; 1; 1; -1; -1]).
  split; [apply made_dataframe; intros c [<-|[<-|[]]]; reflexivity|]. split; [reflexivity|]. split; [reflexivity|]. split.
  - simpl. constructor; [intros [E|[]]; congruence|]. constructor; [intros []|constructor].
  - intros f [<-|[<-|[]]]; reflexivity.
Qed.

(** ** C41: the configuration is obeyed: the ratio must lie strictly between 0 and 1, every full fold then trains on
    floor(ratio * n) examples, and the number of folds is the one asked for *)

Theorem C41_configuration :
  forall s c r, made s -> length (s_target s) = fst (shape s) -> NoDup (map feat_name (s_features s)) ->
  (forall f, In f (s_features s) -> is_sparse f = false) -> configured s c ->
  let n := fst (shape s) in
  ((exists c', cv_train_ratio c r = Ok c') <-> 0 < r < 1) /\
  (forall c' m folds t, cv_train_ratio c r = Ok c' -> cv_folds (cv_set_n_folds c' m) = Ok folds -> INR t <= r * INR n < INR t + 1 ->
     length folds = m /\
     forall k d, (k < m)%nat -> ((k + 1) * (n - t) <= n)%nat ->
       fst (shape (fst (nth k folds d))) = t /\ fst (shape (snd (nth k folds d))) = (n - t)%nat).
Proof. exact P_C41_configuration. Qed.
Print Assumptions C41_configuration.
