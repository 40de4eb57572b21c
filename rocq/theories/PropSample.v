(** Facts about samples: C40, C49. *)
From Coq Require Import String DecimalString.
From Coq Require Import List.
From Verif Require Import Base SortLib Spec SampleSpec BinSearch Feature FeatureFacts Sample SampleFacts.
Open Scope R_scope.


(** ** hash maps *)

(** ** well-formed columns and samples *)

(** ** C49: reading, renaming and setting the target, in any order. *)

Theorem C49_sample_bookkeeping :
  forall s, made s ->
  snd (shape s) = length (s_features s) /\
  (forall f i, In f (s_features s) -> (i < fst (shape s))%nat -> exists x, feat_index f i = Ok x) /\
  (NoDup (map feat_name (s_features s)) -> forall f, In f (s_features s) -> by_name s (feat_name f) = Ok f) /\
  (forall nm f, by_name s nm = Ok f -> In f (s_features s) /\ feat_name f = nm) /\
  (forall i, length (s_target s) = fst (shape s) -> (i < fst (shape s))%nat ->
     exists xs, at_ s i = Ok (xs, nth i (s_target s) 0) /\ Forall2 (fun f x => feat_index f i = Ok x) (s_features s) xs).
Proof. exact P_C49_sample_bookkeeping. Qed.
Print Assumptions C49_sample_bookkeeping.

(** a rectangular CSV table is read as it is: cell (i, j) is the j-th number of the i-th row *)
Theorem C49_csv_cells :
  forall header rows s m, (forall r, In r rows -> length r = m) ->
  match header with Some h => length h = m | None => rows <> [] end ->
  from_csv header rows = Ok s ->
  shape s = (length rows, m) /\
  map feat_name (s_features s) = match header with Some h => h | None => map default_name (seq 1 m) end /\
  forall i j, (i < length rows)%nat -> (j < m)%nat ->
    exists f, nth_error (s_features s) j = Some f /\ feat_index f i = Ok (nth j (nth i rows []) 0).
Proof. exact P_C49_csv_cells. Qed.
Print Assumptions C49_csv_cells.

(** every rectangular table can be read; a table with a row longer than the header panics *)
Theorem C49_csv_accepts :
  forall header rows m, (forall r, In r rows -> length r = m) ->
  match header with Some h => length h = m | None => rows <> [] end -> exists s, from_csv header rows = Ok s.
Proof. exact P_C49_csv_accepts. Qed.
Print Assumptions C49_csv_accepts.

(** a row that is too short is accepted silently and shifts the later rows of the missing columns: the file
    "a,b / 1 / 2,3" is read with b = 3 in its first row and row 1 cannot be read *)
Theorem C49_csv_short_row_refuted :
  forall a b : string, exists s, from_csv (Some [a; b]) [[1]; [2; 3]] = Ok s /\ fst (shape s) = 2%nat /\
    exists f, nth_error (s_features s) 1 = Some f /\ feat_index f 0 = Ok 3 /\ feat_index f 1 = Panic IndexOutOfBounds.
Proof. exact P_C49_csv_short_row_refuted. Qed.
Print Assumptions C49_csv_short_row_refuted.

(** SVMLight: the feature of index j is the column "Feat. [j+1]"; it reads x at row i if "j:x" is in line i and 0 if
    j does not occur in line i; a feature that never occurs is not a column *)
Theorem C49_svmlight_cells :
  forall lines, (forall l, In l lines -> NoDup (map fst (snd l))) ->
  let s := from_svmlight lines in
  fst (shape s) = length lines /\ s_target s = map fst lines /\
  forall j, match by_name s (default_name (S j)) with
            | Ok f => (exists l x, In l lines /\ In (j, x) (snd l)) /\
                forall i, (i < length lines)%nat ->
                (forall x, In (j, x) (snd (nth i lines (0, []))) -> feat_index f i = Ok x) /\
                ((forall x, ~ In (j, x) (snd (nth i lines (0, [])))) -> feat_index f i = Ok 0)
            | Panic _ => forall l x, In l lines -> ~ In (j, x) (snd l)
            end.
Proof. exact P_C49_svmlight_cells. Qed.
Print Assumptions C49_svmlight_cells.

(** set_target takes the first column of that name out of the features; every other column keeps its place *)
Theorem C49_set_target :
  forall s nm s', made s -> set_target s nm = Ok s' ->
  exists before c after, s_features s = before ++ c :: after /\ feat_name c = nm /\ (forall f, In f before -> feat_name f <> nm) /\
    s_features s' = before ++ after /\ shape s' = (fst (shape s), (snd (shape s) - 1)%nat) /\
    length (s_target s') = fst (shape s) /\
    forall i, (i < fst (shape s))%nat -> feat_index c i = Ok (nth i (s_target s') 0).
Proof. exact P_C49_set_target. Qed.
Print Assumptions C49_set_target.

(** replace_names panics exactly when the number of names is wrong; it changes the names and nothing else *)
Theorem C49_replace_names :
  forall s names, made s ->
  match replace_names s names with
  | Ok (s', old) => length names = snd (shape s) /\ map feat_name (s_features s') = names /\ old = map feat_name (s_features s) /\
      shape s' = shape s /\ s_target s' = s_target s /\
      forall i, (i < fst (shape s))%nat -> read_row (s_features s') i = read_row (s_features s) i
  | Panic _ => length names <> snd (shape s)
  end.
Proof. exact P_C49_replace_names. Qed.
Print Assumptions C49_replace_names.

Example C49_nonvacuous : exists s, from_csv None [[1; 5]; [2; 6]] = Ok s /\ made s.
Proof.
  destruct (P_C49_csv_accepts None [[1; 5]; [2; 6]] 2) as [s E].
  - intros r [<-|[<-|[]]]; reflexivity.
  - discriminate.
  - exists s. split; [exact E|]. apply (made_csv None [[1; 5]; [2; 6]] s); [intros r [<-|[<-|[]]]; reflexivity|discriminate|exact E].
Qed.

(** ** C40: splitting a sample *)

(** ** C40: for dense columns, the test half consists of the rows of the window, the train half of the other rows,
    each in the order of the permutation; every cell and target follows its row *)

Theorem C40_split_dense :
  forall s ix start end_, made s -> length (s_target s) = fst (shape s) -> NoDup (map feat_name (s_features s)) ->
  (forall f, In f (s_features s) -> is_sparse f = false) ->
  Permutation ix (seq 0 (fst (shape s))) -> (start <= end_ <= fst (shape s))%nat ->
  let n := fst (shape s) in let w := (end_ - start)%nat in
  exists train test, split_sample s ix start end_ = Ok (train, test) /\
    shape train = ((n - w)%nat, snd (shape s)) /\ shape test = (w, snd (shape s)) /\
    map feat_name (s_features train) = map feat_name (s_features s) /\ map feat_name (s_features test) = map feat_name (s_features s) /\
    (forall k, (k < w)%nat -> exists xy, at_ test k = Ok xy /\ at_ s (nth (start + k) ix 0%nat) = Ok xy) /\
    (forall k, (k < n - w)%nat -> exists xy, at_ train k = Ok xy /\ at_ s (nth (if Nat.ltb k start then k else (k + w)%nat) ix 0%nat) = Ok xy).
Proof. exact P_C40_split_dense. Qed.
Print Assumptions C40_split_dense.

(** for sparse columns the entries keep their position in the permutation instead of their row in the half: the
    k-th row of the test half reads the k-th row of the permutation if the window contains k, and zero otherwise *)
Theorem C40_split_sparse_refuted :
  forall s ix start end_ j nm e0 m, made s -> length (s_target s) = fst (shape s) -> NoDup (map feat_name (s_features s)) ->
  Permutation ix (seq 0 (fst (shape s))) -> (start <= end_ <= fst (shape s))%nat ->
  nth_error (s_features s) j = Some (Sparse nm e0 m) ->
  exists train test f g, split_sample s ix start end_ = Ok (train, test) /\
    nth_error (s_features test) j = Some f /\ nth_error (s_features train) j = Some g /\
    (forall k, feat_index f k = if andb (Nat.leb start k) (Nat.ltb k end_) then feat_index (Sparse nm e0 m) (nth k ix 0%nat) else Ok 0) /\
    (forall k, (k < start)%nat -> feat_index g k = feat_index (Sparse nm e0 m) (nth k ix 0%nat)) /\
    (forall k, (start <= k < end_)%nat -> feat_index g k = Ok 0).
Proof. exact P_C40_split_sparse_refuted. Qed.
Print Assumptions C40_split_sparse_refuted.

(** split panics exactly when the window is not inside the sample (for a sample that can be split at all) *)
Theorem C40_split_window_partial :
  forall s ix start end_, (end_ < start)%nat -> split_sample s ix start end_ = Panic Arith.
Proof. exact P_C40_split_window_partial. Qed.
Print Assumptions C40_split_window_partial.

(** ** C49: the dummy sample: n examples, one (empty) feature, the first n/2 labels are 1 and the others are -1 *)

Theorem C49_dummy :
  forall n, shape (sample_dummy n) = (n, 1%nat) /\ length (s_target (sample_dummy n)) = n /\ length (s_features (sample_dummy n)) = 1%nat /\
    forall i, (i < n)%nat -> nth i (s_target (sample_dummy n)) 0 = if Nat.ltb i (n / 2) then 1 else -1.
Proof. exact P_C49_dummy. Qed.
Print Assumptions C49_dummy.

(** The check every booster starts with ("the target class is not specified"): it accepts a sample read from an SVMLight
    file, accepts a sample whose target column has been chosen, and stops the program on a CSV file (with at least
    one row) whose target column has not been chosen. *)
Theorem C49_target_check :
  forall s, made s ->
  (forall nm s', set_target s nm = Ok s' -> target_is_specified s' = Ok tt) /\
  (forall header rows m, (forall r, In r rows -> length r = m) -> match header with Some h => length h = m | None => rows <> [] end ->
     from_csv header rows = Ok s -> rows <> [] -> target_is_specified s = Panic AssertFailed) /\
  (forall lines, (forall l, In l lines -> NoDup (map fst (snd l))) -> target_is_specified (from_svmlight lines) = Ok tt) /\
  (target_is_specified s = Ok tt -> forall i, (i < fst (shape s))%nat -> exists xs, at_ s i = Ok (xs, nth i (s_target s) 0)).
Proof. exact P_C49_target_check. Qed.
Print Assumptions C49_target_check.
