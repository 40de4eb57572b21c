(** Facts about feature columns: C39. *)
From Verif Require Import Base Utils SortLib Spec SampleSpec BinSearch Feature UtilsProofs FeatureFacts.
Open Scope R_scope.


(** ** C39: a sparse column reads like the dense column it represents.
    [col] is the dense column; the sparse entries are stored by increasing row *)

Theorem C39_sparse_reads_like_dense :
  forall nm nm' n e col, increasing_rows e -> represents n e col ->
  (forall i, (i < n)%nat -> feat_index (Sparse nm e n) i = feat_index (Dense nm' col) i /\ feat_index (Dense nm' col) i = Ok (nth i col 0)) /\
  into_target (Sparse nm e n) = Ok col /\
  (forall w, length w = n -> weighted_mean_and_variance (Sparse nm e n) w = weighted_mean_and_variance (Dense nm' col) w).
Proof. exact P_C39_sparse_reads_like_dense. Qed.
Print Assumptions C39_sparse_reads_like_dense.

(** the number of distinct values agrees if no zero is stored explicitly *)
Theorem C39_distinct_values_partial :
  forall nm nm' n e col, increasing_rows e -> represents n e col -> (forall i x, In (i, x) e -> x <> 0) ->
  distinct_value_count (Sparse nm e n) = distinct_value_count (Dense nm' col) /\
  distinct_count col (distinct_value_count (Dense nm' col)).
Proof. exact P_C39_distinct_values_partial. Qed.
Print Assumptions C39_distinct_values_partial.

(** an explicitly stored zero is counted twice *)
Theorem C39_distinct_values_refuted :
  exists n e col, increasing_rows e /\ represents n e col /\
  forall nm nm', distinct_value_count (Sparse nm e n) = 2%nat /\ distinct_value_count (Dense nm' col) = 1%nat.
Proof. exact P_C39_distinct_values_refuted. Qed.
Print Assumptions C39_distinct_values_refuted.

(** the number of zero rows of a sparse column that stores no zeros, and whether it has any *)
Theorem C39_zero_rows_partial :
  forall n e col, increasing_rows e -> represents n e col -> (forall i x, In (i, x) e -> x <> 0) ->
  (exists zeros, zero_counts e n = Ok (length zeros) /\ NoDup zeros /\ forall i, In i zeros <-> (i < n)%nat /\ nth i col 0 = 0) /\
  (has_zero e n = true <-> exists i, (i < n)%nat /\ nth i col 0 = 0).
Proof. exact P_C39_zero_rows_partial. Qed.
Print Assumptions C39_zero_rows_partial.

(** per-label statistics of a dense column *)
Theorem C39_dense_label_statistics :
  forall nm y col target w, length col = length w -> length target = length w ->
  let sel i (x : R) := if Reqb (nth i target 0) y then x else 0 in
  let total := rsum (map (fun i => sel i (nth i w 0)) (seq 0 (length w))) in
  total <> 0 ->
  exists mean var, weighted_mean_and_variance_for_label (Dense nm col) y target w = Ok (mean, var) /\
    mean = rsum (map (fun i => sel i (nth i w 0 * nth i col 0)) (seq 0 (length w))) / total /\
    var = rsum (map (fun i => sel i (nth i w 0 * (nth i col 0 - mean) ^ 2)) (seq 0 (length w))) / total.
Proof. exact P_C39_dense_label_statistics. Qed.
Print Assumptions C39_dense_label_statistics.

(** per-label statistics of a sparse column are wrong: the mean adds up the rows of the other labels *)
Theorem C39_sparse_label_mean_refuted :
  exists n e col y target w, increasing_rows e /\ represents n e col /\ length target = n /\ length w = n /\ is_dist w /\
  forall nm nm', weighted_mean_for_label (Sparse nm e n) y target w = Ok 0 /\ weighted_mean_for_label (Dense nm' col) y target w = Ok 2.
Proof. exact P_C39_sparse_label_mean_refuted. Qed.
Print Assumptions C39_sparse_label_mean_refuted.

(** ... and the variance counts the zero rows of all labels: rows (0, 0, 2) with labels (1, -1, 1), label 1 *)
Theorem C39_sparse_label_variance_refuted :
  exists n e col y target w mean, increasing_rows e /\ represents n e col /\ length target = n /\ length w = n /\ is_dist w /\
  exists v, sparse_variance_for_label mean y e target w = Ok v /\ v <> dense_variance_for_label mean y col target w.
Proof. exact P_C39_sparse_label_variance_refuted. Qed.
Print Assumptions C39_sparse_label_variance_refuted.

(** what the per-label mean of a sparse column is, for every sparse column: the k-th stored entry is given the label of row k (not of its own row), the entries
    whose label is [y] are left out and the others added up; only the divisor is the weight of label [y] *)
Theorem C39_sparse_label_mean_partial :
  forall nm n e col y target w, increasing_rows e -> represents n e col -> length target = n -> length w = n ->
  let total := rsum (map (fun i => if Reqb (nth i target 0) y then nth i w 0 else 0) (seq 0 n)) in total <> 0 ->
  weighted_mean_for_label (Sparse nm e n) y target w =
  Ok (rsum (map (fun k => if Reqb (nth k target 0) y then 0 else nth (fst (nth k e (0%nat, 0))) w 0 * snd (nth k e (0%nat, 0))) (seq 0 (length e))) / total).
Proof. exact P_C39_sparse_label_mean_partial. Qed.
Print Assumptions C39_sparse_label_mean_partial.

(** what the per-label variance of a sparse column is, for every sparse column: the rows that are not stored count whatever their label; so it is the variance of
    the dense column whenever every row that is not stored has the label *)
Theorem C39_sparse_label_variance_partial :
  forall n e col y target w mean, increasing_rows e -> represents n e col -> length target = n -> length w = n ->
  let stored i := existsb (fun p => Nat.eqb (fst p) i) e in let total := rsum (map (fun i => if Reqb (nth i target 0) y then nth i w 0 else 0) (seq 0 n)) in total <> 0 ->
  sparse_variance_for_label mean y e target w =
    Ok (rsum (map (fun i => if orb (negb (stored i)) (Reqb (nth i target 0) y) then nth i w 0 * (nth i col 0 - mean) ^ 2 else 0) (seq 0 n)) / total) /\
  ((forall i, (i < n)%nat -> stored i = false -> nth i target 0 = y) -> sparse_variance_for_label mean y e target w = Ok (dense_variance_for_label mean y col target w)).
Proof. exact P_C39_sparse_label_variance_partial. Qed.
Print Assumptions C39_sparse_label_variance_partial.

Example C39_nonvacuous : increasing_rows [(1%nat, 5); (3%nat, 2)] /\ represents 4 [(1%nat, 5); (3%nat, 2)] [0; 5; 0; 2].
Proof.
  split; [repeat constructor|]. split; [reflexivity|]. split.
  - intros i x [H|[H|[]]]; inversion H; subst; split; try lia; reflexivity.
  - intros [|[|[|[|i]]]] Hi Hno; try reflexivity; [exfalso; apply (Hno 5); left; reflexivity|exfalso; apply (Hno 2); right; left; reflexivity|lia].
Qed.
