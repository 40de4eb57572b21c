(** Model of src/sample/feature_struct.rs. *)
From Verif Require Import Base Utils SortLib BinSearch.
From Coq Require String.
Notation string := String.string.
Open Scope R_scope.

(** feature_struct.rs:12-40.  [Sparse name entries n_sample] *)
Inductive feature :=
| Dense (name : string) (vals : list R)
| Sparse (name : string) (entries : list (nat * R)) (n_sample : nat).

(** lines 45-53 *)
Definition new_dense (name : string) : feature := Dense name [].
Definition new_sparse (name : string) : feature := Sparse name [] 0.

(** lines 56-61 *)
Definition is_sparse (f : feature) : bool := match f with Dense _ _ => false | Sparse _ _ _ => true end.

(** lines 69-76 *)
Definition set_n_sample (f : feature) (n : nat) : feature :=
  match f with Dense _ _ => f | Sparse nm e _ => Sparse nm e n end.

(** lines 79-84 (264-266, 361-363) *)
Definition feat_append (f : feature) (i : nat) (x : R) : feature :=
  match f with Dense nm v => Dense nm (v ++ [x]) | Sparse nm e n => Sparse nm (e ++ [(i, x)]) n end.

(** lines 88-93, 96-103 *)
Definition feat_name (f : feature) : string := match f with Dense nm _ => nm | Sparse nm _ _ => nm end.
Definition replace_name (f : feature) (nm : string) : feature :=
  match f with Dense _ v => Dense nm v | Sparse _ e n => Sparse nm e n end.

(** lines 115-129: the number of stored items *)
Definition feat_len (f : feature) : nat := match f with Dense _ v => length v | Sparse _ e _ => length e end.
Definition feat_is_empty (f : feature) : bool := Nat.eqb (feat_len f) 0.

(** lines 385-395 [SparseFeature::into_target]: target[i] = x panics out of range *)
Fixpoint scatter (l : list (nat * R)) (t : list R) : res (list R) :=
  match l with
  | [] => Ok t
  | (i, x) :: r => if Nat.ltb i (length t) then scatter r (upd i x t) else Panic IndexOutOfBounds
  end.

(** lines 106-111 [into_target] *)
Definition into_target (f : feature) : res (list R) :=
  match f with Dense _ v => Ok v | Sparse _ e n => scatter e (repeat 0 n) end.

(** lines 556-565 [SparseFeature::index]: binary search, 0.0 if absent *)
Definition sparse_index (e : list (nat * R)) (idx : nat) : R :=
  match binary_search (fun k => Nat.compare (fst (nth k e (0%nat, 0))) idx) (length e) with
  | Found pos => snd (nth pos e (0%nat, 0))
  | Missing _ => 0
  end.

(** lines 515-523, 548-553 [index]; the dense one panics out of range *)
Definition feat_index (f : feature) (idx : nat) : res R :=
  match f with
  | Dense _ v => match nth_error v idx with Some x => Ok x | None => Panic IndexOutOfBounds end
  | Sparse _ e _ => Ok (sparse_index e idx)
  end.

(** lines 405-413 [has_zero], [zero_counts] *)
Definition has_zero (e : list (nat * R)) (n : nat) : bool := Nat.ltb (length e) n.
Definition zero_counts (e : list (nat * R)) (n : nat) : res nat := if Nat.ltb n (length e) then Panic Arith else Ok (n - length e)%nat.

(** lines 528-545 [inner_distinct_value_count] *)
Fixpoint distinct_scan (value : R) (l : list R) : nat :=
  match l with
  | [] => 0
  | v :: t => if Reqb v value then distinct_scan value t else S (distinct_scan v t)
  end.
Definition inner_distinct_value_count (src : list R) : nat :=
  match isort Rleb src with
  | [] => 0
  | v :: t => S (distinct_scan v t)
  end.

(** lines 132-137, 281-284, 422-433 [distinct_value_count] *)
Definition distinct_value_count (f : feature) : nat :=
  match f with
  | Dense _ v => inner_distinct_value_count v
  | Sparse _ e n => (inner_distinct_value_count (map snd e) + (if has_zero e n then 1 else 0))%nat
  end.

(** weight[i], weight[a..b], weight[a..] *)
Definition get_ (w : list R) (i : nat) : res R := match nth_error w i with Some x => Ok x | None => Panic IndexOutOfBounds end.
Definition slice_ (w : list R) (a b : nat) : res (list R) :=
  if andb (Nat.leb a b) (Nat.leb b (length w)) then Ok (firstn (b - a) (skipn a w)) else Panic IndexOutOfBounds.

(** lines 287-292 and 436-440 [weighted_mean] *)
Definition dense_weighted_mean (v w : list R) : R := rsum (map (fun q => fst q * snd q) (combine v w)).
Fixpoint sparse_weighted_mean (e : list (nat * R)) (w : list R) : res R :=
  match e with
  | [] => Ok 0
  | (i, f) :: t => let* wi := get_ w i in let* r := sparse_weighted_mean t w in Ok (wi * f + r)
  end.

(** lines 295-302 and 462-482 [weighted_variance] *)
Definition dense_weighted_variance (mean : R) (v w : list R) : R := rsum (map (fun q => snd q * (fst q - mean) ^ 2) (combine v w)).
Fixpoint sparse_variance_loop (use : nat -> bool) (mean : R) (w : list R) (e : list (nat * R)) (variance zero_weight : R) (prev : nat) : res R :=
  match e with
  | [] => let* tail := slice_ w prev (length w) in Ok (variance + (zero_weight + rsum tail) * mean ^ 2)
  | (i, f) :: t =>
      let* gap := slice_ w prev i in
      let* wi := get_ w i in
      sparse_variance_loop use mean w t (if use i then variance + wi * (f - mean) ^ 2 else variance) (zero_weight + rsum gap) (i + 1)
  end.
Definition sparse_weighted_variance (mean : R) (e : list (nat * R)) (w : list R) : res R :=
  sparse_variance_loop (fun _ => true) mean w e 0 0 0.

(** lines 141-152 [Feature::weighted_mean] *)
Definition weighted_mean (f : feature) (w : list R) : res R :=
  let* _ := check_capped_simplex_condition w 1 in
  match f with Dense _ v => Ok (dense_weighted_mean v w) | Sparse _ e _ => sparse_weighted_mean e w end.

(** lines 155-168 [weighted_mean_and_variance] *)
Definition weighted_mean_and_variance (f : feature) (w : list R) : res (R * R) :=
  let* mean := weighted_mean f w in
  let* var := match f with Dense _ v => Ok (dense_weighted_variance mean v w) | Sparse _ e _ => sparse_weighted_variance mean e w end in
  Ok (mean, var).

(** utils.rs:318-329 [total_weight_for_label] *)
Definition total_weight_for_label (y : R) (target w : list R) : R :=
  rsum (map snd (filter (fun q => Reqb (fst q) y) (combine target w))).

(** lines 8, 314-315: MINIMAL_WEIGHT_SUM *)
Definition minimal_weight_sum : R := / 10 ^ 100.
Definition label_total (y : R) (target w : list R) : R :=
  let tw := total_weight_for_label y target w in if Reqb tw 0 then minimal_weight_sum else tw.

(** lines 307-322 and 443-459 [weighted_mean_for_label]; the sparse one zips its entries with the targets by position *)
Definition dense_mean_for_label (y : R) (v target w : list R) : R :=
  rsum (map (fun q => let '((f, t), wi) := q in if Reqb t y then f * wi else 0) (combine (combine v target) w)) / label_total y target w.
Fixpoint sparse_mean_loop (y : R) (l : list ((nat * R) * R)) (w : list R) : res R :=
  match l with
  | [] => Ok 0
  | ((i, f), t) :: r =>
      let* x := (if Reqb t y then Ok 0 else let* wi := get_ w i in Ok (wi * f)) in
      let* s := sparse_mean_loop y r w in Ok (x + s)
  end.
Definition sparse_mean_for_label (y : R) (e : list (nat * R)) (target w : list R) : res R :=
  let* s := sparse_mean_loop y (combine e target) w in Ok (s / label_total y target w).

(** lines 327-345 and 485-511 [weighted_variance_for_label]; target[i] panics out of range *)
Definition dense_variance_for_label (mean y : R) (v target w : list R) : R :=
  rsum (map (fun q => let '((f, t), wi) := q in if Reqb t y then wi * (f - mean) ^ 2 else 0) (combine (combine v target) w)) / label_total y target w.
Definition sparse_variance_for_label (mean y : R) (e : list (nat * R)) (target w : list R) : res R :=
  if forallb (fun p => Nat.ltb (fst p) (length target)) e then
    let* s := sparse_variance_loop (fun i => Reqb (nth i target 0) y) mean w e 0 0 0 in Ok (s / label_total y target w)
  else Panic IndexOutOfBounds.

(** lines 172-188, 193-211 *)
Definition weighted_mean_for_label (f : feature) (y : R) (target w : list R) : res R :=
  match f with Dense _ v => Ok (dense_mean_for_label y v target w) | Sparse _ e _ => sparse_mean_for_label y e target w end.
Definition weighted_mean_and_variance_for_label (f : feature) (y : R) (target w : list R) : res (R * R) :=
  let* mean := weighted_mean_for_label f y target w in
  let* var := match f with
              | Dense _ v => Ok (dense_variance_for_label mean y v target w)
              | Sparse _ e _ => sparse_variance_for_label mean y e target w
              end in
  Ok (mean, var).
