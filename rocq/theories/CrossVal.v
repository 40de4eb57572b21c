(** Model of src/research/cross_validation.rs.  Printing (verbose) is not modelled; the pseudo-random shuffle is an
    arbitrary permutation, so the seed plays no role. *)
From Verif Require Import Base Feature Sample AdaBoost.
Open Scope R_scope.

(** cross_validation.rs:60-68 *)
Record cv := mkCV {
  cv_train_size : nat;
  cv_current_fold : nat;
  cv_n_folds : nat;
  cv_sample : sample;
  cv_ix : list nat;
}.

(** lines 74-87 [new]; the cast (n as f64 * 0.8) as usize is the floor, on exact reals *)
Definition cv_new (s : sample) : cv :=
  mkCV (as_usize (INR (fst (shape s)) * 0.8)) 0 5 s (seq 0 (fst (shape s))).

(** lines 93-101 [train_ratio] *)
Definition cv_train_ratio (c : cv) (ratio : R) : res cv :=
  let* _ := assert_ (andb (Rltb 0 ratio) (Rltb ratio 1)) in
  Ok (mkCV (as_usize (ratio * INR (fst (shape (cv_sample c))))) (cv_current_fold c) (cv_n_folds c) (cv_sample c) (cv_ix c)).

(** lines 107-110 [n_folds] *)
Definition cv_set_n_folds (c : cv) (k : nat) : cv := mkCV (cv_train_size c) (cv_current_fold c) k (cv_sample c) (cv_ix c).

(** lines 136-140 [shuffle]: [shuffled] is the outcome of SliceRandom::shuffle *)
Definition cv_shuffle (c : cv) (shuffled : list nat) : cv :=
  mkCV (cv_train_size c) (cv_current_fold c) (cv_n_folds c) (cv_sample c) shuffled.

(** lines 146-151 [fold_at] *)
Definition fold_at (c : cv) (i : nat) : res (sample * sample) :=
  let sample_size := fst (shape (cv_sample c)) in
  if Nat.ltb sample_size (cv_train_size c) then Panic Arith else
  let test_size := (sample_size - cv_train_size c)%nat in
  split_sample (cv_sample c) (cv_ix c) (i * test_size) (Nat.min ((i + 1) * test_size) sample_size).

(** lines 157-175 [next] *)
Definition cv_next (c : cv) : res (option (sample * sample) * cv) :=
  if Nat.leb (cv_n_folds c) (cv_current_fold c) then Ok (None, c) else
  let* output := fold_at c (cv_current_fold c) in
  Ok (Some output, mkCV (cv_train_size c) (cv_current_fold c + 1) (cv_n_folds c) (cv_sample c) (cv_ix c)).

(** for (train, test) in cv { .. }: calls next until it returns None ([fuel] calls that return Some are enough) *)
Fixpoint cv_for (fuel : nat) (c : cv) : res (list (sample * sample)) :=
  let* r := cv_next c in
  match fst r with
  | None => Ok []
  | Some p => match fuel with
              | O => Ok []
              | S f => let* rest := cv_for f (snd r) in Ok (p :: rest)
              end
  end.
Definition cv_folds (c : cv) : res (list (sample * sample)) := cv_for (cv_n_folds c - cv_current_fold c) c.

(** every way a caller can configure a cross validation of [s] *)
Inductive configured (s : sample) : cv -> Prop :=
| conf_new : configured s (cv_new s)
| conf_ratio c r c' : configured s c -> cv_train_ratio c r = Ok c' -> configured s c'
| conf_folds c k : configured s c -> configured s (cv_set_n_folds c k)
| conf_shuffle c ix : configured s c -> Permutation ix (cv_ix c) -> configured s (cv_shuffle c ix).
