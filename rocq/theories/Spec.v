(** Specification vocabulary, independent of the models: what a user would write on paper. *)
From Verif Require Import Base.
Open Scope R_scope.

(** [d] is a probability distribution on n = length d examples. *)
Definition is_dist (d : list R) : Prop :=
  (forall x, In x d -> 0 <= x) /\ rsum d = 1.

(** all entries strictly positive *)
Definition is_pos_dist (d : list R) : Prop :=
  (forall x, In x d -> 0 < x) /\ rsum d = 1.

(** Point of the probability simplex capped by 1/nu. *)
Definition in_capped_simplex (nu : R) (d : list R) : Prop :=
  (forall x, In x d -> 0 <= x <= 1 / nu) /\ rsum d = 1.

(** x ln x with 0 ln 0 = 0. *)
Definition xlnx (x : R) : R := if Req_EM_T x 0 then 0 else x * ln x.

(** Relative entropy of [d] to the un-normalised weights exp(x_i): sum_i d_i ln d_i - d_i x_i. *)
Definition kl_to_exp (d x : list R) : R :=
  rsum (map (fun i => xlnx (nth i d 0) - nth i d 0 * nth i x 0) (seq 0 (length d))).

(** +-1 labels *)
Definition pm1 (y : R) : Prop := y = 1 \/ y = -1.

(** Margins of a real-valued function on the rows of a sample with targets [y]. *)
Definition margins_of (y : list R) (f : nat -> R) : list R :=
  map (fun i => nth i y 0 * f i) (seq 0 (length y)).

(** Edge of f under d: sum_i d_i y_i f(x_i). *)
Definition edge_of (y : list R) (d : list R) (f : nat -> R) : R :=
  rsum (map (fun i => nth i d 0 * (nth i y 0 * f i)) (seq 0 (length y))).

(** Weighted sum of a list of (weight, hypothesis) pairs at row i. *)
Definition vote {H} (conf : H -> nat -> R) (wh : list (R * H)) (i : nat) : R :=
  rsum (map (fun p => fst p * conf (snd p) i) wh).

(** Label given to a real score by thresholding at zero (score >= 0 is +1). *)
Definition sign_label (s : R) : R := if Rle_dec 0 s then 1 else -1.

(** Number of training examples on which the labelling [f] is wrong. *)
Fixpoint count {A} (P : A -> bool) (l : list A) : nat :=
  match l with [] => O | a :: t => if P a then S (count P t) else count P t end.

Definition n_errors (y : list R) (f : nat -> R) : nat :=
  count (fun i => negb (if Req_EM_T (f i) (nth i y 0) then true else false)) (seq 0 (length y)).

Definition rprod (l : list R) : R := fold_right Rmult 1 l.

(** [m] is the least element of the set of values of [f] on the points satisfying [P]. *)
Definition is_min_of {A} (P : A -> Prop) (f : A -> R) (m : R) : Prop :=
  (exists a, P a /\ f a = m) /\ (forall a, P a -> m <= f a).

Definition is_max_of {A} (P : A -> Prop) (f : A -> R) (m : R) : Prop :=
  (exists a, P a /\ f a = m) /\ (forall a, P a -> f a <= m).

(** ** Reading an execution off its trace.
    [tr] is the list of distributions shown to the weak learner; [produce t d] its answer in round t. *)
Definition answers {H} (produce : nat -> list R -> H) (tr : list (list R)) : list H :=
  map (fun p => produce (fst p) (snd p)) (combine (seq 1 (length tr)) tr).

(** the edge of the answer of every round under the distribution of that round *)
Definition edges {H} (conf : H -> nat -> R) (produce : nat -> list R -> H) (y : list R) (tr : list (list R))
  : list R :=
  map (fun p => edge_of y (snd p) (conf (produce (fst p) (snd p)))) (combine (seq 1 (length tr)) tr).

(** [ix] lists the positions of [x] in a descending order of value (ties broken in any way). *)
Definition desc (x : list R) (i j : nat) : Prop := nth j x 0 <= nth i x 0.
Definition sorted_perm (x : list R) (ix : list nat) : Prop :=
  Permutation ix (seq 0 (length x)) /\ StronglySorted (desc x) ix.
