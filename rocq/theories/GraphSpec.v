(** Specification vocabulary for graph separation boosting and naive aggregation (C19-C21, C53). *)
From Verif Require Import Base Spec.
Open Scope R_scope.

(** the label a hypothesis gives to an instance: the sign of its confidence *)
Definition label {H X} (conf : H -> X -> R) (h : H) (x : X) : R := sign_label (conf h x).

(** the vector of labels given by all hypotheses *)
Definition pattern {H X} (conf : H -> X -> R) (hs : list H) (x : X) : list R := map (fun h => label conf h x) hs.

(** training examples i, j have different targets, and no hypothesis of [hs] tells them apart *)
Definition unseparated {H X} (conf : H -> X -> R) (row : nat -> X) (y : list R) (hs : list H) (i j : nat) : Prop :=
  nth i y 0 <> nth j y 0 /\ pattern conf hs (row i) = pattern conf hs (row j).

(** number of ordered pairs (i, j) of training examples satisfying P *)
Definition n_pairs (n : nat) (P : nat -> nat -> bool) : nat := list_sum (map (fun i => count (P i) (seq 0 n)) (seq 0 n)).

(** [k] is the number of (ordered) unseparated pairs *)
Definition count_unseparated {H X} (conf : H -> X -> R) row y (hs : list H) (k : nat) : Prop :=
  exists P, (forall i j, P i j = true <-> unseparated conf row y hs i j) /\ k = n_pairs (length y) P.
