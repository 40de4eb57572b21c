(** Specification vocabulary for SmoothBoost (C16-C18, C52). *)
From Verif Require Import Base Spec.
Open Scope R_scope.

(** a positive distribution no entry of which exceeds 1/(kappa n) *)
Definition smooth_dist (kappa : R) (n : nat) (d : list R) : Prop :=
  length d = n /\ is_pos_dist d /\ forall x, In x d -> x <= 1 / (kappa * INR n).

(** the error of h under d as in the documentation of [SmoothBoost::gamma]: 1/2 sum_i d_i |h(x_i) - y_i| *)
Definition half_error (y d : list R) (h : nat -> R) : R :=
  1 / 2 * rsum (map (fun i => nth i d 0 * Rabs (h i - nth i y 0)) (seq 0 (length y))).

(** y_i times the un-normalised vote of the hypotheses [hs] on example i *)
Definition margin_sum {H} (conf : H -> nat -> R) (y : list R) (hs : list H) (i : nat) : R :=
  nth i y 0 * rsum (map (fun h => conf h i) hs).

(** number of examples whose value [m i] is at most [b] *)
Definition n_at_most (n : nat) (m : nat -> R) (b : R) : R :=
  INR (count (fun i => if Rle_dec (m i) b then true else false) (seq 0 n)).
