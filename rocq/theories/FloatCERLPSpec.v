(** Vocabulary for CERLPBoost in binary64 arithmetic *)
From Coq Require Import ZArith List Bool Reals.
From Flocq Require Import Core.Core IEEE754.BinarySingleNaN.
From Verif Require Import Base Float FloatSpec FloatFW FloatCERLP.
Import ListNotations.
Open Scope R_scope.

(** labels plus or minus one *)
Definition signed_labels (ys : list f64) : Prop := ys <> [] /\ forall y, In y ys -> finite_num y /\ (val y = 1 \/ val y = -1).
(** hypotheses with confidences in [-1,1] *)
Definition bounded_confidences {H} (conf : H -> nat -> f64) : Prop := forall h i, finite_num (conf h i) /\ Rabs (val (conf h i)) <= 1.

(** the exact edge of a hypothesis under a computed distribution: the sum of d_i y_i h(x_i) *)
Definition true_edge {H} (conf : H -> nat -> f64) (ys dist : list f64) (h : H) : R :=
  rsum (map (fun i => val (nth i dist f0) * (val (nth i ys f0) * val (conf h i))) (seq 0 (length ys))).
(** the margin of example [i] under the vote with the computed weights, normalised by their sum *)
Definition vote_margin {H} (conf : H -> nat -> f64) (ys ws : list f64) (hs : list H) (i : nat) : R :=
  val (nth i ys f0) * (rsum (map (fun p => val (fst p) * val (conf (snd p) i)) (combine ws hs)) / total ws).
(** a computed distribution over [n] examples: finite entries in [0,1] that sum to one but for 2^-17 *)
Definition near_distribution (n : nat) (d : list f64) : Prop :=
  length d = n /\ (forall x, In x d -> finite_num x /\ 0 <= val x <= 1) /\ Rabs (total d - 1) <= / 2 ^ 17.
