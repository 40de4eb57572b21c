(** Specification vocabulary for losses and gradient boosting (C30-C32, C54). *)
From Verif Require Import Base Spec.
Open Scope R_scope.

(** total absolute / squared error of scaling the predictions by c *)
Definition abs_error (y p : list R) (c : R) : R :=
  rsum (map (fun i => Rabs (nth i y 0 - c * nth i p 0)) (seq 0 (length y))).
Definition sq_error (y p : list R) (c : R) : R :=
  rsum (map (fun i => (nth i y 0 - c * nth i p 0) ^ 2) (seq 0 (length y))).

(** c minimises f over the reals *)
Definition minimiser (f : R -> R) (c : R) : Prop := forall c', f c <= f c'.

(** [cs] are the coefficients chosen by [best] for the hypotheses [hs] on the targets [y], and none is zero *)
Definition chosen {H} (best : list R -> list R -> R -> Prop) (pred : H -> nat -> R) (y : list R) (cs : list R) (hs : list H) : Prop :=
  Forall2 (fun c h => best y (map (pred h) (seq 0 (length y))) c /\ c <> 0) cs hs.

(** the ensemble sum_j c_j h_j on the training rows *)
Definition fitted {H} (pred : H -> nat -> R) (y : list R) (cs : list R) (hs : list H) : list R :=
  map (vote pred (combine cs hs)) (seq 0 (length y)).
