(** Specification vocabulary for the naive Bayes learner. *)
From Verif Require Import Base.
Open Scope R_scope.

(** the density of the normal distribution with mean m and variance v *)
Definition normal_density (m v x : R) : R := exp (- (x - m) ^ 2 / (2 * v)) / sqrt (2 * PI * v).

(** the naive Bayes density: the product over the features *)
Fixpoint naive_density (ms vs xs : list R) : R :=
  match ms, vs, xs with
  | m :: ms', v :: vs', x :: xs' => normal_density m v x * naive_density ms' vs' xs'
  | _, _, _ => 1
  end.

(** weighted statistics of a column over the examples with label y *)
Definition class_weight (y : R) (target w : list R) : R :=
  rsum (map (fun i => if Req_EM_T (nth i target 0) y then nth i w 0 else 0) (seq 0 (length target))).
Definition class_mean (y : R) (target w col : list R) : R :=
  rsum (map (fun i => if Req_EM_T (nth i target 0) y then nth i w 0 * nth i col 0 else 0) (seq 0 (length target))) / class_weight y target w.
Definition class_variance (y : R) (target w col : list R) : R :=
  rsum (map (fun i => if Req_EM_T (nth i target 0) y then nth i w 0 * (nth i col 0 - class_mean y target w col) ^ 2 else 0) (seq 0 (length target))) / class_weight y target w.

(** weighted statistics of a whole column, for weights that sum to one *)
Definition column_mean (w col : list R) : R := rsum (map (fun i => nth i w 0 * nth i col 0) (seq 0 (length w))).
Definition column_variance (w col : list R) : R := rsum (map (fun i => nth i w 0 * (nth i col 0 - column_mean w col) ^ 2) (seq 0 (length w))).
