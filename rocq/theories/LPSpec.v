(** Specification vocabulary: the documented linear programs of the soft-margin boosters. *)
From Verif Require Import Base Spec RegSpec.
Open Scope R_scope.

(** the constraints of the soft margin program (lpboost/lp_model.rs:15-19, erlpboost papers): margins at least
    rho - xi_i, weights a probability vector, slacks nonnegative *)
Definition soft_constraints {H} (conf : H -> nat -> R) (y : list R) (hs : list H) (rho : R) (xi ws : list R) : Prop :=
  length xi = length y /\ length ws = length hs /\
  (forall i, (i < length y)%nat -> rho - nth i xi 0 <= nth i y 0 * vote conf (combine ws hs) i) /\
  is_dist ws /\ (forall v, In v xi -> 0 <= v).

(** its documented objective, to be maximised (lpboost/lp_model.rs:15) *)
Definition soft_value (nu rho : R) (xi : list R) : R := rho - 1 / nu * rsum xi.

(** the constraints of the edge minimisation program (erlpboost/qp_model.rs:22-25, softboost/qp_model.rs:22-25,
    mlpboost/perturbed_lp_model.rs:24-27): d a capped distribution, every edge at most g *)
Definition edge_constraints {H} (conf : H -> nat -> R) (nu : R) (y : list R) (hs : list H) (g : R) (d : list R) : Prop :=
  capped nu y d /\ (forall h, In h hs -> edge_of y d (conf h) <= g).

(** the documented second-order approximation, at the point q, of gamma + 1/eta sum d ln d
    (erlpboost/qp_model.rs:36) *)
Definition sqp_objective (eta : R) (q : list R) (g : R) (d : list R) : R :=
  g + 1 / eta * rsum (map (fun i => 1 / (2 * nth i q 0) * nth i d 0 ^ 2 + ln (nth i q 0) * nth i d 0) (seq 0 (length q))).
