(** Specification vocabulary: answers of a solver that works to a finite accuracy (C72). *)
From Verif Require Import Base Csc ConicSpec.
Open Scope R_scope.

(** an answer with residuals at most [eps]: constraints, stationarity, duality gap and the reported objective are all met
    up to [eps], and the multipliers of the inequalities are nonnegative (an interior point solver keeps them positive) *)
Definition nearly_solves (eps : R) (p : conic) (a : answer) : Prop :=
  length (a_x a) = length (k_q p) /\ length (a_z a) = length (k_b p) /\
  (forall r, (r < length (k_b p))%nat ->
     if nth r (senses (k_cones p)) false then Rabs (slack p (a_x a) r) <= eps
     else - eps <= slack p (a_x a) r /\ 0 <= nth r (a_z a) 0) /\
  (forall c, (c < length (k_q p))%nat -> Rabs (row_dot (k_P p) (a_x a) c + nth c (k_q p) 0 + col_dot (k_A p) (a_z a) c) <= eps) /\
  Rabs (rsum (map (fun c => row_dot (k_P p) (a_x a) c * nth c (a_x a) 0) (seq 0 (length (k_q p))))
        + rsum (map (fun c => nth c (k_q p) 0 * nth c (a_x a) 0) (seq 0 (length (k_q p))))
        + rsum (map (fun r => nth r (k_b p) 0 * nth r (a_z a) 0) (seq 0 (length (k_b p))))) <= eps /\
  Rabs (a_obj a - objective p (a_x a)) <= eps.
