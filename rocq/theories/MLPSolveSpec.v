(** What MLPBoost needs of the answers of its LP solver (C65). *)
From Verif Require Import Base Spec ConicSpec Csc LPBoost.
Open Scope R_scope.

(** an answer for n examples and T hypotheses: one number per variable (the edge bound and the n example weights), one
    multiplier per constraint (the sum, n sign, n cap and T edge constraints, in this order), and the
    multipliers of the edge constraints - the hypothesis weights MLPBoost reads - form a distribution.  Nothing is asked
    about the optimality of the answer. *)
Definition usable_answer (n T : nat) (a : answer) : Prop :=
  length (a_x a) = (n + 1)%nat /\ length (a_z a) = (2 * n + 1 + T)%nat /\ is_dist (skipn (2 * n + 1) (a_z a)).
