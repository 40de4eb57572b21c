(** The noise stream of the MLPBoost run with a line search *)
From Verif Require Import Base.
Open Scope R_scope.

(** draws in (0,1): the fourth - the one for the first example in the second linear program - is close to 1, the others are 1/e *)
Definition line_noise (tol : R) (k : nat) : R :=
  if Nat.eqb k 3 then exp (- exp (- 10 * (ln 3 / (tol / 2)))) else exp (-1).
