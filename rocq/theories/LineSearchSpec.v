(** Specification vocabulary for the steps of the Frank-Wolfe routine (C37). *)
From Verif Require Import Base.
Open Scope R_scope.

(** [ws'] is [ws] moved by the fraction [s] of the way towards the unit vector of coordinate [k] *)
Definition moved_towards (k : nat) (s : R) (ws ws' : list R) : Prop :=
  length ws' = length ws /\ forall i, (i < length ws)%nat -> nth i ws' 0 = (1 - s) * nth i ws 0 + s * (if Nat.eqb i k then 1 else 0).
