(** Specification for C82: what a solver reports about its own answer. *)
From Verif Require Import Base Csc ConicSpec.
Open Scope R_scope.

(** the solver says that the numbers it returns solve the program (to its accuracy) *)
Definition reported_solved (a : answer) : Prop := a_status a = Solved \/ a_status a = AlmostSolved.

(** the same numbers, but reported as a failure (infeasible, iteration limit, numerical error, ...) *)
Definition reported_failed (solve : conic -> answer) (p : conic) : answer :=
  mkAnswer (a_x (solve p)) (a_z (solve p)) (a_obj (solve p)) OtherStatus.

(** negative entries cut to zero *)
Definition cut_at_zero (l : list R) : list R := map (fun v => Rmax v 0) l.
