(** Specification vocabulary for the soft-margin boosters. *)
From Verif Require Import Base Spec.
Open Scope R_scope.

(** distributions over the examples capped by 1/nu *)
Definition capped (nu : R) (y : list R) (d : list R) : Prop := length d = length y /\ in_capped_simplex nu d.

(** [v] is the soft margin of the real-valued function [f]: its least edge over the capped distributions *)
Definition soft_margin (nu : R) (y : list R) (f : nat -> R) (v : R) : Prop :=
  is_min_of (capped nu y) (fun d => edge_of y d f) v.

(** edge plus 1/eta times the relative entropy to the uniform distribution *)
Definition reg_edge (eta : R) (y d : list R) (f : nat -> R) : R :=
  edge_of y d f + (rsum (map xlnx d) + ln (INR (length y))) / eta.

(** [v] is the entropy-regularised soft margin of [f], the objective that the Frank-Wolfe routine maximises *)
Definition soft_objective (eta nu : R) (y : list R) (f : nat -> R) (v : R) : Prop :=
  is_min_of (capped nu y) (fun d => reg_edge eta y d f) v.
