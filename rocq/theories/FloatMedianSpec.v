(** Vocabulary for C88. *)
From Coq Require Import List Reals.
From Flocq Require Import Core.Core IEEE754.BinarySingleNaN.
From Verif Require Import Base Float FloatSpec.
Open Scope R_scope.

(** the exact sum of |prediction| over the rows whose computed quotient target / prediction satisfies [P] (rows of prediction zero add nothing) *)
Definition weight_where (P : f64 -> bool) (targets predictions : list f64) : R :=
  rsum (map (fun q => Rabs (val (snd q))) (filter (fun q => P (fdiv (fst q) (snd q))) (combine targets predictions))).
