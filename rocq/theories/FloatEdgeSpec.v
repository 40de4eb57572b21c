(** Vocabulary for C87. *)
From Coq Require Import List Reals.
From Flocq Require Import Core.Core IEEE754.BinarySingleNaN.
From Verif Require Import Base Float FloatSpec.
Open Scope R_scope.

(** a label: the number 1.0 or -1.0 *)
Definition f_label (x : f64) : Prop := finite_num x /\ (val x = 1 \/ val x = -1).
(** [conf] are the confidences of a hypothesis without error: on every row it answers the label itself *)
Definition f_no_error (y conf : list f64) : Prop :=
  length conf = length y /\ forall i, (i < length y)%nat -> finite_num (nth i conf f0) /\ val (nth i conf f0) = val (nth i y f0).
