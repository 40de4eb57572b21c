(** Vocabulary for the line search in binary64 arithmetic *)
From Coq Require Import ZArith List Bool Reals.
From Flocq Require Import Core.Core IEEE754.BinarySingleNaN.
From Verif Require Import Base Float FloatSpec FloatFW FloatLine.
Import ListNotations.
Open Scope R_scope.

(** the computed gradient is a negative number left of [best - slack] and a positive one right of [best + slack] *)
Definition right_sign (grad : f64 -> res f64) (best slack : R) : Prop :=
  forall s, finite_num s ->
    (val s < best - slack -> exists g, grad s = Ok g /\ finite_num g /\ val g < 0) /\
    (best + slack < val s -> exists g, grad s = Ok g /\ finite_num g /\ 0 < val g).

(** the gradient at the step sizes of a unit interval never panics *)
Definition never_panics (grad : f64 -> res f64) : Prop := forall s, exists g, grad s = Ok g.
