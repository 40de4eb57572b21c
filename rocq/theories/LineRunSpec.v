(** Vocabulary for the CERLPBoost and MLPBoost runs with a line search: three examples, two hypotheses, and a weak learner that always
    returns the hypothesis of the larger edge *)
From Verif Require Import Base.
Open Scope R_scope.

Definition line_y : list R := [1; 1; -1].
(** [true] is wrong on the third example only, [false] on the first only *)
Definition line_conf (h : bool) (i : nat) : R :=
  if h then 1 else match i with 1%nat => 1 | _ => -1 end.
Definition line_best (t : nat) (d : list R) : bool := if Rle_dec (nth 2 d 0) (nth 0 d 0) then true else false.
