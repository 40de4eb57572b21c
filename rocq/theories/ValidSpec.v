(** Specification for C81: a booster that refuses invalid training sets before training. *)
From Verif Require Import Base Booster Valid.
Open Scope R_scope.

(** if the target column is not accepted the run panics without a single query to the weak learner; a run that returns
    had an accepted target column *)
Definition refuses {St Out : Type} (y : list R) (b : booster St Out) : Prop :=
  forall fuel s, (is_valid_binary_instance y <> Ok tt -> run b fuel s = Crashed [] AssertFailed) /\
    (forall tr o, run b fuel s = Finished tr o -> is_valid_binary_instance y = Ok tt).

