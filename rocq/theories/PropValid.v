(** Property C81: a training set that is not a binary classification problem is refused before training. *)
From Verif Require Import Base Spec ValidSpec Utils WMajority WMajorityProofs Booster AdaBoost AdaBoostProofs AdaBoostMain AdaBoostMore AdaBoostV MadaBoost SmoothBoost GraphSep LPBoost ERLP Csc ConicSpec SoftBoost CERLP MLP ValidFacts.
Open Scope R_scope.


(** ** the check accepts the target columns made of exactly two kinds of integers (in the range of i32) and no others *)

Theorem C81_accepted_targets :
  forall y, (forall v z, In v y -> v = IZR z -> (-2147483648 <= z <= 2147483647)%Z) ->
  (is_valid_binary_instance y = Ok tt <->
    exists a b : Z, a <> b /\ In (IZR a) y /\ In (IZR b) y /\ forall v, In v y -> v = IZR a \/ v = IZR b) /\
  (is_valid_binary_instance y <> Ok tt -> is_valid_binary_instance y = Panic AssertFailed).
Proof. exact P_C81_accepted_targets. Qed.
Print Assumptions C81_accepted_targets.

(** outside the range of i32 the labels are clamped first: two different large labels are refused as one kind, and three
    kinds of labels are accepted as two *)
Theorem C81_large_labels_refuted :
  (exists y : list R, y = [3000000000; 4000000000] /\ is_valid_binary_instance y = Panic AssertFailed) /\
  (exists y : list R, y = [1; 3000000000; 4000000000] /\ is_valid_binary_instance y = Ok tt).
Proof. exact P_C81_large_labels_refuted. Qed.
Print Assumptions C81_large_labels_refuted.

(** ** every booster for binary classification starts with the check: a refused sample stops the run before the weak
    learner has been asked for anything, and a run that returns had an accepted sample *)

Theorem C81_boosters_refuse :
  forall (H : Type) (conf : H -> nat -> R) (produce : nat -> list R -> H) (y : list R)
    (umax inner : nat) (eqH : H -> H -> bool) (solve : conic -> answer) (noise : nat -> R)
    (X : Type) (confx : H -> X -> R) (row : nat -> X),
  refuses y (adaboost conf produce y) /\ refuses y (adaboostv conf produce y) /\ refuses y (madaboost conf produce y) /\
  refuses y (smoothboost conf produce y umax) /\ refuses y (graphsep confx row y produce) /\
  refuses y (lpboost_booster conf solve produce y) /\ refuses y (erlpboost conf solve produce y inner) /\
  refuses y (softboost conf solve produce y inner) /\ refuses y (cerlpboost conf eqH produce y) /\
  refuses y (mlpboost conf eqH solve noise produce y).
Proof. exact P_C81_boosters_refuse. Qed.
Print Assumptions C81_boosters_refuse.

(** ** the labels 0 and 1 are accepted (with a warning only), although a vote never answers 0: whatever the weak learner
    and the booster's settings, the returned classifier is wrong on every example of label 0 *)

Theorem C81_zero_label_never_predicted :
  is_valid_binary_instance [0; 1] = Ok tt /\
  forall (H : Type) (conf : H -> nat -> R) (f : wmajority H) (y : list R) i, nth i y 0 = 0 -> wm_predict conf f i <> nth i y 0.
Proof. exact P_C81_zero_label_never_predicted. Qed.
Print Assumptions C81_zero_label_never_predicted.
