(** Vocabulary for the exponential distribution in binary64 arithmetic *)
From Coq Require Import ZArith List Bool Reals.
From Flocq Require Import Core.Core IEEE754.BinarySingleNaN.
From Verif Require Import Base Float FloatSpec.
Import ListNotations.
Open Scope R_scope.

(** a training set as the booster sees it: labels plus or minus one, and for each example the confidences of the [T] hypotheses *)
Definition labelled (ys : list f64) (confs : list (list f64)) (T : nat) : Prop :=
  ys <> [] /\ length confs = length ys /\ (forall y, In y ys -> finite_num y /\ (val y = 1 \/ val y = -1)) /\
  (forall row, In row confs -> length row = T /\ forall c, In c row -> finite_num c /\ Rabs (val c) <= 1).

(** the exact margin of the vote with weights [v] *)
Definition exact_margin (v : list R) (y : f64) (conf : list f64) : R := val y * rsum (map (fun p => fst p * val (snd p)) (combine v conf)).
Definition exact_margins (v : list R) (ys : list f64) (confs : list (list f64)) : list R :=
  map (fun p => exact_margin v (fst p) (snd p)) (combine ys confs).
(** the exact distribution: d_i proportional to exp (- eta * margin_i) *)
Definition exact_exp_distribution (eta : R) (margins : list R) (i : nat) : R :=
  exp (- eta * nth i margins 0) / rsum (map (fun m => exp (- eta * m)) margins).
