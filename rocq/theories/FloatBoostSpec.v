(** Vocabulary for C93: mistakes of a vote on the training set, in binary64 *)
From Coq Require Import ZArith List Bool Reals.
From Flocq Require Import Core.Core IEEE754.BinarySingleNaN.
From Verif Require Import Base Float FloatSpec FloatAdaSpec.
Import ListNotations.
Open Scope R_scope.

(** the edge computed in the round is at least gamma *)
Definition good_round (gamma : R) (conf : list f64) (edge : f64) : Prop := mild_round conf edge /\ gamma <= val edge.

(** the number of rows on which the label predicted by the vote [v] differs from the label [y]; a hypothesis is given by its confidences on the rows *)
Definition mistakes (y : list f64) (v : list f64 * list (list f64)) : nat :=
  length (filter (fun i => if Req_EM_T (IZR (f_predict (fun h => nth i h f0) v)) (val (nth i y f0)) then false else true) (seq 0 (length y))).

(** 15/16 and -15/16 *)
Definition f_15_16 : f64 := BinarySingleNaN.binary_normalize 53 1024 eq_refl eq_refl BinarySingleNaN.mode_NE 15 (-4) false.
Definition f_m15_16 : f64 := BinarySingleNaN.binary_normalize 53 1024 eq_refl eq_refl BinarySingleNaN.mode_NE (-15) (-4) false.
