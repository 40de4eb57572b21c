(** Vocabulary for C97: AdaBoost over trees in binary64 *)
From Coq Require Import ZArith List Bool Reals.
From Flocq Require Import Core.Core IEEE754.BinarySingleNaN.
From Verif Require Import Base Sample Bins DTree TreeSpec TreeShape Float FloatSpec FloatTree.
Import ListNotations.
Open Scope R_scope.

(** [y] are the targets of the sample as binary64 numbers *)
Definition targets64 (s : sample) (y : list f64) : Prop :=
  length y = fst (shape s) /\ forall i, (i < fst (shape s))%nat -> finite_num (nth i y f0) /\ val (nth i y f0) = label s i.
(** on every distribution over the rows some stump on a threshold offered to the learner has an edge of at least g or at most -g *)
Definition weak_stumps (g : R) (s : sample) (bm : list (String.string * list bin)) : Prop :=
  forall d : nat -> R, (forall i, 0 <= d i) -> TreeSpec.total d (seq 0 (fst (shape s))) = 1 ->
  exists f th, In f (s_features s) /\ offered bm f th /\ g <= Rabs (stump_edge (column f) (label s) d th (seq 0 (fst (shape s)))).
(** the edge computed in f64 is not within 2^-10 of 1 or -1 *)
Definition mild_edge (e : f64) : Prop := Rabs (val e) <= 1 - / 2 ^ 10.
(** the confidence of a tree at a row *)
Definition conf64 (s : sample) (i : nat) (h : f_node) : f64 := match f_node_confidence h s i with Ok c => c | Panic _ => f0 end.
(** the number of rows on which the vote predicts the wrong label *)
Definition wrong_rows (s : sample) (v : list f64 * list f_node) : nat :=
  length (filter (fun i => if Req_EM_T (IZR (f_predict (conf64 s i) v)) (label s i) then false else true) (seq 0 (fst (shape s)))).
