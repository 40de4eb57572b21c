(** Property C87: a perfect weak hypothesis is recognised in the first round. *)
From Coq Require Import ZArith List Bool Reals Lia Lra Psatz.
From Verif Require Import Base Float FloatSpec FloatProofs FloatFacts FloatCheckFacts FloatSplitFacts FloatEdge FloatEdgeSpec FloatEdgeFacts.
Open Scope R_scope.


(** ** with 2^k training rows a hypothesis without error passes the test in the first round, in every schedule *)

Theorem C87_power_of_two :
  forall (y conf : list f64) (k : nat) (e : f64), (forall x, In x y -> f_label x) -> f_no_error y conf -> INR (length y) = 2 ^ k -> (k < 53)%nat ->
  f_edge y conf (f_uniform (length y)) e -> finite_num e /\ val e = 1 /\ f_perfect e = true.
Proof. exact P_C87_power_of_two. Qed.
Print Assumptions C87_power_of_two.

(** ** with any number of rows (up to 2^30) its computed edge is within (4 n + 4) 2^-53 of one, in every schedule *)

Theorem C87_close_to_one_partial :
  forall (y conf : list f64) (e : f64), (forall x, In x y -> f_label x) -> f_no_error y conf -> (1 <= length y)%nat -> INR (length y) <= 2 ^ 30 ->
  f_edge y conf (f_uniform (length y)) e -> finite_num e /\ Rabs (val e - 1) <= (4 * INR (length y) + 4) * uu.
Proof. exact P_C87_close_to_one_partial. Qed.
Print Assumptions C87_close_to_one_partial.

(** ** with ten rows, whether the hypothesis without error is recognised depends on how rayon splits the sum: added from left to right
    its edge is below one and the booster goes on, split in halves it is one and the booster stops *)

Theorem C87_ten_rows_refuted :
  exists (y : list f64) (e e' : f64), (forall x, In x y -> f_label x) /\ f_no_error y y /\
    f_edge y y (f_uniform (length y)) e /\ f_edge y y (f_uniform (length y)) e' /\ f_perfect e = true /\ f_perfect e' = false.
Proof. exact P_C87_ten_rows_refuted. Qed.
Print Assumptions C87_ten_rows_refuted.

(** ** Example: the hypotheses of the power-of-two theorem hold for the labels 1, -1 *)

Example C87_hypotheses_met : (forall x, In x [f1; f_minus1] -> f_label x) /\ f_no_error [f1; f_minus1] [f1; f_minus1] /\ INR (length [f1; f_minus1]) = 2 ^ 1.
Proof.
  assert (A : forall x, In x [f1; f_minus1] -> f_label x).
  { intros x [<-|[<-|[]]]; [destruct f1_spec as [F V]|destruct minus1_spec as [F V]]; split; auto. }
  split; [exact A|]. split; [|simpl; lra]. split; [reflexivity|]. intros i Hi. split; [|reflexivity]. apply (A _ (nth_In _ _ Hi)).
Qed.
