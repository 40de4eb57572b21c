(** Property C86: the sizes of the training and test parts of cross validation in binary64. *)
From Coq Require Import ZArith List Bool Reals Lia Lra Psatz.
From Verif Require Import Base Float FloatSpec FloatProofs FloatFacts FloatCheckFacts FloatSplit FloatSplitFacts.
Open Scope R_scope.


(** ** train_ratio(r) accepts exactly the numbers strictly between 0 and 1, NaN and infinities are refused; the training part then
    has floor(r n) rows, or one more when r n is within a relative 2^-53 of the next integer; at least one row is left to test *)

Theorem C86_train_size_partial :
  forall (n : nat) (r : f64), INR n < 2 ^ 53 ->
  (finite_num r /\ 0 < val r < 1 ->
     exists m, f_train_ratio n r = Ok m /\ ((1 <= n)%nat -> (m < n)%nat) /\
       exists k, INR k <= val r * INR n < INR k + 1 /\ (m = k \/ (m = S k /\ INR m - val r * INR n <= uu * (val r * INR n)))) /\
  (~ (finite_num r /\ 0 < val r < 1) -> f_train_ratio n r = Panic AssertFailed).
Proof. exact P_C86_train_size_partial. Qed.
Print Assumptions C86_train_size_partial.

(** ** without train_ratio the training part has exactly floor(4 n / 5) rows, in binary64 as in exact arithmetic, for up to 2^50 rows *)

Theorem C86_default_exact :
  forall n : nat, INR n <= 2 ^ 50 -> f_default_train_size n = (4 * n / 5)%nat.
Proof. exact P_C86_default_exact. Qed.
Print Assumptions C86_default_exact.

(** ** the size can be one less than the fraction the user wrote: of 100 rows, train_ratio(0.29) trains on 28, not 29
    (0.29 is the binary64 number nearest to 29/100, which lies below it) *)

Theorem C86_percentage_refuted :
  exists (n : nat) (r : f64), finite_num r /\
    (forall x : f64, finite_num x -> Rabs (val r - 29 / 100) <= Rabs (val x - 29 / 100)) /\
    29 / 100 * INR n = INR 29 /\ f_train_ratio n r = Ok 28%nat.
Proof. exact P_C86_percentage_refuted. Qed.
Print Assumptions C86_percentage_refuted.

(** ** Example: the hypotheses of the theorems hold for 0.29 and 100 rows *)

Example C86_hypotheses_met : finite_num f_29_percent /\ 0 < val f_29_percent < 1 /\ INR 100 < 2 ^ 53 /\ INR 100 <= 2 ^ 50.
Proof. destruct p29_spec as [F V]. split; [exact F|]. rewrite V. split; [lra|]. split; simpl; lra. Qed.
