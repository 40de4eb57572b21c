(** Facts about label encodings: C45. *)
From Verif Require Import Base Spec AdaBoost AdaBoostMore Task TaskFacts.
Open Scope R_scope.


(** ** C45: label encodings.  A score vector is turned into the last of its most likely classes *)

Theorem C45_discretize :
  forall y K, match discretize y K with
  | Ok v => exists m, v = INR m /\ (m < K)%nat /\ length y = K /\ (forall j, (j < K)%nat -> nth j y 0 <= nth m y 0) /\
      (forall j, (m < j < K)%nat -> nth j y 0 < nth m y 0)
  | Panic _ => length y <> K \/ y = []
  end.
Proof. exact P_C45_discretize. Qed.
Print Assumptions C45_discretize.

(** class label -> one-hot vector -> class label *)
Theorem C45_multiclass_round_trip :
  forall K k, (k < K)%nat -> exists v, vectorize (INR k) K = Ok v /\ length v = K /\ discretize v K = Ok (INR k).
Proof. exact P_C45_multiclass_round_trip. Qed.
Print Assumptions C45_multiclass_round_trip.

(** binary label -> two scores -> binary label *)
Theorem C45_binary_round_trip :
  forall y, pm1 y -> exists v, vectorize y 2 = Ok v /\ binarize v = Ok y.
Proof. exact P_C45_binary_round_trip. Qed.
Print Assumptions C45_binary_round_trip.

(** two non-negative scores (for instance probabilities): the sign is that of the more likely class *)
Theorem C45_two_scores_partial :
  forall a b, 0 <= a -> 0 <= b -> exists c, binarize [a; b] = Ok c /\ (a <= b -> sign_label c = 1) /\ (b < a -> sign_label c = -1) /\
    Rabs c = Rmax a b.
Proof. exact P_C45_two_scores_partial. Qed.
Print Assumptions C45_two_scores_partial.

(** with negative scores (an output layer without softmax) the sign is wrong *)
Theorem C45_two_scores_refuted :
  exists a b c, b < a /\ binarize [a; b] = Ok c /\ sign_label c = 1.
Proof. exact P_C45_two_scores_refuted. Qed.
Print Assumptions C45_two_scores_refuted.

(** a single score is documented as the confidence of +1; the result has the opposite sign: every score above 1/2
    is read as -1 and every score below 1/2 as +1 *)
Theorem C45_scalar_score_refuted :
  forall p, exists c, binarize [p] = Ok c /\ (1 / 2 < p -> sign_label c = -1) /\ (p <= 1 / 2 -> sign_label c = 1).
Proof. exact P_C45_scalar_score_refuted. Qed.
Print Assumptions C45_scalar_score_refuted.

(** labels that are not below the number of classes are rejected *)
Theorem C45_vectorize_rejects :
  forall k K, K <> 1%nat -> (K <= k)%nat -> (0 < k)%nat -> vectorize (INR k) K = Panic IndexOutOfBounds.
Proof. exact P_C45_vectorize_rejects. Qed.
Print Assumptions C45_vectorize_rejects.
