(** Facts about the neural network: C48, C57. *)
From Verif Require Import Base Spec SortLib Utils UtilsProofs AdaBoost AdaBoostMore Feature Sample Task TaskFacts NN NNSpec NNFacts.
Open Scope R_scope.


(** ** softmax *)

(** ** C48: softmax returns exp(eta x_k) / sum exp(eta x), a distribution; it panics on an empty vector only *)

Theorem C48_softmax :
  forall eta x, match act_eval (SoftMax eta) x with
  | Ok p => is_pos_dist p /\ length p = length x /\ forall k, (k < length x)%nat ->
      nth k p 0 = exp (eta * nth k x 0) / rsum (map (fun j => exp (eta * nth j x 0)) (seq 0 (length x)))
  | Panic _ => x = []
  end.
Proof. exact P_C48_softmax. Qed.
Print Assumptions C48_softmax.

(** ** derivatives of the activations *)

(** for every activation but the sigmoid, and every vector: the reported derivative is the derivative of output k
    with respect to input k (for a ReLU, away from its threshold; at the threshold there is none unless it is 0) *)
Theorem C48_derivative_partial :
  forall a u k d, (k < length u)%nat -> act_diff a u = Ok d ->
  match a with Sigmoid _ => False | ReLu th => nth k u 0 <> th | _ => True end ->
  derivable_pt_lim (fun t => match act_eval a (upd k t u) with Ok v => nth k v 0 | Panic _ => 0 end) (nth k u 0) (nth k d 0).
Proof. exact P_C48_derivative_partial. Qed.
Print Assumptions C48_derivative_partial.

(** the sigmoid's reported derivative is too large by the factor 1 + exp(-eta x): it is never the derivative
    (unless eta = 0) *)
Theorem C48_sigmoid_derivative_refuted :
  forall eta x, eta <> 0 -> exists d d', act_diff (Sigmoid eta) [x] = Ok [d] /\
    derivable_pt_lim (fun t => match act_eval (Sigmoid eta) [t] with Ok v => nth 0 v 0 | Panic _ => 0 end) x d' /\
    d = (1 + exp (- eta * x)) * d' /\ d <> d'.
Proof. exact P_C48_sigmoid_derivative_refuted. Qed.
Print Assumptions C48_sigmoid_derivative_refuted.

(** a ReLU whose threshold is not zero jumps at its threshold *)
Theorem C48_relu_threshold_refuted :
  forall th d, th <> 0 -> ~ derivable_pt_lim (fun t => match act_eval (ReLu th) [t] with Ok v => nth 0 v 0 | Panic _ => 0 end) th d.
Proof. exact P_C48_relu_threshold_refuted. Qed.
Print Assumptions C48_relu_threshold_refuted.
