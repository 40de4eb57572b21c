(** Specification vocabulary for neural networks (C48, C57). *)
From Verif Require Import Base Spec Feature Sample Task NN.
Open Scope R_scope.

(** the loss of a network on a batch of rows of a sample: sum of [loss output encoded_label] *)
Definition row_loss (loss : list R -> list R -> R) (s : sample) (net : list layer) (i : nat) : R :=
  match at_ s i, output_dim net with
  | Ok (x, y), Ok dim =>
      match net_eval net x, vectorize y dim with
      | Ok p, Ok v => loss p v
      | _, _ => 0
      end
  | _, _ => 0
  end.
Definition batch_loss loss s (indices : list nat) net : R := rsum (map (row_loss loss s net) indices).

(** - sum_k y_k ln p_k *)
Definition cross_entropy (p y : list R) : R := - rsum (map (fun k => nth k y 0 * ln (nth k p 0)) (seq 0 (length y))).
(** 1/2 sum_k (p_k - y_k)^2 *)
Definition half_squared (p y : list R) : R := / 2 * rsum (map (fun k => (nth k p 0 - nth k y 0) ^ 2) (seq 0 (length y))).
(** - sum_k y_k ln p_k + (1 - y_k) ln (1 - p_k) *)
Definition binary_cross_entropy (p y : list R) : R :=
  - rsum (map (fun k => nth k y 0 * ln (nth k p 0) + (1 - nth k y 0) * ln (1 - nth k p 0)) (seq 0 (length y))).

(** reading and writing one parameter of the network *)
Definition dummy_layer : layer := mkLayer 0 0 [] [] IdAct.
Definition weight (net : list layer) (l a b : nat) : R := nth b (nth a (l_matrix (nth l net dummy_layer)) []) 0.
Definition bias (net : list layer) (l a : nat) : R := nth a (l_bias (nth l net dummy_layer)) 0.
Definition set_weight (net : list layer) (l a b : nat) (t : R) : list layer :=
  let ly := nth l net dummy_layer in
  upd l (mkLayer (l_nrow ly) (l_ncol ly) (upd a (upd b t (nth a (l_matrix ly) [])) (l_matrix ly)) (l_bias ly) (l_act ly)) net.
Definition set_bias (net : list layer) (l a : nat) (t : R) : list layer :=
  let ly := nth l net dummy_layer in
  upd l (mkLayer (l_nrow ly) (l_ncol ly) (l_matrix ly) (upd a t (l_bias ly)) (l_act ly)) net.

(** every hidden layer is an identity or a ReLU none of whose units sits exactly at its threshold on input x *)
Fixpoint smooth_at (net : list layer) (x : list R) : Prop :=
  match net with
  | [] => True
  | l :: rest =>
      match rest with
      | [] => True
      | _ => (l_act l = IdAct \/ exists th, l_act l = ReLu th /\ forall u, affine l x = Ok u -> ~ In th u) /\
             forall z, forward l x = Ok z -> smooth_at rest z
      end
  end.

(** a sample and a batch of its rows fit a network with layer dimensions dims: the rows have the dimension of the
    input, every dimension is positive, the batch is non-empty and every label is below the output dimension (any label
    if the output is one-dimensional) *)
Definition fits (s : sample) (dims : list nat) (indices : list nat) : Prop :=
  made s /\ length (s_target s) = fst (shape s) /\ hd 0%nat dims = snd (shape s) /\ Forall (lt 0) dims /\
  indices <> [] /\ forall i, In i indices -> (i < fst (shape s))%nat /\ (last dims 0%nat = 1%nat \/ nth i (s_target s) 0 < INR (last dims 0%nat)).


(** an output activation and the loss whose derivative in the pre-activation is output - target: softmax with the cross
    entropy, identity with half the squared error, sigmoid with the binary cross entropy *)
Inductive matched : (list R -> list R -> R) -> activation -> nat -> Prop :=
| matched_softmax K : (1 < K)%nat -> matched cross_entropy (SoftMax 1) K
| matched_identity K : matched half_squared IdAct K
| matched_sigmoid K : matched binary_cross_entropy (Sigmoid 1) K.
