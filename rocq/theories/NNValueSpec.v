(** Specification of the function a neural network computes (C59). *)
From Verif Require Import Base Spec NN.
Open Scope R_scope.

(** the value of an activation at position k of its input vector *)
Definition act_value (a : activation) (u : list R) (k : nat) : R :=
  match a with
  | SoftMax eta => exp (eta * nth k u 0) / rsum (map (fun j => exp (eta * nth j u 0)) (seq 0 (length u)))
  | Sigmoid eta => / (1 + exp (- (eta * nth k u 0)))
  | ReLu threshold => if Rlt_dec threshold (nth k u 0) then nth k u 0 else 0
  | IdAct => nth k u 0
  end.

(** one layer: the activation of W x + b *)
Definition layer_value (l : layer) (x : list R) : list R :=
  let u := map (fun k => rsum (map (fun j => nth j (nth k (l_matrix l) []) 0 * nth j x 0) (seq 0 (length x))) + nth k (l_bias l) 0) (seq 0 (l_nrow l)) in
  map (act_value (l_act l) u) (seq 0 (l_nrow l)).

(** a network: the composition of its layers, the first one applied first *)
Definition net_value (net : list layer) (x : list R) : list R := fold_left (fun z l => layer_value l z) net x.
