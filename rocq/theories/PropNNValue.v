(** Facts about the function a neural network computes: C59. *)
From Coq Require Import String.
From Verif Require Import Base Spec SortLib Utils UtilsProofs WMajority AdaBoost AdaBoostMore Feature Sample SampleFacts Task TaskFacts NN NNSpec NNFacts NNTrain NNGrad NNTrainFacts NNValueSpec NNValueFacts.
Open Scope R_scope.


(** ** C59: on every input of the right dimension the network computes the composition of its layers, each one the
    activation of W x + b *)

Theorem C59_network_value :
  forall dims acts net x, net_ok dims acts net -> Forall (lt 0) dims -> length x = hd 0%nat dims ->
  net_eval net x = Ok (net_value net x) /\ length (net_value net x) = last dims 0%nat.
Proof. exact P_C59_network_value. Qed.
Print Assumptions C59_network_value.

(** the regressor answers the single output of the network; on any other task it panics *)
Theorem C59_regression :
  forall dims acts net s row x y, net_ok dims acts net -> Forall (lt 0) dims -> last dims 0%nat = 1%nat ->
  at_ s row = Ok (x, y) -> length x = hd 0%nat dims ->
  exists v, net_value net x = [v] /\ nn_regress Regression net s row = Ok v /\
    forall t, t <> Regression -> exists k, nn_regress t net s row = Panic k.
Proof. exact P_C59_regression. Qed.
Print Assumptions C59_regression.

Example ex_value_meets :
  net_ok [1; 2; 1]%nat [ReLu 0; IdAct] ex_value_net /\ net_value ex_value_net [3] = [9].
Proof.
  split.
  - constructor; [|reflexivity|constructor; [|reflexivity|constructor]]; unfold layer_ok; simpl; repeat split; try reflexivity; intros r H; repeat (destruct H as [<-|H]; [reflexivity|]); contradiction.
  - unfold net_value, ex_value_net, layer_value. cbn [fold_left length l_nrow l_matrix l_bias l_act seq map nth act_value]. unfold rsum; cbn [fold_right fold_left].
    repeat match goal with |- context [Rlt_dec ?a ?b] => destruct (Rlt_dec a b) end; try lra; f_equal; lra.
Qed.

(** ** C57: a training run is a chain of such steps: n_iter steps on the first minibatch, then n_iter on the second, and
    so on, each one starting from the network the previous one left *)

Theorem C57_run_is_a_chain_of_steps :
  forall batches n_iter rate s net net', run_epochs batches n_iter rate s net = Ok net' ->
  exists nets : nat -> list layer, nets 0%nat = net /\ nets (length batches * n_iter)%nat = net' /\
    forall e i, (e < length batches)%nat -> (i < n_iter)%nat ->
      train rate s (nth e batches []) (nets (e * n_iter + i)%nat) = Ok (nets (S (e * n_iter + i))).
Proof. exact P_C57_run_is_a_chain_of_steps. Qed.
Print Assumptions C57_run_is_a_chain_of_steps.
