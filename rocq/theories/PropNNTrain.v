(** Facts about training a neural network: C48 (shapes), C57 (gradient descent). *)
From Coq Require Import String.
From Verif Require Import Base Spec SortLib Utils UtilsProofs WMajority AdaBoost AdaBoostMore Feature Sample SampleFacts Task TaskFacts NN NNSpec NNFacts NNTrain NNGrad NNTrainFacts.
Open Scope R_scope.


(** ** C48: shapes.  On every input of the right dimension the forward pass succeeds and has the output dimension *)

Theorem C48_forward_shape :
  forall dims acts net x, net_ok dims acts net -> Forall (lt 0) dims -> length x = hd 0%nat dims ->
  exists p, net_eval net x = Ok p /\ length p = last dims 0%nat.
Proof. exact P_C48_forward_shape. Qed.
Print Assumptions C48_forward_shape.

(** a training step never panics on a batch that fits and keeps every layer's dimensions and activation; so does a
    whole training run, whatever its minibatches *)
Theorem C48_train_shape :
  forall rate s dims acts net indices, net_ok dims acts net -> net <> [] -> fits s dims indices ->
  exists net', train rate s indices net = Ok net' /\ net_ok dims acts net'.
Proof. exact P_C48_train_shape. Qed.
Print Assumptions C48_train_shape.

Theorem C48_training_run :
  forall batches n_iter rate s dims acts net, net_ok dims acts net -> net <> [] -> (forall b, In b batches -> fits s dims b) ->
  exists net', run_epochs batches n_iter rate s net = Ok net' /\ net_ok dims acts net'.
Proof. exact P_C48_training_run. Qed.
Print Assumptions C48_training_run.

(** ** C57: one training step is one step of gradient descent on the loss of the batch.  For every network whose
    output activation matches the loss and every batch at which the hidden layers are differentiable, every weight and
    every bias moves by -rate times the partial derivative of the batch loss in it (all evaluated at the old network) *)

Theorem C57_weight_step :
  forall loss rate s dims acts net net' indices k a b,
  net_ok dims acts net -> net <> [] -> fits s dims indices -> matched loss (last acts IdAct) (last dims 0%nat) ->
  (forall i x y, In i indices -> at_ s i = Ok (x, y) -> smooth_at net x) ->
  (k < length net)%nat -> (a < nth (S k) dims 0)%nat -> (b < nth k dims 0)%nat ->
  train rate s indices net = Ok net' ->
  exists g, derivable_pt_lim (fun t => batch_loss loss s indices (set_weight net k a b t)) (weight net k a b) g /\
    weight net' k a b = weight net k a b - rate * g.
Proof. exact P_C57_weight_step. Qed.
Print Assumptions C57_weight_step.

Theorem C57_bias_step :
  forall loss rate s dims acts net net' indices k a,
  net_ok dims acts net -> net <> [] -> fits s dims indices -> matched loss (last acts IdAct) (last dims 0%nat) ->
  (forall i x y, In i indices -> at_ s i = Ok (x, y) -> smooth_at net x) ->
  (k < length net)%nat -> (a < nth (S k) dims 0)%nat ->
  train rate s indices net = Ok net' ->
  exists g, derivable_pt_lim (fun t => batch_loss loss s indices (set_bias net k a t)) (bias net k a) g /\
    bias net' k a = bias net k a - rate * g.
Proof. exact P_C57_bias_step. Qed.
Print Assumptions C57_bias_step.

Example C57_example :
  exists net', train (1 / 2) ex_s [1; 0]%nat ex_net = Ok net' /\
  exists g, derivable_pt_lim (fun t => batch_loss cross_entropy ex_s [1; 0]%nat (set_weight ex_net 0 0 0 t)) 1 g /\
    weight net' 0 0 0 = 1 - 1 / 2 * g.
Proof.
  destruct (P_C48_train_shape (1 / 2) ex_s [1; 1; 2]%nat [ReLu 0; SoftMax 1] ex_net [1; 0]%nat ex_net_ok ltac:(discriminate) ex_fits) as [net' [E _]].
  exists net'. split; [exact E|].
  exact (P_C57_weight_step cross_entropy (1 / 2) ex_s _ _ ex_net net' [1; 0]%nat 0 0 0 ex_net_ok ltac:(discriminate) ex_fits (matched_softmax 2 ltac:(lia)) ex_smooth ltac:(simpl; lia) ltac:(simpl; lia) ltac:(simpl; lia) E).
Qed.

(** ** C58: with a hidden sigmoid layer the step is not a gradient step: here the weight of the sigmoid moves twice as
    far as the gradient of the loss says *)

Theorem C58_hidden_sigmoid_refuted :
  exists s dims net net' g, net_ok dims [Sigmoid 1; IdAct] net /\ fits s dims [0]%nat /\ train 1 s [0]%nat net = Ok net' /\
    derivable_pt_lim (fun t => batch_loss half_squared s [0]%nat (set_weight net 0 0 0 t)) (weight net 0 0 0) g /\ g <> 0 /\
    weight net' 0 0 0 = weight net 0 0 0 - 1 * (2 * g).
Proof. exact P_C58_hidden_sigmoid_refuted. Qed.
Print Assumptions C58_hidden_sigmoid_refuted.

(** ** C59: what the classifier answers.  Binary task, two softmax outputs: the prediction is the label of the more
    probable output (the second output stands for +1) and the confidence is in absolute value its probability *)

Theorem C59_binary_prediction :
  forall eta dims acts net s row x y, net_ok dims acts net -> net <> [] -> Forall (lt 0) dims -> last dims 0%nat = 2%nat -> last acts IdAct = SoftMax eta ->
  at_ s row = Ok (x, y) -> length x = hd 0%nat dims ->
  exists p0 p1 c, net_eval net x = Ok [p0; p1] /\ 0 < p0 /\ 0 < p1 /\ nn_confidence Binary net s row = Ok c /\
    (p0 <= p1 -> predict_of_confidence c = 1) /\ (p1 < p0 -> predict_of_confidence c = -1) /\ Rabs c = Rmax p0 p1.
Proof. exact P_C59_binary_prediction. Qed.
Print Assumptions C59_binary_prediction.

(** multi-class task: the confidence is the number of the class, so the prediction of a binary classifier built on it
    (the trait's predict) is +1 for every network, every class and every input *)
Theorem C59_multiclass_prediction_refuted :
  forall n_class net s row c, nn_confidence (MultiClass n_class) net s row = Ok c -> (exists m, c = INR m) /\ predict_of_confidence c = 1.
Proof. exact P_C59_multiclass_prediction_refuted. Qed.
Print Assumptions C59_multiclass_prediction_refuted.
