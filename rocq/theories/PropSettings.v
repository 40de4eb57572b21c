(** Facts about the remaining chains of configuration calls (C67) and about the neural network learner (C71). *)
From Coq Require Import String Ascii NArith.
From Verif Require Import Base Spec Utils Booster AdaBoost AdaBoostMore Feature Sample SampleFacts CrossVal CrossValFacts TextSpec Reader Task NN NNSpec NNFacts NNTrain NNTrainFacts Logger Research BuilderSpec Builders BuildersFacts Settings SettingsFacts.
Open Scope R_scope.


(** ** C67: the reader of files.  Any chain of calls is accepted, and the last call of each kind counts. *)

Theorem C67_sample_reader :
  forall calls : list rd_call, exists r, apply_calls reader_call reader_default calls = Ok r /\
  rd_file r = last_set rd_pick_file None calls /\ rd_header r = last_set rd_pick_header false calls /\ rd_target r = last_set rd_pick_target None calls.
Proof. exact P_C67_sample_reader. Qed.
Print Assumptions C67_sample_reader.

(** ** C67: cross validation.  A ratio must lie strictly between 0 and 1; the training part then has floor(ratio * n) rows
    (0.8 and 5 folds by default). *)

Theorem C67_cross_validation :
  forall (s : sample) (calls : list cv_call), let n := INR (fst (shape s)) in
  ((forall r, In (VRatio r) calls -> 0 < r < 1) -> exists c, apply_calls crossval_call (cv_new s) calls = Ok c /\
     INR (cv_train_size c) <= last_set cv_pick_ratio 0.8 calls * n < INR (cv_train_size c) + 1 /\
     cv_n_folds c = last_set cv_pick_folds 5%nat calls /\ cv_ix c = last_set cv_pick_order (seq 0 (fst (shape s))) calls /\
     cv_sample c = s /\ cv_current_fold c = 0%nat) /\
  (forall r, In (VRatio r) calls -> ~ (0 < r < 1) -> apply_calls crossval_call (cv_new s) calls = Panic AssertFailed).
Proof. exact P_C67_cross_validation. Qed.
Print Assumptions C67_cross_validation.

(** ** C67: the neural network.  The layers appended are the layers of the network, in that order; the initial size of a
    minibatch is the largest of 128, 64, 32, ..., 2, 1 that the sample can fill. *)

Theorem C67_neural_network :
  forall (s : sample) (calls : list nn_call), exists c, apply_calls network_call (nn_init s) calls = Ok c /\
  nn_dims c = snd (shape s) :: map fst (appended calls) /\ nn_acts c = map snd (appended calls) /\
  nn_epochs c = last_set nn_pick_epochs 100%nat calls /\ nn_iters c = last_set nn_pick_iters 200%nat calls /\
  nn_task c = last_set nn_pick_task Binary calls /\
  exists initial, nn_batch_size c = last_set nn_pick_batch initial calls /\
    (fst (shape s) = 0%nat -> initial = 0%nat) /\
    ((0 < fst (shape s))%nat -> exists k, (k <= 7)%nat /\ initial = Nat.pow 2 k /\ (Nat.pow 2 k <= fst (shape s))%nat /\
       ((k < 7)%nat -> (fst (shape s) < Nat.pow 2 (S k))%nat)).
Proof. exact P_C67_neural_network. Qed.
Print Assumptions C67_neural_network.

(** ** C67: the builder of loggers.  With times that fit 64 bits no call panics, the limit is the last one given, in
    milliseconds; [build] succeeds iff all six components were given, and then uses the last of each. *)

Theorem C67_logger :
  forall (B W F G S : Type) (calls : list (lg_call B W F G S)),
  (forall t, In (GSecs t) calls \/ In (GMins t) calls -> (t < 2 ^ 64)%N) ->
  exists l, apply_calls logger_call lgb_new calls = Ok l /\
  let limit := last_set lg_pick_limit u128_max calls in
  let every := last_set lg_pick_round 100%N calls in
  (forall b w f g tr te, last_set lg_pick_booster None calls = Some b -> last_set lg_pick_learner None calls = Some w ->
     last_set lg_pick_objective None calls = Some f -> last_set lg_pick_loss None calls = Some g ->
     last_set lg_pick_train None calls = Some tr -> last_set lg_pick_test None calls = Some te ->
     lgb_build l = Ok (mkLogger b w f g tr te limit every) /\
     (limit = u128_max -> every = 100%N -> lgb_build l = Ok (logger_new b w f g tr te))) /\
  ((exists lg, lgb_build l = Ok lg) ->
     last_set lg_pick_booster None calls <> None /\ last_set lg_pick_learner None calls <> None /\ last_set lg_pick_objective None calls <> None /\
     last_set lg_pick_loss None calls <> None /\ last_set lg_pick_train None calls <> None /\ last_set lg_pick_test None calls <> None).
Proof. exact P_C67_logger. Qed.
Print Assumptions C67_logger.

(** ** C71: the neural network learner.  Whatever initial weights Layer::new draws and whatever rows the minibatches
    contain, [produce] returns a network whose layers are the ones that were appended -- provided at least one
    layer was appended, the dimensions are positive and the labels fit the output dimension. *)

Theorem C71_learner_returns :
  forall (s : sample) (calls : list nn_call) draws batches,
  let dims := snd (shape s) :: map fst (appended calls) in
  appended calls <> [] -> (forall b, In b batches -> fits s dims b) ->
  exists c net, apply_calls network_call (nn_init s) calls = Ok c /\ nn_produce c draws batches s = Ok net /\
    net_ok dims (map snd (appended calls)) net /\
    (Forall (lt 0) dims -> forall x, length x = snd (shape s) -> exists p, net_eval net x = Ok p /\ length p = fst (last (appended calls) (0%nat, IdAct))).
Proof. exact P_C71_learner_returns. Qed.
Print Assumptions C71_learner_returns.

(** with no epochs or no iterations the network is the initial one: the drawn weights, layer by layer *)
Theorem C71_initial_weights :
  forall (s : sample) (calls : list nn_call) draws k i j, (k < length (appended calls))%nat ->
  let width := nth k (snd (shape s) :: map fst (appended calls)) 0%nat in
  let height := fst (nth k (appended calls) (0%nat, IdAct)) in
  exists c net, apply_calls network_call (nn_init s) calls = Ok c /\ nn_produce c draws [] s = Ok net /\
  ((i < height)%nat -> (j < width)%nat -> weight net k i j = draws k (i * width + j)%nat) /\
  ((i < height)%nat -> bias net k i = draws k (height * width + i)%nat).
Proof. exact P_C71_initial_weights. Qed.
Print Assumptions C71_initial_weights.

(** a learner to which no layer was appended panics as soon as there is an epoch with an iteration *)
Theorem C71_no_layer :
  forall (s : sample) (calls : list nn_call) draws b batches, appended calls = [] -> last_set nn_pick_iters 200%nat calls <> 0%nat ->
  exists c, apply_calls network_call (nn_init s) calls = Ok c /\ exists k, nn_produce c draws (b :: batches) s = Panic k.
Proof. exact P_C71_no_layer. Qed.
Print Assumptions C71_no_layer.

Example C71_hypotheses_met : let calls := [NEpoch 2; NAppend 1 (ReLu 0); NIter 3; NAppend 2 (SoftMax 1)] in
  appended calls = [(1%nat, ReLu 0); (2%nat, SoftMax 1)] /\ last_set nn_pick_iters 200%nat calls = 3%nat /\
  (forall b, In b [[1; 0]; [0; 1]]%nat -> fits ex_s (snd (shape ex_s) :: map fst (appended calls)) b).
Proof.
  split; [reflexivity|]. split; [reflexivity|]. intros b [<-|[<-|[]]]; [exact ex_fits|].
  destruct ex_fits as [A1 [A2 [A3 [A4 [A5 A6]]]]]. repeat split; try assumption; [discriminate|apply A6|apply A6]; destruct H as [<-|[<-|[]]]; simpl; auto.
Qed.

Example C67_logger_ex : let calls := [GBooster 1; GWeakLearner 2; GObjective 3; GSecs 5; GLoss 4; GTrain 5; GTest 6; GMins 2]%N in
  (forall t, In (GSecs t) calls \/ In (GMins t) calls -> (t < 2 ^ 64)%N) /\ last_set lg_pick_limit u128_max calls = 120000%N /\ last_set lg_pick_booster None calls = Some 1%N.
Proof.
  split; [|split; reflexivity]. intros t [H|H]; repeat (destruct H as [H|H]; [inversion H; subst; reflexivity|]); destruct H.
Qed.
