(** Model of the remaining chains of configuration calls: the reader of files, cross validation and the neural network. *)
From Coq Require Import String Ascii NArith.
From Verif Require Import Base Feature Sample AdaBoost CrossVal TextSpec Reader Task NN Logger Research Builders.
Open Scope R_scope.

(** sample_reader.rs:29-59, one constructor per method *)
Inductive rd_call := CHeader (flag : bool) | CFile (f : text) | CTarget (column : string).
Definition reader_call (r : reader) (c : rd_call) : res reader :=
  Ok (match c with CHeader b => rd_has_header r b | CFile f => rd_set_file r f | CTarget t => rd_target_feature r t end).

(** cross_validation.rs:93-140; [verbose] and [seed] are not modelled: a shuffle may have any outcome *)
Inductive cv_call := VRatio (r : R) | VFolds (k : nat) | VShuffle (outcome : list nat).
Definition crossval_call (c : cv) (a : cv_call) : res cv :=
  match a with VRatio r => cv_train_ratio c r | VFolds k => Ok (cv_set_n_folds c k) | VShuffle o => Ok (cv_shuffle c o) end.

(** nn_weak_learner.rs:65-77; learning_rate and loss_func are constants *)
Record nn := mkNN {
  nn_task : task; nn_batch_size : nat; nn_dims : list nat; nn_acts : list activation; nn_epochs : nat; nn_iters : nat }.

(** nn_weak_learner.rs:92-97 "while minibatch_size > n_samples { minibatch_size /= 2; }"; [fuel] bounds the turns, and 8
    are enough for the initial value 128 (line 21) *)
Fixpoint halve_until (fuel size n : nat) : nat :=
  match fuel with
  | O => size
  | S f => if Nat.ltb n size then halve_until f (size / 2) n else size
  end.

(** nn_weak_learner.rs:85-115 [init] (constants of lines 18-21) *)
Definition nn_init (s : sample) : nn := mkNN Binary (halve_until 8 128 (fst (shape s))) [snd (shape s)] [] 100 200.

(** nn_weak_learner.rs:120-164 *)
Inductive nn_call := NAppend (dim : nat) (a : activation) | NEpoch (k : nat) | NIter (k : nat) | NBatch (k : nat) | NTask (t : task).
Definition network_call (c : nn) (a : nn_call) : res nn :=
  Ok (match a with
      | NAppend d act => mkNN (nn_task c) (nn_batch_size c) (nn_dims c ++ [d]) (nn_acts c ++ [act]) (nn_epochs c) (nn_iters c)
      | NEpoch k => mkNN (nn_task c) (nn_batch_size c) (nn_dims c) (nn_acts c) k (nn_iters c)
      | NIter k => mkNN (nn_task c) (nn_batch_size c) (nn_dims c) (nn_acts c) (nn_epochs c) k
      | NBatch k => mkNN (nn_task c) k (nn_dims c) (nn_acts c) (nn_epochs c) (nn_iters c)
      | NTask t => mkNN t (nn_batch_size c) (nn_dims c) (nn_acts c) (nn_epochs c) (nn_iters c)
      end).

(** layer.rs:25-40 [Layer::new]; [draw] is the sequence of normal deviates it draws, row by row and then the bias *)
Definition layer_new (draw : nat -> R) (nrow ncol : nat) (act : activation) : layer :=
  mkLayer nrow ncol (map (fun i => map (fun j => draw (i * ncol + j)%nat) (seq 0 ncol)) (seq 0 nrow))
    (map (fun i => draw (nrow * ncol + i)%nat) (seq 0 nrow)) act.

(** nn_hypothesis.rs:76-87 (the loop of [new]); [draws k] is the sequence drawn for layer k *)
Fixpoint new_layers (draws : nat -> nat -> R) (k input : nat) (dims : list nat) (acts : list activation) : list layer :=
  match dims, acts with
  | d :: ds, a :: als => layer_new (draws k) d input a :: new_layers draws (S k) d ds als
  | _, _ => []
  end.

(** nn_weak_learner.rs:189-212 [produce] with nn_hypothesis.rs:63-88 [new].  The random choices are parameters: [draws] for
    the initial weights, and [batches], the index sets drawn by the n_epoch calls of sample_weighted (in the code there are
    n_epoch of them, each of minibatch_size rows).  A network of no layers makes [train] panic; the rate is
    1e-3 / minibatch_size. *)
Definition nn_produce (c : nn) (draws : nat -> nat -> R) (batches : list (list nat)) (s : sample) : res (list layer) :=
  match nn_dims c with
  | [] => Panic AssertFailed
  | input :: dims => run_epochs batches (nn_iters c) (/ 1000 / INR (nn_batch_size c)) s (new_layers draws 0 input dims (nn_acts c))
  end.

(** ** Vocabulary of the statements *)
Definition rd_pick_header (c : rd_call) : option bool := match c with CHeader b => Some b | _ => None end.
Definition rd_pick_file (c : rd_call) : option (option text) := match c with CFile f => Some (Some f) | _ => None end.
Definition rd_pick_target (c : rd_call) : option (option string) := match c with CTarget t => Some (Some t) | _ => None end.
Definition cv_pick_ratio (c : cv_call) : option R := match c with VRatio r => Some r | _ => None end.
Definition cv_pick_folds (c : cv_call) : option nat := match c with VFolds k => Some k | _ => None end.
Definition cv_pick_order (c : cv_call) : option (list nat) := match c with VShuffle o => Some o | _ => None end.
Definition nn_pick_epochs (c : nn_call) : option nat := match c with NEpoch k => Some k | _ => None end.
Definition nn_pick_iters (c : nn_call) : option nat := match c with NIter k => Some k | _ => None end.
Definition nn_pick_batch (c : nn_call) : option nat := match c with NBatch k => Some k | _ => None end.
Definition nn_pick_task (c : nn_call) : option task := match c with NTask t => Some t | _ => None end.
(** the layers appended, in order *)
Definition appended (calls : list nn_call) : list (nat * activation) :=
  flat_map (fun c => match c with NAppend d a => [(d, a)] | _ => [] end) calls.

Section LG.
  Context {B W F G S : Type}.
  Definition lg_pick_limit (c : lg_call B W F G S) : option N :=
    match c with GMillis t => Some t | GSecs t => Some (1000 * t)%N | GMins t => Some (60000 * t)%N | _ => None end.
  Definition lg_pick_round (c : lg_call B W F G S) : option N := match c with GPrintEvery r => Some r | _ => None end.
  Definition lg_pick_booster (c : lg_call B W F G S) : option (option B) := match c with GBooster b => Some (Some b) | _ => None end.
  Definition lg_pick_learner (c : lg_call B W F G S) : option (option W) := match c with GWeakLearner b => Some (Some b) | _ => None end.
  Definition lg_pick_objective (c : lg_call B W F G S) : option (option F) := match c with GObjective b => Some (Some b) | _ => None end.
  Definition lg_pick_loss (c : lg_call B W F G S) : option (option G) := match c with GLoss b => Some (Some b) | _ => None end.
  Definition lg_pick_train (c : lg_call B W F G S) : option (option S) := match c with GTrain b => Some (Some b) | _ => None end.
  Definition lg_pick_test (c : lg_call B W F G S) : option (option S) := match c with GTest b => Some (Some b) | _ => None end.
End LG.
