(** Model of src/weak_learner/neural_network/*.rs.
    The random initial weights and the random minibatches are arbitrary; printing is not modelled. *)
From Verif Require Import Base Utils Feature Sample Task WMajority.
Open Scope R_scope.

(** activation.rs:5-14 *)
Inductive activation := SoftMax (eta : R) | Sigmoid (eta : R) | ReLu (threshold : R) | IdAct.

(** activation.rs:18-25, 38-68 [Activation::eval]; softmax is the projection onto the simplex with cap 1 *)
Definition act_eval (a : activation) (x : list R) : res (list R) :=
  match a with
  | SoftMax eta => project 1 (map (fun xi => eta * xi) x)
  | Sigmoid eta => Ok (map (fun xi => 1 / (1 + exp (- eta * xi))) x)
  | ReLu threshold => Ok (map (fun xi => if Rleb xi threshold then 0 else xi) x)
  | IdAct => Ok x
  end.

(** activation.rs:27-34, 71-108 [Activation::diff] *)
Definition act_diff (a : activation) (x : list R) : res (list R) :=
  match a with
  | SoftMax eta => let* p := act_eval (SoftMax eta) x in Ok (map (fun pi => eta * pi * (1 - pi)) p)
  | Sigmoid eta => Ok (map (fun xi => let e := exp (- eta * xi) in eta * e / (1 + e)) x)
  | ReLu threshold => Ok (map (fun xi => if Rltb xi threshold then 0 else 1) x)
  | IdAct => Ok (repeat 1 (length x))
  end.

(** layer.rs:13-19 *)
Record layer := mkLayer {
  l_nrow : nat;
  l_ncol : nat;
  l_matrix : list (list R);
  l_bias : list R;
  l_act : activation;
}.

(** layer.rs:54-62 [affine] *)
Definition affine (l : layer) (x : list R) : res (list R) :=
  let* _ := assert_ (Nat.eqb (l_ncol l) (length x)) in
  Ok (map (fun p => inner_product (fst p) x + snd p) (combine (l_matrix l) (l_bias l))).

(** layer.rs:73-76 [forward] *)
Definition forward (l : layer) (x : list R) : res (list R) := let* u := affine l x in act_eval (l_act l) u.

(** layer.rs:84-105 [backward]; zip leaves the tail of a longer row unchanged *)
Fixpoint sub_scaled (rate : R) (r dr : list R) : list R :=
  match r, dr with
  | x :: r', d :: dr' => (x - rate * d) :: sub_scaled rate r' dr'
  | _, _ => r
  end.
Fixpoint sub_rows (rate : R) (m dm : list (list R)) : list (list R) :=
  match m, dm with
  | r :: m', d :: dm' => sub_scaled rate r d :: sub_rows rate m' dm'
  | _, _ => m
  end.
Definition backward (rate : R) (l : layer) (dw : list (list R)) (db : list R) : res layer :=
  let* _ := assert_ (Nat.eqb (length (l_matrix l)) (length dw)) in
  match l_matrix l, dw with
  | r :: _, d :: _ =>
      let* _ := assert_ (Nat.eqb (length r) (length d)) in
      let* _ := assert_ (Nat.eqb (length (l_bias l)) (length db)) in
      Ok (mkLayer (l_nrow l) (l_ncol l) (sub_rows rate (l_matrix l) dw) (sub_scaled rate (l_bias l) db) (l_act l))
  | _, _ => Panic IndexOutOfBounds
  end.

Definition entry (m : list (list R)) (i j : nat) : R := nth j (nth i m []) 0.
(** a row shorter than the first one makes the loops index out of bounds *)
Definition rows_ge (n : nat) (m : list (list R)) : bool := forallb (fun r => Nat.leb n (length r)) m.

(** layer.rs:110-129 [matrix_inner_product] *)
Definition matrix_inner_product (m1 m2 : list (list R)) : res (list (list R)) :=
  let* _ := assert_ (Nat.eqb (length m1) (length m2)) in
  match m1, m2 with
  | r1 :: _, r2 :: _ =>
      let nrow := length r1 in let ncol := length r2 in let nmid := length m1 in
      if andb (rows_ge nrow m1) (rows_ge ncol m2) then
        Ok (map (fun i => map (fun j => rsum (map (fun k => entry m1 k i * entry m2 k j) (seq 0 nmid))) (seq 0 ncol)) (seq 0 nrow))
      else Panic IndexOutOfBounds
  | _, _ => Panic IndexOutOfBounds
  end.

(** layer.rs:135-154 [matrix_product] *)
Definition matrix_product (m1 m2 : list (list R)) : res (list (list R)) :=
  match m1 with
  | [] => Panic IndexOutOfBounds
  | r1 :: _ =>
      let* _ := assert_ (Nat.eqb (length r1) (length m2)) in
      match m2 with
      | [] => Panic IndexOutOfBounds
      | r2 :: _ =>
          let nrow := length m1 in let ncol := length r2 in let nmid := length r1 in
          if andb (rows_ge nmid m1) (rows_ge ncol m2) then
            Ok (map (fun i => map (fun j => rsum (map (fun k => entry m1 i k * entry m2 k j) (seq 0 nmid))) (seq 0 ncol)) (seq 0 nrow))
          else Panic IndexOutOfBounds
      end
  end.

(** layer.rs:158-171 [column_sum] *)
Definition column_sum (m : list (list R)) : res (list R) :=
  match m with
  | [] => Panic IndexOutOfBounds
  | r :: _ => Ok (fold_left (fun cols row => map (fun p => fst p + snd p) (combine cols row) ++ skipn (length row) cols) m (repeat 0 (length r)))
  end.

(** nn_loss.rs:29-52 [NNLoss::diff]: the same for both losses *)
Definition loss_diff (p y : list R) : list R := map (fun q => fst q - snd q) (combine p y).

(** nn_hypothesis.rs:95-99 [eval] *)
Fixpoint net_eval (layers : list layer) (x : list R) : res (list R) :=
  match layers with
  | [] => Ok x
  | l :: rest => let* z := forward l x in net_eval rest z
  end.

(** nn_hypothesis.rs:123-130 [output_dim] *)
Definition output_dim (layers : list layer) : res nat :=
  match rev layers with [] => Panic AssertFailed | l :: _ => Ok (l_nrow l) end.

(** nn_hypothesis.rs:162-177: forward pass of one example; returns the input of every layer, the derivative of the
    activation of every layer but the last, and the final output.  The Rust code pushes these to outputs[l] and
    dfs[l]; here one example's record is returned and transposed below. *)
Fixpoint forward_record (layers : list layer) (z : list R) : res (list (list R) * list (list R) * list R) :=
  match layers with
  | [] => Ok ([], [], z)
  | l :: rest =>
      let* u := affine l z in
      let* z' := act_eval (l_act l) u in
      let* df := match rest with [] => Ok [] | _ => let* d := act_diff (l_act l) u in Ok [d] end in
      let* r := forward_record rest z' in
      Ok (z :: fst (fst r), df ++ snd (fst r), snd r)
  end.

Record example := mkExample { e_inputs : list (list R); e_dfs : list (list R); e_delta : list R }.

(** nn_hypothesis.rs:158-184 *)
Fixpoint batch_forward (layers : list layer) (dim : nat) (s : sample) (indices : list nat) : res (list example) :=
  match indices with
  | [] => Ok []
  | i :: rest =>
      let* xy := at_ s i in
      let* r := forward_record layers (fst xy) in
      let* y := vectorize (snd xy) dim in
      let* more := batch_forward layers dim s rest in
      Ok (mkExample (fst (fst r)) (snd (fst r)) (loss_diff (snd r) y) :: more)
  end.

(** nn_hypothesis.rs:187-211: [layers], [outputs], [dfs] from the last layer to the first *)
Fixpoint back_layers (rate : R) (layers : list layer) (outputs dfs : list (list (list R))) (delta : list (list R)) : res (list layer) :=
  match layers, outputs with
  | [], _ => Ok []
  | _ :: _, [] => Panic UnwrapNone
  | l :: ls, out :: outs =>
      let* delta_x_weights := matrix_product delta (l_matrix l) in
      let* dw := matrix_inner_product delta out in
      let* db := column_sum delta in
      let* l' := backward rate l dw db in
      match dfs with
      | [] => let* r := back_layers rate ls outs [] delta in Ok (l' :: r)
      | df :: dfs' => let* delta' := hadamard_product df delta_x_weights in
                      let* r := back_layers rate ls outs dfs' delta' in Ok (l' :: r)
      end
  end.

(** nn_hypothesis.rs:135-212 [train] *)
Definition train (rate : R) (s : sample) (indices : list nat) (layers : list layer) : res (list layer) :=
  let n_layers := length layers in
  if Nat.eqb n_layers 0 then Panic Arith else
  let* dim := output_dim layers in
  let* batch := batch_forward layers dim s indices in
  let outputs := map (fun l => map (fun e => nth l (e_inputs e) []) batch) (seq 0 n_layers) in
  let dfs := map (fun l => map (fun e => nth l (e_dfs e) []) batch) (seq 0 (n_layers - 1)) in
  let* r := back_layers rate (rev layers) (rev outputs) (rev dfs) (map e_delta batch) in
  Ok (rev r).

(** nn_hypothesis.rs:216-231 [NNClassifier::confidence] *)
Definition nn_confidence (t : task) (layers : list layer) (s : sample) (row : nat) : res R :=
  let* xy := at_ s row in
  let* conf := net_eval layers (fst xy) in
  match t with
  | Binary => binarize conf
  | MultiClass n_class => discretize conf n_class
  | Regression => Panic AssertFailed
  end.

(** nn_hypothesis.rs:234-251 [NNRegressor::predict] *)
Definition nn_regress (t : task) (layers : list layer) (s : sample) (row : nat) : res R :=
  let* xy := at_ s row in
  let* conf := net_eval layers (fst xy) in
  match t with
  | Regression => let* _ := assert_ (Nat.eqb (length conf) 1) in Ok (nth 0 conf 0)
  | _ => Panic AssertFailed
  end.

(** layer.rs:24-38 [Layer::new], nn_hypothesis.rs:66-90 [NNHypothesis::new]: layers with the given dimensions and
    arbitrary weights and biases *)
Definition layer_ok (l : layer) (nrow ncol : nat) : Prop :=
  l_nrow l = nrow /\ l_ncol l = ncol /\ length (l_matrix l) = nrow /\ (forall r, In r (l_matrix l) -> length r = ncol) /\ length (l_bias l) = nrow.
Inductive net_ok : list nat -> list activation -> list layer -> Prop :=
| net_nil d : net_ok [d] [] []
| net_cons d0 d1 ds a acts l ls : layer_ok l d1 d0 -> l_act l = a -> net_ok (d1 :: ds) acts ls ->
    net_ok (d0 :: d1 :: ds) (a :: acts) (l :: ls).

(** nn_weak_learner.rs:206-208: the iterations of one epoch *)
Fixpoint iterate_train (n : nat) (rate : R) (s : sample) (batch : list nat) (layers : list layer) : res (list layer) :=
  match n with
  | O => Ok layers
  | S k => let* l := train rate s batch layers in iterate_train k rate s batch l
  end.
(** nn_weak_learner.rs:199-209: one epoch per minibatch; [rate] is learning_rate / minibatch_size (line 193) *)
Fixpoint run_epochs (batches : list (list nat)) (n_iter : nat) (rate : R) (s : sample) (layers : list layer) : res (list layer) :=
  match batches with
  | [] => Ok layers
  | b :: rest => let* l := iterate_train n_iter rate s b layers in run_epochs rest n_iter rate s l
  end.
