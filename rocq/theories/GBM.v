(** Model of src/booster/gradient_boost/gbm.rs. *)
From Verif Require Import Base WMajority Booster Losses.
Open Scope R_scope.

Section GBM.
  Context {H : Type}.
  (** [pred h i]: prediction of the regressor h on row i of the training sample *)
  Variable pred : H -> nat -> R.
  (** the weak learner: [produce t v] is what it answers in its t-th call when shown the vector v *)
  Variable produce : nat -> list R -> H.
  (** targets of the training sample *)
  Variable y : list R.
  (** any implementation of LossFunction::best_coefficient *)
  Variable best : list R -> list R -> res R.

  (** gbm.rs:89-119; tolerance, terminated are only printed; max_iter is 100 and cannot be set *)
  Record gbm := mkGbm { gbm_weights : list R; gbm_hyps : list H; gbm_max_iter : nat; gbm_predictions : list R }.

  (** lines 128-148 [init_with_loss] *)
  Definition gbm_init : gbm := mkGbm [] [] 100 (repeat 0 (length y)).

  (** lines 204-219 [preprocess] *)
  Definition gbm_pre (s : gbm) : res gbm := Ok (mkGbm [] [] (gbm_max_iter s) (repeat 0 (length y))).

  (** lines 222-260 [boost]; predict_all = predict on every row (hypothesis_traits.rs) *)
  Definition gbm_boost (it : nat) (s : gbm) : trace * res (gbm * cflow) :=
    if Nat.ltb (gbm_max_iter s) it then ([], Ok (s, Break (gbm_max_iter s))) else
    let h := produce it (gbm_predictions s) in
    let predictions := map (pred h) (seq 0 (length y)) in
    ([gbm_predictions s],
     let* coef := best y predictions in
     if Reqb coef 0 then Ok (s, Break it) else
     Ok (mkGbm (gbm_weights s ++ [coef]) (gbm_hyps s ++ [h]) (gbm_max_iter s)
               (map (fun q => fst q + coef * snd q) (combine (gbm_predictions s) predictions)), Continue)).

  (** lines 263-270 [postprocess] *)
  Definition gbm_post (s : gbm) : res (wmajority H) := from_slices (gbm_weights s) (gbm_hyps s).

  Definition gbm_booster : booster gbm (wmajority H) := mkBooster gbm_pre gbm_boost gbm_post.
End GBM.
