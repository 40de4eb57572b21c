(** Model of src/common/loss_functions.rs. *)
From Verif Require Import Base SortLib.
Open Scope R_scope.

(** loss_functions.rs:43-65 *)
Inductive gbm_loss := L1 | L2.

(** lines 78-91 [eval_at_point] *)
Definition eval_at_point (l : gbm_loss) (prediction true_value : R) : R :=
  match l with
  | L1 => Rabs (prediction - true_value)
  | L2 => (prediction - true_value) ^ 2
  end.

(** lines 10-21 default [eval]; x / 0 for the empty sample is not a finite number *)
Definition loss_eval (l : gbm_loss) (predictions target : list R) : res R :=
  let* _ := assert_ (Nat.eqb (length predictions) (length target)) in
  if Nat.eqb (length predictions) 0 then Panic NonFinite else
  Ok (rsum (map (fun q => eval_at_point l (fst q) (snd q)) (combine predictions target)) / INR (length predictions)).

(** lines 94-127 [gradient] *)
Definition gradient (l : gbm_loss) (predictions target : list R) : res (list R) :=
  let* _ := assert_ (Nat.eqb (length predictions) (length target)) in
  Ok (map (fun q => let '(y, p) := q in
        match l with L1 => rsignum (y - p) | L2 => p - y end) (combine target predictions)).

(** lines 130-156 [hessian] *)
Definition hessian (l : gbm_loss) (predictions target : list R) : res (list R) :=
  let* _ := assert_ (Nat.eqb (length predictions) (length target)) in
  Ok (repeat (match l with L1 => 0 | L2 => 1 end) (length predictions)).

(** lines 205-213: the scan of [weighted_median] *)
Fixpoint median_scan (half : R) (acc : R) (items : list (R * R)) : res R :=
  match items with
  | [] => Panic Unreachable
  | (w, x) :: t => let acc' := acc + w in if Rleb half acc' then Ok x else median_scan half acc' t
  end.

(** lines 190-214 [weighted_median] *)
Definition weighted_median (items : list (R * R)) : res R :=
  let* _ := assert_ (Nat.ltb 0 (length items)) in
  match items with
  | [(_, x)] => Ok x
  | _ =>
      let sorted := isort (fun a b : R * R => Rleb (snd a) (snd b)) items in
      let total_weight := rsum (map fst sorted) in
      median_scan ((1 / 2) * total_weight) 0 sorted
  end.

(** lines 159-185 [best_coefficient] *)
Definition best_coefficient (l : gbm_loss) (targets predictions : list R) : res R :=
  match l with
  | L1 =>
      weighted_median (map (fun q => (Rabs (snd q), fst q / snd q))
                           (filter (fun q => negb (Reqb (snd q) 0)) (combine targets predictions)))
  | L2 =>
      let p_sum := rsum predictions in
      let* _ := assert_ (negb (Reqb p_sum 0)) in
      Ok (rsum targets / p_sum)
  end.
