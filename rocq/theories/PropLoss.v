(** Facts about the losses: C30, C31. *)
From Verif Require Import Base SortLib Spec LossSpec Losses LossFacts.
Open Scope R_scope.


(** ** C30: gradients.
    For the squared loss the reported gradient is half the derivative of the reported loss (it is the
    derivative of (p - y)^2 / 2); the reported Hessian is the derivative of the reported gradient *)

Theorem C30_l2_gradient_partial :
  forall p y g h i, gradient L2 p y = Ok g -> hessian L2 p y = Ok h -> (i < length p)%nat ->
  derivable_pt_lim (fun q => eval_at_point L2 q (nth i y 0)) (nth i p 0) (2 * nth i g 0) /\
  derivable_pt_lim (fun q => eval_at_point L2 q (nth i y 0) / 2) (nth i p 0) (nth i g 0) /\
  derivable_pt_lim (fun q => nth 0 (match gradient L2 [q] [nth i y 0] with Ok l => l | Panic _ => [] end) 0) (nth i p 0) (nth i h 0).
Proof. exact P_C30_l2_gradient_partial. Qed.
Print Assumptions C30_l2_gradient_partial.

(** for the absolute loss the reported gradient is minus the derivative, at every point where it exists *)
Theorem C30_l1_gradient_refuted :
  forall p y g i, gradient L1 p y = Ok g -> (i < length p)%nat -> nth i p 0 <> nth i y 0 ->
  derivable_pt_lim (fun q => eval_at_point L1 q (nth i y 0)) (nth i p 0) (- nth i g 0) /\
  ~ derivable_pt_lim (fun q => eval_at_point L1 q (nth i y 0)) (nth i p 0) (nth i g 0).
Proof. exact P_C30_l1_gradient_refuted. Qed.
Print Assumptions C30_l1_gradient_refuted.

(** ** C30: the reported loss is the mean absolute (squared) error, and it is reported iff the lengths agree and there is an example *)

Theorem C30_loss_value_partial :
  forall l p y, (0 < length y)%nat -> length p = length y ->
  loss_eval l p y = Ok (match l with L1 => abs_error y p 1 | L2 => sq_error y p 1 end / INR (length y)).
Proof. exact P_C30_loss_value_partial. Qed.
Print Assumptions C30_loss_value_partial.

Theorem C30_loss_panics_partial :
  forall l p y, (length p <> length y <-> loss_eval l p y = Panic AssertFailed) /\ (length p = length y -> length y = 0%nat -> loss_eval l p y = Panic NonFinite).
Proof. exact P_C30_loss_panics_partial. Qed.
Print Assumptions C30_loss_panics_partial.

(** gradients and Hessians are total on vectors of equal length and panic otherwise *)
Theorem C30_gradient_panics_iff_partial :
  forall l p y, (length p = length y <-> exists g h, gradient l p y = Ok g /\ hessian l p y = Ok h) /\
                (length p <> length y <-> gradient l p y = Panic AssertFailed).
Proof. exact P_C30_gradient_panics_iff_partial. Qed.
Print Assumptions C30_gradient_panics_iff_partial.

Example C30_nonvacuous : gradient L1 [2; 0] [1; 3] = Ok [rsignum (1 - 2); rsignum (3 - 0)] /\ gradient L2 [2; 0] [1; 3] = Ok [2 - 1; 0 - 3].
Proof. split; reflexivity. Qed.

(** ** C31: the coefficient of gradient boosting.
    For the absolute loss: a minimiser of the total error over all coefficients *)

Theorem C31_l1_coefficient :
  forall y p c, length y = length p -> best_coefficient L1 y p = Ok c -> minimiser (abs_error y p) c.
Proof. exact P_C31_l1_coefficient. Qed.
Print Assumptions C31_l1_coefficient.

(** ... and it is found except when every prediction is zero; the [unreachable!] branch is never taken *)
Theorem C31_l1_total :
  forall y p, length y = length p ->
  ((exists i, (i < length p)%nat /\ nth i p 0 <> 0) -> exists c, best_coefficient L1 y p = Ok c) /\
  ((forall i, (i < length p)%nat -> nth i p 0 = 0) -> best_coefficient L1 y p = Panic AssertFailed).
Proof. exact P_C31_l1_total. Qed.
Print Assumptions C31_l1_total.

(** for the squared loss the coefficient only makes the residuals sum to zero; it is a minimiser when the
    predictions are constant *)
Theorem C31_l2_coefficient_partial :
  forall y p c, length y = length p -> best_coefficient L2 y p = Ok c ->
  rsum (map (fun i => nth i y 0 - c * nth i p 0) (seq 0 (length y))) = 0 /\
  ((exists a, forall i, (i < length p)%nat -> nth i p 0 = a) -> minimiser (sq_error y p) c).
Proof. exact P_C31_l2_coefficient_partial. Qed.
Print Assumptions C31_l2_coefficient_partial.

(** it is not a minimiser in general *)
Theorem C31_l2_coefficient_refuted :
  exists y p c, length y = length p /\ best_coefficient L2 y p = Ok c /\ ~ minimiser (sq_error y p) c.
Proof. exact P_C31_l2_coefficient_refuted. Qed.
Print Assumptions C31_l2_coefficient_refuted.

(** the squared loss panics exactly when the predictions sum to zero *)
Theorem C31_l2_panics_partial :
  forall y p, (rsum p = 0 <-> best_coefficient L2 y p = Panic AssertFailed) /\
              (rsum p <> 0 <-> exists c, best_coefficient L2 y p = Ok c).
Proof. exact P_C31_l2_panics_partial. Qed.
Print Assumptions C31_l2_panics_partial.

Example C31_nonvacuous : best_coefficient L1 [1; 6; 4] [1; 2; 0] = Ok 3.
Proof.
  unfold best_coefficient. cbn [combine filter snd]. rewrite (Reqb_false 1), (Reqb_false 2), (Reqb_true 0) by lra. cbn [negb filter map fst snd].
  rewrite !Rabs_right by lra. unfold weighted_median, bind, assert_. cbn [length Nat.ltb Nat.leb isort fold_right insert snd].
  rewrite Rleb_true by lra. cbn [map fst rsum median_scan]. rewrite Rleb_false by lra. rewrite Rleb_true by lra. f_equal. lra.
Qed.
