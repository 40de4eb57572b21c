(** Model of the configuration of src/booster/gradient_boost/gbm.rs: the tolerance and loss setters, [max_loop]. *)
From Verif Require Import Base Utils WMajority Booster Losses GBM AdaBoost.
Open Scope R_scope.

(** gbm.rs:89-119: the state of GBM.v together with the two fields that can be set *)
Record gbm_full {H : Type} := mkGbmFull { gf_tol : R; gf_loss : gbm_loss; gf_state : @gbm H }.

(** gbm.rs:128-148 [init_with_loss] *)
Definition gbm_new {H} (y : list R) (loss : gbm_loss) : @gbm_full H := mkGbmFull H 0 loss (gbm_init y).

(** gbm.rs:165-175 [tolerance] and [loss] *)
Inductive gbm_call := GTolerance (tol : R) | GLoss (l : gbm_loss).
Definition gbm_config_call {H} (b : @gbm_full H) (c : gbm_call) : res (@gbm_full H) :=
  Ok (match c with
      | GTolerance tol => mkGbmFull H tol (gf_loss b) (gf_state b)
      | GLoss l => mkGbmFull H (gf_tol b) l (gf_state b)
      end).
Definition gbm_pick_loss (c : gbm_call) : option gbm_loss := match c with GLoss l => Some l | _ => None end.
Definition gbm_pick_tol (c : gbm_call) : option R := match c with GTolerance t => Some t | _ => None end.

(** gbm.rs:157-161 [max_loop]: ln(n) / tolerance^2 [as usize], where x / 0 is infinite (saturates to usize::MAX = [umax]) for n > 1,
    0 / 0 is NaN (cast to 0) for n = 1, and ln(0) / .. is -infinity (cast to 0) *)
Definition gbm_max_loop {H} (umax : nat) (y : list R) (b : @gbm_full H) : nat :=
  if Nat.leb (length y) 1 then 0%nat
  else if Reqb (gf_tol b) 0 then umax
  else Nat.min umax (as_usize (ln (INR (length y)) / (gf_tol b * gf_tol b))).

(** core.rs:48-66 [run] on the configured booster: gbm.rs:204-270 read the loss and never the tolerance *)
Definition gbm_run {H} (pred : H -> nat -> R) produce (y : list R) (b : @gbm_full H) (fuel : nat) : outcome (wmajority H) :=
  run (gbm_booster pred produce y (best_coefficient (gf_loss b))) fuel (gf_state b).
