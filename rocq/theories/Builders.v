(** Model of chains of builder calls ("init(..).nu(..).tolerance(..)"): each booster and learner builder takes itself by
    value and returns itself, so that a chain is the calls in order; the first panic ends it. *)
From Coq Require Import String.
From Verif Require Import Base Utils Booster AdaBoost AdaBoostV MadaBoost SmoothBoost FrankWolfe CERLP LPBoost ERLP SoftBoost MLP
  Feature Sample DTree Losses RTree BadLearner.
Open Scope R_scope.

Fixpoint apply_calls {S A} (call : S -> A -> res S) (s : S) (l : list A) : res S :=
  match l with [] => Ok s | a :: t => let* s' := call s a in apply_calls call s' t end.

(** adaboost_algorithm.rs:168-182, adaboostv_algorithm.rs:174-178 and 212-215, madaboost_algorithm.rs:166-180 *)
Inductive ada_call := AForceQuitAt (it : nat) | ATolerance (tol : R).
Definition adaboost_call {H} (s : @ada H) (c : ada_call) : res (@ada H) :=
  Ok (match c with AForceQuitAt it => ada_force_quit_at s it | ATolerance tol => ada_tolerance s tol end).
Definition adaboostv_call {H} (s : @adav H) (c : ada_call) : res (@adav H) :=
  Ok (match c with AForceQuitAt it => adav_force_quit_at s it | ATolerance tol => adav_tolerance s tol end).
Definition madaboost_call {H} (s : @mada H) (c : ada_call) : res (@mada H) :=
  Ok (match c with AForceQuitAt it => mada_force_quit_at s it | ATolerance tol => mada_tolerance s tol end).

(** smoothboost_algorithm.rs:161-182 *)
Inductive sb_call := STolerance (kappa : R) | SGamma (g : R).
Definition smoothboost_call {H} (s : @sb H) (c : sb_call) : res (@sb H) :=
  match c with STolerance k => Ok (sb_tolerance s k) | SGamma g => sb_set_gamma s g end.

(** lpboost_algorithm.rs:186-217, erlpboost_algorithm.rs:209-235, softboost_algorithm.rs:182-198 *)
Inductive lp_call := LNu (nu : R) | LTolerance (tol : R).
Definition lpboost_call {H} (y : list R) (s : @lpboost H) (c : lp_call) : res (@lpboost H) :=
  match c with LNu nu => lpb_nu y s nu | LTolerance tol => Ok (lpb_tolerance s tol) end.
Definition erlpboost_call {H} (y : list R) (s : @erlp H) (c : lp_call) : res (@erlp H) :=
  match c with LNu nu => erlp_nu y s nu | LTolerance tol => Ok (erlp_tolerance s tol) end.
Definition softboost_call {H} (y : list R) (s : @soft H) (c : lp_call) : res (@soft H) :=
  match c with LNu nu => soft_nu y s nu | LTolerance tol => Ok (soft_tolerance s tol) end.
(** totalboost_algorithm.rs:131-134: its only setter *)
Definition totalboost_call {H} (s : @soft H) (tol : R) : res (@soft H) := Ok (totalboost_tolerance s tol).

(** cerlpboost_algorithm.rs:177-204, 240-243 ([fw_type] and [variant] do the same) and mlpboost_algorithm.rs:227-253 *)
Inductive fw_call := FNu (nu : R) | FTolerance (tol : R) | FRule (ty : fwtype).
Definition cerlpboost_call {H} (y : list R) (s : @cerlp H) (c : fw_call) : res (@cerlp H) :=
  match c with FNu nu => cerlp_nu y s nu | FTolerance tol => Ok (cerlp_tolerance s tol) | FRule ty => Ok (cerlp_fw_type s ty) end.
Definition mlpboost_call {H} (y : list R) (s : @mlp H) (c : fw_call) : res (@mlp H) :=
  match c with FNu nu => mlp_nu y s nu | FTolerance tol => Ok (mlp_tolerance s tol) | FRule ty => Ok (mlp_frank_wolfe s ty) end.

(** decision_tree/builder.rs:64-105 *)
Inductive dt_call := DMaxDepth (d : nat) | DCriterion (c : criterion) | DNBins (name : string) (n : nat).
Definition dtree_call (b : dt_builder) (c : dt_call) : res dt_builder :=
  match c with DMaxDepth d => tb_max_depth b d | DCriterion c => Ok (tb_set_criterion b c) | DNBins nm n => tb_set_nbins b nm n end.

(** regression_tree/builder.rs:77-125 *)
Inductive rt_call := RMaxDepth (d : nat) | RLambda (x : R) | RLoss (l : gbm_loss) | RNBins (name : string) (n : nat).
Definition rtree_call (b : rt_builder) (c : rt_call) : res rt_builder :=
  match c with RMaxDepth d => rb_max_depth b d | RLambda x => Ok (rb_lambda_l2 b x) | RLoss l => Ok (rb_set_loss b l) | RNBins nm n => rb_set_nbins b nm n end.

(** bad_learner/builder.rs:36-51 *)
Definition badlearner_call (b : badb) (c : lp_call) : res badb :=
  match c with LNu nu => bb_nu_set b nu | LTolerance tol => Ok (bb_tolerance b tol) end.

(** ** Vocabulary of the statements: which argument a call sets *)
Definition ada_tol (c : ada_call) : option R := match c with ATolerance t => Some t | _ => None end.
Definition ada_quit (c : ada_call) : option (option nat) := match c with AForceQuitAt it => Some (Some it) | _ => None end.
Definition sb_kap (c : sb_call) : option R := match c with STolerance t => Some t | _ => None end.
Definition sb_gam (c : sb_call) : option R := match c with SGamma t => Some t | _ => None end.
Definition lp_tol (c : lp_call) : option R := match c with LTolerance t => Some t | _ => None end.
Definition lp_nu (c : lp_call) : option R := match c with LNu nu => Some nu | _ => None end.
Definition fwc_tol (c : fw_call) : option R := match c with FTolerance t => Some t | _ => None end.
Definition fwc_nu (c : fw_call) : option R := match c with FNu nu => Some nu | _ => None end.
Definition fwc_rule (c : fw_call) : option fwtype := match c with FRule ty => Some ty | _ => None end.
Definition dt_dep (c : dt_call) : option nat := match c with DMaxDepth d => Some d | _ => None end.
Definition dt_crit (c : dt_call) : option criterion := match c with DCriterion c => Some c | _ => None end.
Definition dt_bin (name : string) (c : dt_call) : option nat := match c with DNBins nm n => if String.eqb nm name then Some n else None | _ => None end.
Definition rt_dep (c : rt_call) : option nat := match c with RMaxDepth d => Some d | _ => None end.
Definition rt_lam (c : rt_call) : option R := match c with RLambda x => Some x | _ => None end.
Definition rt_los (c : rt_call) : option (option gbm_loss) := match c with RLoss l => Some (Some l) | _ => None end.
Definition rt_bin (name : string) (c : rt_call) : option nat := match c with RNBins nm n => if String.eqb nm name then Some n else None | _ => None end.
(** the values of nu in a chain are in the documented range [1, n] *)
Definition nus_ok (n : nat) (calls : list lp_call) : Prop := forall nu, In (LNu nu) calls -> 1 <= nu <= INR n.
Definition fw_nus_ok (n : nat) (calls : list fw_call) : Prop := forall nu, In (FNu nu) calls -> 1 <= nu <= INR n.
(** the number of bins a new builder gives to the feature [name] *)
Definition default_bins (s : sample) (name : string) (v : nat) : Prop := sm_get (tb_nbins (tb_new s)) name = Ok v.
