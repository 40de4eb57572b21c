(** Model of the [Research] trait (src/research/logger.rs:324-334), its implementations for the boosters, the line that
    [Logger::run] writes for a round, and of the settings of src/research/logger.rs and src/research/logger_builder.rs. *)
From Verif Require Import Base Utils WMajority Booster Logger AdaBoost AdaBoostV MadaBoost SmoothBoost GraphSep
  FrankWolfe CERLP Csc LPBoost ERLP SoftBoost MLP.
From Coq Require Import NArith.
Open Scope R_scope.

(** ** current_hypothesis *)
Section Current.
  Context {H : Type}.

  (** adaboost_algorithm.rs:357-359 *)
  Definition ada_current (s : @ada H) : res (wmajority H) := from_slices (a_weights s) (a_hyps s).
  (** adaboostv_algorithm.rs:391-393 *)
  Definition adav_current (s : @adav H) : res (wmajority H) := from_slices (v_weights s) (v_hyps s).
  (** madaboost_algorithm.rs:373-375 *)
  Definition mada_current (s : @mada H) : res (wmajority H) := from_slices (m_alphas s) (m_hyps s).
  (** smoothboost_algorithm.rs:358-362; [y] gives n_sample (the field is set by [init] to sample.shape().0).
      As in [sb_post], 1/0 = inf is shown as the panic it leads to. *)
  Definition sb_current (y : list R) (s : @sb H) : res (wmajority H) :=
    if Nat.eqb (sb_terminated s) 0 then Panic NonFinite else
    from_slices (repeat (1 / INR (sb_terminated s)) (length y)) (sb_hyps s).
  (** graph_separation_algorithm.rs:248-250; naive_aggregation.rs:94-101 [from_slice] copies the list *)
  Definition gs_current {X} (conf : H -> X -> R) (row : nat -> X) (y : list R) (s : @gs H) : res (naive_agg H) :=
    Ok (na_new conf row y (gs_hyps s)).
  (** lpboost_algorithm.rs:349-357 *)
  Definition lpb_current (s : @lpboost H) : res (wmajority H) :=
    match lb_model s with None => Panic UnwrapNone | Some m => from_slices (lm_weights m) (lb_hyps s) end.
  (** erlpboost_algorithm.rs:448-456 *)
  Definition erlp_current (s : @erlp H) : res (wmajority H) :=
    match er_model s with None => Panic UnwrapNone | Some m => from_slices (qm_weights m) (er_hyps s) end.
  (** softboost_algorithm.rs:367-371; totalboost_algorithm.rs:189-191 delegates to it *)
  Definition soft_current (solve : conic -> answer) (s : @soft H) : res (wmajority H) :=
    match so_model s with None => Panic UnwrapNone | Some m => let* ws := sq_weights solve m in from_slices ws (so_hyps s) end.
  (** cerlpboost_algorithm.rs:400-402 *)
  Definition cerlp_current (s : @cerlp H) : res (wmajority H) := from_slices (ce_weights s) (ce_hyps s).
  (** mlpboost_algorithm.rs:534-536 *)
  Definition mlp_current (s : @mlp H) : res (wmajority H) := from_slices (ml_weights s) (ml_hyps s).
End Current.

(** ** The numbers of one line of the log *)
Section Line.
  Context {St Out : Type}.
  Variable current : St -> res Out.        (* current_hypothesis *)
  Variable objective : Out -> res R.       (* objective_func.eval(train, .) ; may panic *)
  Variable train_loss test_loss : Out -> R.  (* loss_func on the two samples *)

  (** logger.rs:245-249; the user's loss function is assumed to return *)
  Definition research_line (s : St) : res (R * R * R) :=
    let* f := current s in
    let* obj := objective f in
    Ok (obj, train_loss f, test_loss f).
End Line.

(** ** Settings of the logger *)
Definition u128_max : N := 340282366920938463463374607431768211455%N.
(** u128::checked_mul(..).expect(..) *)
Definition u128_mul (a b : N) : res N := if (a * b <=? u128_max)%N then Ok (a * b)%N else Panic UnwrapNone.

Section LoggerBuilder.
  Context {B W F G S : Type}.

  (** logger_builder.rs:75-84 *)
  Record lgb := mkLgb {
    lg_booster : option B; lg_learner : option W; lg_objective : option F; lg_loss : option G;
    lg_train : option S; lg_test : option S; lg_time_limit : N; lg_round : N }.

  (** logger_builder.rs:88-100 (constants of lines 4-5) *)
  Definition lgb_new : lgb := mkLgb None None None None None None u128_max 100.

  (** logger_builder.rs:103-187, one constructor per method *)
  Inductive lg_call :=
  | GBooster (b : B) | GWeakLearner (w : W) | GObjective (f : F) | GLoss (g : G) | GTrain (s : S) | GTest (s : S)
  | GMillis (t : N) | GSecs (t : N) | GMins (t : N) | GPrintEvery (r : N).

  Definition with_limit (l : lgb) (t : N) : lgb :=
    mkLgb (lg_booster l) (lg_learner l) (lg_objective l) (lg_loss l) (lg_train l) (lg_test l) t (lg_round l).

  (** logger_builder.rs:103-187 *)
  Definition logger_call (l : lgb) (c : lg_call) : res lgb :=
    match c with
    | GBooster b => Ok (mkLgb (Some b) (lg_learner l) (lg_objective l) (lg_loss l) (lg_train l) (lg_test l) (lg_time_limit l) (lg_round l))
    | GWeakLearner w => Ok (mkLgb (lg_booster l) (Some w) (lg_objective l) (lg_loss l) (lg_train l) (lg_test l) (lg_time_limit l) (lg_round l))
    | GObjective f => Ok (mkLgb (lg_booster l) (lg_learner l) (Some f) (lg_loss l) (lg_train l) (lg_test l) (lg_time_limit l) (lg_round l))
    | GLoss g => Ok (mkLgb (lg_booster l) (lg_learner l) (lg_objective l) (Some g) (lg_train l) (lg_test l) (lg_time_limit l) (lg_round l))
    | GTrain s => Ok (mkLgb (lg_booster l) (lg_learner l) (lg_objective l) (lg_loss l) (Some s) (lg_test l) (lg_time_limit l) (lg_round l))
    | GTest s => Ok (mkLgb (lg_booster l) (lg_learner l) (lg_objective l) (lg_loss l) (lg_train l) (Some s) (lg_time_limit l) (lg_round l))
    | GMillis t => Ok (with_limit l t)
    | GSecs t => let* t' := u128_mul t 1000 in Ok (with_limit l t')
    | GMins t => let* s := u128_mul t 60 in let* t' := u128_mul s 1000 in Ok (with_limit l t')
    | GPrintEvery r => Ok (mkLgb (lg_booster l) (lg_learner l) (lg_objective l) (lg_loss l) (lg_train l) (lg_test l) (lg_time_limit l) r)
    end.

  (** logger.rs:29-38 *)
  Record logger := mkLogger {
    lo_booster : B; lo_learner : W; lo_objective : F; lo_loss : G; lo_train : S; lo_test : S; lo_time_limit : N; lo_round : N }.

  Definition expect {A} (o : option A) : res A := match o with Some a => Ok a | None => Panic UnwrapNone end.

  (** logger_builder.rs:191-217 *)
  Definition lgb_build (l : lgb) : res logger :=
    let* b := expect (lg_booster l) in
    let* w := expect (lg_learner l) in
    let* f := expect (lg_objective l) in
    let* g := expect (lg_loss l) in
    let* tr := expect (lg_train l) in
    let* te := expect (lg_test l) in
    Ok (mkLogger b w f g tr te (lg_time_limit l) (lg_round l)).

  (** logger.rs:43-62 [Logger::new] *)
  Definition logger_new (b : B) (w : W) (f : F) (g : G) (tr te : S) : logger := mkLogger b w f g tr te u128_max 100.
End LoggerBuilder.
Arguments lgb : clear implicits.
Arguments lg_call : clear implicits.
Arguments logger : clear implicits.
