(** Properties C33 (SoftBoost and TotalBoost part), C64: the programs of SoftBoost, its termination and what it returns. *)
From Verif Require Import Base Spec RoundSpec RegSpec LPSpec Utils UtilsProofs UtilsFacts WMajority WMajorityProofs Booster Reach AdaBoost AdaBoostProofs AdaBoostMain AdaBoostMore Num FrankWolfeProofs CERLPProofs Csc ConicSpec CscProofs LPBoost LPBoostProofs LPBoostFacts EdgeLP EdgeProofs ERLP ERLPProofs ERLPFacts ConfigFacts SoftBoost SoftProofs SoftBoostFacts.
Open Scope R_scope.


(** ** C64: SoftBoost asks the weak learner at most max_loop times, whatever solver and weak learner do *)

Theorem C64_rounds : forall (H : Type) (conf : H -> nat -> R) solve produce y inner (s : @soft H) fuel,
  (length (trace_of (run (softboost conf solve produce y inner) fuel s)) <= soft_max_loop (so_tol s) (so_nu s) (length y))%nat.
Proof. exact P_C64_rounds. Qed.
Print Assumptions C64_rounds.

(** ** C64: the same in terms of what the user configures *)

Theorem C64_configured_rounds : forall (H : Type) (conf : H -> nat -> R) solve produce y inner fuel,
  is_valid_binary_instance y = Ok tt ->
  exists s : @soft H, soft_init y = Ok s /\
  (exists k, ceil_of (2 * ln (INR (length y)) * INR (length y) ^ 2) k /\
     (length (trace_of (run (softboost conf solve produce y inner) fuel s)) <= k)%nat) /\
  (forall nu tol, tol <> 0 -> 1 <= nu <= INR (length y) -> exists s' k, soft_nu y (soft_tolerance s tol) nu = Ok s' /\
     ceil_of (2 * ln (INR (length y) / nu) / tol ^ 2) k /\
     (length (trace_of (run (softboost conf solve produce y inner) fuel s')) <= k)%nat).
Proof. exact P_C64_configured_rounds. Qed.
Print Assumptions C64_configured_rounds.

(** ** C33, SoftBoost: every quadratic program handed to the solver is well formed, its objective is the documented
    second-order approximation at a positive point; its feasible points are the distributions (capped or not) under which
    the edge of every received hypothesis is at most the smallest edge seen *)

Theorem C33_softboost_program : forall (H : Type) (conf : H -> nat -> R) solve produce y inner (s0 : @soft H) t s m d old p,
  reach (softboost conf solve produce y inner) s0 t s -> so_model s = Some m ->
  let h := produce t (so_dist s) in let g := Rmin (so_gamma s) (edge_of y (so_dist s) (conf h)) in let hs := so_hyps s ++ [h] in
  sq_turns solve (sq_push conf y m h) g (so_dist s) d old -> sq_program (sq_push conf y m h) g d = Ok p ->
  csc_ok (k_A p) /\ csc_ok (k_P p) /\
  (forall x, feasible p x <-> length x = length y /\ is_dist x /\ (forall h', In h' hs -> edge_of y x (conf h') <= g)) /\
  length d = length y /\ (forall v, In v d -> 0 < v) /\
  forall x, objective p x = rsum (map (fun i => 1 / (2 * nth i d 0) * nth i x 0 ^ 2 + ln (nth i d 0) * nth i x 0) (seq 0 (length y))).
Proof. exact P_C33_softboost_program. Qed.
Print Assumptions C33_softboost_program.

(** ** C33, TotalBoost (SoftBoost with nu = 1, as [TotalBoost::init] sets it): the feasible points are the documented
    ones *)

Theorem C33_totalboost_program : forall (H : Type) (conf : H -> nat -> R) solve produce y inner (s1 : @soft H) tol t s m d old p,
  totalboost_init y = Ok s1 ->
  reach (softboost conf solve produce y inner) (totalboost_tolerance s1 tol) t s -> so_model s = Some m ->
  let h := produce t (so_dist s) in let g := Rmin (so_gamma s) (edge_of y (so_dist s) (conf h)) in let hs := so_hyps s ++ [h] in
  sq_turns solve (sq_push conf y m h) g (so_dist s) d old -> sq_program (sq_push conf y m h) g d = Ok p ->
  forall x, feasible p x <-> edge_constraints conf 1 y hs g x.
Proof. exact P_C33_totalboost_program. Qed.
Print Assumptions C33_totalboost_program.

(** ** C33, the linear program that gives the weights in the end: the documented edge minimisation over the capped
    distributions *)

Theorem C33_softboost_final_program : forall (H : Type) (conf : H -> nat -> R) solve produce y inner (s0 : @soft H) hs p,
  soft_asks_final conf solve produce y inner s0 hs p ->
  csc_ok (k_A p) /\
  (forall x, feasible p x <-> exists g d, x = g :: d /\ edge_constraints conf (so_nu s0) y hs g d) /\
  (forall g d, objective p (g :: d) = g).
Proof. exact P_C33_softboost_final_program. Qed.
Print Assumptions C33_softboost_final_program.

(** ** C64: if the final linear program is solved exactly, the returned vote maximises the soft margin over all convex
    combinations of the hypotheses that were received (and is one of them) *)

Theorem C64_best_vote : forall (H : Type) (conf : H -> nat -> R) solve produce y inner (s : @soft H) fuel tr f,
  (forall hs p, soft_asks_final conf solve produce y inner s hs p -> solves p (solve p)) ->
  run (softboost conf solve produce y inner) fuel s = Finished tr f ->
  let hs := answers produce tr in
  (exists ws, length ws = length hs /\ is_dist ws /\ forall i, wm_confidence conf f i = vote conf (combine ws hs) i) /\
  exists v, soft_margin (so_nu s) y (wm_confidence conf f) v /\
    forall ws v', length ws = length hs -> is_dist ws -> soft_margin (so_nu s) y (vote conf (combine ws hs)) v' -> v' <= v.
Proof. exact P_C64_best_vote. Qed.
Print Assumptions C64_best_vote.

(** ** C64: with an exact solver the run ends within max_loop rounds (its loops included) without a panic, and shows only
    distributions without zero weights to the weak learner; the only exception is max_loop = 0, see C64_full_cap_refuted *)

Theorem C64_terminates : forall (H : Type) (conf : H -> nat -> R) solve produce y inner (s : @soft H),
  (forall p, soft_asks conf solve produce y inner s p -> solves p (solve p)) ->
  (forall hs p, soft_asks_final conf solve produce y inner s hs p -> solves p (solve p)) ->
  is_valid_binary_instance y = Ok tt -> so_tol s <> 0 -> 1 <= so_nu s < INR (length y) ->
  (1000000000 + ln (INR (length y))) * 1000000000 + 1 < INR inner ->
  forall fuel, (soft_max_loop (so_tol s) (so_nu s) (length y) < fuel)%nat ->
  exists tr f, run (softboost conf solve produce y inner) fuel s = Finished tr f /\
    (1 <= length tr <= soft_max_loop (so_tol s) (so_nu s) (length y))%nat /\ Forall (fun d => length d = length y /\ is_pos_dist d) tr.
Proof. exact P_C64_terminates. Qed.
Print Assumptions C64_terminates.

(** ** C64 refuted for nu = n (allowed by [nu]): SoftBoost never asks the weak learner and panics *)

Theorem C64_full_cap_refuted : forall (H : Type) (conf : H -> nat -> R) solve produce y inner (s : @soft H) fuel,
  is_valid_binary_instance y = Ok tt -> so_tol s <> 0 -> so_nu s = INR (length y) ->
  (forall p, length (a_z (solve p)) = length (k_b p)) -> (1 <= fuel)%nat ->
  run (softboost conf solve produce y inner) fuel s = Crashed [] AssertFailed.
Proof. exact P_C64_full_cap_refuted. Qed.
Print Assumptions C64_full_cap_refuted.

(** ** C64 refuted: the distributions do not follow the answers.  Whatever the sample and the class of hypotheses, if the
    weak learner always returns a hypothesis of the class with the largest edge and the solver is exact, SoftBoost shows
    it the uniform distribution in every round. *)

Theorem C64_stuck_refuted : forall (H : Type) (conf : H -> nat -> R) solve produce y inner (s : @soft H) fuel,
  (forall p, soft_asks conf solve produce y inner s p -> (exists x, feasible p x) -> solves p (solve p)) ->
  (forall t d h, edge_of y d (conf h) <= edge_of y d (conf (produce t d))) ->
  (forall h i, (i < length y)%nat -> nth i y 0 * conf h i <= 1) ->
  forall d, In d (trace_of (run (softboost conf solve produce y inner) fuel s)) -> d = repeat (1 / INR (length y)) (length y).
Proof. exact P_C64_stuck_refuted. Qed.
Print Assumptions C64_stuck_refuted.

(** ** an example: two examples, nu = 1, tolerance 1/10, two hypotheses with margins (1, 0) and (0, 1) *)

(** ** C64 refuted: the documented guarantee.  The solver is exact and the weak learner returns a hypothesis with the
    largest edge, the tolerance is 1/10; the returned vote has soft margin 0 while the vote that gives both hypotheses
    of the class weight 1/2 has soft margin 1/2 *)

Theorem C64_tolerance_refuted :
  exists (conf : bool -> nat -> R) solve produce y inner (s : @soft bool) fuel tr f,
    is_valid_binary_instance y = Ok tt /\ 1 <= so_nu s < INR (length y) /\ so_tol s = 1 / 10 /\
    (forall p, soft_asks conf solve produce y inner s p -> solves p (solve p)) /\
    (forall hs p, soft_asks_final conf solve produce y inner s hs p -> solves p (solve p)) /\
    (forall t d h, edge_of y d (conf h) <= edge_of y d (conf (produce t d))) /\
    run (softboost conf solve produce y inner) fuel s = Finished tr f /\
    soft_margin (so_nu s) y (wm_confidence conf f) 0 /\
    soft_margin (so_nu s) y (vote conf (combine [1 / 2; 1 / 2] [true; false])) (1 / 2).
Proof. exact P_C64_tolerance_refuted. Qed.
Print Assumptions C64_tolerance_refuted.

(** ** C33 refuted for SoftBoost: nu = 3/2.  A program handed to the solver (whatever solver) accepts a distribution that
    is not capped by 1/nu = 2/3 *)

Theorem C33_softboost_caps_refuted :
  exists (conf : bool -> nat -> R) produce y (s : @soft bool), is_valid_binary_instance y = Ok tt /\ 1 <= so_nu s < INR (length y) /\ so_tol s = 1 / 10 /\
  forall solve inner, exists p x, soft_asks conf solve produce y inner s p /\ feasible p x /\ ~ capped (so_nu s) y x.
Proof. exact P_C33_softboost_caps_refuted. Qed.
Print Assumptions C33_softboost_caps_refuted.

(** ** the hypotheses of C64 are met *)

Example C64_hypotheses_met : exists inner fuel tr f,
  (forall p, soft_asks sx_conf sx_solve sx_produce y2 inner sx_state p -> solves p (sx_solve p)) /\
  (forall hs p, soft_asks_final sx_conf sx_solve sx_produce y2 inner sx_state hs p -> solves p (sx_solve p)) /\
  (1000000000 + ln (INR (length y2))) * 1000000000 + 1 < INR inner /\
  run (softboost sx_conf sx_solve sx_produce y2 inner) fuel sx_state = Finished tr f /\ (1 <= length tr)%nat.
Proof.
  destruct sx_inner as [inner Hi]. set (N := soft_max_loop (1 / 10) 1 2).
  destruct (P_C64_terminates bool sx_conf sx_solve sx_produce y2 inner sx_state (sx_asks inner) (sx_asks_final inner) y2_valid ltac:(simpl; lra) ltac:(simpl; lra) Hi (S N) ltac:(simpl; unfold N; lia)) as [tr [f [Er [Ln _]]]].
  exists inner, (S N), tr, f. split; [apply sx_asks|]. split; [apply sx_asks_final|]. split; [exact Hi|]. split; [exact Er|lia].
Qed.
