(** Properties C33 (ERLPBoost part), C35: the quadratic programs of ERLPBoost, its regularisation, its termination. *)
From Verif Require Import Base Spec RegSpec LPSpec Utils UtilsProofs UtilsFacts WMajority WMajorityProofs Booster Reach AdaBoost AdaBoostProofs AdaBoostMain AdaBoostMore Num BinsProofs FrankWolfeProofs CERLPProofs Csc ConicSpec CscProofs LPBoost LPBoostProofs LPBoostFacts EdgeLP EdgeProofs ERLP ERLPProofs ERLPFacts.
Open Scope R_scope.


(** ** C35: the regularisation weight keeps the entropy term between 0 and half the tolerance on every capped
    distribution *)

Theorem C35_regularisation : forall ht nu y d, 0 < ht -> 1 <= nu <= INR (length y) -> capped nu y d ->
  0 <= entropy_from_uni_distribution d / erlp_eta ht nu (length y) <= ht.
Proof. exact P_C35_regularisation. Qed.
Print Assumptions C35_regularisation.

(** ** C35: ERLPBoost asks the weak learner at most max_loop times, whatever solver and weak learner do *)

Theorem C35_rounds : forall (H : Type) (conf : H -> nat -> R) solve produce y inner (s : @erlp H) fuel,
  (length (trace_of (run (erlpboost conf solve produce y inner) fuel s)) <= erlp_max_loop (er_half_tol s) (er_nu s) (length y))%nat.
Proof. exact P_C35_rounds. Qed.
Print Assumptions C35_rounds.

(** ** C33, ERLPBoost: every quadratic program handed to the solver is well formed, its feasible points are exactly the
    documented ones (the distribution capped by 1/nu, the edge of every received hypothesis at most gamma), and its
    objective is the documented second-order approximation at a positive point *)

Theorem C33_erlpboost_program : forall (H : Type) (conf : H -> nat -> R) solve produce y inner (s0 : @erlp H) t s m m1 old p,
  (forall p, length (a_x (solve p)) = length (k_q p)) ->
  reach (erlpboost conf solve produce y inner) s0 t s -> er_model s = Some m ->
  qm_turns solve (qm_start conf y m (produce t (er_dist s))) 1000 m1 old -> qm_program m1 = Ok p ->
  let hs := er_hyps s ++ [produce t (er_dist s)] in
  csc_ok (k_A p) /\ csc_ok (k_P p) /\
  (forall x, feasible p x <-> exists g d, x = g :: d /\ edge_constraints conf (er_nu s0) y hs g d) /\
  exists q, length q = length y /\ (forall v, In v q -> 0 < v) /\
    forall g d, objective p (g :: d) = sqp_objective (erlp_eta (er_half_tol s0) (er_nu s0) (length y)) q g d.
Proof. exact P_C33_erlpboost_program. Qed.
Print Assumptions C33_erlpboost_program.

(** ** the run with an exact solver *)

(** ** C35: with a solver that answers exactly, ERLPBoost stops: it returns a vote after at most max_loop rounds, all
    distributions shown to the weak learner are capped by 1/nu; the one exception is a first hypothesis whose edge is
    below half the tolerance minus one, on which the run panics.  [inner] stands for the patience with the inner loop:
    the bound shows that this loop ends too. *)

Theorem C35_terminates : forall (H : Type) (conf : H -> nat -> R) solve produce y inner (s : @erlp H),
  (forall p, erlp_asks conf solve produce y inner s p -> solves p (solve p)) ->
  (forall h i, (i < length y)%nat -> -1 <= nth i y 0 * conf h i <= 1) ->
  is_valid_binary_instance y = Ok tt -> 1 <= er_nu s <= INR (length y) -> 0 < er_half_tol s < 1 ->
  (1001 + ln (INR (length y)) / erlp_eta (er_half_tol s) (er_nu s) (length y)) * 1000000000 + 1 < INR inner ->
  let u := repeat (1 / INR (length y)) (length y) in
  forall fuel, (erlp_max_loop (er_half_tol s) (er_nu s) (length y) < fuel)%nat ->
  (exists tr f, run (erlpboost conf solve produce y inner) fuel s = Finished tr f /\ Forall (capped (er_nu s) y) tr /\
     (length tr <= erlp_max_loop (er_half_tol s) (er_nu s) (length y))%nat) \/
  (run (erlpboost conf solve produce y inner) fuel s = Crashed [u] AssertFailed /\ edge_of y u (conf (produce 1%nat u)) <= er_half_tol s - 1).
Proof. exact P_C35_terminates. Qed.
Print Assumptions C35_terminates.

(** ** C35: a run that ends before max_loop ended by its criterion: if every round's edge was at least g then the
    returned vote has edge at least g minus the tolerance on the last distribution that was shown *)

Theorem C35_criterion : forall (H : Type) (conf : H -> nat -> R) solve produce y inner (s : @erlp H) fuel tr f g,
  (forall p, erlp_asks conf solve produce y inner s p -> solves p (solve p)) ->
  (forall h i, (i < length y)%nat -> -1 <= nth i y 0 * conf h i <= 1) ->
  (1001 + ln (INR (length y)) / erlp_eta (er_half_tol s) (er_nu s) (length y)) * 1000000000 + 1 < INR inner ->
  run (erlpboost conf solve produce y inner) fuel s = Finished tr f ->
  (length tr < erlp_max_loop (er_half_tol s) (er_nu s) (length y))%nat ->
  (forall e, In e (edges conf produce y tr) -> g <= e) ->
  exists tr' d, tr = tr' ++ [d] /\ g - 2 * er_half_tol s <= edge_of y d (wm_confidence conf f).
Proof. exact P_C35_criterion. Qed.
Print Assumptions C35_criterion.

(** ** the hypotheses of C35 are met: two examples, nu = 2, half tolerance 1/10, one hypothesis with margins (1, 0) *)

(** ** the hypotheses of C33 and C35 are met *)

Example C35_hypotheses_met : exists inner, let y := y2 in let s := erx_state in
  (forall p, erlp_asks erx_conf erx_solve erx_produce y inner s p -> solves p (erx_solve p)) /\
  (forall h i, (i < length y)%nat -> -1 <= nth i y 0 * erx_conf h i <= 1) /\
  is_valid_binary_instance y = Ok tt /\ 1 <= er_nu s <= INR (length y) /\ 0 < er_half_tol s < 1 /\
  (1001 + ln (INR (length y)) / erlp_eta (er_half_tol s) (er_nu s) (length y)) * 1000000000 + 1 < INR inner /\
  exists fuel tr f, run (erlpboost erx_conf erx_solve erx_produce y inner) fuel s = Finished tr f /\ (length tr <= erlp_max_loop (1 / 10) 2 2)%nat.
Proof.
  assert (X : exists k, (1001 + ln (INR (length y2)) / (1 / 2)) * 1000000000 + 1 < INR k) by (exists (ceil_usize ((1001 + ln (INR (length y2)) / (1 / 2)) * 1000000000 + 1 + 1)); pose proof (ceil_usize_ge ((1001 + ln (INR (length y2)) / (1 / 2)) * 1000000000 + 1 + 1)); lra). destruct X as [inner Hi]. exists inner. cbn zeta. cbn [erx_state er_half_tol er_nu]. rewrite erx_eta.
  split; [apply erx_asks; exact Hi|]. split; [apply erx_marg|]. split; [exact y2_valid|]. split; [simpl; lra|]. split; [lra|]. split; [exact Hi|].
  exists (S (erlp_max_loop (1 / 10) 2 2)).
  destruct (P_C35_terminates unit erx_conf erx_solve erx_produce y2 inner erx_state) with (fuel := S (erlp_max_loop (1 / 10) 2 2)) as [[tr [f [E [_ L]]]]|[_ E]].
  - apply erx_asks. exact Hi.
  - apply erx_marg.
  - apply y2_valid.
  - simpl. lra.
  - simpl. lra.
  - cbn [erx_state er_half_tol er_nu]. rewrite erx_eta. exact Hi.
  - apply Nat.lt_succ_diag_r.
  - exists tr, f. split; [exact E|exact L].
  - exfalso. rewrite erx_rep in E. unfold erx_produce in E. rewrite erx_edge in E. cbn [erx_state er_half_tol] in E. lra.
Qed.
