(** Properties C33 (LPBoost part), C34, C63: the linear programs of LPBoost, its certificate, its termination. *)
From Verif Require Import Base Spec RegSpec LPSpec Utils UtilsProofs WMajority WMajorityProofs Booster Reach AdaBoost AdaBoostProofs AdaBoostMain AdaBoostMore FrankWolfeProofs CERLPProofs Csc ConicSpec CscProofs LPBoost LPBoostProofs LPBoostFacts.
Open Scope R_scope.


(** ** C33, LPBoost: the program that is handed to the solver after any history of updates is well formed, its
    feasible points are exactly the feasible points of the documented soft margin program, but its objective weighs
    the slacks with nu instead of 1/nu *)

Theorem C33_lpboost_program :
  forall (H : Type) (conf : H -> nat -> R) solve y nu (hs : list H) h m, 1 <= nu ->
  lpm_updates conf solve y (lpm_init (length y) (1 / nu)) hs = Ok m ->
  exists m' p, lpm_push conf y m h = Ok (m', p) /\ csc_ok (k_A p) /\ csc_ok (k_P p) /\
    (forall x, feasible p x <-> exists rho xi ws, x = rho :: xi ++ ws /\ soft_constraints conf y (hs ++ [h]) rho xi ws) /\
    (forall rho xi ws, length xi = length y -> length ws = length (hs ++ [h]) -> objective p (rho :: xi ++ ws) = - (rho - nu * rsum xi)).
Proof. exact P_C33_lpboost_program. Qed.
Print Assumptions C33_lpboost_program.

(** ** C34: when LPBoost stops, the smallest margin g of the returned vote is within the tolerance of the smallest
    edge that it has seen; g is the largest smallest margin that any vote over the received hypotheses has *)

Theorem C34_certificate :
  forall (H : Type) (conf : H -> nat -> R) solve produce y (s : @lpboost H) fuel tr f,
  (forall p, lpb_asks conf solve produce y s p -> solves p (solve p)) ->
  run (lpboost_booster conf solve produce y) fuel s = Finished tr f ->
  Forall (fun d => is_dist d /\ length d = length y) tr /\
  exists g gh, is_min_of (fun i => (i < length y)%nat) (fun i => nth i y 0 * wm_confidence conf f i) g /\
    (forall ws, length ws = length (answers produce tr) -> is_dist ws ->
       exists i, (i < length y)%nat /\ nth i y 0 * vote conf (combine ws (answers produce tr)) i <= g) /\
    (gh = 1 \/ In gh (edges conf produce y tr)) /\ (forall e, In e (edges conf produce y tr) -> gh <= e) /\ gh - lb_tol s <= g.
Proof. exact P_C34_certificate. Qed.
Print Assumptions C34_certificate.

(** a weak learner that always answers with a hypothesis of largest edge in a class: the smallest margin of the
    returned vote is within the tolerance of that of every vote over the class *)
Theorem C34_hard_margin_optimal :
  forall (H : Type) (conf : H -> nat -> R) solve produce y (s : @lpboost H) fuel tr f (cls : H -> Prop),
  (forall p, lpb_asks conf solve produce y s p -> solves p (solve p)) ->
  (forall h i, cls h -> (i < length y)%nat -> -1 <= nth i y 0 * conf h i <= 1) ->
  (forall t d c, is_dist d -> cls c -> edge_of y d (conf c) <= edge_of y d (conf (produce t d))) ->
  run (lpboost_booster conf solve produce y) fuel s = Finished tr f ->
  forall ws hs v v', length ws = length hs -> is_dist ws -> (forall h, In h hs -> cls h) ->
  is_min_of (fun i => (i < length y)%nat) (fun i => nth i y 0 * vote conf (combine ws hs) i) v ->
  is_min_of (fun i => (i < length y)%nat) (fun i => nth i y 0 * wm_confidence conf f i) v' -> v - lb_tol s <= v'.
Proof. exact P_C34_hard_margin_optimal. Qed.
Print Assumptions C34_hard_margin_optimal.

(** ** C63: LPBoost stops after at most N + 1 rounds if the weak learner answers from N hypotheses (up to equality of
    the confidences on the sample), and it never panics *)

Theorem C63_lpboost_terminates :
  forall (H : Type) (conf : H -> nat -> R) solve produce y (s : @lpboost H) (C : list (nat -> R)),
  (forall p, lpb_asks conf solve produce y s p -> solves p (solve p)) ->
  is_valid_binary_instance y = Ok tt -> 1 <= lb_nu s <= INR (length y) -> 0 <= lb_tol s ->
  (forall t d, exists c, In c C /\ forall i, (i < length y)%nat -> conf (produce t d) i = c i) ->
  forall fuel, (length C < fuel)%nat ->
  exists tr f, run (lpboost_booster conf solve produce y) fuel s = Finished tr f /\ (length tr <= length C + 1)%nat.
Proof. exact P_C63_lpboost_terminates. Qed.
Print Assumptions C63_lpboost_terminates.

(** ** a run that needs two rounds: two examples, nu = 2, tolerance 1/10, two hypotheses with margins (1, -1/5) and
    (1/10, 1/10), the weak learner takes the one with the larger edge, the solver answers by table *)

(** ** C33 refuted for LPBoost: nu = 2, one hypothesis with margins (1, -1/5).  The documented program has a point of
    value 2/5; the program handed to the solver has no value above -1/5. *)

Theorem C33_lpboost_objective_refuted :
  exists (conf : unit -> nat -> R) (y : list R) (nu : R) m' p, 1 <= nu <= INR (length y) /\ is_valid_binary_instance y = Ok tt /\
    lpm_push conf y (lpm_init (length y) (1 / nu)) tt = Ok (m', p) /\
    (exists rho xi ws, soft_constraints conf y [tt] rho xi ws /\ soft_value nu rho xi = 2 / 5) /\
    (forall x, feasible p x -> - objective p x <= - (1 / 5)).
Proof. exact P_C33_lpboost_objective_refuted. Qed.
Print Assumptions C33_lpboost_objective_refuted.

(** ** C34 refuted as a statement on soft margins: although the solver is exact and the weak learner the best
    possible, the returned vote has soft margin 1/10 while a single hypothesis has soft margin 2/5, far more than the
    tolerance 1/10; and a distribution that is not capped by 1/nu is shown to the weak learner *)

Theorem C34_soft_margin_refuted :
  exists (conf : bool -> nat -> R) solve produce y (s : @lpboost bool) tr f d,
    1 <= lb_nu s <= INR (length y) /\ 0 < lb_tol s < 2 / 5 - 1 / 10 /\
    (forall p, lpb_asks conf solve produce y s p -> solves p (solve p)) /\
    (forall t d c, edge_of y d (conf c) <= edge_of y d (conf (produce t d))) /\
    run (lpboost_booster conf solve produce y) 2 s = Finished tr f /\
    soft_margin (lb_nu s) y (wm_confidence conf f) (1 / 10) /\ soft_margin (lb_nu s) y (conf true) (2 / 5) /\
    In d tr /\ ~ capped (lb_nu s) y d.
Proof. exact P_C34_soft_margin_refuted. Qed.
Print Assumptions C34_soft_margin_refuted.

(** ** the hypotheses of C34 and C63 are met by this run; its two rounds cannot be bounded by one *)

Example C34_hypotheses_met : exists fuel tr f, run (lpboost_booster ex_conf ex_solve ex_produce y2) fuel ex_state = Finished tr f /\ length tr = 2%nat /\
  (forall p, lpb_asks ex_conf ex_solve ex_produce y2 ex_state p -> solves p (ex_solve p)) /\
  (forall t d, exists c, In c [ex_conf true; ex_conf false] /\ forall i, (i < length y2)%nat -> ex_conf (ex_produce t d) i = c i).
Proof.
  destruct ex_run as [f [Ef _]]. exists 2%nat, [[1 / 2; 1 / 2]; [0; 1]], f. split; [exact Ef|]. split; [reflexivity|]. split; [apply ex_exact|].
  intros t d. exists (ex_conf (ex_produce t d)). split; [destruct (ex_produce t d); simpl; auto|reflexivity].
Qed.
