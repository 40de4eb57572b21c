(** Facts about configuration: C67. *)
From Coq Require Import String.
From Verif Require Import Base Utils Booster AdaBoost AdaBoostV MadaBoost SmoothBoost FrankWolfe CERLP LPBoost ERLP SoftBoost MLP Feature Sample DTree Losses RTree BadLearner BuilderSpec Builders BuildersFacts.
Open Scope R_scope.


(** ** C67: AdaBoost, AdaBoostV, MadaBoost *)

Theorem C67_adaboost_family :
  forall (H : Type) (y : list R) (calls : list ada_call), let n := INR (length y) in
  (exists s : @ada H, apply_calls adaboost_call (ada_init y) calls = Ok s /\
     a_tolerance s = last_set ada_tol (1 / (n + 1)) calls /\ a_force_quit s = last_set ada_quit None calls) /\
  (exists s : @adav H, apply_calls adaboostv_call (adav_init y) calls = Ok s /\
     v_tolerance s = last_set ada_tol (1 / n) calls /\ v_force_quit s = last_set ada_quit None calls) /\
  (exists s : @mada H, apply_calls madaboost_call (mada_init y) calls = Ok s /\
     m_tolerance s = last_set ada_tol (1 / (n + 1)) calls /\ m_force_quit s = last_set ada_quit None calls).
Proof. exact P_C67_adaboost_family. Qed.
Print Assumptions C67_adaboost_family.

(** ** C67: SmoothBoost; gamma must lie in [0, 1/2) *)

Theorem C67_smoothboost :
  forall (H : Type) umax (calls : list sb_call),
  ((forall g, In (SGamma g) calls -> 0 <= g < 1 / 2) -> exists s : @sb H, apply_calls smoothboost_call (sb_init umax) calls = Ok s /\
     sb_kappa s = last_set sb_kap (1 / 2) calls /\ sb_gamma s = last_set sb_gam (1 / 2) calls) /\
  (forall g, In (SGamma g) calls -> ~ (0 <= g < 1 / 2) -> apply_calls (@smoothboost_call H) (sb_init umax) calls = Panic AssertFailed).
Proof. exact P_C67_smoothboost. Qed.
Print Assumptions C67_smoothboost.

(** ** C67: LPBoost, ERLPBoost, SoftBoost, TotalBoost; nu must lie in [1, n] *)

Theorem C67_lpboost :
  forall (H : Type) (y : list R) (calls : list lp_call), let n := length y in
  (nus_ok n calls -> exists s : @lpboost H, apply_calls (lpboost_call y) (lpb_init y) calls = Ok s /\
     lb_tol s = last_set lp_tol (1 / INR n) calls /\ lb_nu s = last_set lp_nu 1 calls) /\
  (~ nus_ok n calls -> apply_calls (@lpboost_call H y) (lpb_init y) calls = Panic AssertFailed).
Proof. exact P_C67_lpboost. Qed.
Print Assumptions C67_lpboost.

Theorem C67_erlpboost :
  forall (H : Type) (y : list R) (calls : list lp_call), let n := length y in
  (nus_ok n calls -> exists s : @erlp H, apply_calls (erlpboost_call y) (erlp_init y) calls = Ok s /\
     er_half_tol s = last_set lp_tol (1 / 100) calls / 2 /\ er_nu s = last_set lp_nu 1 calls) /\
  (~ nus_ok n calls -> apply_calls (@erlpboost_call H y) (erlp_init y) calls = Panic AssertFailed).
Proof. exact P_C67_erlpboost. Qed.
Print Assumptions C67_erlpboost.

Theorem C67_softboost :
  forall (H : Type) (y : list R) (calls : list lp_call), let n := length y in (0 < n)%nat ->
  exists s0 : @soft H, soft_init y = Ok s0 /\
  (nus_ok n calls -> exists s : @soft H, apply_calls (softboost_call y) s0 calls = Ok s /\
     so_tol s = last_set lp_tol (1 / INR n) calls /\ so_nu s = last_set lp_nu 1 calls) /\
  (~ nus_ok n calls -> apply_calls (softboost_call y) s0 calls = Panic AssertFailed).
Proof. exact P_C67_softboost. Qed.
Print Assumptions C67_softboost.

Theorem C67_totalboost :
  forall (H : Type) (y : list R) (tols : list R), let n := length y in (0 < n)%nat ->
  exists s0 s : @soft H, totalboost_init y = Ok s0 /\ apply_calls totalboost_call s0 tols = Ok s /\
    so_nu s = 1 /\ so_tol s = last tols (1 / INR n).
Proof. exact P_C67_totalboost. Qed.
Print Assumptions C67_totalboost.

(** ** C67: the corrective ERLPBoost and MLPBoost *)

Theorem C67_cerlpboost :
  forall (H : Type) (y : list R) (calls : list fw_call), let n := length y in
  (fw_nus_ok n calls -> exists s : @cerlp H, apply_calls (cerlpboost_call y) (cerlp_init y) calls = Ok s /\
     ce_half_tol s = last_set fwc_tol (1 / 100) calls / 2 /\ fw_nu (ce_fw s) = last_set fwc_nu 1 calls /\ fw_type (ce_fw s) = last_set fwc_rule ShortStep calls) /\
  (~ fw_nus_ok n calls -> apply_calls (@cerlpboost_call H y) (cerlp_init y) calls = Panic AssertFailed).
Proof. exact P_C67_cerlpboost. Qed.
Print Assumptions C67_cerlpboost.

Theorem C67_mlpboost :
  forall (H : Type) (y : list R) (calls : list fw_call), let n := length y in (0 < n)%nat ->
  exists s0 : @mlp H, mlp_init y = Ok s0 /\
  (fw_nus_ok n calls -> exists s : @mlp H, apply_calls (mlpboost_call y) s0 calls = Ok s /\
     ml_half_tol s = last_set fwc_tol (1 / 100) calls / 2 /\ fw_nu (ml_fw s) = last_set fwc_nu 1 calls /\ fw_type (ml_fw s) = last_set fwc_rule ShortStep calls) /\
  (~ fw_nus_ok n calls -> apply_calls (mlpboost_call y) s0 calls = Panic AssertFailed).
Proof. exact P_C67_mlpboost. Qed.
Print Assumptions C67_mlpboost.

(** ** C67: the builders of the weak learners *)

Theorem C67_decision_tree :
  forall (s : sample) (calls : list dt_call),
  ((forall d, In (DMaxDepth d) calls -> (0 < d)%nat) -> (forall nm n, In (DNBins nm n) calls -> In nm (map feat_name (s_features s))) ->
   exists b, apply_calls dtree_call (tb_new s) calls = Ok b /\
     tb_depth b = last_set dt_dep 2%nat calls /\ tb_criterion b = last_set dt_crit Entropy calls /\
     forall f, In f (s_features s) -> exists v, default_bins s (feat_name f) v /\ sm_get (tb_nbins b) (feat_name f) = Ok (last_set (dt_bin (feat_name f)) v calls)) /\
  ((exists nm n, In (DNBins nm n) calls /\ ~ In nm (map feat_name (s_features s))) \/ In (DMaxDepth 0) calls -> exists q, apply_calls dtree_call (tb_new s) calls = Panic q).
Proof. exact P_C67_decision_tree. Qed.
Print Assumptions C67_decision_tree.

Theorem C67_regression_tree :
  forall (s : sample) (calls : list rt_call),
  (forall d, In (RMaxDepth d) calls -> (0 < d)%nat) -> (forall nm n, In (RNBins nm n) calls -> In nm (map feat_name (s_features s))) ->
  exists b, apply_calls rtree_call (rb_new s) calls = Ok b /\
    rb_depth b = last_set rt_dep 2%nat calls /\ rb_lambda b = last_set rt_lam (/ 100) calls /\ rb_loss b = last_set rt_los None calls /\
    (forall f, In f (s_features s) -> exists v, default_bins s (feat_name f) v /\ sm_get (rb_nbins b) (feat_name f) = Ok (last_set (rt_bin (feat_name f)) v calls)) /\
    (* what is built uses these values *)
    (forall t, rb_build b s = Ok t -> rt_depth t = last_set rt_dep 2%nat calls /\ rt_lambda t = last_set rt_lam (/ 100) calls /\ Some (rt_loss t) = last_set rt_los None calls).
Proof. exact P_C67_regression_tree. Qed.
Print Assumptions C67_regression_tree.

Theorem C67_worst_case_learner :
  forall (y : list R) (calls : list lp_call), let n := INR (length y) in
  (forall nu, In (LNu nu) calls -> 1 <= nu < n) -> exists b, apply_calls badlearner_call (bb_init y) calls = Ok b /\
    bb_n b = length y /\ bb_tol b = last_set lp_tol (1 / 10 ^ 9) calls /\ bb_nu b = last_set lp_nu 1 calls.
Proof. exact P_C67_worst_case_learner. Qed.
Print Assumptions C67_worst_case_learner.

Example C67_ex : last_set lp_nu 1 [LNu 2; LTolerance (1 / 2); LNu 3] = 3 /\ last_set lp_tol 1 [LNu 2; LTolerance (1 / 2); LNu 3] = 1 / 2 /\ nus_ok 4 [LNu 2; LTolerance (1 / 2); LNu 3].
Proof.
  split; [reflexivity|]. split; [reflexivity|]. intros nu [E|[E|[E|[]]]]; inversion E; simpl; lra.
Qed.
