(** Properties C23 and C95: logged runs of the margin-maximising boosters. *)
From Verif Require Import Base Spec RegSpec LPSpec Utils UtilsProofs WMajority WMajorityProofs Booster Reach AdaBoost AdaBoostProofs AdaBoostMain AdaBoostMore Num FrankWolfe FrankWolfeProofs FrankWolfeFacts Csc ConicSpec CscProofs LPBoost LPBoostProofs LPBoostFacts EdgeLP EdgeProofs ERLP ERLPProofs ERLPFacts SoftBoost SoftProofs SoftBoostFacts CERLP CERLPProofs CERLPFacts MLP MLPSolveSpec MLPProofs MLPFacts Feature Sample Objective ObjectiveFacts Logger LoggerFacts Research ResearchSpec ResearchFacts LogMoreSpec LogMoreFacts.
From Coq Require Import NArith.
From Verif Require Import Base LogMoreFacts.
Open Scope R_scope.


(** ** C23: logging changes nothing, Corrective ERLPBoost with the classic or the short-step rule *)

Theorem C23_cerlpboost_logged :
  forall (H : Type) (conf : H -> nat -> R) eqH produce y (objective : wmajority H -> res R) trl tel clock limit every (s : @cerlp H) fuel,
  fw_type (ce_fw s) = Classic \/ fw_type (ce_fw s) = ShortStep ->
  1 <= fw_nu (ce_fw s) < INR (length y) -> 0 < ce_half_tol s ->
  (forall h i, (i < length y)%nat -> -1 <= nth i y 0 * conf h i <= 1) ->
  (forall f h, eqH f h = true -> forall i, (i < length y)%nat -> conf f i = conf h i) ->
  (forall f, exists v, objective f = Ok v) -> every <> 0%N -> (forall t, (t <= fuel)%nat -> (elapsed clock t <= limit)%N) ->
  fst (log_run (cerlpboost conf eqH produce y) (research_line cerlp_current objective trl tel) clock limit every fuel s) = run (cerlpboost conf eqH produce y) fuel s.
Proof. exact P_C23_cerlpboost_logged. Qed.
Print Assumptions C23_cerlpboost_logged.

(** MLPBoost, whatever the LP solver answers as long as its hypothesis weights form a distribution *)
Theorem C23_mlpboost_logged :
  forall (H : Type) (conf : H -> nat -> R) eqH solve noise produce y (objective : wmajority H -> res R) trl tel clock limit every (s : @mlp H) fuel,
  fw_type (ml_fw s) = Classic \/ fw_type (ml_fw s) = ShortStep ->
  1 <= fw_nu (ml_fw s) < INR (length y) -> 0 < ml_half_tol s ->
  (forall h i, (i < length y)%nat -> -1 <= nth i y 0 * conf h i <= 1) ->
  (forall f h, eqH f h = true -> forall i, (i < length y)%nat -> conf f i = conf h i) ->
  (forall k, 0 < noise k < 1) ->
  (forall hs p, mlp_asks conf eqH solve noise produce y s hs p -> usable_answer (length y) (length hs) (solve p)) ->
  (forall f, exists v, objective f = Ok v) -> every <> 0%N -> (forall t, (t <= fuel)%nat -> (elapsed clock t <= limit)%N) ->
  fst (log_run (mlpboost conf eqH solve noise produce y) (research_line mlp_current objective trl tel) clock limit every fuel s) = run (mlpboost conf eqH solve noise produce y) fuel s.
Proof. exact P_C23_mlpboost_logged. Qed.
Print Assumptions C23_mlpboost_logged.

(** ERLPBoost, with a solver that solves the quadratic programs it is given *)
Theorem C23_erlpboost_logged :
  forall (H : Type) (conf : H -> nat -> R) solve produce y inner (objective : wmajority H -> res R) trl tel clock limit every (s : @erlp H) fuel,
  (forall p, erlp_asks conf solve produce y inner s p -> solves p (solve p)) ->
  (forall h i, (i < length y)%nat -> -1 <= nth i y 0 * conf h i <= 1) ->
  (1001 + ln (INR (length y)) / erlp_eta (er_half_tol s) (er_nu s) (length y)) * 1000000000 + 1 < INR inner ->
  (forall f, exists v, objective f = Ok v) -> every <> 0%N -> (forall t, (t <= fuel)%nat -> (elapsed clock t <= limit)%N) ->
  fst (log_run (erlpboost conf solve produce y inner) (research_line erlp_current objective trl tel) clock limit every fuel s) = run (erlpboost conf solve produce y inner) fuel s.
Proof. exact P_C23_erlpboost_logged. Qed.
Print Assumptions C23_erlpboost_logged.

(** SoftBoost and TotalBoost, whatever the solver answers to the quadratic programs, as long as its answers to the linear
    programs of the measurements carry a distribution of hypothesis weights *)
Theorem C23_softboost_logged :
  forall (H : Type) (conf : H -> nat -> R) solve produce y inner (objective : wmajority H -> res R) trl tel clock limit every (s : @soft H) fuel,
  (forall hs p, soft_measures conf solve produce y inner s hs p -> usable_answer (length y) (length hs) (solve p)) ->
  (forall f, exists v, objective f = Ok v) -> every <> 0%N -> (forall t, (t <= fuel)%nat -> (elapsed clock t <= limit)%N) ->
  fst (log_run (softboost conf solve produce y inner) (research_line (soft_current solve) objective trl tel) clock limit every fuel s) = run (softboost conf solve produce y inner) fuel s.
Proof. exact P_C23_softboost_logged. Qed.
Print Assumptions C23_softboost_logged.

(** ** C95: the objective column of a log of SoftBoost *)

(** With the soft-margin objective of the same nu and exact answers to the linear programs of the measurements, the value on
    line k is the largest soft margin that any convex combination of the hypotheses received so far attains, whatever the
    solver answers to the quadratic programs. *)
Theorem C95_softboost_log_is_optimal :
  forall (H : Type) (conf : H -> nat -> R) solve produce inner (smp : sample) (trl tel : wmajority H -> R) clock limit every (s : @soft H) fuel k v a c t,
  length (s_target smp) = fst (shape smp) -> let y := s_target smp in
  (forall hs p, soft_measures conf solve produce y inner s hs p -> solves p (solve p)) ->
  let logged := log_run (softboost conf solve produce y inner) (research_line (soft_current solve) (fun f => soft_margin_eval (so_nu s) smp (wm_confidence conf f)) trl tel) clock limit every fuel s in
  nth_error (snd logged) k = Some ((v, a, c), t) ->
  let received := answers produce (firstn (S k) (trace_of (fst logged))) in
  is_max_of (fun m => exists ws, length ws = length received /\ is_dist ws /\ soft_margin (so_nu s) y (vote conf (combine ws received)) m) (fun m => m) v.
Proof. exact P_C95_softboost_log_is_optimal. Qed.
Print Assumptions C95_softboost_log_is_optimal.

(** so the column never decreases *)
Theorem C95_softboost_log_never_decreases :
  forall (H : Type) (conf : H -> nat -> R) solve produce inner (smp : sample) (trl tel : wmajority H -> R) clock limit every (s : @soft H) fuel j k v a c t v' a' c' t',
  length (s_target smp) = fst (shape smp) -> let y := s_target smp in
  (forall hs p, soft_measures conf solve produce y inner s hs p -> solves p (solve p)) ->
  let logged := log_run (softboost conf solve produce y inner) (research_line (soft_current solve) (fun f => soft_margin_eval (so_nu s) smp (wm_confidence conf f)) trl tel) clock limit every fuel s in
  (j <= k)%nat -> nth_error (snd logged) j = Some ((v, a, c), t) -> nth_error (snd logged) k = Some ((v', a', c'), t') -> v <= v'.
Proof. exact P_C95_softboost_log_never_decreases. Qed.
Print Assumptions C95_softboost_log_never_decreases.

(** ** the hypotheses of C95 (and of C23_softboost_logged) are met: the log of a run with an exact solver *)

Example C95_hypotheses_met : exists inner (clock : nat -> N) (limit every : N) fuel lines tr f,
  s_target ex_rows = y2 /\ length (s_target ex_rows) = fst (shape ex_rows) /\
  (forall hs p, soft_measures sx_conf sx_solve sx_produce y2 inner sx_state hs p -> solves p (sx_solve p)) /\
  log_run (softboost sx_conf sx_solve sx_produce y2 inner) (research_line (soft_current sx_solve) (fun f => soft_margin_eval (so_nu sx_state) ex_rows (wm_confidence sx_conf f)) (fun _ => 0) (fun _ => 0)) clock limit every fuel sx_state = (Finished tr f, lines) /\
  (1 <= length lines)%nat.
Proof.
  destruct sx_inner as [inner Hi]. set (N0 := soft_max_loop (1 / 10) 1 2).
  destruct (P_C64_terminates bool sx_conf sx_solve sx_produce y2 inner sx_state (sx_asks inner) (sx_asks_final inner) y2_valid ltac:(simpl; lra) ltac:(simpl; lra) Hi (S N0) ltac:(simpl; unfold N0; lia)) as [tr [f [Er [Ln _]]]].
  set (b := softboost sx_conf sx_solve sx_produce y2 inner) in *.
  set (ms := research_line (soft_current sx_solve) (fun f => soft_margin_eval (so_nu sx_state) ex_rows (wm_confidence sx_conf f)) (fun _ => 0) (fun _ => 0)).
  assert (Z : forall t, elapsed (fun _ => 0%N) t = 0%N) by (induction t as [|t IH]; [reflexivity|rewrite elapsed_S, IH; reflexivity]).
  assert (E : fst (log_run b ms (fun _ => 0%N) 100 100 (S N0) sx_state) = Finished tr f).
  { rewrite <- Er. apply P_C23_softboost_logged; [|  |discriminate|intros t _; rewrite Z; discriminate].
    - intros hs p Ha. pose proof (sx_measures inner hs p Ha) as Sp. destruct Ha as [t [s [q [s' [flow [m [Hr [Eb [Eh [Em Ep]]]]]]]]]].
      destruct (reach_sinv sx_conf sx_solve sx_produce y2 inner sx_state t s Hr) as [tr1 HI]. pose proof (sinv_step sx_conf sx_solve sx_produce y2 inner sx_state t s tr1 HI) as St. rewrite Eb in St.
      assert (Om : sqm_ok sx_conf y2 (so_nu sx_state) hs m).
      { destruct flow as [|it]; [destruct St as [_ [_ [_ [_ [_ [_ [_ [_ [_ [_ [[m' [Em' Om]] _]]]]]]]]]]]|destruct St as [_ [[_ [_ [_ [_ [_ [[m' [Em' Om]] _]]]]]] _]]]; rewrite Em in Em'; injection Em' as <-; rewrite Eh in Om; exact Om. }
      rewrite (so_final_ok sx_conf y2 _ hs m Om) in Ep. injection Ep as <-.
      destruct (gamma_solved sx_conf y2 1 (1 / so_nu sx_state) (repeat 0 (length y2)) hs (repeat_length _ _) _ Sp) as [Lx [Lz [Ld [_ [_ [Lw [Dw _]]]]]]].
      split; [rewrite skipn_length in Ld; simpl in Ld |- *; lia|]. split; [rewrite Lz; lia|]. replace (2 * length y2 + 1)%nat with (1 + 2 * length y2)%nat by lia. exact Dw.
    - intros g. pose proof (P_C42_soft_margin (so_nu sx_state) ex_rows (wm_confidence sx_conf g) eq_refl) as P. destruct (soft_margin_eval _ _ _) as [v|]; [exists v; reflexivity|].
      exfalso. simpl in P. destruct P as [P|[P|[P|P]]]; try discriminate; lra. }
  exists inner, (fun _ => 0%N), 100%N, 100%N, (S N0), (snd (log_run b ms (fun _ => 0%N) 100 100 (S N0) sx_state)), tr, f.
  split; [reflexivity|]. split; [reflexivity|]. split; [apply sx_measures|]. split; [rewrite <- E; apply surjective_pairing|].
  destruct (P_C23_one_line_per_round _ _ _ b ms (fun _ => 0%N) 100%N 100%N sx_state (S N0)) as [_ L].
  destruct (L _ _ E) as [k [tr0 [s0 [q [s1 [flow [l [Hr [Eb [Ll _]]]]]]]]]]. rewrite Ll. lia.
Qed.
