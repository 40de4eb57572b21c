(** Exact solvers exist for the quadratic programs of ERLPBoost and SoftBoost and for the linear programs of SoftBoost and
    MLPBoost, so the hypothesis "the solver is exact" of C35, C64 and C65 can be met for every sample and weak learner. *)
From Verif Require Import Base Spec RegSpec LPSpec Utils UtilsProofs WMajority WMajorityProofs Booster Reach AdaBoost AdaBoostProofs AdaBoostMain AdaBoostMore Num FrankWolfe FrankWolfeProofs CERLP CERLPProofs Csc ConicSpec CscProofs Duality Solvable SolverFacts QPExist LPBoost LPBoostProofs LPBoostFacts EdgeLP EdgeProofs ERLP ERLPProofs ERLPFacts SoftBoost SoftProofs SoftBoostFacts MLP MLPProofs MLPFacts SolverQPFacts.
Open Scope R_scope.


(** ** C35: one solver is exact on every program that any run of ERLPBoost poses *)

Theorem C35_exact_solver_exists :
  exists solve : conic -> answer, forall (H : Type) (conf : H -> nat -> R) produce y inner (s : @erlp H) p,
  erlp_asks conf solve produce y inner s p -> solves p (solve p).
Proof. exact P_C35_exact_solver_exists. Qed.
Print Assumptions C35_exact_solver_exists.

(** ** C35 with the hypothesis on the solver discharged: one solver serves every sample, weak learner, tolerance and nu *)

Theorem C35_end_to_end :
  exists solve : conic -> answer, forall (H : Type) (conf : H -> nat -> R) produce y inner (s : @erlp H),
  is_valid_binary_instance y = Ok tt -> 1 <= er_nu s <= INR (length y) -> 0 < er_half_tol s < 1 ->
  (forall h i, (i < length y)%nat -> -1 <= nth i y 0 * conf h i <= 1) ->
  (1001 + ln (INR (length y)) / erlp_eta (er_half_tol s) (er_nu s) (length y)) * 1000000000 + 1 < INR inner ->
  let u := repeat (1 / INR (length y)) (length y) in let N := erlp_max_loop (er_half_tol s) (er_nu s) (length y) in
  er_half_tol s - 1 < edge_of y u (conf (produce 1%nat u)) ->
  exists tr f, run (erlpboost conf solve produce y inner) (S N) s = Finished tr f /\ Forall (capped (er_nu s) y) tr /\ (length tr <= N)%nat /\
    ((length tr < N)%nat -> forall g, (forall e, In e (edges conf produce y tr) -> g <= e) ->
       exists tr' d, tr = tr' ++ [d] /\ g - 2 * er_half_tol s <= edge_of y d (wm_confidence conf f)).
Proof. exact P_C35_end_to_end. Qed.
Print Assumptions C35_end_to_end.

(** ** C65: one solver is exact on every program that any run of MLPBoost poses *)

Theorem C65_exact_solver_exists :
  exists solve : conic -> answer, forall (H : Type) (conf : H -> nat -> R) eqH noise produce y (s : @mlp H) hs p,
  1 <= fw_nu (ml_fw s) < INR (length y) -> 0 < ml_half_tol s -> (forall k, 0 < noise k < 1) ->
  mlp_asks conf eqH solve noise produce y s hs p -> solves p (solve p).
Proof. exact P_C65_exact_solver_exists. Qed.
Print Assumptions C65_exact_solver_exists.

(** ** C65 with the hypothesis on the solver discharged *)

Theorem C65_end_to_end :
  exists solve : conic -> answer, forall (H : Type) (conf : H -> nat -> R) eqH noise produce y (s : @mlp H) (C : H -> Prop),
  fw_type (ml_fw s) = Classic \/ fw_type (ml_fw s) = ShortStep ->
  is_valid_binary_instance y = Ok tt -> 1 <= fw_nu (ml_fw s) < INR (length y) -> 0 < ml_half_tol s ->
  (forall h i, (i < length y)%nat -> -1 <= nth i y 0 * conf h i <= 1) ->
  (forall f h, eqH f h = true -> forall i, (i < length y)%nat -> conf f i = conf h i) ->
  (forall k, 0 < noise k < 1) ->
  (forall t d h, C h -> edge_of y d (conf h) <= edge_of y d (conf (produce t d))) ->
  exists tr f, run (mlpboost conf eqH solve noise produce y) (S (mlp_max_loop (ml_half_tol s) (fw_nu (ml_fw s)) (length y))) s = Finished tr f /\
  forall ws hs v v', length ws = length hs -> is_dist ws -> (forall h, In h hs -> C h) ->
  soft_margin (fw_nu (ml_fw s)) y (vote conf (combine ws hs)) v' -> soft_margin (fw_nu (ml_fw s)) y (wm_confidence conf f) v ->
  v' - 2 * ml_half_tol s <= v.
Proof. exact P_C65_end_to_end. Qed.
Print Assumptions C65_end_to_end.

(** ** C64: one solver is exact on every final program of SoftBoost, and on every quadratic program whose constraints can
    be met (those that the solver reports infeasible are accepted by the code like any others) *)

Theorem C64_exact_solver_exists :
  exists solve : conic -> answer, forall (H : Type) (conf : H -> nat -> R) produce y inner (s : @soft H),
  (forall p, soft_asks conf solve produce y inner s p -> (exists x, feasible p x) -> solves p (solve p)) /\
  (forall hs p, hs <> [] -> soft_asks_final conf solve produce y inner s hs p -> solves p (solve p)).
Proof. exact P_C64_exact_solver_exists. Qed.
Print Assumptions C64_exact_solver_exists.

(** ** C64 with the hypothesis on the solver discharged: for every sample, every 1 <= nu < n, every tolerance and every weak
    learner that answers with a hypothesis of largest edge, SoftBoost stops within max_loop() rounds with the best vote over
    the hypotheses it received, but it shows the weak learner the uniform distribution in every round *)

Theorem C64_end_to_end_refuted :
  exists solve : conic -> answer, forall (H : Type) (conf : H -> nat -> R) produce y inner (s : @soft H),
  is_valid_binary_instance y = Ok tt -> so_tol s <> 0 -> 1 <= so_nu s < INR (length y) ->
  (1000000000 + ln (INR (length y))) * 1000000000 + 1 < INR inner ->
  (forall h i, (i < length y)%nat -> nth i y 0 * conf h i <= 1) ->
  (forall t d h, edge_of y d (conf h) <= edge_of y d (conf (produce t d))) ->
  exists tr f, run (softboost conf solve produce y inner) (S (soft_max_loop (so_tol s) (so_nu s) (length y))) s = Finished tr f /\
    (1 <= length tr <= soft_max_loop (so_tol s) (so_nu s) (length y))%nat /\
    (forall d, In d tr -> d = repeat (1 / INR (length y)) (length y)) /\
    exists v, soft_margin (so_nu s) y (wm_confidence conf f) v /\
      forall ws v', length ws = length (answers produce tr) -> is_dist ws ->
      soft_margin (so_nu s) y (vote conf (combine ws (answers produce tr))) v' -> v' <= v.
Proof. exact P_C64_end_to_end_refuted. Qed.
Print Assumptions C64_end_to_end_refuted.
