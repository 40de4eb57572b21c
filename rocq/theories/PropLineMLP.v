(** The line-search rules of MLPBoost: the guarantee of C65 fails, even with an exact solver *)
From Verif Require Import Base Spec RegSpec SortLib Utils UtilsProofs WMajority WMajorityProofs Booster AdaBoost Num FrankWolfe FrankWolfeProofs CERLP Csc ConicSpec CscProofs Reach LPBoost EdgeLP EdgeProofs SoftProofs MLP MLPSolveSpec MLPProofs MLPFacts SolverQPFacts LineRunSpec LineRunFacts LineMLPSpec LineMLPFacts.
Open Scope R_scope.


(** ** C65: for the LineSearch and BlendedPairwise rules the guarantee fails, even with an exact solver and a weak learner that always
    finds the best hypothesis: all edges are at least 1/3 and the returned vote has soft margin -1, although an even vote of the two
    hypotheses reaches 0 *)

Theorem C65_line_search_refuted :
  forall (tol : R) (ty : fwtype) (solve : conic -> answer) (fuel : nat) (s0 : @mlp bool),
  0 < tol < 2 / 3 -> ty = LineSearch \/ ty = BlendedPairwise ->
  (ceil_usize (8 * ln (INR 3 / 1) / (tol / 2) ^ 2) < fuel)%nat ->
  mlp_init line_y = Ok s0 ->
  let s := mlp_frank_wolfe (mlp_tolerance s0 tol) ty in
  (forall hs p, mlp_asks line_conf Bool.eqb solve (line_noise tol) line_best line_y s hs p -> solves p (solve p)) ->
  (forall k, 0 < line_noise tol k < 1) /\
  (forall t d h, length d = length line_y -> edge_of line_y d (line_conf h) <= edge_of line_y d (line_conf (line_best t d))) /\
  exists tr f, run (mlpboost line_conf Bool.eqb solve (line_noise tol) line_best line_y) fuel s = Finished tr f /\
    Forall (fun e => 1 / 3 <= e) (edges line_conf line_best line_y tr) /\
    soft_margin 1 line_y (wm_confidence line_conf f) (-1) /\
    soft_margin 1 line_y (vote line_conf (combine [1 / 2; 1 / 2] [true; false])) 0.
Proof. exact P_C65_line_search_refuted. Qed.
Print Assumptions C65_line_search_refuted.

Example C65_line_nonvacuous : exists solve s0, mlp_init line_y = Ok s0 /\
  forall hs p, mlp_asks line_conf Bool.eqb solve (line_noise (1 / 10)) line_best line_y (mlp_frank_wolfe (mlp_tolerance s0 (1 / 10)) LineSearch) hs p -> solves p (solve p).
Proof. exact ex_C65_line. Qed.
