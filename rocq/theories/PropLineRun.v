(** The line-search rules of CERLPBoost never leave the corners: the guarantee of C62 fails *)
From Verif Require Import Base Spec RegSpec SortLib Utils UtilsProofs WMajority WMajorityProofs Booster AdaBoost Num FrankWolfe FrankWolfeProofs CERLP NNFacts ValidProofs CERLPFacts LineRunSpec LineRunFacts.
Open Scope R_scope.


(** ** C62: for the LineSearch and BlendedPairwise rules the guarantee fails: with a weak learner that always finds the best
    hypothesis, all edges at least 1/3, the returned vote has soft margin -1, although an even vote of the two hypotheses reaches 0 *)

Theorem C62_line_search_refuted :
  forall (tol : R) (ty : fwtype) (fuel : nat),
  0 < tol < 2 / 3 -> ty = LineSearch \/ ty = BlendedPairwise ->
  (ceil_usize (8 * ln (3 / 1) / (tol / 2) ^ 2) < fuel)%nat ->
  let s := cerlp_fw_type (cerlp_tolerance (cerlp_init line_y) tol) ty in
  exists tr f, run (cerlpboost line_conf Bool.eqb line_best line_y) fuel s = Finished tr f /\
    (forall t d h, length d = length line_y -> edge_of line_y d (line_conf h) <= edge_of line_y d (line_conf (line_best t d))) /\
    Forall (fun e => 1 / 3 <= e) (edges line_conf line_best line_y tr) /\
    soft_margin 1 line_y (wm_confidence line_conf f) (-1) /\
    soft_margin 1 line_y (vote line_conf (combine [1 / 2; 1 / 2] [true; false])) 0.
Proof. exact P_C62_line_search_refuted. Qed.
Print Assumptions C62_line_search_refuted.
