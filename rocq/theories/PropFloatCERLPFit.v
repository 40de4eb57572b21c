(** * C107: CERLPBoost with the settings it computes from the tolerance *)
From Coq Require Import ZArith List Bool Reals Lia Lra Psatz.
From Verif Require Import Base Spec Float FloatSpec FloatProofs FloatFacts FloatCheckFacts FloatProjectSpec FloatProject FloatProjectProofs FloatProjectFacts FloatMedian FloatTree FloatMada FloatMadaProofs FloatAdaSpec FloatAdaFacts FloatRounds FloatRoundsSpec FloatRoundsProofs FloatRoundsFacts FloatFWProofs FrankWolfe FrankWolfeProofs FloatFW FloatFWSpec FloatMedianFacts FloatExpDist FloatExpDistSpec FloatExpDistFacts FloatCERLP FloatCERLPSpec FloatCERLPProofs FloatCERLPFacts FloatCERLPFit FloatCERLPFitFacts.
Open Scope R_scope.


(** ** C107: with the settings computed from a tolerance in (0,1], no run panics, whatever the weak learner returns *)

Theorem C107_fit_never_panics :
  forall (H : Type) (conf : H -> nat -> f64) (eqH : H -> H -> bool) (produce : nat -> list f64 -> H) (fexp fln : f64 -> f64) (umax : nat) (tol : f64) (ys : list f64),
  accurate_exp fexp -> accurate_ln fln -> precise_ln fln -> signed_labels ys -> bounded_confidences conf -> finite_num tol -> 0 < val tol <= 1 -> (2 <= length ys)%nat ->
  INR (length ys) * (2 * ln (INR (length ys)) / val tol + 66) <= 2 ^ 30 -> ln (INR (length ys)) ^ 2 / val tol ^ 3 <= 2 ^ 19 ->
  match f_cerlp_fit conf eqH produce fexp fln umax tol f1 ys with FCrashed _ => False | _ => True end.
Proof. exact P_C107_fit_never_panics. Qed.
Print Assumptions C107_fit_never_panics.

(** ** C107: and with a weak learner whose hypotheses always have edge at least [g], stopping on the test with a non-empty vote means a
    margin of at least g - tolerance - 2^-15 on every training example *)

Theorem C107_fit_guarantee :
  forall (H : Type) (conf : H -> nat -> f64) (eqH : H -> H -> bool) (produce : nat -> list f64 -> H) (fexp fln : f64 -> f64) (umax : nat) (tol : f64) (ys : list f64) (g : R) t dist h ws hs,
  accurate_exp fexp -> accurate_ln fln -> precise_ln fln -> signed_labels ys -> bounded_confidences conf -> finite_num tol -> 0 < val tol <= 1 -> (2 <= length ys)%nat ->
  INR (length ys) * (2 * ln (INR (length ys)) / val tol + 66) <= 2 ^ 30 -> ln (INR (length ys)) ^ 2 / val tol ^ 3 <= 2 ^ 19 ->
  (forall t d, near_distribution (length ys) d -> g <= true_edge conf ys d (produce t d)) ->
  f_cerlp_fit conf eqH produce fexp fln umax tol f1 ys = FStopped t dist h ws hs -> ws <> [] ->
  forall k, (k < length ys)%nat -> g - val tol - / 2 ^ 15 <= vote_margin conf ys ws hs k.
Proof. exact P_C107_fit_guarantee. Qed.
Print Assumptions C107_fit_guarantee.

(** ** C107: a hypothesis the learner returns again is not added again: no hypothesis of the vote is equal to an earlier one *)

Theorem C107_no_repeats :
  forall (H : Type) (conf : H -> nat -> f64) (eqH : H -> H -> bool) (produce : nat -> list f64 -> H) (fexp fln : f64 -> f64) (eta nu half_tol : f64) (ys : list f64) (rounds : nat),
  match f_cerlp_run conf eqH produce fexp fln eta nu half_tol ys rounds 1 [] [] with
  | FStopped _ _ _ _ hs | FLimit _ hs => ForallOrdPairs (fun f g => eqH f g = false) hs
  | FCrashed _ => True
  end.
Proof. exact P_C107_no_repeats. Qed.
Print Assumptions C107_no_repeats.

(** ** C107: a round that does not stop moves the weights towards the hypothesis just returned: it is (equal to one) in the vote, with
    weight zero before the step if it is new *)

Theorem C107_moves_to_returned :
  forall (H : Type) (conf : H -> nat -> f64) (eqH : H -> H -> bool) (produce : nat -> list f64 -> H) (fexp fln : f64 -> f64) (eta nu half_tol : f64) (ys : list f64) t ws hs ws' hs',
  (forall h, eqH h h = true) ->
  f_cerlp_run conf eqH produce fexp fln eta nu half_tol ys 1 t ws hs = FLimit ws' hs' ->
  exists dist k f, f_cerlp_dist conf fexp fln eta nu ys ws hs = Ok dist /\ nth_error hs' k = Some f /\ eqH f (produce t dist) = true /\
    (hs' = hs /\ f_fw_classic t k ws = Ok ws' \/ hs' = hs ++ [produce t dist] /\ k = length hs /\ f_fw_classic t k (ws ++ [f0]) = Ok ws').
Proof. exact P_C107_moves_to_returned. Qed.
Print Assumptions C107_moves_to_returned.

(** ** C107: the hypotheses are met by a run that stops on its test in the second round *)

Example C107_fit_nonvacuous :
  exists fexp fln (tol : f64) (ys : list f64), accurate_exp fexp /\ accurate_ln fln /\ precise_ln fln /\ signed_labels ys /\ bounded_confidences ex_conf /\ finite_num tol /\ 0 < val tol <= 1 /\ length ys = 2%nat /\
  INR (length ys) * (2 * ln (INR (length ys)) / val tol + 66) <= 2 ^ 30 /\ ln (INR (length ys)) ^ 2 / val tol ^ 3 <= 2 ^ 19 /\
  (exists g, val tol + / 2 ^ 14 <= g /\ forall d, near_distribution (length ys) d -> g <= true_edge ex_conf ys d tt) /\
  exists dist ws, f_cerlp_fit ex_conf (fun _ _ => true) (fun _ _ => tt) fexp fln 1000 tol f1 ys = FStopped 2 dist tt ws [tt] /\ ws <> [].
Proof. exact ex_C107_fit. Qed.
