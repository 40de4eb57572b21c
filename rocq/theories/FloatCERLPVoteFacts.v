(** * C107: the classifier CERLPBoost returns, in binary64 *)
From Coq Require Import ZArith List Bool Reals Lia Lra Psatz.
From Flocq Require Import Core.Core IEEE754.BinarySingleNaN.
From Verif Require Import Base Spec Float FloatSpec FloatProofs FloatFacts FloatCheckFacts FloatProjectSpec FloatProject FloatProjectProofs FloatProjectFacts FloatMedian FloatTree FloatMada FloatMadaProofs FloatAdaSpec FloatAdaFacts FloatRounds FloatRoundsSpec FloatRoundsProofs FloatRoundsFacts FloatFWProofs FrankWolfe FrankWolfeProofs FloatFW FloatFWSpec FloatMedianFacts FloatExpDist FloatExpDistSpec FloatExpDistFacts FloatCERLP FloatCERLPSpec FloatCERLPProofs FloatCERLPFacts FloatVoteFacts FloatCERLPFit FloatCERLPFitFacts.
Import ListNotations.
Open Scope R_scope.

Lemma filter_sum {A} (q : A -> bool) (f : A -> R) l : (forall p, In p l -> q p = false -> f p = 0) -> rsum (map f (filter q l)) = rsum (map f l).
Proof.
  induction l as [|p l IH]; intros Z; [reflexivity|]. assert (IH' : rsum (map f (filter q l)) = rsum (map f l)) by (apply IH; intros x Hx; apply Z; right; exact Hx). cbn [filter map rsum].
  destruct (q p) eqn:Q; cbn [map rsum]; rewrite IH'; [reflexivity|]. rewrite (Z p (or_introl eq_refl) Q). ring.
Qed.
Lemma filter_short {A} (q : A -> bool) l : (length (filter q l) <= length l)%nat.
Proof. induction l as [|p l IH]; simpl; [lia|]. destruct (q p); simpl; lia. Qed.
Lemma combine_total {H} (ws : list f64) (hs : list H) : length ws = length hs -> rsum (map (fun p => val (fst p)) (combine ws hs)) = total ws.
Proof.
  unfold total. revert hs. induction ws as [|w ws IH]; intros [|h hs] L; try discriminate L; [reflexivity|]. cbn [combine map rsum fst]. rewrite IH by (injection L; auto). reflexivity.
Qed.

(** the exact vote of the members with positive weight is the margin but for the label *)
Lemma vote_is_margin {H} (conf : H -> nat -> f64) ys ws (hs : list H) k : unit_weights ws -> length ws = length hs ->
  vote_margin conf ys ws hs k = val (nth k ys f0) * exact_vote (fun h => conf h k) (positive_members ws hs).
Proof.
  intros U L. unfold vote_margin, exact_vote, positive_members.
  assert (Z : forall p : f64 * H, In p (combine ws hs) -> (if Rlt_dec 0 (val (fst p)) then true else false) = false -> val (fst p) = 0).
  { intros [w h] Hp. cbn [fst]. destruct (U w (in_combine_l _ _ _ _ Hp)) as [_ B]. destruct (Rlt_dec 0 (val w)); [discriminate|intros _; lra]. }
  rewrite !filter_sum; [rewrite combine_total by exact L; reflexivity|exact Z|]. intros p Hp Q. cbv beta. apply Rmult_eq_0_compat_r. exact (Z p Hp Q).
Qed.

(** ** C107: when the guaranteed edge exceeds the tolerance by 2^-14, a run that stops on its test with a non-empty vote returns a
    classifier that predicts, in binary64, the label of every training example *)
Lemma P_C107_fit_training_error :
  forall (H : Type) (conf : H -> nat -> f64) (eqH : H -> H -> bool) (produce : nat -> list f64 -> H) (fexp fln : f64 -> f64) (umax : nat) (tol : f64) (ys : list f64) (g : R) t dist h ws hs,
  accurate_exp fexp -> accurate_ln fln -> precise_ln fln -> signed_labels ys -> bounded_confidences conf -> finite_num tol -> 0 < val tol <= 1 -> (2 <= length ys)%nat ->
  INR (length ys) * (2 * ln (INR (length ys)) / val tol + 66) <= 2 ^ 30 -> ln (INR (length ys)) ^ 2 / val tol ^ 3 <= 2 ^ 19 ->
  (forall t d, near_distribution (length ys) d -> g <= true_edge conf ys d (produce t d)) -> val tol + / 2 ^ 14 <= g ->
  f_cerlp_fit conf eqH produce fexp fln umax tol f1 ys = FStopped t dist h ws hs -> ws <> [] ->
  exists v, f_from_slices ws hs = Ok v /\
  forall k, (k < length ys)%nat -> IZR (f_predict (fun h => conf h k) v) = val (nth k ys f0).
Proof.
  intros H conf eqH produce fexp fln umax tol ys g t dist h ws hs Ae Al Pl Ly Bc Ft Ht H2 Hn Hc Hg Gt E Nw.
  pose proof (P_C107_fit_guarantee H conf eqH produce fexp fln umax tol ys g t dist h ws hs Ae Al Pl Ly Bc Ft Ht H2 Hn Hc Hg E Nw) as M.
  destruct (settings fln umax tol (length ys) Pl Ft Ht H2 Hn Hc) as [Fh [Vh [Fe [Pe [G1 [G2 [G3 _]]]]]]]. unfold f_cerlp_fit in E. set (N := f_cerlp_rounds fln umax tol f1 (length ys)) in *. set (eta := f_cerlp_eta fln tol f1 (length ys)) in *.
  pose proof (run_ends conf eqH produce fexp fln eta (f_half_tol tol) ys Ae Al Ly Bc Fe (Rlt_le _ _ Pe) G1 N G2 G3 N 1 [] [] ltac:(lia) ltac:(lia) (cinv_init ys)) as R. rewrite E in R. destruct R as [[Ht1 Ht2] [[L [Lt [U [v0 [Lv [_ [Hd Hv]]]]]]] _]].
  destruct Hv as [[_ X]|Rv]; [contradiction|]. pose proof (distance_total ws v0 Lv) as T. rewrite Rv in T. pose proof uu_pos as U0.
  assert (p29 : 2 ^ 29 * (16 * uu) <= 1 / 4) by (unfold uu; simpl; lra). apply le_INR in Ht2 as Ht2'.
  assert (Db : distance ws v0 <= 1 / 4). { assert (INR t * (16 * uu) <= 2 ^ 29 * (16 * uu)) by (apply Rmult_le_compat_r; lra). lra. }
  assert (Tb : 3 / 4 <= total ws <= 5 / 4) by (assert (Q := Rle_trans _ _ _ T Db); apply Rabs_le_inv in Q; lra).
  set (m := positive_members ws hs).
  assert (Ms : rsum (map (fun p => val (fst p)) m) = total ws).
  { unfold m, positive_members. rewrite filter_sum; [apply combine_total, L|]. intros [w q] Hp. cbn [fst]. destruct (U w (in_combine_l _ _ _ _ Hp)) as [_ B]. destruct (Rlt_dec 0 (val w)); [discriminate|intros _; lra]. }
  assert (Nm : m <> []) by (intros Z; rewrite Z in Ms; cbn in Ms; lra).
  assert (Lm : INR (length m) <= 2 ^ 29). { apply Rle_trans with (INR N); [|exact G2]. apply le_INR. unfold m, positive_members. eapply Nat.le_trans; [apply filter_short|]. rewrite combine_length. lia. }
  assert (Fa : finite_all ws) by (intros w Hw; apply U, Hw).
  assert (C : forall k, (k < length ys)%nat -> exists v, f_from_slices ws hs = Ok v /\ IZR (f_predict (fun h => conf h k) v) = val (nth k ys f0)).
  { intros k Hk. specialize (M k Hk). rewrite (vote_is_margin conf ys ws hs k U L) in M. fold m in M. set (x := exact_vote (fun h => conf h k) m) in *.
    assert (Mp : / 2 ^ 15 <= val (nth k ys f0) * x) by (assert (/ 2 ^ 14 = 2 * / 2 ^ 15) by (simpl; lra); lra). assert (P15 : 0 < / 2 ^ 15) by (apply Rinv_0_lt_compat, pow_lt; lra).
    destruct Ly as [_ Ly]. destruct (Ly _ (nth_In ys f0 Hk)) as [_ Vy].
    assert (Ax : / 2 ^ 15 <= Rabs x) by (destruct Vy as [Vy|Vy]; rewrite Vy in Mp; [rewrite Rabs_pos_eq by lra; lra|rewrite Rabs_left by lra; lra]).
    destruct (P_C79_prediction_exact H (fun h => conf h k) ws hs Fa) as [v [Ev [Pp Pn]]].
    - intros q _. apply Bc.
    - exact Nm.
    - apply Rle_trans with (1 := Lm). apply Rle_pow; [lra|lia].
    - change (rsum (map (fun p => val (fst p)) m) < 2 ^ 1022). rewrite Ms. apply Rle_lt_trans with (2 ^ 1); [simpl; lra|apply Rlt_pow; [lra|lia]].
    - change ((INR (length m) + 1) / 2 ^ 50 < Rabs x). apply Rlt_le_trans with (2 := Ax). apply Rle_lt_trans with ((2 ^ 29 + 1) / 2 ^ 50); [apply Rmult_le_compat_r; [left; apply Rinv_0_lt_compat, pow_lt; lra|lra]|simpl; lra].
    - exists v. split; [exact Ev|]. change (exact_vote (fun h => conf h k) (positive_members ws hs)) with x in Pp, Pn.
      destruct Vy as [Vy|Vy]; rewrite Vy in Mp |- *; [rewrite Pp by lra; reflexivity|rewrite Pn by lra; reflexivity]. }
  destruct (C 0%nat ltac:(lia)) as [v [Ev _]]. exists v. split; [exact Ev|]. intros k Hk. destruct (C k Hk) as [v' [Ev' P]]. rewrite Ev in Ev'. injection Ev' as <-. exact P.
Qed.
