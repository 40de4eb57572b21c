(** Properties C11, C12, C50: AdaBoostV. *)
From Verif Require Import Base Spec SortLib Utils UtilsProofs WMajority WMajorityProofs Booster AdaBoost
  AdaBoostProofs AdaBoostMain AdaBoostMore AdaBoostV AdaBoostVProofs.
Open Scope R_scope.

(** ** Specification: the coefficient of round k is atanh(e_k) - atanh(min(1, e_1, ..., e_k) - tol). *)
Definition atanh' (x : R) : R := ln ((1 + x) / (1 - x)) / 2.
Definition coefficients_v (tol : R) (es : list R) : list R :=
  map (fun k => atanh' (nth k es 0) - atanh' (fold_right Rmin 1 (firstn (S k) es) - tol)) (seq 0 (length es)).

Lemma coefficients_v_eq tol es : coefficients_v tol es = adav_weights tol es.
Proof. reflexivity. Qed.

(** ** C11: queries *)
Lemma P_C11_adaboostv_queries_are_distributions :
  forall (H : Type) (conf : H -> nat -> R) (produce : nat -> list R -> H) (y : list R) (s : adav) (fuel : nat) d,
  In d (trace_of (run (adaboostv conf produce y) fuel s)) ->
  length d = length y /\ is_pos_dist d.
Proof.
  intros H conf produce y s fuel d Hd.
  destruct (adav_run_spec conf produce y fuel s) as [[Hg [_ Hn]] _].
  apply (In_nth _ _ []) in Hd. destruct Hd as [k [Hk <-]]. pose proof (Hg k Hk) as E.
  split; [apply E|]. eapply exp_dist_pos; [|exact E]. apply Hn. intros X. rewrite X in Hk. simpl in Hk. lia.
Qed.

Lemma P_C11_adaboostv_exponential_distribution :
  forall (H : Type) (conf : H -> nat -> R) (produce : nat -> list R -> H) (y : list R) (s : adav) (fuel : nat) tr k,
  trace_of (run (adaboostv conf produce y) fuel s) = tr -> (k < length tr)%nat ->
  let past := firstn k tr in
  let F := vote conf (combine (coefficients_v (v_tolerance s) (edges conf produce y past)) (answers produce past)) in
  length (nth k tr []) = length y /\
  forall i, (i < length y)%nat ->
    nth i (nth k tr []) 0 =
    exp (- (nth i y 0 * F i)) / rsum (map (fun j => exp (- (nth j y 0 * F j))) (seq 0 (length y))).
Proof.
  intros H conf produce y s fuel tr k E Hk.
  destruct (adav_run_spec conf produce y fuel s) as [[Hg _] _]. rewrite E in Hg. apply (Hg k Hk).
Qed.

(** a finished run either stopped at a perfect hypothesis (returned alone, weight one) or returns all the
    hypotheses obtained, with positive weights proportional to the coefficients *)
Lemma P_C11_adaboostv_keeps_every_hypothesis :
  forall (H : Type) (conf : H -> nat -> R) (produce : nat -> list R -> H) (y : list R) (s : adav) (fuel : nat) tr f,
  0 < v_tolerance s ->
  run (adaboostv conf produce y) fuel s = Finished tr f ->
  (exists tr0 d, tr = tr0 ++ [d] /\ 1 <= edge_of y d (conf (produce (length tr) d)) /\
     f = mkWM [1] [produce (length tr) d]) \/
  (Forall (fun w => 0 < w) (coefficients_v (v_tolerance s) (edges conf produce y tr)) /\
   wm_hypotheses f = answers produce tr /\
   let z := rsum (coefficients_v (v_tolerance s) (edges conf produce y tr)) in
   0 < z /\ wm_weights f = map (fun w => w / z) (coefficients_v (v_tolerance s) (edges conf produce y tr))).
Proof.
  intros H conf produce y s fuel tr f Htol Hrun.
  destruct (adav_run_spec conf produce y fuel s) as [_ HF].
  destruct (HF tr f Hrun) as [_ [[HL [Hfine Hf]]|[tr0 [d [E [_ [_ [He Hf]]]]]]]].
  2: { left. exists tr0, d. split; [exact E|]. split; [exact He|exact Hf]. }
  right. rewrite coefficients_v_eq. set (ws := adav_weights (v_tolerance s) (edges conf produce y tr)) in *.
  assert (Hpos : forall w, In w ws -> 0 < w) by (apply adav_weights_pos; assumption).
  split; [apply Forall_forall; exact Hpos|].
  assert (Hlen : length ws = length (answers produce tr)).
  { unfold ws. rewrite adav_weights_length, edges_length, answers_length. reflexivity. }
  pose proof (from_slices_spec conf ws (answers produce tr)) as S. rewrite Hf in S. cbv zeta in S.
  rewrite (kept_all ws (answers produce tr) Hpos Hlen) in S.
  destruct S as [Hz [Hc [Hl _]]].
  assert (E1 : map fst (combine ws (answers produce tr)) = ws).
  { clear -Hlen. revert Hlen. generalize (answers produce tr). induction ws as [|w ws IH]; intros [|h hs] Hlen; simpl in *; try lia; [reflexivity|]. f_equal. apply IH; lia. }
  rewrite E1 in Hz, Hc.
  assert (E2 : combine (wm_weights f) (wm_hypotheses f) = combine (map (fun w => w / rsum ws) ws) (answers produce tr)).
  { rewrite Hc. generalize (rsum ws). intros z. clear. generalize (answers produce tr). induction ws as [|w ws IH]; intros [|h hs]; simpl; try reflexivity. f_equal. apply IH. }
  assert (Hl2 : length (map (fun w => w / rsum ws) ws) = length (answers produce tr)) by (rewrite map_length; exact Hlen).
  assert (E3 : forall A B (a a' : list A) (b b' : list B), length a = length b -> length a' = length b' ->
             combine a b = combine a' b' -> a = a' /\ b = b').
  { clear. intros A B. induction a as [|x a IH]; intros [|x' a'] [|z b] [|z' b'] H1 H2 E; simpl in *; try lia; try discriminate.
    - split; reflexivity.
    - inversion E; subst. destruct (IH a' b b') as [-> ->]; try lia; auto. }
  destruct (E3 _ _ _ _ _ _ Hl Hl2 E2) as [W1 W2]. split; [exact W2|]. split; [exact Hz|exact W1].
Qed.

(** a round panics only if the smallest edge minus the tolerance leaves (-1,1), or if no weight is positive at
    the end *)
Lemma P_C50_adaboostv_round_limit :
  forall (H : Type) (conf : H -> nat -> R) (produce : nat -> list R -> H) (y : list R) (s : adav) (fuel : nat),
  let limit := match v_force_quit s with Some it => it | None => adav_max_loop y s end in
  (length (trace_of (run (adaboostv conf produce y) fuel s)) <= limit)%nat /\
  ((limit < fuel)%nat ->
     match run (adaboostv conf produce y) fuel s with
     | Unfinished _ => False
     | Crashed _ p => p = AssertFailed \/ p = UnwrapNone
     | Finished _ _ => True
     end).
Proof.
  intros H conf produce y s fuel limit. split.
  - apply (adav_run_spec conf produce y fuel s).
  - intros Hf. unfold run. simpl b_pre. destruct (adav_pre y s) as [s0|p] eqn:E.
    + eapply adav_run_from_terminates; [apply (adav_pre_inv conf produce y s s0 E)|]. unfold adav_limit. fold limit. simpl. lia.
    + unfold adav_pre in E. left.
      destruct (valid_cases y) as [V|V]; rewrite V in E; inversion E; reflexivity.
Qed.

(** a run with edges above tolerance - 1 in every round (in particular: all edges at least zero and a tolerance
    below one) does not crash *)
Lemma P_C50_adaboostv_no_crash :
  forall (H : Type) (conf : H -> nat -> R) (produce : nat -> list R -> H) (y : list R) (s : adav) (fuel : nat) tr p,
  is_valid_binary_instance y = Ok tt -> 0 < v_tolerance s < 2 ->
  (0 < match v_force_quit s with Some it => it | None => adav_max_loop y s end)%nat ->
  Forall (fun e => v_tolerance s - 1 < e /\ -1 < e) (edges conf produce y tr) ->
  run (adaboostv conf produce y) fuel s <> Crashed tr p.
Proof.
  intros H conf produce y s fuel tr p Hv Htol HM Hpos. unfold run. simpl b_pre.
  destruct (adav_pre y s) as [s0|q] eqn:E.
  2: { unfold adav_pre in E. rewrite Hv in E. discriminate. }
  pose proof (adav_pre_inv conf produce y s s0 E) as I0. fold (adav_limit y s) in HM.
  set (M := adav_limit y s) in *. set (tol := v_tolerance s) in *. clearbody M tol. clear E.
  enough (G : forall fuel t s0 tr0, VInv conf produce y tol M t s0 tr0 ->
     run_from (adaboostv conf produce y) fuel t tr0 s0 = Crashed tr p -> False).
  { intros X. eapply G; [exact I0|exact X]. }
  clear s0 I0 fuel. induction fuel as [|fuel IH]; intros t s0 tr0 Hinv X; [discriminate|].
  cbn [run_from] in X. pose proof Hinv as [Hn [HMx [Htol' [Ht [Hlim [Hgam [Hw [Hh [Hfine [Hg Hd]]]]]]]]]].
  destruct (adav_boost_step conf produce y _ _ _ _ _ Hinv)
    as [[HL Eb]|[[HL [Hed [He [s1 [Eb [Ew Eh]]]]]]|[[HL [He [Hr Eb]]]|[HL [He [s1 [Eb Hinv']]]]]]];
    simpl b_boost in X; rewrite Eb in X.
  - simpl in X. unfold adav_post in X. rewrite app_nil_r in X.
    pose proof (from_slices_spec conf (v_weights s0) (v_hyps s0)) as S.
    destruct (from_slices (v_weights s0) (v_hyps s0)); [discriminate|].
    destruct S as [_ S]. rewrite Hw, Hh in S.
    assert (Hlen : length (adav_weights tol (edges conf produce y tr0)) = length (answers produce tr0)).
    { rewrite adav_weights_length, edges_length, answers_length. reflexivity. }
    rewrite kept_all in S; [|apply adav_weights_pos; try assumption; apply Htol|exact Hlen].
    assert (Z : length (combine (adav_weights tol (edges conf produce y tr0)) (answers produce tr0)) = 0%nat) by (rewrite S; reflexivity).
    rewrite combine_length, Hlen, Nat.min_id, answers_length in Z. lia.
  - simpl in X. unfold adav_post in X. rewrite Ew, Eh in X.
    assert (Etr : tr = tr0 ++ [v_dist s0]).
    { destruct (from_slices _ _); [discriminate|]. inversion X. reflexivity. }
    rewrite Etr, edges_app in Hpos. apply Forall_app in Hpos. destruct Hpos as [_ Hpos].
    apply Forall_inv in Hpos. rewrite <- Ht in Hpos. 
    set (e := edge_of y (v_dist s0) (conf (produce t (v_dist s0)))) in *. unfold rsignum in X.
    rewrite Rltb_false in X.
    + rewrite from_slices_single in X. discriminate.
    + apply Rnot_lt_le. intros L. rewrite Rabs_left in He by exact L. lra.
  - inversion X. subst tr p. apply Hr. split.
    + assert (tol - 1 < min_edge (edges conf produce y (tr0 ++ [v_dist s0]))); [|lra].
      clear -Hpos Htol. induction Hpos as [|a l [Ha _] _ IH]; simpl; [lra|]. apply Rmin_glb_lt; assumption.
    + assert (min_edge (edges conf produce y (tr0 ++ [v_dist s0])) <= 1); [|lra].
      clear. induction (edges conf produce y (tr0 ++ [v_dist s0])) as [|a l IH]; simpl; [lra|].
      eapply Rle_trans; [apply Rmin_r|exact IH].
  - eapply IH; [exact Hinv'|exact X].
Qed.

(** ** C12: margins.  General statement after any number of rounds, and two corollaries. *)
Lemma ada_weight_gap a b : -1 < a -> a <= b -> b < 1 -> b - a <= ada_weight b - ada_weight a.
Proof.
  intros Ha Hab Hb. destruct (Rle_lt_or_eq_dec a b Hab) as [Hlt|<-]; [|lra].
  rewrite !ada_weight_ln by lra.
  destruct (MVT_cor2 (fun x => ln (1 + x) - ln (1 - x)) (fun x => / (1 + x) * (0 + 1) - / (1 - x) * (0 - 1)) a b Hlt) as [c [E Hc]].
  { intros c Hc. apply derivable_pt_lim_minus.
    - apply (derivable_pt_lim_comp (fun g => 1 + g) ln).
      + apply derivable_pt_lim_plus; [apply derivable_pt_lim_const|apply derivable_pt_lim_id].
      + apply derivable_pt_lim_ln. lra.
    - apply (derivable_pt_lim_comp (fun g => 1 - g) ln).
      + apply derivable_pt_lim_minus; [apply derivable_pt_lim_const|apply derivable_pt_lim_id].
      + apply derivable_pt_lim_ln. lra. }
  cbv beta in E.
  assert (Hpos : 0 < (1 + c) * (1 - c)) by nra.
  assert (2 <= / (1 + c) * (0 + 1) - / (1 - c) * (0 - 1)).
  { replace (/ (1 + c) * (0 + 1) - / (1 - c) * (0 - 1)) with (2 / ((1 + c) * (1 - c))) by (field; lra).
    apply Rle_div_iff; [exact Hpos|]. nra. }
  nra.
Qed.

Lemma adav_finished_margin {H} (conf : H -> nat -> R) produce y s fuel tr f g :
  (forall i, (i < length y)%nat -> pm1 (nth i y 0)) ->
  (forall h i, (i < length y)%nat -> -1 <= conf h i <= 1) ->
  0 < v_tolerance s ->
  run (adaboostv conf produce y) fuel s = Finished tr f ->
  Forall (fun e => g <= e) (edges conf produce y tr) ->
  (forall i, (i < length y)%nat -> nth i y 0 * wm_confidence conf f i = 1 /\ g <= 1) \/
  (tr <> [] /\ g <= 1 /\ exists W, v_tolerance s * INR (length tr) <= W /\
   forall i, (i < length y)%nat ->
     (g - v_tolerance s) * W - ln (INR (length y)) + v_tolerance s ^ 2 / 2 * INR (length tr)
       <= W * (nth i y 0 * wm_confidence conf f i)).
Proof.
  intros Hy Hc Htol Hrun Hg.
  assert (Hm : forall h i, (i < length y)%nat -> -1 <= nth i y 0 * conf h i <= 1).
  { intros h i Hi. specialize (Hc h i Hi). destruct (Hy i Hi) as [-> | ->]; lra. }
  destruct (adav_run_spec conf produce y fuel s) as [_ HF].
  destruct (HF tr f Hrun) as [[Hgt Hn] [[HL [Hfine Hf]]|[tr0 [d [E [_ [_ [He Hf]]]]]]]].
  - right. set (tol := v_tolerance s) in *.
    set (ws := adav_weights tol (edges conf produce y tr)) in *.
    assert (Hpos : forall w, In w ws -> 0 < w) by (apply adav_weights_pos; assumption).
    assert (Hlen : length ws = length (answers produce tr)).
    { unfold ws. rewrite adav_weights_length, edges_length, answers_length. reflexivity. }
    pose proof (from_slices_spec conf ws (answers produce tr)) as S. rewrite Hf in S. cbv zeta in S.
    rewrite (kept_all ws (answers produce tr) Hpos Hlen) in S. destruct S as [Hz [_ [_ [_ [_ Hcf]]]]].
    assert (E1 : map fst (combine ws (answers produce tr)) = ws).
    { clear -Hlen. revert Hlen. generalize (answers produce tr). induction ws as [|w ws IH]; intros [|h hs] Hlen; simpl in *; try lia; [reflexivity|]. f_equal. apply IH; lia. }
    rewrite E1 in Hz, Hcf.
    assert (Hne : tr <> []).
    { intros ->. unfold ws in Hz. simpl in Hz. lra. }
    assert (Hg1 : g <= 1).
    { destruct tr as [|d0 tr']; [contradiction|]. unfold edges in Hg, Hfine. simpl in Hg, Hfine.
      destruct Hfine as [Hs _]. inversion Hs as [|? ? Hs' _]; subst. inversion Hg; subst. unfold small in Hs'. lra. }
    split; [exact Hne|]. split; [exact Hg1|]. exists (rsum ws). split.
    + (* every coefficient is at least tol *)
      unfold ws. clear -Hfine Htol. rewrite <- (edges_length conf produce y tr).
      revert Hfine. generalize (edges conf produce y tr). intros es. induction es as [|e es IH] using rev_ind; intros Hfine.
      * simpl. lra.
      * destruct (fine_prefix y _ _ _ Hfine) as [Hf0 [He Hr]]. specialize (IH Hf0).
        rewrite adav_weights_app, rsum_app, app_length. simpl length. rewrite plus_INR. cbn [rsum]. simpl (INR 1).
        assert (Hle : min_edge (es ++ [e]) <= e) by (apply min_edge_le, in_or_app; right; left; reflexivity).
        unfold small in He. pose proof (ada_weight_gap (min_edge (es ++ [e]) - tol) e). lra.
    + intros i Hi. rewrite Hcf.
      pose proof (adav_margin conf produce y tol g tr i Hi Htol Hm Hgt Hfine Hg1 Hg) as Q.
      fold ws in Q. unfold adav_history in Q. fold ws in Q.
      replace (rsum ws * (nth i y 0 * (vote conf (combine ws (answers produce tr)) i / rsum ws)))
        with (nth i y 0 * vote conf (combine ws (answers produce tr)) i) by (field; lra).
      exact Q.
  - left. intros i Hi. rewrite Hf. unfold wm_confidence. simpl. rewrite Rplus_0_r, Rmult_1_l.
    assert (Hd : exp_dist conf y (adav_history conf produce y (v_tolerance s) tr0) d).
    { subst tr. specialize (Hgt (length tr0)). rewrite app_length in Hgt. simpl in Hgt.
      rewrite firstn_app_le, firstn_all, app_nth2, Nat.sub_diag in Hgt by lia. apply Hgt. lia. }
    assert (Hpd : is_pos_dist d) by (apply (exp_dist_pos conf y _ d Hn Hd)).
    split.
    + eapply (edge_one y d); eauto. apply Hd.
    + subst tr. rewrite edges_app in Hg. apply Forall_app in Hg. destruct Hg as [_ Hg]. apply Forall_inv in Hg.
      destruct (edge_bounds y d (conf (produce (S (length tr0)) d))) as [_ B].
      * destruct Hpd as [P1 P2]. split; [intros x Hx; left; apply P1; exact Hx|exact P2].
      * apply Hd.
      * apply Hm.
      * lra.
Qed.

(** The margin guarantee: after T > 2 ln n / tol^2 rounds every training example has margin larger than
    g - tol, for every lower bound g of the edges met (in particular their minimum). *)
Lemma P_C12_adaboostv_margin_guarantee :
  forall (H : Type) (conf : H -> nat -> R) (produce : nat -> list R -> H) (y : list R) (s : adav) (fuel : nat) tr f g,
  (forall i, (i < length y)%nat -> pm1 (nth i y 0)) ->
  (forall h i, (i < length y)%nat -> -1 <= conf h i <= 1) ->
  0 < v_tolerance s ->
  run (adaboostv conf produce y) fuel s = Finished tr f ->
  Forall (fun e => g <= e) (edges conf produce y tr) ->
  2 * ln (INR (length y)) / v_tolerance s ^ 2 < INR (length tr) ->
  forall i, (i < length y)%nat -> g - v_tolerance s < nth i y 0 * wm_confidence conf f i.
Proof.
  intros H conf produce y s fuel tr f g Hy Hc Htol Hrun Hg HT i Hi.
  destruct (adav_finished_margin conf produce y s fuel tr f g Hy Hc Htol Hrun Hg) as [Hp|[Hne [Hg1 [W [HW Hp]]]]].
  - destruct (Hp i Hi). lra.
  - specialize (Hp i Hi). set (tol := v_tolerance s) in *.
    assert (Ht2 : 0 < tol ^ 2) by (apply pow_lt; exact Htol).
    apply Rdiv_lt_iff in HT; [|exact Ht2].
    assert (HTp : 0 < INR (length tr)) by (apply INR_pos; destruct tr; [contradiction|simpl; lia]).
    assert (HWp : 0 < W) by nra.
    apply Rmult_lt_reg_l with W; [exact HWp|]. nra.
Qed.

(** with the default number of rounds T = max_loop() (rounded down, so just not enough for the above) *)
Lemma P_C12_adaboostv_margin_at_max_loop :
  forall (H : Type) (conf : H -> nat -> R) (produce : nat -> list R -> H) (y : list R) (s : adav) (fuel : nat) tr f g,
  (forall i, (i < length y)%nat -> pm1 (nth i y 0)) ->
  (forall h i, (i < length y)%nat -> -1 <= conf h i <= 1) ->
  0 < v_tolerance s ->
  run (adaboostv conf produce y) fuel s = Finished tr f ->
  Forall (fun e => g <= e) (edges conf produce y tr) ->
  length tr = adav_max_loop y s ->
  forall i, (i < length y)%nat ->
    g - v_tolerance s * (1 + 1 / (2 * INR (length tr))) < nth i y 0 * wm_confidence conf f i.
Proof.
  intros H conf produce y s fuel tr f g Hy Hc Htol Hrun Hg HT i Hi.
  assert (Ht2 : 0 < v_tolerance s ^ 2) by (apply pow_lt; exact Htol).
  destruct (adav_finished_margin conf produce y s fuel tr f g Hy Hc Htol Hrun Hg) as [Hp|[Hne [Hg1 [W [HW Hp]]]]].
  - destruct (Hp i Hi) as [-> Hg1].
    assert (HTp : 0 <= 1 / (2 * INR (length tr))).
    { destruct tr as [|d0 tr']; [simpl; unfold Rdiv; rewrite Rmult_0_r, Rinv_0; lra|].
      left. apply Rdiv_lt_0_compat; [lra|]. apply Rmult_lt_0_compat; [lra|apply INR_pos; simpl; lia]. }
    nra.
  - specialize (Hp i Hi).
    assert (HTp : 0 < INR (length tr)) by (apply INR_pos; destruct tr; [contradiction|simpl; lia]).
    assert (Hfl : 2 * ln (INR (length y)) / v_tolerance s ^ 2 < INR (length tr) + 1).
    { rewrite HT. unfold adav_max_loop. apply as_usize_gt. }
    set (tol := v_tolerance s) in *.
    apply Rdiv_lt_iff in Hfl; [|exact Ht2].
    assert (HWp : 0 < W) by nra.
    apply Rmult_lt_reg_l with W; [exact HWp|].
    assert (Hx : tol ^ 2 / 2 <= W * (tol * (1 / (2 * INR (length tr))))).
    { replace (W * (tol * (1 / (2 * INR (length tr))))) with (tol * W / (2 * INR (length tr))) by (field; lra).
      apply Rle_div_iff; [lra|]. nra. }
    nra.
Qed.

(** corollary (the documented guarantee): edges above the tolerance give zero training error *)
Lemma P_C12_adaboostv_zero_training_error :
  forall (H : Type) (conf : H -> nat -> R) (produce : nat -> list R -> H) (y : list R) (s : adav) (fuel : nat) tr f,
  (forall i, (i < length y)%nat -> pm1 (nth i y 0)) ->
  (forall h i, (i < length y)%nat -> -1 <= conf h i <= 1) ->
  0 < v_tolerance s ->
  run (adaboostv conf produce y) fuel s = Finished tr f ->
  Forall (fun e => v_tolerance s <= e) (edges conf produce y tr) ->
  2 * ln (INR (length y)) / v_tolerance s ^ 2 < INR (length tr) ->
  forall i, (i < length y)%nat -> wm_predict conf f i = nth i y 0.
Proof.
  intros H conf produce y s fuel tr f Hy Hc Htol Hrun Hg HT i Hi.
  pose proof (P_C12_adaboostv_margin_guarantee H conf produce y s fuel tr f _ Hy Hc Htol Hrun Hg HT i Hi) as M.
  unfold wm_predict. rewrite predict_sign. unfold sign_label.
  destruct (Hy i Hi) as [E|E]; rewrite E in *; destruct (Rle_dec 0 (wm_confidence conf f i)); lra.
Qed.

(** 7 rounds on the labels (+1,-1) with confidences y/2: the hypotheses of C12 hold *)
Example C12_nonvacuous :
  exists tr f, run (adaboostv (fun (h : nat -> R) i => h i) (fun _ _ i => nth i y2 0 / 2) y2) 8
                   (adav_force_quit_at (adav_tolerance (adav_init y2) (1 / 2)) 7) = Finished tr f /\
    length tr = 7%nat /\ Forall (fun e => 1 / 2 <= e) (edges (fun (h : nat -> R) i => h i) (fun _ _ i => nth i y2 0 / 2) y2 tr) /\
    2 * ln (INR (length y2)) / (1 / 2) ^ 2 < INR (length tr).
Proof.
  set (conf := fun (h : nat -> R) (i : nat) => h i). set (pr := fun (_ : nat) (_ : list R) (i : nat) => nth i y2 0 / 2).
  set (s := adav_force_quit_at (adav_tolerance (@adav_init (nat -> R) y2) (1 / 2)) 7).
  pose proof (P_C50_adaboostv_round_limit _ conf pr y2 s 8) as [Hlim T]. specialize (T ltac:(simpl; lia)).
  assert (Hed : forall tr, trace_of (run (adaboostv conf pr y2) 8 s) = tr ->
            Forall (fun e => e = 1 / 2) (edges conf pr y2 tr)).
  { intros tr Etr. apply Forall_forall. intros e He. unfold edges in He. apply in_map_iff in He.
    destruct He as [[t d] [<- Hp]]. apply in_combine_r in Hp. rewrite <- Etr in Hp.
    destruct (P_C11_adaboostv_queries_are_distributions _ _ _ _ _ _ _ Hp) as [Hl [Hp1 Hp2]].
    destruct d as [|a [|b [|c d]]]; simpl in Hl; try lia. simpl in Hp2.
    unfold edge_of, conf, pr, y2. simpl. lra. }
  destruct (run (adaboostv conf pr y2) 8 s) as [tr f|tr p|tr] eqn:E.
  - pose proof (Hed tr eq_refl) as He. exists tr, f. split; [reflexivity|].
    assert (Hl6 : length tr = 7%nat).
    { destruct (adav_run_spec conf pr y2 8 s) as [_ HF].
      destruct (HF tr f E) as [_ [[HL _]|[tr0 [d [Et [_ [_ [Hd _]]]]]]]]; [exact HL|].
      rewrite Et, edges_app in He. apply Forall_app in He. destruct He as [_ He]. apply Forall_inv in He.
      rewrite Et, app_length in Hd. simpl in Hd. rewrite Nat.add_1_r in Hd. rewrite He in Hd. lra. }
    split; [exact Hl6|]. split; [eapply Forall_impl; [|exact He]; intros a ->; lra|].
    rewrite Hl6. simpl INR. replace (1 + 1) with 2 by lra.
    assert (E2 : 2 < exp (86 / 100)).
    { pose proof (exp_ge_1x (43 / 100)) as B. replace (86 / 100) with (43 / 100 + 43 / 100) by lra.
      rewrite exp_plus. nra. }
    apply ln_increasing in E2; [|lra]. rewrite ln_exp in E2. lra.
  - exfalso. eapply (P_C50_adaboostv_no_crash _ conf pr y2 s 8 tr p); [apply y2_valid|simpl; lra|simpl; lia| |exact E].
    eapply Forall_impl; [|apply (Hed tr); reflexivity]. simpl. intros a ->. lra.
  - contradiction.
Qed.
