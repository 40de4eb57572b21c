(** Properties C04-C10, C13, C14: AdaBoost and the weighted majority vote. *)
From Verif Require Import Base UtilsFacts Spec SortLib Utils UtilsProofs WMajority WMajorityProofs Booster AdaBoost
  AdaBoostProofs AdaBoostMain AdaBoostMore.
Open Scope R_scope.

(** ** C04: whatever the weak learner answers, everything AdaBoost shows it (in finished, crashed or still
    running executions of any length) is a strictly positive distribution on the training examples. *)
Lemma P_C04_adaboost_queries_are_distributions :
  forall (H : Type) (conf : H -> nat -> R) (produce : nat -> list R -> H) (y : list R) (s : ada) (fuel : nat) d,
  In d (trace_of (run (adaboost conf produce y) fuel s)) ->
  length d = length y /\ is_pos_dist d.
Proof.
  intros H conf produce y s fuel d Hd.
  destruct (ada_run_spec conf produce y fuel s) as [[Hg [_ Hn]] _].
  apply (In_nth _ _ []) in Hd. destruct Hd as [k [Hk <-]]. pose proof (Hg k Hk) as E.
  split; [apply E|]. eapply exp_dist_pos; [|exact E]. apply Hn. intros X. rewrite X in Hk. simpl in Hk. lia.
Qed.

(** the first one is uniform *)
Lemma P_C04_adaboost_starts_uniform :
  forall (H : Type) (conf : H -> nat -> R) (produce : nat -> list R -> H) (y : list R) (s : ada) (fuel : nat) d tr,
  trace_of (run (adaboost conf produce y) fuel s) = d :: tr -> d = repeat (1 / INR (length y)) (length y).
Proof.
  intros H conf produce y s fuel d tr E.
  destruct (ada_run_spec conf produce y fuel s) as [[Hg [_ Hn]] _]. rewrite E in Hg, Hn.
  destruct (Hg 0%nat) as [Hl Hd]; [simpl; lia|]. simpl in Hl, Hd.
  destruct (exp_dist_uniform conf y) as [Ul Ud]; [apply Hn; discriminate|].
  apply (list_eq_nth 0); [congruence|]. intros i Hi. rewrite Hl in Hi. rewrite Hd, Ud by exact Hi. reflexivity.
Qed.

(** ** C05: query k is exp(-y_i F(x_i)) / sum_j exp(-y_j F(x_j)), F being the combination of the first k
    answers with coefficients 1/2 ln((1+e)/(1-e)). *)
Lemma P_C05_adaboost_exponential_distribution :
  forall (H : Type) (conf : H -> nat -> R) (produce : nat -> list R -> H) (y : list R) (s : ada) (fuel : nat) tr k,
  trace_of (run (adaboost conf produce y) fuel s) = tr -> (k < length tr)%nat ->
  let past := firstn k tr in
  let F := vote conf (combine (map (fun e => ln ((1 + e) / (1 - e)) / 2) (edges conf produce y past))
                              (answers produce past)) in
  length (nth k tr []) = length y /\
  forall i, (i < length y)%nat ->
    nth i (nth k tr []) 0 =
    exp (- (nth i y 0 * F i)) / rsum (map (fun j => exp (- (nth j y 0 * F j))) (seq 0 (length y))).
Proof.
  intros H conf produce y s fuel tr k E Hk.
  destruct (ada_run_spec conf produce y fuel s) as [[Hg _] _]. rewrite E in Hg. apply (Hg k Hk).
Qed.

(** ** C06 *)
Lemma P_C06_adaboost_last_hypothesis_has_zero_edge :
  forall (H : Type) (conf : H -> nat -> R) (produce : nat -> list R -> H) (y : list R) (s : ada) (fuel k : nat) tr,
  trace_of (run (adaboost conf produce y) fuel s) = tr -> (S k < length tr)%nat ->
  (forall i, (i < length y)%nat -> pm1 (nth i y 0)) ->
  let h := nth k (answers produce tr) (produce 0%nat []) in
  (forall i, (i < length y)%nat -> pm1 (conf h i)) ->
  Forall (fun e => -1 < e < 1) (firstn (S k) (edges conf produce y tr)) ->
  edge_of y (nth (S k) tr []) (conf h) = 0.
Proof.
  intros H conf produce y s fuel k tr E Hk Hy h Hh Hs.
  exact (ada_edge_zero conf produce y fuel s k tr E Hk Hy Hh Hs).
Qed.

(** ** C07 *)
Lemma P_C07_adaboost_training_error_bound :
  forall (H : Type) (conf : H -> nat -> R) (produce : nat -> list R -> H) (y : list R) (s : ada) (fuel : nat) tr f,
  (forall i, (i < length y)%nat -> pm1 (nth i y 0)) ->
  (forall h i, In h (answers produce tr) -> (i < length y)%nat -> -1 <= conf h i <= 1) ->
  run (adaboost conf produce y) fuel s = Finished tr f ->
  Forall (fun e => 0 <= e) (edges conf produce y tr) ->
  INR (n_errors y (wm_predict conf f)) / INR (length y)
    <= rprod (map (fun g => sqrt (1 - g ^ 2)) (edges conf produce y tr)).
Proof.
  intros H conf produce y s fuel tr f Hy Hc Hrun Hpos.
  pose proof (ada_training_error conf produce y fuel s tr f Hy Hc Hrun Hpos) as B.
  destruct (ada_run_spec conf produce y fuel s) as [_ HF]. destruct (HF tr f Hrun) as [[_ Hn] _].
  apply Rdiv_le_iff; [apply INR_pos; exact Hn|]. rewrite Rmult_comm. exact B.
Qed.

(** ** C08 *)
Lemma P_C08_adaboost_round_limit :
  forall (H : Type) (conf : H -> nat -> R) (produce : nat -> list R -> H) (y : list R) (s : ada) (fuel : nat),
  let limit := match a_force_quit s with Some it => it | None => ada_max_loop y s end in
  (length (trace_of (run (adaboost conf produce y) fuel s)) <= limit)%nat /\
  ((limit < fuel)%nat ->
     match run (adaboost conf produce y) fuel s with
     | Unfinished _ => False
     | Crashed _ p => p = AssertFailed
     | Finished _ _ => True
     end).
Proof.
  intros H conf produce y s fuel limit. split.
  - apply (ada_run_spec conf produce y fuel s).
  - intros Hf. unfold run. simpl b_pre. destruct (ada_pre y s) as [s0|p] eqn:E.
    + eapply ada_run_from_terminates; [apply (ada_pre_inv conf produce y s s0 E)|]. unfold ada_limit. fold limit. lia.
    + unfold ada_pre in E. 
      destruct (valid_cases y) as [V|V]; rewrite V in E; inversion E; reflexivity.
Qed.

(** a run on valid labels (that is allowed at least one round) crashes only in its last round, because no edge was
    positive, or because the last hypothesis is wrong on every example *)
Lemma P_C08_adaboost_crash_cause :
  forall (H : Type) (conf : H -> nat -> R) (produce : nat -> list R -> H) (y : list R) (s : ada) (fuel : nat) tr p,
  is_valid_binary_instance y = Ok tt ->
  (0 < match a_force_quit s with Some it => it | None => ada_max_loop y s end)%nat ->
  run (adaboost conf produce y) fuel s = Crashed tr p ->
  p = AssertFailed /\ tr <> [] /\
  (Forall (fun e => e <= 0) (edges conf produce y tr) \/ last (edges conf produce y tr) 0 <= -1).
Proof.
  intros H conf produce y s fuel tr p Hv HM. unfold run. simpl b_pre.
  destruct (ada_pre y s) as [s0|q] eqn:E.
  2: { unfold ada_pre in E. rewrite Hv in E. discriminate. }
  pose proof (ada_pre_inv conf produce y s s0 E) as I0. fold (ada_limit y s) in HM.
  set (M := ada_limit y s) in *. clearbody M. clear E.
  enough (G : forall fuel t s0 tr0, AInv conf produce y M t s0 tr0 ->
     run_from (adaboost conf produce y) fuel t tr0 s0 = Crashed tr p -> p = AssertFailed /\ tr <> [] /\
     (Forall (fun e => e <= 0) (edges conf produce y tr) \/ last (edges conf produce y tr) 0 <= -1)).
  { intros X. eapply G; [exact I0|exact X]. }
  clear s0 I0 fuel. induction fuel as [|fuel IH]; intros t s0 tr0 Hinv X; [discriminate|].
  cbn [run_from] in X. pose proof Hinv as [Hn [HMx [Ht [Hlim [Hlen [Hc [Hw [Hsm [Hg Hd]]]]]]]]].
  destruct (ada_boost_step conf produce y _ _ _ _ Hinv)
    as [[HL E]|[[HL [Hed [He [s1 [E [Ew Eh]]]]]]|[HL [He [s1 [E Hinv']]]]]];
    simpl b_boost in X; rewrite E in X.
  - simpl in X. unfold ada_post in X. rewrite app_nil_r in X.
    pose proof (from_slices_spec conf (a_weights s0) (a_hyps s0)) as S.
    destruct (from_slices (a_weights s0) (a_hyps s0)); [discriminate|]. inversion X; subst tr0.
    destruct S as [S0 S]. split; [congruence|]. split; [intros ->; simpl in HL; lia|]. left.
    apply Forall_forall. intros e He. destruct (Rle_lt_dec e 0) as [|Pe]; [assumption|exfalso].
    rewrite Forall_forall in Hsm. pose proof (Hsm e He) as Se. unfold small in Se.
    assert (Wp : 0 < ada_weight e) by (apply ada_weight_pos; lra).
    assert (Iw : In (ada_weight e) (a_weights s0)) by (rewrite Hw; apply in_map; exact He).
    destruct (In_nth _ _ 0 Iw) as [k [Hk Ek]].
    destruct (nth_error (a_hyps s0) k) as [h|] eqn:Eh; [|apply nth_error_None in Eh; lia].
    assert (Ik : In (ada_weight e, h) (kept (a_weights s0) (a_hyps s0))).
    { unfold kept. apply filter_In. split; [|cbn [fst]; apply Rltb_true; exact Wp].
      rewrite <- Ek, <- (nth_error_nth _ _ h Eh), <- combine_nth by exact Hlen. apply nth_In. rewrite combine_length. lia. }
    rewrite S in Ik. destruct Ik.
  - simpl in X. unfold ada_post in X. rewrite Ew, Eh in X. unfold rsignum in X.
    destruct (Rltb_spec (edge_of y (a_dist s0) (conf (produce t (a_dist s0)))) 0) as [N|N]; [|rewrite from_slices_single in X; discriminate].
    rewrite from_slices_single_neg in X. injection X as <- <-. split; [reflexivity|]. split; [destruct tr0; discriminate|]. right.
    rewrite edges_app, last_last. replace (S (length tr0)) with t by lia. rewrite Rabs_left in He by exact N. lra.
  - eapply IH; [exact Hinv'|exact X].
Qed.

(** in particular a run whose edges are all positive does not crash *)
Lemma P_C08_adaboost_no_crash :
  forall (H : Type) (conf : H -> nat -> R) (produce : nat -> list R -> H) (y : list R) (s : ada) (fuel : nat) tr p,
  is_valid_binary_instance y = Ok tt ->
  (0 < match a_force_quit s with Some it => it | None => ada_max_loop y s end)%nat ->
  Forall (fun e => 0 < e) (edges conf produce y tr) ->
  run (adaboost conf produce y) fuel s <> Crashed tr p.
Proof.
  intros H conf produce y s fuel tr p Hv HM Hpos X.
  destruct (P_C08_adaboost_crash_cause H conf produce y s fuel tr p Hv HM X) as [_ [Hne D]].
  assert (Hin : In (last (edges conf produce y tr) 0) (edges conf produce y tr)).
  { destruct tr as [|d tr _] using rev_ind; [congruence|]. rewrite edges_app, last_last. apply in_or_app. right. left. reflexivity. }
  rewrite Forall_forall in Hpos. specialize (Hpos _ Hin). destruct D as [D|D]; [rewrite Forall_forall in D; specialize (D _ Hin)|]; lra.
Qed.

(** ** C09 *)
Lemma P_C09_adaboost_perfect_hypothesis_is_returned :
  forall (H : Type) (conf : H -> nat -> R) (produce : nat -> list R -> H) (y : list R) (s : ada) (fuel : nat) tr d f,
  run (adaboost conf produce y) fuel s = Finished (tr ++ [d]) f ->
  let h := produce (S (length tr)) d in
  1 <= Rabs (edge_of y d (conf h)) ->
  f = mkWM [1] [h] /\ (forall i, wm_confidence conf f i = conf h i).
Proof.
  intros H conf produce y s fuel tr d f Hrun h He.
  destruct (ada_run_spec conf produce y fuel s) as [_ HF].
  destruct (HF _ f Hrun) as [_ [[_ [Hsm _]]|[tr0 [d0 [E [_ [_ [_ Hf]]]]]]]].
  - rewrite edges_app in Hsm. apply Forall_app in Hsm. destruct Hsm as [_ Hsm]. apply Forall_inv in Hsm.
    fold h in Hsm. unfold small in Hsm. exfalso. assert (Rabs (edge_of y d (conf h)) < 1) by (apply Rabs_def1; lra). lra.
  - apply app_inj_tail in E. destruct E as [-> ->]. rewrite app_length in Hf. simpl in Hf.
    rewrite Nat.add_1_r in Hf. fold h in Hf. split; [exact Hf|]. intros i. rewrite Hf. unfold wm_confidence. simpl. lra.
Qed.

(** in the very round in which the edge reaches one the run stops *)
Lemma P_C09_adaboost_stops_at_perfect_hypothesis :
  forall (H : Type) (conf : H -> nat -> R) (produce : nat -> list R -> H) (y : list R) (s : ada) (fuel k : nat) tr,
  trace_of (run (adaboost conf produce y) fuel s) = tr ->
  (k < length tr)%nat -> 1 <= Rabs (nth k (edges conf produce y tr) 0) -> length tr = S k.
Proof.
  intros H conf produce y s fuel k tr Htr Hk He.
  assert (G : forall fuel t s0 tr0 M, AInv conf produce y M t s0 tr0 ->
     trace_of (run_from (adaboost conf produce y) fuel t tr0 s0) = tr ->
     Forall small (edges conf produce y (firstn (length tr - 1) tr))).
  { clear s fuel Htr. induction fuel as [|fuel IH]; intros t s0 tr0 M Hinv X.
    - simpl in X. subst tr0. destruct Hinv as [_ [_ [_ [_ [_ [_ [_ [Hsm _]]]]]]]].
      clear -Hsm. destruct tr as [|d0 tr0'] using rev_ind; [constructor|]. clear IHtr0'.
      rewrite app_length. simpl. replace (length tr0' + 1 - 1)%nat with (length tr0') by lia.
      rewrite firstn_app_le, firstn_all by lia. rewrite edges_app in Hsm. apply Forall_app in Hsm. apply Hsm.
    - cbn [run_from] in X. pose proof Hinv as [Hn [HMx [Ht [Hlim [Hlen [Hc [Hw [Hsm [Hg Hd]]]]]]]]].
      assert (Hlast : forall d, Forall small (edges conf produce y (firstn (length (tr0 ++ [d]) - 1) (tr0 ++ [d])))).
      { intros d. rewrite app_length. simpl. replace (length tr0 + 1 - 1)%nat with (length tr0) by lia.
        rewrite firstn_app_le, firstn_all by lia. exact Hsm. }
      assert (Hpre : Forall small (edges conf produce y (firstn (length tr0 - 1) tr0))).
      { destruct tr0 as [|d0 tr0'] using rev_ind; [constructor|]. clear IHtr0'.
        rewrite app_length. simpl. replace (length tr0' + 1 - 1)%nat with (length tr0') by lia.
        rewrite firstn_app_le, firstn_all by lia. rewrite edges_app in Hsm. apply Forall_app in Hsm. apply Hsm. }
      destruct (ada_boost_step conf produce y _ _ _ _ Hinv)
        as [[HL E]|[[HL [Hed [He' [s1 [E [Ew Eh]]]]]]|[HL [He' [s1 [E Hinv']]]]]];
        simpl b_boost in X; rewrite E in X.
      + rewrite app_nil_r in X. assert (Q : tr0 = tr) by (destruct (b_post _ s0); simpl in X; exact X). rewrite <- Q. exact Hpre.
      + assert (Q : tr0 ++ [a_dist s0] = tr) by (destruct (b_post _ s1); simpl in X; exact X). rewrite <- Q. apply Hlast.
      + eapply IH; [exact Hinv'|exact X]. }
  unfold run in Htr. simpl b_pre in Htr. destruct (ada_pre y s) as [s0|p] eqn:E.
  - pose proof (G _ _ _ _ _ (ada_pre_inv conf produce y s s0 E) Htr) as Hall. clear G.
    destruct (Nat.eq_dec (length tr) (S k)) as [|Hne]; [assumption|]. exfalso.
    destruct tr as [|d0 tr'] using rev_ind; [simpl in Hk; lia|]. clear IHtr'.
    rewrite app_length in *. simpl in *. replace (length tr' + 1 - 1)%nat with (length tr') in Hall by lia.
    rewrite firstn_app_le, firstn_all in Hall by lia. rewrite edges_app in He.
    rewrite app_nth1 in He by (rewrite edges_length; lia).
    rewrite Forall_forall in Hall. assert (Hin : In (nth k (edges conf produce y tr') 0) (edges conf produce y tr')).
    { apply nth_In. rewrite edges_length. lia. }
    specialize (Hall _ Hin). unfold small in Hall. assert (Rabs (nth k (edges conf produce y tr') 0) < 1) by (apply Rabs_def1; lra). lra.
  - simpl in Htr. subst tr. simpl in Hk. lia.
Qed.

(** The second half of C09 fails: with default parameters, the labels (+1,-1) and a weak learner whose single
    answer is the exact negation of the labels, run() panics instead of returning the negated hypothesis. *)
Lemma P_C09_adaboost_negative_edge_refuted :
  exists (produce : nat -> list R -> (nat -> R)) (y : list R),
    (forall t d i, (i < length y)%nat -> pm1 (produce t d i)) /\
    forall fuel, exists tr,
      run (adaboost (fun h i => h i) produce y) (S fuel) (ada_init y) = Crashed tr AssertFailed /\
      edges (fun h i => h i) produce y tr = [-1].
Proof.
  exists (fun _ _ => h_wrong), y2. split.
  - intros _ _ i Hi. unfold h_wrong. destruct (y2_pm1 i Hi) as [-> | ->]; unfold pm1; [right|left]; lra.
  - intros fuel. exists [[1 / 2; 1 / 2]]. split; [apply (ada_negative_edge_run fuel)|].
    unfold edges, edge_of, h_wrong. simpl. f_equal. field.
Qed.

(** ** C10: what does hold: zero training error once gamma^2 T > 2 ln n (twice the advertised number of
    rounds).  Missing from the full claim: T = max_loop() = floor(ln n / tolerance^2) rounds. *)
Lemma P_C10_adaboost_zero_training_error_partial :
  forall (H : Type) (conf : H -> nat -> R) (produce : nat -> list R -> H) (y : list R) (s : ada) (fuel : nat) tr f g,
  (forall i, (i < length y)%nat -> pm1 (nth i y 0)) ->
  (forall h i, In h (answers produce tr) -> (i < length y)%nat -> -1 <= conf h i <= 1) ->
  run (adaboost conf produce y) fuel s = Finished tr f ->
  0 < g -> Forall (fun e => g <= e) (edges conf produce y tr) ->
  2 * ln (INR (length y)) < g ^ 2 * INR (length tr) ->
  forall i, (i < length y)%nat -> wm_predict conf f i = nth i y 0.
Proof.
  intros H conf produce y s fuel tr f g Hy Hc Hrun Hg Hes HT i Hi.
  pose proof (ada_zero_error conf produce y fuel s tr f g Hy Hc Hrun Hg Hes HT) as Z.
  unfold n_errors in Z.
  assert (G : forall l, count (fun i => negb (if Req_EM_T (wm_predict conf f i) (nth i y 0) then true else false)) l = 0%nat ->
     forall j, In j l -> wm_predict conf f j = nth j y 0).
  { induction l as [|a l IH]; intros Hz j Hj; [destruct Hj|]. destruct Hj as [<-|Hj]; cbn [count] in Hz;
      destruct (Req_EM_T (wm_predict conf f a) (nth a y 0)); simpl in Hz; try lia; auto. }
  apply (G _ Z). apply in_seq. lia.
Qed.

(** The claim for T = max_loop() rounds fails: for every two-label sample and every weak learner, however good,
    a tolerance with tol^2 > ln n makes run() panic (max_loop() is then 0). *)
Lemma P_C10_adaboost_max_loop_guarantee_refuted :
  exists (y : list R) (tol : R), 0 < tol < 1 /\ is_valid_binary_instance y = Ok tt /\
    forall (H : Type) (conf : H -> nat -> R) (produce : nat -> list R -> H) fuel,
      run (adaboost conf produce y) (S fuel) (ada_tolerance (ada_init y) tol) = Crashed [] AssertFailed.
Proof.
  exists y2, (9 / 10). split; [lra|]. split; [apply y2_valid|]. intros H conf produce fuel.
  apply ada_large_tolerance_crash; [apply y2_valid|lra|]. simpl INR. replace (1 + 1) with 2 by lra.
  (* ln 2 < 0.81 : exp 0.81 >= 1 + 0.81 + 0.81^2/2 > 2; via exp(0.405)^2 >= 1.405^2 *)
  assert (E : 2 < exp (81 / 100)).
  { pose proof (exp_ge_1x (27 / 100)) as B.
    replace (81 / 100) with (27 / 100 + 27 / 100 + 27 / 100) by lra. rewrite !exp_plus.
    assert (0 < exp (27 / 100)) by apply exp_pos. nra. }
  apply ln_increasing in E; [|lra]. rewrite ln_exp in E. lra.
Qed.

Example C07_nonvacuous :
  exists tr f, run (adaboost (fun (h : nat -> R) i => h i) (fun _ _ i => nth i y2 0 / 2) y2) 2
                   (ada_force_quit_at (ada_init y2) 1) = Finished tr f /\
    Forall (fun e => 0 < e) (edges (fun (h : nat -> R) i => h i) (fun _ _ i => nth i y2 0 / 2) y2 tr) /\
    (forall i, (i < length y2)%nat -> pm1 (nth i y2 0)).
Proof.
  set (conf := fun (h : nat -> R) (i : nat) => h i). set (pr := fun (_ : nat) (_ : list R) (i : nat) => nth i y2 0 / 2).
  set (s := ada_force_quit_at (@ada_init (nat -> R) y2) 1).
  pose proof (P_C08_adaboost_round_limit _ conf pr y2 s 2) as [_ T]. specialize (T ltac:(simpl; lia)).
  assert (Hlen : forall tr, trace_of (run (adaboost conf pr y2) 2 s) = tr ->
            Forall (fun e => 0 < e) (edges conf pr y2 tr)).
  { intros tr Etr. apply Forall_forall. intros e He. unfold edges in He. apply in_map_iff in He.
    destruct He as [[t d] [<- Hp]]. apply in_combine_r in Hp. rewrite <- Etr in Hp.
    destruct (P_C04_adaboost_queries_are_distributions _ _ _ _ _ _ _ Hp) as [Hl [Hp1 Hp2]].
    destruct d as [|a [|b [|c d]]]; simpl in Hl; try lia. simpl in Hp2.
    unfold edge_of, conf, pr, y2. simpl. lra. }
  destruct (run (adaboost conf pr y2) 2 s) as [tr f|tr p|tr] eqn:E.
  - exists tr, f. split; [reflexivity|]. split; [apply Hlen; reflexivity|apply y2_pm1].
  - exfalso. eapply (P_C08_adaboost_no_crash _ conf pr y2 s 2 tr p); [apply y2_valid|simpl; lia|apply Hlen; reflexivity|exact E].
  - contradiction.
Qed.

(** ** C13: weighted majority *)
Lemma P_C13_weighted_majority_convex :
  forall (H : Type) (conf : H -> nat -> R) (ws : list R) (hs : list H),
  let positive := filter (fun p => Rltb 0 (fst p)) (combine ws hs) in
  (positive = [] -> from_slices ws hs = Panic AssertFailed) /\
  (positive <> [] -> exists f z,
     from_slices ws hs = Ok f /\ 0 < z /\
     combine (wm_weights f) (wm_hypotheses f) = map (fun p => (fst p / z, snd p)) positive /\
     length (wm_weights f) = length (wm_hypotheses f) /\
     (forall w, In w (wm_weights f) -> 0 < w) /\ rsum (wm_weights f) = 1 /\
     (forall i, (forall h, In h hs -> -1 <= conf h i <= 1) -> -1 <= wm_confidence conf f i <= 1) /\
     (forall i, wm_predict conf f i = sign_label (vote conf positive i))).
Proof.
  intros H conf ws hs positive. fold (kept ws hs) in positive. subst positive.
  pose proof (from_slices_spec conf ws hs) as S. split.
  - intros E. destruct (from_slices ws hs) as [f|p]; [|destruct S as [-> _]; reflexivity].
    rewrite E in S. simpl in S. destruct S as [S _]. lra.
  - intros E. destruct (from_slices ws hs) as [f|p]; [|destruct S as [_ S]; contradiction].
    exists f, (rsum (map fst (kept ws hs))). cbv zeta in S. destruct S as [Hz [Hc [Hl [Hp [Hs Hf]]]]].
    split; [reflexivity|]. split; [exact Hz|]. split; [exact Hc|]. split; [exact Hl|]. split; [exact Hp|].
    split; [exact Hs|]. split.
    + intros i Hi. change (wm_confidence conf f i) with (vote conf (combine (wm_weights f) (wm_hypotheses f)) i).
      apply convex_bounded.
      * intros p Hpp. destruct p as [w h]. apply in_combine_l in Hpp. left. apply Hp; exact Hpp.
      * rewrite Hc, map_map. simpl. rewrite rsum_map_div. field. lra.
      * intros p Hpp. rewrite Hc in Hpp. apply in_map_iff in Hpp. destruct Hpp as [q [<- Hq]]. simpl.
        apply filter_In in Hq. destruct Hq as [Hq _]. destruct q as [w h]. apply in_combine_r in Hq. apply Hi; exact Hq.
    + intros i. unfold wm_predict. rewrite predict_sign, Hf. apply sign_label_scale. exact Hz.
Qed.

Example C13_nonvacuous : filter (fun p => Rltb 0 (fst p)) (combine [2; -1; 3] [true; false; true])
                         = [(2, true); (3, true)].
Proof.
  simpl. rewrite (Rltb_true 0 2), (Rltb_false 0 (-1)), (Rltb_true 0 3) by lra. reflexivity.
Qed.

(** rescaling the weights by a common positive factor does not change the combined hypothesis *)
Lemma P_C13_weighted_majority_scale_invariant :
  forall (H : Type) (ws : list R) (hs : list H) (c : R), 0 < c ->
  from_slices (map (fun w => c * w) ws) hs = from_slices ws hs.
Proof.
  intros H ws hs c Hc.
  assert (K : kept (map (fun w => c * w) ws) hs = map (fun p => (c * fst p, snd p)) (kept ws hs)).
  { revert hs; induction ws as [|w ws IH]; intros [|h hs]; try reflexivity.
    unfold kept in *. simpl.
    destruct (Rltb_spec 0 w).
    - rewrite Rltb_true by (apply Rmult_lt_0_compat; assumption). simpl. f_equal. apply IH.
    - rewrite Rltb_false by nra. apply IH. }
  unfold from_slices. fold (kept ws hs) (kept (map (fun w => c * w) ws) hs). rewrite K, !map_map. simpl. unfold normalize. rewrite !map_map.
  rewrite (rsum_map_ext (fun x : R * H => Rabs (c * fst x)) (fun x => c * Rabs (fst x))).
  2: { intros p _. rewrite Rabs_mult, (Rabs_pos_eq c) by lra. reflexivity. }
  rewrite rsum_map_mult. set (z := rsum (map (fun x : R * H => Rabs (fst x)) (kept ws hs))).
  destruct (Reqb_spec z 0) as [Ez|Ez].
  - rewrite Reqb_true by (rewrite Ez; ring). reflexivity.
  - rewrite Reqb_false by nra. simpl. f_equal. f_equal. apply map_ext. intros p. field. split; lra.
Qed.

(** ** C13: appending pairs to a combined hypothesis, normalising it and taking it apart *)
Lemma P_C13_push_normalize_decompose :
  forall (H : Type) (conf : H -> nat -> R) (f : wmajority H) (ps : list (R * H)), length (wm_weights f) = length (wm_hypotheses f) ->
  let g := fold_left (fun f p => wm_push f (fst p) (snd p)) ps f in
  wm_decompose g = (fst (wm_decompose f) ++ map fst ps, snd (wm_decompose f) ++ map snd ps) /\
  (forall i, wm_confidence conf g i = wm_confidence conf f i + vote conf ps i) /\
  ((wm_normalize g = Panic AssertFailed /\ forall w, In w (fst (wm_decompose g)) -> w = 0) \/
   exists k, wm_normalize g = Ok k /\ rsum (map Rabs (fst (wm_decompose k))) = 1 /\ snd (wm_decompose k) = snd (wm_decompose g) /\
     (exists z, 0 < z /\ forall i, wm_confidence conf g i = z * wm_confidence conf k i) /\ forall i, wm_predict conf k i = wm_predict conf g i).
Proof.
  intros H conf f ps. revert f. induction ps as [|p ps IH]; intros f L g.
  - split; [cbn [map]; rewrite !app_nil_r; destruct f; reflexivity|]. split; [intros i; unfold vote, g; simpl; ring|].
    unfold g, wm_normalize. simpl fold_left. destruct f as [ws hs]. cbn [wm_weights wm_hypotheses wm_decompose fst snd] in *.
    destruct (P_C13_normalize_unit_norm ws) as [[w [E [Lw [S [z [Hz Hn]]]]]]|[E Z]]; [right|left; rewrite E; split; [reflexivity|exact Z]].
    exists (mkWM w hs). rewrite E. cbn [bind wm_weights wm_hypotheses]. split; [reflexivity|]. split; [exact S|]. split; [reflexivity|].
    assert (C : forall i, wm_confidence conf (mkWM ws hs) i = z * wm_confidence conf (mkWM w hs) i).
    { intros i. unfold wm_confidence. cbn [wm_weights wm_hypotheses].
      destruct hs as [|h0 hs']; [destruct ws; [|discriminate]; destruct w; [|discriminate]; simpl; ring|]. set (hs := h0 :: hs') in *.
      rewrite (combine_nth_map _ ws hs 0 h0) by exact L. rewrite (combine_nth_map _ w hs 0 h0) by congruence. rewrite Lw, <- rsum_map_mult.
      apply rsum_map_ext. intros j Hj. apply in_seq in Hj. cbn [fst snd]. rewrite Hn by lia. ring. }
    split; [exists z; split; [exact Hz|exact C]|]. intros i. unfold wm_predict, predict_of_confidence. rewrite C.
    destruct (Rleb_spec 0 (wm_confidence conf (mkWM w hs) i)) as [A|A]; [rewrite Rleb_true by nra|rewrite Rleb_false by nra]; reflexivity.
  - assert (L' : length (wm_weights (wm_push f (fst p) (snd p))) = length (wm_hypotheses (wm_push f (fst p) (snd p)))) by (simpl; rewrite !app_length, L; reflexivity).
    destruct (IH _ L') as [A [B C]]. unfold g. cbn [fold_left]. split; [|split; [|exact C]].
    + rewrite A. simpl. rewrite <- !app_assoc. reflexivity.
    + intros i. rewrite B. unfold wm_confidence, wm_push, vote. cbn [wm_weights wm_hypotheses map rsum]. rewrite combine_app_eq by exact L. rewrite map_app, rsum_app. simpl. ring.
Qed.

Example C13_push_normalize : exists k, wm_normalize (fold_left (fun f p => wm_push f (fst p) (snd p)) [(1, true); (-3, false)] (mkWM [] [])) = Ok k /\
  wm_decompose k = ([1 / 4; -3 / 4], [true; false]).
Proof.
  unfold wm_normalize, normalize, wm_push. cbn [fold_left wm_weights wm_hypotheses app fst snd map rsum].
  assert (E : Rabs 1 + (Rabs (-3) + 0) = 4) by (rewrite (Rabs_pos_eq 1) by lra; rewrite Rabs_left by lra; lra). rewrite E.
  destruct (Reqb_spec 4 0) as [X|X]; [lra|]. cbn [bind]. eexists. split; [reflexivity|]. reflexivity.
Qed.


(** ** C14: when all edges are positive the returned vote is the maintained one ... *)
Lemma P_C14_adaboost_returns_its_vote_partial :
  forall (H : Type) (conf : H -> nat -> R) (produce : nat -> list R -> H) (y : list R) (s : ada) (fuel : nat) tr f,
  run (adaboost conf produce y) fuel s = Finished tr f ->
  Forall (fun e => 0 < e < 1) (edges conf produce y tr) ->
  forall i, wm_predict conf f i =
    sign_label (vote conf (combine (map (fun e => ln ((1 + e) / (1 - e)) / 2) (edges conf produce y tr))
                                   (answers produce tr)) i).
Proof.
  intros H conf produce y s fuel tr f Hrun Hpos i.
  destruct (ada_run_spec conf produce y fuel s) as [_ HF].
  destruct (HF tr f Hrun) as [_ [[_ [Hsm Hf]]|[tr0 [d [-> [_ [_ [He _]]]]]]]].
  - pose proof (from_slices_spec conf (map ada_weight (edges conf produce y tr)) (answers produce tr)) as S.
    rewrite Hf in S. cbv zeta in S. destruct S as [Hz [_ [_ [_ [_ Hc]]]]].
    assert (K : kept (map ada_weight (edges conf produce y tr)) (answers produce tr)
                = combine (map ada_weight (edges conf produce y tr)) (answers produce tr)).
    { apply kept_all.
      - intros w Hw. apply in_map_iff in Hw. destruct Hw as [e [<- He]]. rewrite Forall_forall in Hpos.
        apply ada_weight_pos, Hpos, He.
      - rewrite map_length, edges_length, answers_length. reflexivity. }
    unfold wm_predict. rewrite predict_sign, Hc. rewrite sign_label_scale by exact Hz. rewrite K. reflexivity.
  - rewrite edges_app in Hpos. apply Forall_app in Hpos. destruct Hpos as [_ Hpos]. apply Forall_inv in Hpos.
    rewrite app_length in He. simpl in He. rewrite Nat.add_1_r in He. lra.
Qed.

(** ... but a hypothesis worse than random is silently dropped although the distribution was computed with its
    negative coefficient: the returned classifier errs where the maintained vote is right. *)
Lemma P_C14_returned_vote_refuted :
  exists (produce : nat -> list R -> (nat -> R)) (y : list R) (s : ada) tr f,
    run (adaboost (fun h i => h i) produce y) 3 s = Finished tr f /\
    sign_label (vote (fun (h : nat -> R) i => h i)
       (combine (map (fun e => ln ((1 + e) / (1 - e)) / 2) (edges (fun h i => h i) produce y tr))
                (answers produce tr)) 1) = nth 1 y 0 /\
    wm_predict (fun (h : nat -> R) i => h i) f 1 <> nth 1 y 0.
Proof.
  destruct ada_dropped_run as [tr [f [E [E1 E2]]]]. exists wl_12, y2, ada2, tr, f.
  split; [exact E|]. split; [exact E1|exact E2].
Qed.
