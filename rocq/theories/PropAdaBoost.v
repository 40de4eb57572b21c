(** Properties C04-C10, C13, C14: AdaBoost and the weighted majority vote. *)
From Verif Require Import Base UtilsFacts Spec SortLib Utils UtilsProofs WMajority WMajorityProofs Booster AdaBoost AdaBoostProofs AdaBoostMain AdaBoostMore AdaBoostFacts.
Open Scope R_scope.


(** ** C04: whatever the weak learner answers, everything AdaBoost shows it (in finished, crashed or still
    running executions of any length) is a strictly positive distribution on the training examples. *)

Theorem C04_adaboost_queries_are_distributions :
  forall (H : Type) (conf : H -> nat -> R) (produce : nat -> list R -> H) (y : list R) (s : ada) (fuel : nat) d,
  In d (trace_of (run (adaboost conf produce y) fuel s)) ->
  length d = length y /\ is_pos_dist d.
Proof. exact P_C04_adaboost_queries_are_distributions. Qed.
Print Assumptions C04_adaboost_queries_are_distributions.

(** the first one is uniform *)
Theorem C04_adaboost_starts_uniform :
  forall (H : Type) (conf : H -> nat -> R) (produce : nat -> list R -> H) (y : list R) (s : ada) (fuel : nat) d tr,
  trace_of (run (adaboost conf produce y) fuel s) = d :: tr -> d = repeat (1 / INR (length y)) (length y).
Proof. exact P_C04_adaboost_starts_uniform. Qed.
Print Assumptions C04_adaboost_starts_uniform.

(** ** C05: query k is exp(-y_i F(x_i)) / sum_j exp(-y_j F(x_j)), F being the combination of the first k
    answers with coefficients 1/2 ln((1+e)/(1-e)). *)

Theorem C05_adaboost_exponential_distribution :
  forall (H : Type) (conf : H -> nat -> R) (produce : nat -> list R -> H) (y : list R) (s : ada) (fuel : nat) tr k,
  trace_of (run (adaboost conf produce y) fuel s) = tr -> (k < length tr)%nat ->
  let past := firstn k tr in
  let F := vote conf (combine (map (fun e => ln ((1 + e) / (1 - e)) / 2) (edges conf produce y past))
                              (answers produce past)) in
  length (nth k tr []) = length y /\
  forall i, (i < length y)%nat ->
    nth i (nth k tr []) 0 =
    exp (- (nth i y 0 * F i)) / rsum (map (fun j => exp (- (nth j y 0 * F j))) (seq 0 (length y))).
Proof. exact P_C05_adaboost_exponential_distribution. Qed.
Print Assumptions C05_adaboost_exponential_distribution.

(** ** C06 *)

Theorem C06_adaboost_last_hypothesis_has_zero_edge :
  forall (H : Type) (conf : H -> nat -> R) (produce : nat -> list R -> H) (y : list R) (s : ada) (fuel k : nat) tr,
  trace_of (run (adaboost conf produce y) fuel s) = tr -> (S k < length tr)%nat ->
  (forall i, (i < length y)%nat -> pm1 (nth i y 0)) ->
  let h := nth k (answers produce tr) (produce 0%nat []) in
  (forall i, (i < length y)%nat -> pm1 (conf h i)) ->
  Forall (fun e => -1 < e < 1) (firstn (S k) (edges conf produce y tr)) ->
  edge_of y (nth (S k) tr []) (conf h) = 0.
Proof. exact P_C06_adaboost_last_hypothesis_has_zero_edge. Qed.
Print Assumptions C06_adaboost_last_hypothesis_has_zero_edge.

(** ** C07 *)

Theorem C07_adaboost_training_error_bound :
  forall (H : Type) (conf : H -> nat -> R) (produce : nat -> list R -> H) (y : list R) (s : ada) (fuel : nat) tr f,
  (forall i, (i < length y)%nat -> pm1 (nth i y 0)) ->
  (forall h i, In h (answers produce tr) -> (i < length y)%nat -> -1 <= conf h i <= 1) ->
  run (adaboost conf produce y) fuel s = Finished tr f ->
  Forall (fun e => 0 <= e) (edges conf produce y tr) ->
  INR (n_errors y (wm_predict conf f)) / INR (length y)
    <= rprod (map (fun g => sqrt (1 - g ^ 2)) (edges conf produce y tr)).
Proof. exact P_C07_adaboost_training_error_bound. Qed.
Print Assumptions C07_adaboost_training_error_bound.

(** ** C08 *)

Theorem C08_adaboost_round_limit :
  forall (H : Type) (conf : H -> nat -> R) (produce : nat -> list R -> H) (y : list R) (s : ada) (fuel : nat),
  let limit := match a_force_quit s with Some it => it | None => ada_max_loop y s end in
  (length (trace_of (run (adaboost conf produce y) fuel s)) <= limit)%nat /\
  ((limit < fuel)%nat ->
     match run (adaboost conf produce y) fuel s with
     | Unfinished _ => False
     | Crashed _ p => p = AssertFailed
     | Finished _ _ => True
     end).
Proof. exact P_C08_adaboost_round_limit. Qed.
Print Assumptions C08_adaboost_round_limit.

(** a run on valid labels (that is allowed at least one round) crashes only in its last round, because no edge was
    positive, or because the last hypothesis is wrong on every example *)
Theorem C08_adaboost_crash_cause :
  forall (H : Type) (conf : H -> nat -> R) (produce : nat -> list R -> H) (y : list R) (s : ada) (fuel : nat) tr p,
  is_valid_binary_instance y = Ok tt ->
  (0 < match a_force_quit s with Some it => it | None => ada_max_loop y s end)%nat ->
  run (adaboost conf produce y) fuel s = Crashed tr p ->
  p = AssertFailed /\ tr <> [] /\
  (Forall (fun e => e <= 0) (edges conf produce y tr) \/ last (edges conf produce y tr) 0 <= -1).
Proof. exact P_C08_adaboost_crash_cause. Qed.
Print Assumptions C08_adaboost_crash_cause.

(** in particular a run whose edges are all positive does not crash *)
Theorem C08_adaboost_no_crash :
  forall (H : Type) (conf : H -> nat -> R) (produce : nat -> list R -> H) (y : list R) (s : ada) (fuel : nat) tr p,
  is_valid_binary_instance y = Ok tt ->
  (0 < match a_force_quit s with Some it => it | None => ada_max_loop y s end)%nat ->
  Forall (fun e => 0 < e) (edges conf produce y tr) ->
  run (adaboost conf produce y) fuel s <> Crashed tr p.
Proof. exact P_C08_adaboost_no_crash. Qed.
Print Assumptions C08_adaboost_no_crash.

(** ** C09 *)

Theorem C09_adaboost_perfect_hypothesis_is_returned :
  forall (H : Type) (conf : H -> nat -> R) (produce : nat -> list R -> H) (y : list R) (s : ada) (fuel : nat) tr d f,
  run (adaboost conf produce y) fuel s = Finished (tr ++ [d]) f ->
  let h := produce (S (length tr)) d in
  1 <= Rabs (edge_of y d (conf h)) ->
  f = mkWM [1] [h] /\ (forall i, wm_confidence conf f i = conf h i).
Proof. exact P_C09_adaboost_perfect_hypothesis_is_returned. Qed.
Print Assumptions C09_adaboost_perfect_hypothesis_is_returned.

(** in the very round in which the edge reaches one the run stops *)
Theorem C09_adaboost_stops_at_perfect_hypothesis :
  forall (H : Type) (conf : H -> nat -> R) (produce : nat -> list R -> H) (y : list R) (s : ada) (fuel k : nat) tr,
  trace_of (run (adaboost conf produce y) fuel s) = tr ->
  (k < length tr)%nat -> 1 <= Rabs (nth k (edges conf produce y tr) 0) -> length tr = S k.
Proof. exact P_C09_adaboost_stops_at_perfect_hypothesis. Qed.
Print Assumptions C09_adaboost_stops_at_perfect_hypothesis.

(** The second half of C09 fails: with default parameters, the labels (+1,-1) and a weak learner whose single
    answer is the exact negation of the labels, run() panics instead of returning the negated hypothesis. *)
Theorem C09_adaboost_negative_edge_refuted :
  exists (produce : nat -> list R -> (nat -> R)) (y : list R),
    (forall t d i, (i < length y)%nat -> pm1 (produce t d i)) /\
    forall fuel, exists tr,
      run (adaboost (fun h i => h i) produce y) (S fuel) (ada_init y) = Crashed tr AssertFailed /\
      edges (fun h i => h i) produce y tr = [-1].
Proof. exact P_C09_adaboost_negative_edge_refuted. Qed.
Print Assumptions C09_adaboost_negative_edge_refuted.

(** ** C10: what does hold: zero training error once gamma^2 T > 2 ln n (twice the advertised number of
    rounds).  Missing from the full claim: T = max_loop() = floor(ln n / tolerance^2) rounds. *)

Theorem C10_adaboost_zero_training_error_partial :
  forall (H : Type) (conf : H -> nat -> R) (produce : nat -> list R -> H) (y : list R) (s : ada) (fuel : nat) tr f g,
  (forall i, (i < length y)%nat -> pm1 (nth i y 0)) ->
  (forall h i, In h (answers produce tr) -> (i < length y)%nat -> -1 <= conf h i <= 1) ->
  run (adaboost conf produce y) fuel s = Finished tr f ->
  0 < g -> Forall (fun e => g <= e) (edges conf produce y tr) ->
  2 * ln (INR (length y)) < g ^ 2 * INR (length tr) ->
  forall i, (i < length y)%nat -> wm_predict conf f i = nth i y 0.
Proof. exact P_C10_adaboost_zero_training_error_partial. Qed.
Print Assumptions C10_adaboost_zero_training_error_partial.

(** The claim for T = max_loop() rounds fails: for every two-label sample and every weak learner, however good,
    a tolerance with tol^2 > ln n makes run() panic (max_loop() is then 0). *)
Theorem C10_adaboost_max_loop_guarantee_refuted :
  exists (y : list R) (tol : R), 0 < tol < 1 /\ is_valid_binary_instance y = Ok tt /\
    forall (H : Type) (conf : H -> nat -> R) (produce : nat -> list R -> H) fuel,
      run (adaboost conf produce y) (S fuel) (ada_tolerance (ada_init y) tol) = Crashed [] AssertFailed.
Proof. exact P_C10_adaboost_max_loop_guarantee_refuted. Qed.
Print Assumptions C10_adaboost_max_loop_guarantee_refuted.

Example C07_nonvacuous :
  exists tr f, run (adaboost (fun (h : nat -> R) i => h i) (fun _ _ i => nth i y2 0 / 2) y2) 2
                   (ada_force_quit_at (ada_init y2) 1) = Finished tr f /\
    Forall (fun e => 0 < e) (edges (fun (h : nat -> R) i => h i) (fun _ _ i => nth i y2 0 / 2) y2 tr) /\
    (forall i, (i < length y2)%nat -> pm1 (nth i y2 0)).
Proof.
  set (conf := fun (h : nat -> R) (i : nat) => h i). set (pr := fun (_ : nat) (_ : list R) (i : nat) => nth i y2 0 / 2).
  set (s := ada_force_quit_at (@ada_init (nat -> R) y2) 1).
  pose proof (P_C08_adaboost_round_limit _ conf pr y2 s 2) as [_ T]. specialize (T ltac:(simpl; lia)).
  assert (Hlen : forall tr, trace_of (run (adaboost conf pr y2) 2 s) = tr ->
            Forall (fun e => 0 < e) (edges conf pr y2 tr)).
  { intros tr Etr. apply Forall_forall. intros e He. unfold edges in He. apply in_map_iff in He.
    destruct He as [[t d] [<- Hp]]. apply in_combine_r in Hp. rewrite <- Etr in Hp.
    destruct (P_C04_adaboost_queries_are_distributions _ _ _ _ _ _ _ Hp) as [Hl [Hp1 Hp2]].
    destruct d as [|a [|b [|c d]]]; simpl in Hl; try lia. simpl in Hp2.
    unfold edge_of, conf, pr, y2. simpl. lra. }
  destruct (run (adaboost conf pr y2) 2 s) as [tr f|tr p|tr] eqn:E.
  - exists tr, f. split; [reflexivity|]. split; [apply Hlen; reflexivity|apply y2_pm1].
  - exfalso. eapply (P_C08_adaboost_no_crash _ conf pr y2 s 2 tr p); [apply y2_valid|simpl; lia|apply Hlen; reflexivity|exact E].
  - contradiction.
Qed.

(** ** C13: weighted majority *)

Theorem C13_weighted_majority_convex :
  forall (H : Type) (conf : H -> nat -> R) (ws : list R) (hs : list H),
  let positive := filter (fun p => Rltb 0 (fst p)) (combine ws hs) in
  (positive = [] -> from_slices ws hs = Panic AssertFailed) /\
  (positive <> [] -> exists f z,
     from_slices ws hs = Ok f /\ 0 < z /\
     combine (wm_weights f) (wm_hypotheses f) = map (fun p => (fst p / z, snd p)) positive /\
     length (wm_weights f) = length (wm_hypotheses f) /\
     (forall w, In w (wm_weights f) -> 0 < w) /\ rsum (wm_weights f) = 1 /\
     (forall i, (forall h, In h hs -> -1 <= conf h i <= 1) -> -1 <= wm_confidence conf f i <= 1) /\
     (forall i, wm_predict conf f i = sign_label (vote conf positive i))).
Proof. exact P_C13_weighted_majority_convex. Qed.
Print Assumptions C13_weighted_majority_convex.

Example C13_nonvacuous : filter (fun p => Rltb 0 (fst p)) (combine [2; -1; 3] [true; false; true])
                         = [(2, true); (3, true)].
Proof.
  simpl. rewrite (Rltb_true 0 2), (Rltb_false 0 (-1)), (Rltb_true 0 3) by lra. reflexivity.
Qed.

(** rescaling the weights by a common positive factor does not change the combined hypothesis *)
Theorem C13_weighted_majority_scale_invariant :
  forall (H : Type) (ws : list R) (hs : list H) (c : R), 0 < c ->
  from_slices (map (fun w => c * w) ws) hs = from_slices ws hs.
Proof. exact P_C13_weighted_majority_scale_invariant. Qed.
Print Assumptions C13_weighted_majority_scale_invariant.

(** ** C13: appending pairs to a combined hypothesis, normalising it and taking it apart *)

Theorem C13_push_normalize_decompose :
  forall (H : Type) (conf : H -> nat -> R) (f : wmajority H) (ps : list (R * H)), length (wm_weights f) = length (wm_hypotheses f) ->
  let g := fold_left (fun f p => wm_push f (fst p) (snd p)) ps f in
  wm_decompose g = (fst (wm_decompose f) ++ map fst ps, snd (wm_decompose f) ++ map snd ps) /\
  (forall i, wm_confidence conf g i = wm_confidence conf f i + vote conf ps i) /\
  ((wm_normalize g = Panic AssertFailed /\ forall w, In w (fst (wm_decompose g)) -> w = 0) \/
   exists k, wm_normalize g = Ok k /\ rsum (map Rabs (fst (wm_decompose k))) = 1 /\ snd (wm_decompose k) = snd (wm_decompose g) /\
     (exists z, 0 < z /\ forall i, wm_confidence conf g i = z * wm_confidence conf k i) /\ forall i, wm_predict conf k i = wm_predict conf g i).
Proof. exact P_C13_push_normalize_decompose. Qed.
Print Assumptions C13_push_normalize_decompose.

Example C13_push_normalize : exists k, wm_normalize (fold_left (fun f p => wm_push f (fst p) (snd p)) [(1, true); (-3, false)] (mkWM [] [])) = Ok k /\
  wm_decompose k = ([1 / 4; -3 / 4], [true; false]).
Proof.
  unfold wm_normalize, normalize, wm_push. cbn [fold_left wm_weights wm_hypotheses app fst snd map rsum].
  assert (E : Rabs 1 + (Rabs (-3) + 0) = 4) by (rewrite (Rabs_pos_eq 1) by lra; rewrite Rabs_left by lra; lra). rewrite E.
  destruct (Reqb_spec 4 0) as [X|X]; [lra|]. cbn [bind]. eexists. split; [reflexivity|]. reflexivity.
Qed.

(** ** C14: when all edges are positive the returned vote is the maintained one ... *)

Theorem C14_adaboost_returns_its_vote_partial :
  forall (H : Type) (conf : H -> nat -> R) (produce : nat -> list R -> H) (y : list R) (s : ada) (fuel : nat) tr f,
  run (adaboost conf produce y) fuel s = Finished tr f ->
  Forall (fun e => 0 < e < 1) (edges conf produce y tr) ->
  forall i, wm_predict conf f i =
    sign_label (vote conf (combine (map (fun e => ln ((1 + e) / (1 - e)) / 2) (edges conf produce y tr))
                                   (answers produce tr)) i).
Proof. exact P_C14_adaboost_returns_its_vote_partial. Qed.
Print Assumptions C14_adaboost_returns_its_vote_partial.

(** ... but a hypothesis worse than random is silently dropped although the distribution was computed with its
    negative coefficient: the returned classifier errs where the maintained vote is right. *)
Theorem C14_returned_vote_refuted :
  exists (produce : nat -> list R -> (nat -> R)) (y : list R) (s : ada) tr f,
    run (adaboost (fun h i => h i) produce y) 3 s = Finished tr f /\
    sign_label (vote (fun (h : nat -> R) i => h i)
       (combine (map (fun e => ln ((1 + e) / (1 - e)) / 2) (edges (fun h i => h i) produce y tr))
                (answers produce tr)) 1) = nth 1 y 0 /\
    wm_predict (fun (h : nat -> R) i => h i) f 1 <> nth 1 y 0.
Proof. exact P_C14_returned_vote_refuted. Qed.
Print Assumptions C14_returned_vote_refuted.
