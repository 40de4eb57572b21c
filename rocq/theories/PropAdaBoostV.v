(** Properties C11, C12, C50: AdaBoostV. *)
From Verif Require Import Base Spec SortLib Utils UtilsProofs WMajority WMajorityProofs Booster AdaBoost AdaBoostProofs AdaBoostMain AdaBoostMore AdaBoostV AdaBoostVProofs AdaBoostVFacts.
Open Scope R_scope.


(** ** C11: queries *)

Theorem C11_adaboostv_queries_are_distributions :
  forall (H : Type) (conf : H -> nat -> R) (produce : nat -> list R -> H) (y : list R) (s : adav) (fuel : nat) d,
  In d (trace_of (run (adaboostv conf produce y) fuel s)) ->
  length d = length y /\ is_pos_dist d.
Proof. exact P_C11_adaboostv_queries_are_distributions. Qed.
Print Assumptions C11_adaboostv_queries_are_distributions.

Theorem C11_adaboostv_exponential_distribution :
  forall (H : Type) (conf : H -> nat -> R) (produce : nat -> list R -> H) (y : list R) (s : adav) (fuel : nat) tr k,
  trace_of (run (adaboostv conf produce y) fuel s) = tr -> (k < length tr)%nat ->
  let past := firstn k tr in
  let F := vote conf (combine (coefficients_v (v_tolerance s) (edges conf produce y past)) (answers produce past)) in
  length (nth k tr []) = length y /\
  forall i, (i < length y)%nat ->
    nth i (nth k tr []) 0 =
    exp (- (nth i y 0 * F i)) / rsum (map (fun j => exp (- (nth j y 0 * F j))) (seq 0 (length y))).
Proof. exact P_C11_adaboostv_exponential_distribution. Qed.
Print Assumptions C11_adaboostv_exponential_distribution.

(** a finished run either stopped at a perfect hypothesis (returned alone, weight one) or returns all the
    hypotheses obtained, with positive weights proportional to the coefficients *)
Theorem C11_adaboostv_keeps_every_hypothesis :
  forall (H : Type) (conf : H -> nat -> R) (produce : nat -> list R -> H) (y : list R) (s : adav) (fuel : nat) tr f,
  0 < v_tolerance s ->
  run (adaboostv conf produce y) fuel s = Finished tr f ->
  (exists tr0 d, tr = tr0 ++ [d] /\ 1 <= edge_of y d (conf (produce (length tr) d)) /\
     f = mkWM [1] [produce (length tr) d]) \/
  (Forall (fun w => 0 < w) (coefficients_v (v_tolerance s) (edges conf produce y tr)) /\
   wm_hypotheses f = answers produce tr /\
   let z := rsum (coefficients_v (v_tolerance s) (edges conf produce y tr)) in
   0 < z /\ wm_weights f = map (fun w => w / z) (coefficients_v (v_tolerance s) (edges conf produce y tr))).
Proof. exact P_C11_adaboostv_keeps_every_hypothesis. Qed.
Print Assumptions C11_adaboostv_keeps_every_hypothesis.

(** a round panics only if the smallest edge minus the tolerance leaves (-1,1), or if no weight is positive at
    the end *)
Theorem C50_adaboostv_round_limit :
  forall (H : Type) (conf : H -> nat -> R) (produce : nat -> list R -> H) (y : list R) (s : adav) (fuel : nat),
  let limit := match v_force_quit s with Some it => it | None => adav_max_loop y s end in
  (length (trace_of (run (adaboostv conf produce y) fuel s)) <= limit)%nat /\
  ((limit < fuel)%nat ->
     match run (adaboostv conf produce y) fuel s with
     | Unfinished _ => False
     | Crashed _ p => p = AssertFailed \/ p = UnwrapNone
     | Finished _ _ => True
     end).
Proof. exact P_C50_adaboostv_round_limit. Qed.
Print Assumptions C50_adaboostv_round_limit.

(** a run with edges above tolerance - 1 in every round (in particular: all edges at least zero and a tolerance
    below one) does not crash *)
Theorem C50_adaboostv_no_crash :
  forall (H : Type) (conf : H -> nat -> R) (produce : nat -> list R -> H) (y : list R) (s : adav) (fuel : nat) tr p,
  is_valid_binary_instance y = Ok tt -> 0 < v_tolerance s < 2 ->
  (0 < match v_force_quit s with Some it => it | None => adav_max_loop y s end)%nat ->
  Forall (fun e => v_tolerance s - 1 < e /\ -1 < e) (edges conf produce y tr) ->
  run (adaboostv conf produce y) fuel s <> Crashed tr p.
Proof. exact P_C50_adaboostv_no_crash. Qed.
Print Assumptions C50_adaboostv_no_crash.

(** ** C12: margins.  General statement after any number of rounds, and two corollaries. *)

(** The margin guarantee: after T > 2 ln n / tol^2 rounds every training example has margin larger than
    g - tol, for every lower bound g of the edges met (in particular their minimum). *)
Theorem C12_adaboostv_margin_guarantee :
  forall (H : Type) (conf : H -> nat -> R) (produce : nat -> list R -> H) (y : list R) (s : adav) (fuel : nat) tr f g,
  (forall i, (i < length y)%nat -> pm1 (nth i y 0)) ->
  (forall h i, (i < length y)%nat -> -1 <= conf h i <= 1) ->
  0 < v_tolerance s ->
  run (adaboostv conf produce y) fuel s = Finished tr f ->
  Forall (fun e => g <= e) (edges conf produce y tr) ->
  2 * ln (INR (length y)) / v_tolerance s ^ 2 < INR (length tr) ->
  forall i, (i < length y)%nat -> g - v_tolerance s < nth i y 0 * wm_confidence conf f i.
Proof. exact P_C12_adaboostv_margin_guarantee. Qed.
Print Assumptions C12_adaboostv_margin_guarantee.

(** with the default number of rounds T = max_loop() (rounded down, so just not enough for the above) *)
Theorem C12_adaboostv_margin_at_max_loop :
  forall (H : Type) (conf : H -> nat -> R) (produce : nat -> list R -> H) (y : list R) (s : adav) (fuel : nat) tr f g,
  (forall i, (i < length y)%nat -> pm1 (nth i y 0)) ->
  (forall h i, (i < length y)%nat -> -1 <= conf h i <= 1) ->
  0 < v_tolerance s ->
  run (adaboostv conf produce y) fuel s = Finished tr f ->
  Forall (fun e => g <= e) (edges conf produce y tr) ->
  length tr = adav_max_loop y s ->
  forall i, (i < length y)%nat ->
    g - v_tolerance s * (1 + 1 / (2 * INR (length tr))) < nth i y 0 * wm_confidence conf f i.
Proof. exact P_C12_adaboostv_margin_at_max_loop. Qed.
Print Assumptions C12_adaboostv_margin_at_max_loop.

(** corollary (the documented guarantee): edges above the tolerance give zero training error *)
Theorem C12_adaboostv_zero_training_error :
  forall (H : Type) (conf : H -> nat -> R) (produce : nat -> list R -> H) (y : list R) (s : adav) (fuel : nat) tr f,
  (forall i, (i < length y)%nat -> pm1 (nth i y 0)) ->
  (forall h i, (i < length y)%nat -> -1 <= conf h i <= 1) ->
  0 < v_tolerance s ->
  run (adaboostv conf produce y) fuel s = Finished tr f ->
  Forall (fun e => v_tolerance s <= e) (edges conf produce y tr) ->
  2 * ln (INR (length y)) / v_tolerance s ^ 2 < INR (length tr) ->
  forall i, (i < length y)%nat -> wm_predict conf f i = nth i y 0.
Proof. exact P_C12_adaboostv_zero_training_error. Qed.
Print Assumptions C12_adaboostv_zero_training_error.

Example C12_nonvacuous :
  exists tr f, run (adaboostv (fun (h : nat -> R) i => h i) (fun _ _ i => nth i y2 0 / 2) y2) 8
                   (adav_force_quit_at (adav_tolerance (adav_init y2) (1 / 2)) 7) = Finished tr f /\
    length tr = 7%nat /\ Forall (fun e => 1 / 2 <= e) (edges (fun (h : nat -> R) i => h i) (fun _ _ i => nth i y2 0 / 2) y2 tr) /\
    2 * ln (INR (length y2)) / (1 / 2) ^ 2 < INR (length tr).
Proof.
  set (conf := fun (h : nat -> R) (i : nat) => h i). set (pr := fun (_ : nat) (_ : list R) (i : nat) => nth i y2 0 / 2).
  set (s := adav_force_quit_at (adav_tolerance (@adav_init (nat -> R) y2) (1 / 2)) 7).
  pose proof (P_C50_adaboostv_round_limit _ conf pr y2 s 8) as [Hlim T]. specialize (T ltac:(simpl; lia)).
  assert (Hed : forall tr, trace_of (run (adaboostv conf pr y2) 8 s) = tr ->
            Forall (fun e => e = 1 / 2) (edges conf pr y2 tr)).
  { intros tr Etr. apply Forall_forall. intros e He. unfold edges in He. apply in_map_iff in He.
    destruct He as [[t d] [<- Hp]]. apply in_combine_r in Hp. rewrite <- Etr in Hp.
    destruct (P_C11_adaboostv_queries_are_distributions _ _ _ _ _ _ _ Hp) as [Hl [Hp1 Hp2]].
    destruct d as [|a [|b [|c d]]]; simpl in Hl; try lia. simpl in Hp2.
    unfold edge_of, conf, pr, y2. simpl. lra. }
  destruct (run (adaboostv conf pr y2) 8 s) as [tr f|tr p|tr] eqn:E.
  - pose proof (Hed tr eq_refl) as He. exists tr, f. split; [reflexivity|].
    assert (Hl6 : length tr = 7%nat).
    { destruct (adav_run_spec conf pr y2 8 s) as [_ HF].
      destruct (HF tr f E) as [_ [[HL _]|[tr0 [d [Et [_ [_ [Hd _]]]]]]]]; [exact HL|].
      rewrite Et, edges_app in He. apply Forall_app in He. destruct He as [_ He]. apply Forall_inv in He.
      rewrite Et, app_length in Hd. simpl in Hd. rewrite Nat.add_1_r in Hd. rewrite He in Hd. lra. }
    split; [exact Hl6|]. split; [eapply Forall_impl; [|exact He]; intros a ->; lra|].
    rewrite Hl6. simpl INR. replace (1 + 1) with 2 by lra.
    assert (E2 : 2 < exp (86 / 100)).
    { pose proof (exp_ge_1x (43 / 100)) as B. replace (86 / 100) with (43 / 100 + 43 / 100) by lra.
      rewrite exp_plus. nra. }
    apply ln_increasing in E2; [|lra]. rewrite ln_exp in E2. lra.
  - exfalso. eapply (P_C50_adaboostv_no_crash _ conf pr y2 s 8 tr p); [apply y2_valid|simpl; lra|simpl; lia| |exact E].
    eapply Forall_impl; [|apply (Hed tr); reflexivity]. simpl. intros a ->. lra.
  - contradiction.
Qed.
