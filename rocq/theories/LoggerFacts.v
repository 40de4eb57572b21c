(** Properties C22, C23: the boosting protocol and logging. *)
From Verif Require Import Base Spec Utils WMajority WMajorityProofs Booster Logger AdaBoost AdaBoostProofs AdaBoostMain AdaBoostMore.
From Coq Require Import NArith.
Open Scope R_scope.

(** ** Specification: the state after k complete rounds *)
Inductive reaches {St Out} (b : booster St Out) (s : St) : nat -> trace -> St -> Prop :=
| reach_0 : forall s0, b_pre b s = Ok s0 -> reaches b s 0 [] s0
| reach_S : forall k tr s1 q s2, reaches b s k tr s1 -> b_boost b (S k) s1 = (q, Ok (s2, Continue)) ->
    reaches b s (S k) (tr ++ q) s2.

Lemma reaches_run_from {St Out} (b : booster St Out) s k tr s1 : reaches b s k tr s1 ->
  forall fuel, run b (k + fuel) s = run_from b fuel (S k) tr s1.
Proof.
  induction 1 as [s0 E|k tr s1 q s2 Hr IH E]; intros fuel.
  - unfold run. rewrite E. reflexivity.
  - replace (S k + fuel)%nat with (k + S fuel)%nat by lia. rewrite IH. cbn [run_from]. rewrite E. reflexivity.
Qed.

(** what [run] shows, as a case distinction on the protocol *)
Lemma run_from_cases {St Out} (b : booster St Out) s : forall fuel k tr s1, reaches b s k tr s1 ->
  match run_from b fuel (S k) tr s1 with
  | Finished tr' o => exists k' tr0 s0 q s2 it, (k' < k + fuel)%nat /\ reaches b s k' tr0 s0 /\
      b_boost b (S k') s0 = (q, Ok (s2, Break it)) /\ b_post b s2 = Ok o /\ tr' = tr0 ++ q
  | Crashed tr' p => exists k' tr0 s0 q, (k' < k + fuel)%nat /\ reaches b s k' tr0 s0 /\ tr' = tr0 ++ q /\
      (b_boost b (S k') s0 = (q, Panic p) \/
       exists s2 it, b_boost b (S k') s0 = (q, Ok (s2, Break it)) /\ b_post b s2 = Panic p)
  | Unfinished tr' => exists s', reaches b s (k + fuel) tr' s'
  end.
Proof.
  induction fuel as [|fuel IH]; intros k tr s1 Hr.
  - simpl. exists s1. rewrite Nat.add_0_r. exact Hr.
  - cbn [run_from]. destruct (b_boost b (S k) s1) as [q [[s2 [|it]]|p]] eqn:E.
    + specialize (IH (S k) (tr ++ q) s2 (reach_S _ _ _ _ _ _ _ Hr E)).
      replace (S k + fuel)%nat with (k + S fuel)%nat in IH by lia. exact IH.
    + destruct (b_post b s2) as [o|p] eqn:Ep.
      * exists k, tr, s1, q, s2, it. repeat split; try assumption; lia.
      * exists k, tr, s1, q. repeat split; try assumption; [lia|]. right. exists s2, it. split; assumption.
    + exists k, tr, s1, q. repeat split; try assumption; [lia|]. left. exact E.
Qed.

(** ** C22: run() = preprocess; boost(1), boost(2), ... up to and including the first Break; postprocess *)
Lemma P_C22_run_protocol :
  forall (St Out : Type) (b : booster St Out) (s : St) tr o,
  (exists fuel, run b fuel s = Finished tr o) <->
  (exists k tr0 s0 q s1 it, reaches b s k tr0 s0 /\ b_boost b (S k) s0 = (q, Ok (s1, Break it)) /\
     b_post b s1 = Ok o /\ tr = tr0 ++ q).
Proof.
  intros St Out b s tr o. split.
  - intros [fuel E]. unfold run in E. destruct (b_pre b s) as [s0|p] eqn:Ep; [|discriminate].
    pose proof (run_from_cases b s fuel 0 [] s0 (reach_0 _ _ _ Ep)) as C. rewrite E in C.
    destruct C as [k [tr0 [s1 [q [s2 [it [_ C]]]]]]]. exists k, tr0, s1, q, s2, it. exact C.
  - intros [k [tr0 [s0 [q [s1 [it [Hr [E [Ep ->]]]]]]]]]. exists (k + 1)%nat.
    rewrite (reaches_run_from b s k tr0 s0 Hr 1). cbn [run_from]. rewrite E, Ep. reflexivity.
Qed.

(** an execution that does not finish either panics in one of the three methods or keeps returning Continue *)
Lemma P_C22_run_not_finished :
  forall (St Out : Type) (b : booster St Out) (s : St) fuel,
  match run b fuel s with
  | Finished _ _ => True
  | Crashed tr p =>
      (b_pre b s = Panic p /\ tr = []) \/
      exists k tr0 s0 q, (k < fuel)%nat /\ reaches b s k tr0 s0 /\ tr = tr0 ++ q /\
        (b_boost b (S k) s0 = (q, Panic p) \/
         exists s2 it, b_boost b (S k) s0 = (q, Ok (s2, Break it)) /\ b_post b s2 = Panic p)
  | Unfinished tr => exists s', reaches b s fuel tr s'
  end.
Proof.
  intros St Out b s fuel. unfold run. destruct (b_pre b s) as [s0|p] eqn:Ep.
  - pose proof (run_from_cases b s fuel 0 [] s0 (reach_0 _ _ _ Ep)) as C.
    destruct (run_from b fuel 1 [] s0); [exact I| |exact C]. right. exact C.
  - left. split; reflexivity.
Qed.

(** the calls received by the booster: preprocess, boost(1), ..., boost(k), postprocess, in this order, each
    once, with k >= 1; and recording them does not change the run *)
Lemma P_C22_run_calls :
  forall (St Out : Type) (b : booster St Out) (s : St) fuel,
  match run (spy b) fuel (s, []) with
  | Finished tr (o, calls) => run b fuel s = Finished tr o /\
      exists k, (1 <= k <= fuel)%nat /\ calls = CPre :: map CBoost (seq 1 k) ++ [CPost]
  | Crashed tr p => run b fuel s = Crashed tr p
  | Unfinished tr => run b fuel s = Unfinished tr
  end.
Proof.
  intros St Out b s fuel. unfold run. simpl. destruct (b_pre b s) as [s0|p]; simpl; [|reflexivity].
  assert (G : forall fuel t tr s0, (1 <= t)%nat ->
    match run_from (spy b) fuel t tr (s0, CPre :: map CBoost (seq 1 (t - 1))) with
    | Finished tr (o, calls) => run_from b fuel t tr s0 = run_from b fuel t tr s0 /\
        exists k, (t <= k < t + fuel)%nat /\ calls = CPre :: map CBoost (seq 1 k) ++ [CPost]
    | _ => True
    end /\
    match run_from (spy b) fuel t tr (s0, CPre :: map CBoost (seq 1 (t - 1))) with
    | Finished tr' (o, calls) => run_from b fuel t tr s0 = Finished tr' o
    | Crashed tr' p => run_from b fuel t tr s0 = Crashed tr' p
    | Unfinished tr' => run_from b fuel t tr s0 = Unfinished tr'
    end).
  { clear. induction fuel as [|fuel IH]; intros t tr s0 Ht; [simpl; split; [exact I|reflexivity]|].
    cbn [run_from spy b_boost fst snd]. destruct (b_boost b t s0) as [q [[s1 [|it]]|p]].
    - assert (Ex : (CPre :: map CBoost (seq 1 (t - 1))) ++ [CBoost t] = CPre :: map CBoost (seq 1 (S t - 1))).
      { simpl. f_equal. replace (t - 0)%nat with (t - 1 + 1)%nat by lia. rewrite seq_app, map_app. simpl.
        replace (S (t - 1)) with t by lia. reflexivity. }
      rewrite Ex. destruct (IH (S t) (tr ++ q) s1 ltac:(lia)) as [A B]. split; [|exact B].
      destruct (run_from (spy b) fuel (S t) (tr ++ q) _) as [tr' [o calls]| |]; try exact I.
      destruct A as [_ [k [Hk E]]]. split; [reflexivity|]. exists k. split; [lia|exact E].
    - cbn [spy b_post fst snd]. destruct (b_post b s1) as [o|p]; cbn [bind]; (split; [|reflexivity]); [|exact I].
      split; [reflexivity|]. exists t. split; [lia|]. f_equal. f_equal.
      assert (Ex : seq 1 t = seq 1 (t - 1) ++ [t]).
      { replace t with (t - 1 + 1)%nat at 1 by lia. rewrite seq_app. simpl.
        replace (S (t - 1)) with t by lia. reflexivity. }
      rewrite Ex, map_app. reflexivity.
    - split; [exact I|reflexivity]. }
  destruct (G fuel 1%nat [] s0 (Nat.le_refl 1)) as [A B]. simpl in A, B.
  destruct (run_from (spy b) fuel 1 [] (s0, [CPre])) as [tr [o calls]|tr p|tr]; [|exact B|exact B].
  split; [exact B|]. destruct A as [_ [k [Hk E]]]. exists k. split; [lia|exact E].
Qed.

(** a toy booster that needs n rounds *)
Definition countdown : booster nat nat :=
  mkBooster (fun s => Ok s) (fun t s => ([[INR t]], Ok (pred s, if Nat.leb s 1 then Break t else Continue))) (fun s => Ok s).

Example C22_nonvacuous : exists tr, run (spy countdown) 10 (3%nat, []) =
  Finished tr (0%nat, [CPre; CBoost 1; CBoost 2; CBoost 3; CPost]).
Proof. eexists. reflexivity. Qed.

(** ** C23: the total time of rounds 1..t as the clock tells it *)
Definition elapsed (clock : nat -> N) (t : nat) : N := fold_right N.add 0%N (map clock (seq 1 t)).

Lemma elapsed_S clock t : elapsed clock (S t) = (elapsed clock t + clock (S t))%N.
Proof.
  unfold elapsed. rewrite seq_S, map_app. simpl.
  induction (map clock (seq 1 t)) as [|a l IH]; simpl; [lia|]. rewrite IH. lia.
Qed.

(** rounds whose accumulated time stays within the limit: the logged run coincides with the plain run, and the
    file has exactly one line per completed round *)
Lemma P_C23_logging_does_not_change_the_result_partial :
  forall (St Out Line : Type) (b : booster St Out) (measure : St -> res Line) (clock : nat -> N)
         (limit every : N) (s : St) (fuel : nat),
  (forall s, exists l, measure s = Ok l) ->      (* current_hypothesis() and the measurements do not panic *)
  every <> 0%N ->                                (* print_every(0) divides by zero *)
  (forall t, (t <= fuel)%nat -> (elapsed clock t <= limit)%N) ->
  fst (log_run b measure clock limit every fuel s) = run b fuel s.
Proof.
  intros St Out Line b measure clock limit every s fuel Hm Hev Hcl. unfold log_run, run.
  destruct (b_pre b s) as [s0|p]; [|reflexivity].
  assert (G : forall f t tr lines s0, (t + f <= S fuel)%nat -> (1 <= t)%nat ->
     fst (log_from b measure clock limit every f t (elapsed clock (t - 1)) tr lines s0) = run_from b f t tr s0).
  { clear s s0. induction f as [|f IH]; intros t tr lines s0 Hf Ht; [reflexivity|].
    cbn [log_from run_from]. destruct (b_boost b t s0) as [q [[s1 flow]|p]]; [|destruct lines; reflexivity].
    destruct (Hm s1) as [l El]. rewrite El. cbv zeta.
    assert (Ea : (elapsed clock (t - 1) + clock t = elapsed clock (S t - 1))%N).
    { replace (S t - 1)%nat with (S (t - 1)) by lia. rewrite elapsed_S. replace (S (t - 1)) with t by lia. reflexivity. }
    rewrite Ea. assert (Hle : (elapsed clock (S t - 1) <= limit)%N) by (apply Hcl; lia).
    replace (limit <? elapsed clock (S t - 1))%N with false by (symmetry; apply N.ltb_ge; exact Hle).
    replace (every =? 0)%N with false by (symmetry; apply N.eqb_neq; exact Hev).
    rewrite andb_false_r. destruct flow as [|it].
    - apply IH; lia.
    - unfold finish. destruct (b_post b s1); reflexivity. }
  apply (G fuel 1%nat [] []); lia.
Qed.

(** without any assumption: the file has one line per round that completed, the time column being the
    accumulated time; and a finished run reports, in its last line, the state that was returned *)
Lemma P_C23_one_line_per_round :
  forall (St Out Line : Type) (b : booster St Out) (measure : St -> res Line) (clock : nat -> N)
         (limit every : N) (s : St) (fuel : nat),
  let lines := snd (log_run b measure clock limit every fuel s) in
  map snd lines = map (elapsed clock) (seq 1 (length lines)) /\
  (forall tr o, fst (log_run b measure clock limit every fuel s) = Finished tr o ->
     exists k tr0 s0 q s1 flow l, reaches b s k tr0 s0 /\ b_boost b (S k) s0 = (q, Ok (s1, flow)) /\
       length lines = S k /\ measure s1 = Ok l /\ last (map fst lines) l = l /\ b_post b s1 = Ok o /\ tr = tr0 ++ q /\
       (flow = Continue -> (limit < elapsed clock (S k))%N)).
Proof.
  intros St Out Line b measure clock limit every s fuel. unfold log_run.
  destruct (b_pre b s) as [s0|p] eqn:Ep; [|simpl; split; [reflexivity|intros; discriminate]].
  assert (G : forall f k tr lines s0, reaches b s k tr s0 -> length lines = k ->
     map snd lines = map (elapsed clock) (seq 1 k) ->
     let r := log_from b measure clock limit every f (S k) (elapsed clock k) tr lines s0 in
     map snd (snd r) = map (elapsed clock) (seq 1 (length (snd r))) /\
     (forall tr' o, fst r = Finished tr' o ->
       exists k tr0 s0 q s1 flow l, reaches b s k tr0 s0 /\ b_boost b (S k) s0 = (q, Ok (s1, flow)) /\
       length (snd r) = S k /\ measure s1 = Ok l /\ last (map fst (snd r)) l = l /\ b_post b s1 = Ok o /\ tr' = tr0 ++ q /\
       (flow = Continue -> (limit < elapsed clock (S k))%N))).
  { clear s0 Ep. induction f as [|f IH]; intros k tr lines s0 Hr Hl Hs.
    - simpl. rewrite Hl. split; [exact Hs|intros; discriminate].
    - cbn [log_from]. destruct (b_boost b (S k) s0) as [q [[s1 flow]|p]] eqn:E;
        [|simpl; rewrite Hl; split; [exact Hs|intros; discriminate]].
      destruct (measure s1) as [l|p] eqn:El; [|simpl; rewrite Hl; split; [exact Hs|intros; discriminate]].
      cbv zeta. rewrite <- elapsed_S.
      assert (Hs' : map snd (lines ++ [(l, elapsed clock (S k))]) = map (elapsed clock) (seq 1 (S k))).
      { rewrite map_app, Hs, seq_S, map_app. reflexivity. }
      assert (Hl' : length (lines ++ [(l, elapsed clock (S k))]) = S k) by (rewrite app_length, Hl; simpl; lia).
      assert (Hfin : (flow = Continue -> (limit < elapsed clock (S k))%N) ->
         let r := finish b (tr ++ q) (lines ++ [(l, elapsed clock (S k))]) s1 in
         map snd (snd r) = map (elapsed clock) (seq 1 (length (snd r))) /\
         (forall tr' o, fst r = Finished tr' o ->
           exists k tr0 s0 q s1 flow l, reaches b s k tr0 s0 /\ b_boost b (S k) s0 = (q, Ok (s1, flow)) /\
           length (snd r) = S k /\ measure s1 = Ok l /\ last (map fst (snd r)) l = l /\ b_post b s1 = Ok o /\ tr' = tr0 ++ q /\
           (flow = Continue -> (limit < elapsed clock (S k))%N))).
      { intros Hlim. unfold finish. destruct (b_post b s1) as [o|p] eqn:Eo; cbn [fst snd]; rewrite Hl'; (split; [exact Hs'|]);
          [|intros; discriminate]. intros tr' o' X. inversion X; subst tr' o'.
        exists k, tr, s0, q, s1, flow, l. split; [exact Hr|]. split; [exact E|]. split; [reflexivity|].
        split; [exact El|]. split; [rewrite map_app; cbn [map fst]; rewrite last_last; reflexivity|]. split; [exact Eo|]. split; [reflexivity|exact Hlim]. }
      destruct (N.ltb_spec limit (elapsed clock (S k))) as [Hlt|Hge].
      + apply Hfin. intros _. exact Hlt.
      + destruct (negb (every =? usize_max)%N && (every =? 0)%N).
        * cbn [fst snd]. rewrite Hl'. split; [exact Hs'|intros; discriminate].
        * destruct flow as [|it]; [|apply Hfin; discriminate].
          apply IH; [eapply reach_S; eassumption|exact Hl'|exact Hs']. }
  apply (G fuel 0%nat [] [] s0); [constructor; exact Ep|reflexivity|reflexivity].
Qed.

(** once the accumulated time exceeds the limit after round k (and not before), the run ends with round k *)
Lemma P_C23_time_limit_stops :
  forall (St Out Line : Type) (b : booster St Out) (measure : St -> res Line) (clock : nat -> N)
         (limit every : N) (s : St) (fuel k : nat),
  (forall s, exists l, measure s = Ok l) -> every <> 0%N ->
  (limit < elapsed clock (S k))%N -> (forall t, (t <= k)%nat -> (elapsed clock t <= limit)%N) -> (k < fuel)%nat ->
  forall tr0 s0 q s1 flow, reaches b s k tr0 s0 -> b_boost b (S k) s0 = (q, Ok (s1, flow)) ->
  fst (log_run b measure clock limit every fuel s) =
    match b_post b s1 with Ok o => Finished (tr0 ++ q) o | Panic p => Crashed (tr0 ++ q) p end.
Proof.
  intros St Out Line b measure clock limit every s fuel k Hm Hev Hlt Hle Hk tr0 s0 q s1 flow Hr E.
  assert (G : exists lines, log_run b measure clock limit every fuel s =
     log_from b measure clock limit every (fuel - k) (S k) (elapsed clock k) tr0 lines s0).
  { clear Hlt E q s1 flow. revert Hk Hle. induction Hr as [s0 E|k tr s1 q s2 Hr IH E]; intros Hk Hle.
    - exists []. unfold log_run. rewrite E. rewrite Nat.sub_0_r. reflexivity.
    - destruct IH as [lines El]; [lia|intros t Ht; apply Hle; lia|]. rewrite El.
      replace (fuel - k)%nat with (S (fuel - S k)) by lia. cbn [log_from]. rewrite E.
      destruct (Hm s2) as [l Em]. rewrite Em. cbv zeta. rewrite <- elapsed_S.
      replace (limit <? elapsed clock (S k))%N with false by (symmetry; apply N.ltb_ge; apply Hle; lia).
      replace (every =? 0)%N with false by (symmetry; apply N.eqb_neq; exact Hev).
      rewrite andb_false_r. eexists. reflexivity. }
  destruct G as [lines ->]. replace (fuel - k)%nat with (S (fuel - S k)) by lia. cbn [log_from]. rewrite E.
  destruct (Hm s1) as [l Em]. rewrite Em. cbv zeta. rewrite <- elapsed_S.
  replace (limit <? elapsed clock (S k))%N with true by (symmetry; apply N.ltb_lt; exact Hlt).
  unfold finish. destruct (b_post b s1); reflexivity.
Qed.

Example C23_nonvacuous : exists tr, log_run countdown (fun s => Ok s) (fun _ => 1%N) 100 100 10 3%nat
  = (Finished tr 0%nat, [(2%nat, 1%N); (1%nat, 2%N); (0%nat, 3%N)]).
Proof. eexists. reflexivity. Qed.

Example C23_nonvacuous_limit : exists tr, log_run countdown (fun s => Ok s) (fun _ => 1%N) 1 100 10 3%nat
  = (Finished tr 1%nat, [(2%nat, 1%N); (1%nat, 2%N)]).
Proof. eexists. reflexivity. Qed.

(** a weak learner whose first answer is worse than random and whose second answer is perfect *)
Definition wl_recover (t : nat) (_ : list R) : nat -> R :=
  match t with 1%nat => fun i => - nth i y2 0 / 2 | _ => fun i => nth i y2 0 end.

(** In general C23 fails: current_hypothesis() of AdaBoost panics while all collected weights are negative,
    so a logged run dies where the plain run returns a perfect classifier. *)
Lemma P_C23_logged_adaboost_refuted :
  exists (produce : nat -> list R -> (nat -> R)) (y : list R) (s : ada),
    (exists tr f, run (adaboost (fun h i => h i) produce y) 2 s = Finished tr f) /\ (forall clock limit every, exists tr, log_run (adaboost (fun h i => h i) produce y) (@ada_post (nat -> R))
       clock limit every 2 s = (Crashed tr AssertFailed, [])).
Proof.
  exists wl_recover, y2, ada2. change (fun (h : nat -> R) i => h i) with fconf.
  assert (Hpre : exists s0, b_pre (adaboost fconf wl_recover y2) ada2 = Ok s0).
  { simpl. unfold ada_pre. rewrite y2_valid. eexists; reflexivity. }
  destruct Hpre as [s0 Hpre].
  pose proof (ada_pre_inv fconf wl_recover y2 ada2 s0 Hpre) as I0.
  change (ada_limit y2 ada2) with 2%nat in I0.
  assert (Hd0 : a_dist s0 = [1 / 2; 1 / 2]).
  { simpl in Hpre. unfold ada_pre in Hpre. rewrite y2_valid in Hpre. inversion Hpre. simpl.
    replace (1 + 1) with 2 by lra. reflexivity. }
  assert (Ee1 : edge_of y2 (a_dist s0) (fconf (wl_recover 1 (a_dist s0))) = - (1 / 2)).
  { rewrite Hd0. unfold edge_of, fconf, y2, wl_recover. simpl. field. }
  destruct (ada_boost_step fconf wl_recover y2 _ _ _ _ I0) as [[HL _]|[[_ [_ [He _]]]|[_ [He1 [s1 [E1 I1]]]]]].
  { simpl in HL. lia. }
  { rewrite Ee1, Rabs_Ropp, Rabs_pos_eq in He by lra. lra. }
  assert (Hw : ada_weight (- (1 / 2)) < 0).
  { unfold ada_weight. assert (ln ((1 + - (1 / 2)) / (1 - - (1 / 2))) < 0); [|lra].
    replace ((1 + - (1 / 2)) / (1 - - (1 / 2))) with (1 / 3) by field. rewrite <- ln_1. apply ln_increasing; lra. }
  assert (Epost : ada_post s1 = Panic AssertFailed).
  { destruct I1 as [_ [_ [_ [_ [Hlen [_ [Hws _]]]]]]]. unfold edges in Hws. cbn [app combine length seq map fst snd] in Hws.
    rewrite Ee1 in Hws. unfold ada_post, from_slices, kept. rewrite Hws.
    rewrite Hws in Hlen. destruct (a_hyps s1) as [|h [|h' l]]; simpl in Hlen; try lia. cbn [combine filter fst].
    rewrite Rltb_false by lra. simpl. unfold normalize. simpl. rewrite Reqb_true by reflexivity. reflexivity. }
  split.
  - unfold run. rewrite Hpre. cbn [run_from]. simpl b_boost. rewrite E1. cbn [app].
    assert (Hd1 : is_pos_dist (a_dist s1) /\ length (a_dist s1) = 2%nat).
    { destruct I1 as [Hn [_ [_ [_ [_ [_ [_ [_ [_ Hd]]]]]]]]]. split; [eapply exp_dist_pos; eassumption|apply Hd]. }
    destruct Hd1 as [[_ Hs] Hl]. destruct (a_dist s1) as [|a [|b [|c d]]] eqn:Ed; simpl in Hl; try lia.
    simpl in Hs.
    assert (Ee2 : edge_of y2 (a_dist s1) (fconf (wl_recover 2 (a_dist s1))) = 1).
    { rewrite Ed. unfold edge_of, fconf, y2, wl_recover. simpl. lra. }
    destruct (ada_boost_step fconf wl_recover y2 _ _ _ _ I1) as [[HL2 _]|[[_ [_ [He2 [s2 [E2 [Ew2 Eh2]]]]]]|[_ [He2 _]]]].
    + simpl in HL2. lia.
    + rewrite E2. unfold adaboost, b_post, ada_post. rewrite Ew2, Eh2, Ee2. unfold rsignum.
      rewrite Rltb_false by lra. rewrite from_slices_single. eexists _, _. reflexivity.
    + rewrite Ee2 in He2. unfold small in He2. lra.
  - intros clock limit every. unfold log_run. rewrite Hpre. cbn [log_from]. simpl b_boost. rewrite E1, Epost.
    eexists. reflexivity.
Qed.
