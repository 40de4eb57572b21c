(** Properties C15, C51: MadaBoost. *)
From Verif Require Import Base Spec SortLib Utils UtilsProofs WMajority WMajorityProofs Booster AdaBoost AdaBoostProofs AdaBoostMain AdaBoostMore Num MadaBoost MadaBoostFacts.
Open Scope R_scope.


(** ** C15: what is shown to the weak learner is always a positive distribution ... *)

Theorem C15_madaboost_queries_are_distributions :
  forall (H : Type) (conf : H -> nat -> R) (produce : nat -> list R -> H) (y : list R) (s : mada) (fuel : nat) d,
  In d (trace_of (run (madaboost conf produce y) fuel s)) ->
  length d = length y /\ is_pos_dist d.
Proof. exact P_C15_madaboost_queries_are_distributions. Qed.
Print Assumptions C15_madaboost_queries_are_distributions.

(** ... namely the normalised exp(min(1, 1/n + y_i F(x_i))), F having the factors beta_t as coefficients *)
Theorem C15_madaboost_distribution_form :
  forall (H : Type) (conf : H -> nat -> R) (produce : nat -> list R -> H) (y : list R) (s : mada) (fuel : nat) tr k,
  trace_of (run (madaboost conf produce y) fuel s) = tr -> (k < length tr)%nat ->
  let past := firstn k tr in
  let F := vote conf (combine (map mada_factor (edges conf produce y past)) (answers produce past)) in
  capped_softmax (fun i => 1 / INR (length y) + nth i y 0 * F i) (length y) (nth k tr []).
Proof. exact P_C15_madaboost_distribution_form. Qed.
Print Assumptions C15_madaboost_distribution_form.

(** The second half of C15 is false, in fact the opposite holds for every sample and every weak learner: in
    the second query, an example classified correctly by a +-1 valued first hypothesis has strictly MORE mass
    than a misclassified one.  (The code adds margin * beta where the documented update adds
    margin * ln beta, ln beta < 0.) *)
Theorem C15_madaboost_moves_weight_to_mistakes_refuted :
  forall (H : Type) (conf : H -> nat -> R) (produce : nat -> list R -> H) (y : list R) (s : mada) (fuel : nat) d1 d2 rest,
  trace_of (run (madaboost conf produce y) fuel s) = d1 :: d2 :: rest ->
  let h := produce 1%nat d1 in
  -1 < edge_of y d1 (conf h) < 1 ->
  forall i j, (i < length y)%nat -> (j < length y)%nat ->
    nth i y 0 * conf h i = 1 -> nth j y 0 * conf h j = -1 -> nth j d2 0 < nth i d2 0.
Proof. exact P_C15_madaboost_moves_weight_to_mistakes_refuted. Qed.
Print Assumptions C15_madaboost_moves_weight_to_mistakes_refuted.

(** ** C51: number of rounds, termination, and the answer *)

Theorem C51_madaboost_round_limit :
  forall (H : Type) (conf : H -> nat -> R) (produce : nat -> list R -> H) (y : list R) (s : mada) (fuel : nat),
  let limit := match m_force_quit s with Some it => it | None => mada_max_loop y s end in
  (length (trace_of (run (madaboost conf produce y) fuel s)) <= limit)%nat /\
  ((limit < fuel)%nat ->
     match run (madaboost conf produce y) fuel s with
     | Unfinished _ => False
     | Crashed _ p => p = AssertFailed
     | Finished _ _ => True
     end).
Proof. exact P_C51_madaboost_round_limit. Qed.
Print Assumptions C51_madaboost_round_limit.

(** with positive edges a finished run returns every hypothesis (or a single perfect one) *)
Theorem C51_madaboost_result :
  forall (H : Type) (conf : H -> nat -> R) (produce : nat -> list R -> H) (y : list R) (s : mada) (fuel : nat) tr f,
  run (madaboost conf produce y) fuel s = Finished tr f ->
  Forall (fun e => 0 < e) (edges conf produce y tr) ->
  (exists tr0 d, tr = tr0 ++ [d] /\ 1 <= edge_of y d (conf (produce (length tr) d)) /\
     f = mkWM [1] [produce (length tr) d]) \/
  (forall i, wm_predict conf f i =
     sign_label (vote conf (combine (map (fun e => ln (1 / mada_factor e)) (edges conf produce y tr)) (answers produce tr)) i)).
Proof. exact P_C51_madaboost_result. Qed.
Print Assumptions C51_madaboost_result.

Example C15_nonvacuous : exists d1 d2 rest,
  trace_of (run (madaboost (fun (h : nat -> R) i => h i) (fun _ _ _ => 1) y2) 3 (mada_force_quit_at (mada_init y2) 2)) = d1 :: d2 :: rest
  /\ -1 < edge_of y2 d1 (fun _ => 1) < 1.
Proof.
  set (conf := fun (h : nat -> R) (i : nat) => h i). set (pr := fun (_ : nat) (_ : list R) (_ : nat) => 1).
  set (s := mada_force_quit_at (@mada_init (nat -> R) y2) 2).
  assert (Hpre : exists s0, mada_pre y2 s = Ok s0) by (unfold mada_pre; rewrite y2_valid; eexists; reflexivity).
  destruct Hpre as [s0 Hpre]. pose proof (mada_pre_inv conf pr y2 s s0 Hpre) as I0.
  change (mada_limit y2 s) with 2%nat in I0.
  assert (Hedge : forall t d, is_pos_dist d /\ length d = 2%nat -> -1 < edge_of y2 d (conf (pr t d)) < 1).
  { intros t d [[Hp Hs] Hl]. destruct d as [|a [|b [|c d]]]; simpl in Hl; try lia. 
    assert (0 < a) by (apply Hp; left; reflexivity). assert (0 < b) by (apply Hp; right; left; reflexivity).
    simpl in Hs. unfold edge_of, conf, pr, y2. simpl. lra. }
  assert (Hsp : forall b d, capped_softmax b 2 d -> is_pos_dist d /\ length d = 2%nat).
  { intros b d Hc. split; [eapply (capped_softmax_pos b 2); [lia|exact Hc]|apply Hc]. }
  unfold run. simpl b_pre. rewrite Hpre.
  destruct (mada_boost_step conf pr y2 _ _ _ _ I0) as [[HL _]|[d1 [Hd1 [_ [[He _]|[He [s1 [E1 I1]]]]]]]].
  { simpl in HL. lia. }
  { pose proof (Hedge 1%nat d1 (Hsp _ _ Hd1)). exfalso. cbv zeta in He.
    assert (Rabs (edge_of y2 d1 (conf (pr 1%nat d1))) < 1) by (apply Rabs_def1; lra). lra. }
  cbn [run_from]. simpl b_boost. rewrite E1.
  destruct (mada_boost_step conf pr y2 _ _ _ _ I1) as [[HL _]|[d2 [Hd2 [_ [[He2 _]|[He2 [s2 [E2 I2]]]]]]]].
  { simpl in HL. lia. }
  { pose proof (Hedge 2%nat d2 (Hsp _ _ Hd2)). exfalso. cbv zeta in He2.
    assert (Rabs (edge_of y2 d2 (conf (pr 2%nat d2))) < 1) by (apply Rabs_def1; lra). lra. }
  rewrite E2. destruct (mada_boost_step conf pr y2 _ _ _ _ I2) as [[HL E3]|[d3 [_ [HL _]]]]; [|simpl in HL; lia].
  rewrite E3. exists d1, d2, []. split; [|exact He].
  destruct (b_post _ s2); reflexivity.
Qed.
