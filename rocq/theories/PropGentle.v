(** Property C89: AdaBoost and AdaBoostV change the weights of the examples gently. *)
From Verif Require Import Base UtilsFacts Spec SortLib Utils UtilsProofs WMajority WMajorityProofs Booster AdaBoost AdaBoostProofs AdaBoostMain AdaBoostMore AdaBoostV AdaBoostVProofs AdaBoostFacts AdaBoostVFacts GentleFacts.
Open Scope R_scope.


(** ** C89: from one AdaBoost query to the next no example loses more than the factor 1 + |edge|, hence never half
    of its weight, whatever the weak learner answers *)

Theorem C89_adaboost_weights_fall_gently :
  forall (H : Type) (conf : H -> nat -> R) (produce : nat -> list R -> H) (y : list R) (s : ada) (fuel k i : nat) tr,
  (forall j, (j < length y)%nat -> pm1 (nth j y 0)) ->
  (forall h j, (j < length y)%nat -> -1 <= conf h j <= 1) ->
  trace_of (run (adaboost conf produce y) fuel s) = tr -> (S k < length tr)%nat -> (i < length y)%nat ->
  nth i (nth k tr []) 0 / (1 + Rabs (nth k (edges conf produce y tr) 0)) <= nth i (nth (S k) tr []) 0 /\
  nth i (nth k tr []) 0 / 2 < nth i (nth (S k) tr []) 0.
Proof. exact P_C89_adaboost_weights_fall_gently. Qed.
Print Assumptions C89_adaboost_weights_fall_gently.

(** ... so after k rounds an example still has more than 2^-k of the weight it started with *)
Theorem C89_adaboost_weights_bounded_below :
  forall (H : Type) (conf : H -> nat -> R) (produce : nat -> list R -> H) (y : list R) (s : ada) (fuel k i : nat) tr,
  (forall j, (j < length y)%nat -> pm1 (nth j y 0)) ->
  (forall h j, (j < length y)%nat -> -1 <= conf h j <= 1) ->
  trace_of (run (adaboost conf produce y) fuel s) = tr -> (k < length tr)%nat -> (i < length y)%nat ->
  1 / (INR (length y) * 2 ^ k) <= nth i (nth k tr []) 0.
Proof. exact P_C89_adaboost_weights_bounded_below. Qed.
Print Assumptions C89_adaboost_weights_bounded_below.

(** ... and when the answer is a +1/-1 classifier the new weights are exactly d/(1+e) on the examples it got right
    and d/(1-e) on those it got wrong *)
Theorem C89_adaboost_new_weights_exact :
  forall (H : Type) (conf : H -> nat -> R) (produce : nat -> list R -> H) (y : list R) (s : ada) (fuel k i : nat) tr e,
  (forall j, (j < length y)%nat -> pm1 (nth j y 0)) ->
  (forall h j, (j < length y)%nat -> pm1 (conf h j)) ->
  trace_of (run (adaboost conf produce y) fuel s) = tr -> (S k < length tr)%nat -> (i < length y)%nat ->
  e = nth k (edges conf produce y tr) 0 ->
  (conf (produce (S k) (nth k tr [])) i = nth i y 0 -> nth i (nth (S k) tr []) 0 = nth i (nth k tr []) 0 / (1 + e)) /\
  (conf (produce (S k) (nth k tr [])) i <> nth i y 0 -> nth i (nth (S k) tr []) 0 = nth i (nth k tr []) 0 / (1 - e)).
Proof. exact P_C89_adaboost_new_weights_exact. Qed.
Print Assumptions C89_adaboost_new_weights_exact.

(** ** C89: AdaBoostV moves the weights even less: an example keeps at least the share (1+rho)/(1+edge), rho being the
    smallest edge so far minus the tolerance *)

Theorem C89_adaboostv_weights_fall_gently :
  forall (H : Type) (conf : H -> nat -> R) (produce : nat -> list R -> H) (y : list R) (s : adav) (fuel k i : nat) tr rho,
  0 <= v_tolerance s ->
  (forall j, (j < length y)%nat -> pm1 (nth j y 0)) ->
  (forall h j, (j < length y)%nat -> -1 <= conf h j <= 1) ->
  trace_of (run (adaboostv conf produce y) fuel s) = tr -> (S k < length tr)%nat -> (i < length y)%nat ->
  rho = fold_right Rmin 1 (firstn (S k) (edges conf produce y tr)) - v_tolerance s ->
  0 < (1 + rho) / (1 + nth k (edges conf produce y tr) 0) <= 1 /\
  nth i (nth k tr []) 0 * ((1 + rho) / (1 + nth k (edges conf produce y tr) 0)) <= nth i (nth (S k) tr []) 0.
Proof. exact P_C89_adaboostv_weights_fall_gently. Qed.
Print Assumptions C89_adaboostv_weights_fall_gently.

Example C89_nonvacuous :
  exists tr f, run (adaboost (fun (h : nat -> R) i => Rmax (-1) (Rmin 1 (h i))) (fun _ _ i => nth i y2 0 / 2) y2) 4
                   (ada_force_quit_at (ada_init y2) 3) = Finished tr f /\ length tr = 3%nat /\
    (forall i, (i < length y2)%nat -> pm1 (nth i y2 0)) /\
    (forall (h : nat -> R) j, -1 <= Rmax (-1) (Rmin 1 (h j)) <= 1).
Proof.
  set (conf := fun (h : nat -> R) (i : nat) => Rmax (-1) (Rmin 1 (h i))).
  set (pr := fun (_ : nat) (_ : list R) (i : nat) => nth i y2 0 / 2).
  set (s := ada_force_quit_at (@ada_init (nat -> R) y2) 3).
  pose proof (P_C08_adaboost_round_limit _ conf pr y2 s 4) as [_ T]. specialize (T ltac:(simpl; lia)).
  assert (C : forall t d i, conf (pr t d) i = nth i y2 0 / 2).
  { intros t d i. unfold conf, pr. assert (-1 / 2 <= nth i y2 0 / 2 <= 1 / 2).
    { unfold y2. destruct i as [|[|[|i]]]; simpl; lra. }
    rewrite Rmin_right by lra. rewrite Rmax_right by lra. reflexivity. }
  assert (Hlen : forall tr, trace_of (run (adaboost conf pr y2) 4 s) = tr ->
            Forall (fun e => e = 1 / 2) (edges conf pr y2 tr)).
  { intros tr Etr. apply Forall_forall. intros e He. unfold edges in He. apply in_map_iff in He.
    destruct He as [[t d] [<- Hp]]. apply in_combine_r in Hp. rewrite <- Etr in Hp.
    destruct (P_C04_adaboost_queries_are_distributions _ _ _ _ _ _ _ Hp) as [Hl [Hp1 Hp2]].
    destruct d as [|a [|b [|c d]]]; simpl in Hl; try lia. simpl in Hp2.
    unfold edge_of. simpl. rewrite !C. simpl. lra. }
  destruct (run (adaboost conf pr y2) 4 s) as [tr f|tr p|tr] eqn:E.
  - exists tr, f. split; [reflexivity|]. split; [|split; [apply y2_pm1|]].
    + destruct (ada_run_spec conf pr y2 4 s) as [_ HF].
      destruct (HF tr f E) as [_ [[HL _]|[tr0 [d [Et [_ [_ [Hd _]]]]]]]]; [exact HL|].
      exfalso. pose proof (Hlen tr eq_refl) as He.
      rewrite Et, edges_app in He. apply Forall_app in He. destruct He as [_ He]. apply Forall_inv in He.
      rewrite Et, app_length in Hd. simpl in Hd. rewrite Nat.add_1_r in Hd. rewrite He in Hd. lra.
    + intros h j. split; [apply Rmax_l|]. apply Rmax_lub; [lra|apply Rmin_l].
  - exfalso. eapply (P_C08_adaboost_no_crash _ conf pr y2 s 4 tr p); [apply y2_valid|simpl; lia| |exact E].
    eapply Forall_impl; [|apply (Hlen tr); reflexivity]. simpl. intros a ->. lra.
  - contradiction.
Qed.

Example C89_classifiers_nonvacuous :
  exists tr f, run (adaboost (fun h i => if Nat.ltb i 3 then err_at h i else 1) light_learner y3) 4
                   (ada_force_quit_at (ada_init y3) 3) = Finished tr f /\ length tr = 3%nat /\
    (forall i, (i < length y3)%nat -> pm1 (nth i y3 0)) /\
    (forall h j, (j < length y3)%nat -> pm1 (if Nat.ltb j 3 then err_at h j else 1)).
Proof.
  set (conf := fun (h i : nat) => if Nat.ltb i 3 then err_at h i else 1).
  set (s := ada_force_quit_at (@ada_init nat y3) 3).
  assert (Hv : is_valid_binary_instance y3 = Ok tt).
  { apply ValidProofs.valid_pm1; [|simpl; auto|simpl; auto]. intros v Hv. simpl in Hv. intuition lra. }
  assert (Hy : forall i, (i < length y3)%nat -> pm1 (nth i y3 0)).
  { unfold pm1. intros [|[|[|i]]] Hi; simpl in *; try lra; lia. }
  pose proof (P_C08_adaboost_round_limit _ conf light_learner y3 s 4) as [_ T]. specialize (T ltac:(simpl; lia)).
  assert (Hlen : forall tr, trace_of (run (adaboost conf light_learner y3) 4 s) = tr ->
            Forall (fun e => 0 < e < 1) (edges conf light_learner y3 tr)).
  { intros tr Etr. apply Forall_forall. intros e He. unfold edges in He. apply in_map_iff in He.
    destruct He as [[t d] [<- Hp]]. apply in_combine_r in Hp. rewrite <- Etr in Hp.
    destruct (P_C04_adaboost_queries_are_distributions _ _ _ _ _ _ _ Hp) as [Hl [Hp1 Hp2]].
    destruct d as [|a [|b [|c [|c' d]]]]; simpl in Hl; try lia. simpl in Hp2.
    assert (0 < a) by (apply Hp1; simpl; auto). assert (0 < b) by (apply Hp1; simpl; auto). assert (0 < c) by (apply Hp1; simpl; auto).
    unfold edge_of, light_learner. simpl. destruct (Rltb_spec a (1 / 2)) as [L|L]; unfold conf, err_at; simpl; lra. }
  destruct (run (adaboost conf light_learner y3) 4 s) as [tr f|tr p|tr] eqn:E.
  - exists tr, f. split; [reflexivity|]. split; [|split; [exact Hy|]].
    + destruct (ada_run_spec conf light_learner y3 4 s) as [_ HF].
      destruct (HF tr f E) as [_ [[HL _]|[tr0 [d [Et [_ [_ [Hd _]]]]]]]]; [exact HL|].
      exfalso. pose proof (Hlen tr eq_refl) as He.
      rewrite Et, edges_app in He. apply Forall_app in He. destruct He as [_ He]. apply Forall_inv in He.
      rewrite Et, app_length in Hd. simpl in Hd. rewrite Nat.add_1_r in Hd. lra.
    + intros h j Hj. destruct (Nat.ltb_spec j 3); [|left; reflexivity]. unfold err_at.
      destruct (Hy j Hj) as [-> | ->]; destruct (Nat.eqb j h); unfold pm1; lra.
  - exfalso. eapply (P_C08_adaboost_no_crash _ conf light_learner y3 s 4 tr p); [exact Hv|simpl; lia| |exact E].
    eapply Forall_impl; [|apply (Hlen tr); reflexivity]. simpl. intros a Ha. lra.
  - contradiction.
Qed.
