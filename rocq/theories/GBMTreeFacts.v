(** Properties C75, C76: the training loss of gradient boosting, and gradient boosting with the regression trees of the crate. *)
From Coq Require Import String.
From Verif Require Import Base Spec LossSpec WMajority WMajorityProofs Booster AdaBoostProofs AdaBoostMain SmoothBoostFacts Losses LossFacts GBM GBMFacts
  Feature Sample SampleSpec FeatureFacts SampleFacts Bins BinsSpec BinsProofs BinsFacts TreeSpec DTree TreeShape DTreeFacts RTree RTreeSpec RTreeFacts.
Open Scope R_scope.

Lemma sum_sq_mean (e : nat -> R) (l : list nat) : (rsum (map e l)) ^ 2 <= INR (length l) * rsum (map (fun i => (e i) ^ 2) l).
Proof.
  induction l as [|i l IH]; [simpl; lra|]. cbn [map rsum length]. rewrite S_INR. set (S1 := rsum (map e l)) in *. set (S2 := rsum (map (fun i => e i ^ 2) l)) in *. set (n := INR (length l)) in *.
  assert (Hn : 0 <= n) by apply pos_INR. set (a := e i).
  destruct (Req_EM_T n 0) as [Z|NZ].
  - rewrite Z in *. rewrite Rmult_0_l in IH. assert (S1 = 0) by (pose proof (pow2_ge_0 S1); apply Rsqr_0_uniq; unfold Rsqr; simpl in IH; nra). rewrite H. assert (0 <= S2). { unfold S2. apply rsum_nonneg. intros x Hx. apply in_map_iff in Hx. destruct Hx as [j [<- _]]. apply pow2_ge_0. } nra.
  - assert (0 < n) by lra. assert (Q : 2 * a * S1 <= n * a ^ 2 + S2).
    { apply (Rmult_le_reg_l n); [lra|]. assert (0 <= (n * a - S1) ^ 2) by apply pow2_ge_0. nra. }
    nra.
Qed.

(** the coefficients of the squared loss make every hypothesis add the total of the targets *)
Lemma fitted_total {H} (pred : H -> nat -> R) y : forall cs hs, chosen (fun y p c => best_coefficient L2 y p = Ok c) pred y cs hs ->
  rsum (fitted pred y cs hs) = INR (length cs) * rsum y.
Proof.
  intros cs hs C. unfold chosen in C. induction C as [|c h cs hs [Hc _] C IH].
  - unfold fitted. simpl. rewrite (rsum_map_ext _ (fun _ => 0)) by reflexivity. rewrite rsum_map_const. lra.
  - change (length (c :: cs)) with (S (length cs)). rewrite S_INR. unfold fitted in *. cbn [combine].
    rewrite (rsum_map_ext _ (fun i => c * pred h i + vote pred (combine cs hs) i)) by (intros i _; reflexivity).
    rewrite rsum_map_plus, IH, (rsum_map_mult c (pred h)).
    unfold best_coefficient, bind, assert_ in Hc. destruct (Reqb_spec (rsum (map (pred h) (seq 0 (length y)))) 0) as [|N]; [discriminate|]. simpl in Hc. injection Hc as <-. field. exact N.
Qed.

(** ** C75: with the squared loss the running predictions drift away: after k rounds they sum to k times the total of the
    targets, whatever the weak learner answers, so the reported loss is at least ((k - 1) mean(y))^2 *)
Lemma P_C75_squared_loss_drifts_refuted :
  forall (H : Type) (pred : H -> nat -> R) produce (y : list R) fuel k, (0 < length y)%nat ->
  let tr := trace_of (run (gbm_booster pred produce y (best_coefficient L2)) fuel (gbm_init y)) in
  (k < length tr)%nat ->
  rsum (nth k tr []) = INR k * rsum y /\
  exists L, loss_eval L2 (nth k tr []) y = Ok L /\ ((INR k - 1) * (rsum y / INR (length y))) ^ 2 <= L.
Proof.
  intros H pred produce y fuel k Hn tr Hk.
  destruct (P_C54_gbm_protocol H pred produce y (best_coefficient L2) fuel) as [_ [cs [C [Lc F]]]]. fold tr in C, Lc, F. specialize (F k Hk).
  assert (Ck : chosen (fun y p c => best_coefficient L2 y p = Ok c) pred y (firstn k cs) (firstn k (answers produce tr))).
  { assert (Lcs : (k <= length cs)%nat) by lia. replace (firstn k (answers produce tr)) with (firstn k (firstn (length cs) (answers produce tr))) by (rewrite firstn_firstn; f_equal; lia).
    unfold chosen in *. clear - C. revert k. induction C as [|c h cs hs A C IH]; intros k; [rewrite !firstn_nil; constructor|]. destruct k as [|k]; simpl; constructor; [exact A|apply IH]. }
  pose proof (fitted_total pred y _ _ Ck) as T. rewrite <- F in T. assert (Lk : length (firstn k cs) = k) by (rewrite firstn_length; lia). rewrite Lk in T. split; [exact T|].
  assert (Lv : length (nth k tr []) = length y) by (rewrite F; unfold fitted; rewrite map_length, seq_length; reflexivity).
  rewrite (P_C30_loss_value_partial L2 _ y Hn Lv). eexists. split; [reflexivity|].
  assert (Hp : 0 < INR (length y)) by (apply lt_0_INR; exact Hn). set (p := nth k tr []) in *.
  pose proof (sum_sq_mean (fun i => nth i y 0 - 1 * nth i p 0) (seq 0 (length y))) as Q. rewrite seq_length in Q.
  rewrite (rsum_map_minus (fun i => nth i y 0) (fun i => 1 * nth i p 0)), (rsum_map_mult 1 (fun i => nth i p 0)), (rsum_nth y) in Q.
  rewrite <- Lv in Q at 1. rewrite rsum_nth, T in Q. unfold sq_error. set (S := rsum (map (fun i => (nth i y 0 - 1 * nth i p 0) ^ 2) (seq 0 (length y)))) in *.
  apply Rle_div_iff; [exact Hp|]. apply (Rmult_le_reg_l (INR (length y))); [exact Hp|]. eapply Rle_trans; [|exact Q]. right. field. lra.
Qed.

(** ** C75: what does hold: with the absolute loss the first round leaves the least loss that any multiple of the first
    hypothesis has, in particular not more than the loss of predicting zero *)
Lemma P_C75_first_round_partial :
  forall (H : Type) (pred : H -> nat -> R) produce (y : list R) fuel,
  let tr := trace_of (run (gbm_booster pred produce y (best_coefficient L1)) fuel (gbm_init y)) in
  (1 < length tr)%nat ->
  let h := map (pred (produce 1%nat (repeat 0 (length y)))) (seq 0 (length y)) in
  forall c, abs_error y (nth 1 tr []) 1 <= abs_error y h c.
Proof.
  intros H pred produce y fuel tr Hk h c.
  destruct (P_C54_gbm_protocol H pred produce y (best_coefficient L1) fuel) as [_ [cs [C [Lc F]]]]. fold tr in C, Lc, F.
  pose proof (F 0%nat ltac:(lia)) as F0. specialize (F 1%nat Hk). 
  destruct tr as [|v0 tr']; [simpl in Hk; lia|]. cbn [nth firstn] in F0. assert (E0 : v0 = repeat 0 (length y)) by (rewrite F0; apply fitted_nil). clear F0.
  destruct cs as [|c0 cs]; [simpl in Lc, Hk; lia|].
  change (answers produce (v0 :: tr')) with (produce 1%nat v0 :: map (fun p => produce (fst p) (snd p)) (combine (seq 2 (length tr')) tr')) in *.
  cbn [length firstn] in C. inversion C as [|? ? ? ? [A _] _]; subst. cbn [firstn] in F. rewrite F.
  assert (Ab : abs_error y (fitted pred y [c0] [produce 1%nat (repeat 0 (length y))]) 1 = abs_error y h c0).
  { unfold abs_error. apply rsum_map_ext. intros i Hi. apply in_seq in Hi. unfold fitted, h. rewrite !nth_map_seq by lia. unfold vote. cbn [combine map rsum fst snd]. f_equal. ring. }
  rewrite Ab. apply (P_C31_l1_coefficient y h c0); [unfold h; rewrite map_length, seq_length; reflexivity|exact A].
Qed.

(** the regression tree learner as a function of the round and the predictions; that it does not panic is part of C76 *)
Definition rt_learner (t : rtree) (s : sample) (round : nat) (v : list R) : node := match rt_produce t s v with Ok h => h | Panic _ => Leaf 0 end.

(** ** C76: gradient boosting with the squared loss and the crate's regression trees for the squared loss never returns a
    regressor: on every sample, for every configuration of the tree, run() panics in the first or second round.  The first
    ensemble has residuals that sum to zero, the tree learner answers with the zero leaf, and best_coefficient asserts that
    the predictions do not sum to zero.  The weak learner itself never panics *)
Lemma P_C76_gbm_with_regression_trees_refuted :
  forall s b t fuel, trainable s -> rt_made s b -> rb_build b s = Ok t -> 0 <= rb_lambda b -> rb_loss b = Some L2 -> (2 <= fuel)%nat ->
  let y := s_target s in let pred := fun h i => answer h s i in
  exists tr, run (gbm_booster pred (rt_learner t s) y (best_coefficient L2)) fuel (gbm_init y) = Crashed tr AssertFailed /\ (1 <= length tr <= 2)%nat /\
    forall v, In v tr -> exists h, rt_produce t s v = Ok h.
Proof.
  intros s b t fuel Tr Mb Eb Hl El Hf y pred. destruct fuel as [|[|fuel]]; try lia.
  assert (Ly : length y = fst (shape s)) by apply Tr.
  assert (Z : forall v, length v = length y -> rsum v = rsum y -> rt_produce t s v = Ok (Leaf 0)).
  { intros v Lv Sv. apply (P_C29_zero_sum_leaf s b t v Tr Mb Eb Hl El ltac:(congruence)). unfold all_rows. rewrite <- Ly.
    rewrite (rsum_map_minus (fun i => nth i v 0) (label s)). unfold label. rewrite <- Lv at 1. rewrite rsum_nth. fold y. rewrite rsum_nth, Sv. ring. }
  assert (Zc : forall k v, length v = length y -> rsum v = rsum y -> best_coefficient L2 y (map (pred (rt_learner t s k v)) (seq 0 (length y))) = Panic AssertFailed).
  { intros k v Lv Sv. unfold rt_learner. rewrite (Z v Lv Sv). unfold best_coefficient. rewrite (rsum_map_ext _ (fun _ => 0)) by reflexivity. rewrite rsum_map_const, Reqb_true by ring. reflexivity. }
  assert (Pr : forall v, length v = length y -> exists h, rt_produce t s v = Ok h).
  { intros v Lv. destruct (P_C29_squared_loss s b t v Tr Mb Eb Hl El ltac:(congruence)) as [h [E _]]. eauto. }
  unfold run. cbn [b_pre gbm_booster gbm_pre run_from b_boost b_post]. unfold gbm_boost. cbn [gbm_max_iter gbm_init gbm_predictions gbm_weights gbm_hyps Nat.ltb Nat.leb].
  set (v0 := repeat 0 (length y)). assert (L0 : length v0 = length y) by apply repeat_length. assert (S0 : rsum v0 = 0) by (unfold v0; rewrite rsum_repeat; ring).
  set (h := map (pred (rt_learner t s 1 v0)) (seq 0 (length y))) in *. assert (Lh : length h = length y) by (unfold h; rewrite map_length, seq_length; reflexivity).
  destruct (Req_EM_T (rsum y) 0) as [Sy|Sy].
  { pose proof (Zc 1%nat v0 L0 ltac:(congruence)) as E. fold h in E. rewrite E. cbn [bind app]. exists [v0]. split; [reflexivity|]. split; [simpl; lia|]. intros v [<-|[]]. apply Pr, L0. }
  unfold best_coefficient at 1. destruct (Reqb_spec (rsum h) 0) as [Sh|Sh]; cbn [negb assert_ bind app].
  { exists [v0]. split; [reflexivity|]. split; [simpl; lia|]. intros v [<-|[]]. apply Pr, L0. }
  assert (Hc : rsum y / rsum h <> 0). { unfold Rdiv. apply Rmult_integral_contrapositive_currified; [exact Sy|apply Rinv_neq_0_compat, Sh]. }
  rewrite Reqb_false by exact Hc. cbn [gbm_max_iter gbm_predictions gbm_weights gbm_hyps Nat.ltb Nat.leb app].
  set (v1 := map (fun q => fst q + rsum y / rsum h * snd q) (combine v0 h)).
  assert (L1 : length v1 = length y) by (unfold v1; rewrite map_length, combine_length; lia).
  assert (S1 : rsum v1 = rsum y).
  { unfold v1. rewrite (combine_nth_map _ _ _ 0 0) by congruence. cbn [fst snd]. rewrite L0. rewrite (rsum_map_ext _ (fun i => rsum y / rsum h * nth i h 0)).
    2:{ intros i Hi. apply in_seq in Hi. unfold v0. rewrite nth_repeat_lt by lia. ring. }
    rewrite rsum_map_mult. rewrite <- Lh at 1. rewrite rsum_nth. field. exact Sh. }
  pose proof (Zc 2%nat v1 L1 S1) as E. rewrite E. cbn [bind]. exists [v0; v1]. split; [reflexivity|]. split; [simpl; lia|]. intros v [<-|[<-|[]]]; apply Pr; assumption.
Qed.

(** ** hypotheses met: a sample, a builder and a regression tree learner built from it exist *)
Example gbm_trees_exist : exists s b t, trainable s /\ rt_made s b /\ rb_build b s = Ok t /\ 0 <= rb_lambda b /\ rb_loss b = Some L2 /\ (2 <= rb_depth b)%nat.
Proof. destruct P_C29_zero_sum_refuted as [s [b [t [v [f [th [A [B [C [D [E [F _]]]]]]]]]]]]. exists s, b, t. tauto. Qed.

(** ** the drift is reached: with targets 1, 2 and a weak learner that always answers 1, the third state of the run has
    predictions that sum to twice the total *)
Example gbm_drift_reached : Nat.lt 2 (length (trace_of (run (gbm_booster (fun (_ : unit) (_ : nat) => 1) (fun _ _ => tt) [1; 2] (best_coefficient L2)) 3 (gbm_init [1; 2])))).
Proof.
  unfold run. cbn [b_pre gbm_booster gbm_pre gbm_init].
  assert (E : forall (l : list unit), best_coefficient L2 [1; 2] (map (fun _ : nat => 1) (seq 0 (length [1; 2]))) = Ok (3 / 2)).
  { intros _. unfold best_coefficient. simpl rsum. rewrite Reqb_false by lra. cbn [negb assert_ bind]. f_equal. field. }
  assert (N : Reqb (3 / 2) 0 = false) by (apply Reqb_false; lra).
  cbn [run_from b_boost gbm_booster]. unfold gbm_boost at 1. cbn [gbm_max_iter Nat.ltb Nat.leb gbm_predictions gbm_weights gbm_hyps]. rewrite (E []). cbn [bind]. rewrite N.
  cbn [run_from b_boost gbm_booster]. unfold gbm_boost at 1. cbn [gbm_max_iter Nat.ltb Nat.leb gbm_predictions gbm_weights gbm_hyps]. rewrite (E []). cbn [bind]. rewrite N.
  cbn [run_from b_boost gbm_booster]. unfold gbm_boost at 1. cbn [gbm_max_iter Nat.ltb Nat.leb gbm_predictions gbm_weights gbm_hyps]. rewrite (E []). cbn [bind]. rewrite N.
  cbn. lia.
Qed.
