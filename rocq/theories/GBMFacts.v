(** Facts about gradient boosting: C32, C54. *)
From Verif Require Import Base Spec LossSpec WMajority WMajorityProofs Booster AdaBoostProofs AdaBoostMain SmoothBoostFacts Losses GBM.
Open Scope R_scope.

(** ** Specification: what the loss' [best_coefficient] answers *)
Definition best_is (best : list R -> list R -> res R) (y p : list R) (c : R) : Prop := best y p = Ok c.

Section Facts.
  Context {H : Type} (pred : H -> nat -> R) (produce : nat -> list R -> H) (y : list R) (best : list R -> list R -> res R).

  Lemma fitted_snoc cs hs c h : length cs = length hs ->
    fitted pred y (cs ++ [c]) (hs ++ [h]) =
    map (fun q => fst q + c * snd q) (combine (fitted pred y cs hs) (map (pred h) (seq 0 (length y)))).
  Proof.
    intros E. unfold fitted. rewrite (combine_nth_map _ _ _ 0 0) by (rewrite !map_length; reflexivity).
    rewrite map_length, seq_length. apply map_ext_in. intros i Hi. apply in_seq in Hi. simpl.
    rewrite !nth_map_seq by lia. rewrite combine_app_eq by exact E. unfold vote. cbn [combine]. rewrite map_app, rsum_app. simpl. ring.
  Qed.

  Lemma fitted_nil : fitted pred y [] [] = repeat 0 (length y).
  Proof.
    unfold fitted. apply (list_eq_nth 0); [rewrite map_length, seq_length, repeat_length; reflexivity|].
    intros i Hi. rewrite map_length, seq_length in Hi. rewrite nth_map_seq, nth_repeat_lt by exact Hi. reflexivity.
  Qed.

  (** every vector shown to the weak learner is the ensemble fitted so far *)
  Definition gtr_ok (tr : trace) (cs : list R) : Prop :=
    forall k, (k < length tr)%nat -> nth k tr [] = fitted pred y (firstn k cs) (firstn k (answers produce tr)).

  Definition G_inv (m : nat) (t : nat) (s : gbm) (tr : trace) : Prop :=
    t = S (length tr) /\ (length tr <= m)%nat /\ gbm_max_iter s = m /\
    chosen (best_is best) pred y (gbm_weights s) (gbm_hyps s) /\ gbm_hyps s = answers produce tr /\
    gbm_predictions s = fitted pred y (gbm_weights s) (gbm_hyps s) /\
    gtr_ok tr (gbm_weights s).

  Definition G_Q (m : nat) (tr : trace) : Prop :=
    (length tr <= m)%nat /\ exists cs, (length cs <= length tr)%nat /\ (length tr <= S (length cs))%nat /\
      chosen (best_is best) pred y cs (firstn (length cs) (answers produce tr)) /\ gtr_ok tr cs.

  Definition G_F (m : nat) (tr : trace) (f : wmajority H) : Prop :=
    exists cs, chosen (best_is best) pred y cs (firstn (length cs) (answers produce tr)) /\ gtr_ok tr cs /\
      from_slices cs (firstn (length cs) (answers produce tr)) = Ok f /\
      ((length cs = length tr /\ length tr = m) \/
       (S (length cs) = length tr /\ exists v, nth (length cs) tr [] = v /\
          best y (map (pred (produce (length tr) v)) (seq 0 (length y))) = Ok 0)).

  Lemma gtr_ok_snoc tr cs c d : gtr_ok tr cs -> length cs = length tr ->
    d = fitted pred y cs (answers produce tr) -> gtr_ok (tr ++ [d]) (cs ++ c).
  Proof.
    intros Hg Hl Hd k Hk. rewrite app_length in Hk. simpl in Hk. rewrite answers_app.
    rewrite (firstn_app_le k (answers produce tr)) by (rewrite answers_length; lia).
    rewrite (firstn_app_le k cs) by lia.
    destruct (Nat.eq_dec k (length tr)) as [->|Hne].
    - rewrite app_nth2, Nat.sub_diag by lia. simpl. rewrite <- Hl at 1. rewrite firstn_all.
      rewrite <- (answers_length produce tr), firstn_all. exact Hd.
    - rewrite app_nth1 by lia. apply Hg. lia.
  Qed.

  Lemma chosen_length cs hs : chosen (best_is best) pred y cs hs -> length cs = length hs.
  Proof. intros C. unfold chosen in C. induction C; simpl; congruence. Qed.

  Lemma gbm_run_spec fuel s : G_Q (gbm_max_iter s) (trace_of (run (gbm_booster pred produce y best) fuel s)) /\
    (forall tr f, run (gbm_booster pred produce y best) fuel s = Finished tr f -> G_F (gbm_max_iter s) tr f).
  Proof.
    set (m := gbm_max_iter s).
    apply (run_inv (gbm_booster pred produce y best) (G_inv m) (G_Q m) (G_F m)).
    - split; [simpl; lia|]. exists []. simpl. split; [lia|]. split; [lia|]. split; [constructor|]. intros k Hk. simpl in Hk. lia.
    - intros s0 E. simpl in E. inversion E; subst s0. split; [reflexivity|]. simpl. split; [lia|]. split; [reflexivity|].
      split; [constructor|]. split; [reflexivity|]. split; [symmetry; apply fitted_nil|]. intros k Hk. simpl in Hk. lia.
    - intros t s1 tr [Ht [Hm [Hx [Hc [Hh [Hp Hg]]]]]]. split; [exact Hm|]. exists (gbm_weights s1).
      pose proof (chosen_length _ _ Hc) as Hl. rewrite Hh, answers_length in Hl. split; [lia|]. split; [lia|]. split; [|exact Hg].
      rewrite Hl, <- (answers_length produce tr), firstn_all. rewrite <- Hh. exact Hc.
    - intros t s1 tr [Ht [Hm [Hx [Hc [Hh [Hp Hg]]]]]]. simpl. unfold gbm_boost.
      pose proof (chosen_length _ _ Hc) as Hl. rewrite Hh, answers_length in Hl.
      assert (Hca : chosen (best_is best) pred y (gbm_weights s1) (firstn (length (gbm_weights s1)) (answers produce tr))).
      { rewrite Hl, <- (answers_length produce tr), firstn_all. rewrite <- Hh. exact Hc. }
      destruct (Nat.ltb_spec (gbm_max_iter s1) t) as [Hlt|Hge].
      + rewrite app_nil_r. split.
        * split; [exact Hm|]. exists (gbm_weights s1). split; [lia|]. split; [lia|]. split; [exact Hca|exact Hg].
        * unfold gbm_post. destruct (from_slices (gbm_weights s1) (gbm_hyps s1)) as [f|p] eqn:Ef; [|exact I].
          exists (gbm_weights s1). split; [exact Hca|]. split; [exact Hg|]. split.
          -- rewrite Hl, <- (answers_length produce tr), firstn_all, <- Hh. exact Ef.
          -- left. lia.
      + assert (Ht2 : (S (length tr) <= m)%nat) by lia.
        set (d := gbm_predictions s1) in *. set (h := produce t d).
        assert (Hg' : forall c, gtr_ok (tr ++ [d]) (gbm_weights s1 ++ c)).
        { intros c. apply gtr_ok_snoc; [exact Hg|exact Hl|]. rewrite Hp, Hh. reflexivity. }
        assert (Hca' : chosen (best_is best) pred y (gbm_weights s1) (firstn (length (gbm_weights s1)) (answers produce (tr ++ [d])))).
        { rewrite answers_app, firstn_app_le by (rewrite answers_length; lia). exact Hca. }
        assert (HQ : G_Q m (tr ++ [d])).
        { split; [rewrite app_length; simpl; lia|]. exists (gbm_weights s1). rewrite app_length. simpl. split; [lia|]. split; [lia|].
          split; [exact Hca'|]. rewrite <- (app_nil_r (gbm_weights s1)). apply Hg'. }
        destruct (best y (map (pred h) (seq 0 (length y)))) as [c|p] eqn:Eb; cbn [bind].
        * destruct (Reqb_spec c 0) as [->|Hc0].
          -- split; [exact HQ|]. unfold gbm_post. destruct (from_slices (gbm_weights s1) (gbm_hyps s1)) as [f|p] eqn:Ef; [|exact I].
             exists (gbm_weights s1). split; [exact Hca'|]. split; [rewrite <- (app_nil_r (gbm_weights s1)); apply Hg'|]. split.
             ++ rewrite answers_app, firstn_app_le by (rewrite answers_length; lia). rewrite Hl, <- (answers_length produce tr), firstn_all, <- Hh. exact Ef.
             ++ right. rewrite app_length. simpl. split; [lia|]. exists d. split.
                ** rewrite Hl, app_nth2, Nat.sub_diag by lia. reflexivity.
                ** replace (length tr + 1)%nat with t by lia. exact Eb.
          -- split; [rewrite app_length; simpl; lia|]. split; [rewrite app_length; simpl; lia|]. split; [exact Hx|].
             cbn [gbm_weights gbm_hyps gbm_predictions gbm_max_iter].
             split. { apply Forall2_app; [exact Hc|]. constructor; [|constructor]. split; [exact Eb|exact Hc0]. }
             split. { rewrite answers_app, Hh. subst h t. reflexivity. }
             split. { rewrite Hp. symmetry. rewrite fitted_snoc; [reflexivity|]. rewrite Hh, answers_length. exact Hl. }
             apply Hg'.
        * exact HQ.
  Qed.
End Facts.

(** ** C54: gradient boosting always stops, after at most 100 calls of the weak learner, and shows it the
    ensemble fitted so far; [best] is any implementation of the loss' coefficient *)
Lemma P_C54_gbm_protocol :
  forall (H : Type) (pred : H -> nat -> R) (produce : nat -> list R -> H) (y : list R) (best : list R -> list R -> res R) (fuel : nat),
  let o := run (gbm_booster pred produce y best) fuel (gbm_init y) in
  (length (trace_of o) <= 100)%nat /\
  exists cs, chosen (fun y p c => best y p = Ok c) pred y cs (firstn (length cs) (answers produce (trace_of o))) /\
    (length (trace_of o) <= S (length cs))%nat /\
    forall k, (k < length (trace_of o))%nat ->
      nth k (trace_of o) [] = fitted pred y (firstn k cs) (firstn k (answers produce (trace_of o))).
Proof.
  intros H pred produce y best fuel o. destruct (gbm_run_spec pred produce y best fuel (gbm_init y)) as [[Hl [cs [H1 [H2 [H3 H4]]]]] _].
  split; [exact Hl|]. exists cs. split; [exact H3|]. split; [exact H2|exact H4].
Qed.

Lemma gbm_from_stops (H : Type) (pred : H -> nat -> R) (produce : nat -> list R -> H) (y : list R) (best : list R -> list R -> res R) :
  forall fuel t tr s, (gbm_max_iter s + 2 <= t + fuel)%nat -> (0 < fuel)%nat ->
  exists tr', (exists f, run_from (gbm_booster pred produce y best) fuel t tr s = Finished tr' f) \/
              (exists p, run_from (gbm_booster pred produce y best) fuel t tr s = Crashed tr' p).
Proof.
  induction fuel as [|fuel IH]; intros t tr s Hf Hpos; [lia|]. cbn [run_from b_boost b_post gbm_booster]. unfold gbm_boost.
  destruct (Nat.ltb_spec (gbm_max_iter s) t) as [Hlt|Hge].
  - destruct (gbm_post s) as [f|p]; eexists; [left|right]; eexists; reflexivity.
  - destruct (best y _) as [c|p]; cbn [bind]; [|eexists; right; eexists; reflexivity].
    destruct (Reqb c 0).
    + destruct (gbm_post s) as [f|p]; eexists; [left|right]; eexists; reflexivity.
    + apply IH; [simpl; lia|lia].
Qed.

(** 101 iterations always suffice: run() returns a regressor or panics *)
Lemma P_C54_gbm_stops :
  forall (H : Type) (pred : H -> nat -> R) (produce : nat -> list R -> H) (y : list R) (best : list R -> list R -> res R) (fuel : nat),
  (101 <= fuel)%nat ->
  exists tr, (exists f, run (gbm_booster pred produce y best) fuel (gbm_init y) = Finished tr f) \/
             (exists p, run (gbm_booster pred produce y best) fuel (gbm_init y) = Crashed tr p).
Proof. intros. unfold run. cbn [b_pre gbm_booster gbm_pre]. apply gbm_from_stops; simpl gbm_max_iter; lia. Qed.

(** ** C32: what GBM returns.  The returned regressor is the ensemble of the coefficients that are positive,
    divided by their sum; so it is the fitted ensemble exactly when it is multiplied by the sum of the
    coefficients, if all of them are positive *)
Lemma P_C32_gbm_returned_partial :
  forall (H : Type) (pred : H -> nat -> R) (produce : nat -> list R -> H) (y : list R) (best : list R -> list R -> res R) (fuel : nat) tr f,
  run (gbm_booster pred produce y best) fuel (gbm_init y) = Finished tr f ->
  exists cs, let hs := firstn (length cs) (answers produce tr) in
    chosen (fun y p c => best y p = Ok c) pred y cs hs /\
    ((length cs = 100 /\ length tr = 100)%nat \/ (S (length cs) = length tr)%nat) /\
    (forall i, let pos := filter (fun q => Rltb 0 (fst q)) (combine cs hs) in
       0 < rsum (map fst pos) /\ wm_confidence pred f i = vote pred pos i / rsum (map fst pos)) /\
    (Forall (fun c => 0 < c) cs -> forall i, rsum cs * wm_confidence pred f i = vote pred (combine cs hs) i).
Proof.
  intros H pred produce y best fuel tr f Hr.
  destruct (gbm_run_spec pred produce y best fuel (gbm_init y)) as [_ HF]. destruct (HF tr f Hr) as [cs [Hc [Hg [Hf He]]]].
  exists cs. cbv zeta. split; [exact Hc|]. split.
  { destruct He as [[H1 H2]|[H1 _]]; [left; simpl in H2; lia|right; exact H1]. }
  pose proof (from_slices_spec pred cs (firstn (length cs) (answers produce tr))) as S. rewrite Hf in S. cbv zeta in S.
  destruct S as [Hz [_ [_ [_ [_ Hconf]]]]]. unfold kept in *. split.
  - intros i. split; [exact Hz|apply Hconf].
  - intros Hall i. pose proof (chosen_length pred y best _ _ Hc) as Hl.
    pose proof (kept_all cs (firstn (length cs) (answers produce tr)) ltac:(rewrite Forall_forall in Hall; exact Hall) Hl) as Hk. unfold kept in Hk.
    rewrite Hconf, Hk in *.
    assert (Em : map fst (combine cs (firstn (length cs) (answers produce tr))) = cs).
    { clear -Hl. revert Hl. generalize (firstn (length cs) (answers produce tr)). induction cs as [|c cs IH]; intros [|h l] E; simpl in *; try lia; [reflexivity|]. f_equal. apply IH. lia. }
    rewrite Em in *. field. lra.
Qed.

(** with the squared loss, a weak learner that always answers with half the target: every coefficient is 2, the
    ensemble after k rounds is k times the target (so the training loss keeps growing), the returned regressor
    is the weak learner's own hypothesis: half the target *)
Lemma gbm_half (y : list R) : rsum y <> 0 -> forall fuel t tr k,
  (102 <= t + fuel)%nat -> (0 < fuel)%nat -> (t = S k)%nat -> (k <= 100)%nat -> length tr = k ->
  (forall j, (j < k)%nat -> nth j tr [] = map (fun v => INR j * v) y) ->
  exists tr', run_from (gbm_booster (fun (h : nat -> R) i => h i) (fun _ _ i => nth i y 0 / 2) y (best_coefficient L2)) fuel t tr
      (mkGbm (repeat 2 k) (repeat (fun i => nth i y 0 / 2) k) 100 (map (fun v => INR k * v) y)) =
    Finished tr' (mkWM (repeat (1 / INR 100) 100) (repeat (fun i => nth i y 0 / 2) 100)) /\
    length tr' = 100%nat /\ (forall j, (j < 100)%nat -> nth j tr' [] = map (fun v => INR j * v) y).
Proof.
  intros Hy. induction fuel as [|fuel IH]; intros t tr k Hf Hpos Ht Hk Hlen Htr; [lia|].
  cbn [run_from b_boost b_post gbm_booster]. unfold gbm_boost. cbn [gbm_max_iter gbm_predictions gbm_weights gbm_hyps].
  destruct (Nat.ltb_spec 100 t) as [Hlt|Hge].
  - assert (k = 100%nat) by lia. rewrite H in *. clear k H. unfold gbm_post. cbn [gbm_weights gbm_hyps].
    pose proof (from_slices_repeat 2 100 (repeat (fun i => nth i y 0 / 2) 100)) as Fs. rewrite Fs; [|lra|lia|simpl; congruence].
    rewrite repeat_length, Nat.min_id. change (firstn 100 (repeat (fun i => nth i y 0 / 2) 100)) with (repeat (fun i => nth i y 0 / 2) 100).
    exists tr. rewrite app_nil_r. split; [reflexivity|]. split; [exact Hlen|exact Htr].
  - assert (Ep : rsum (map (fun i => nth i y 0 / 2) (seq 0 (length y))) = rsum y / 2) by (rewrite (rsum_map_div 2 (fun i => nth i y 0)), rsum_nth; reflexivity).
    unfold best_coefficient at 1. rewrite Ep. rewrite Reqb_false by lra. cbn [assert_ negb bind].
    replace (rsum y / (rsum y / 2)) with 2 by (field; exact Hy). rewrite Reqb_false by lra.
    assert (E1 : map (fun q => fst q + 2 * snd q) (combine (map (fun v => INR k * v) y) (map (fun i => nth i y 0 / 2) (seq 0 (length y)))) = map (fun v => INR (S k) * v) y).
    { rewrite (combine_nth_map _ _ _ 0 0) by (rewrite !map_length, seq_length; reflexivity). rewrite map_length.
      rewrite <- (map_nth_seq 0 (map (fun v => INR (S k) * v) y)), map_length. apply map_ext_in. intros i Hi. apply in_seq in Hi. cbn [fst snd].
      rewrite !(nth_map_in _ y i 0) by lia. rewrite nth_map_seq by lia. rewrite S_INR. field. }
    rewrite E1. rewrite <- !repeat_cons. change (2 :: repeat 2 k) with (repeat 2 (S k)).
    change ((fun i => nth i y 0 / 2) :: repeat (fun i => nth i y 0 / 2) k) with (repeat (fun i => nth i y 0 / 2) (S k)).
    apply IH; try lia. + rewrite app_length. simpl. lia.
    + intros j Hj. destruct (Nat.eq_dec j k) as [->|Hne].
      * rewrite app_nth2 by lia. rewrite Hlen, Nat.sub_diag. reflexivity.
      * rewrite app_nth1 by lia. apply Htr. lia.
Qed.

Lemma P_C32_gbm_returned_refuted :
  forall y : list R, rsum y <> 0 ->
  let pred := fun (h : nat -> R) i => h i in
  let half_target := fun (_ : nat) (_ : list R) (i : nat) => nth i y 0 / 2 in
  exists tr f, run (gbm_booster pred half_target y (best_coefficient L2)) 101 (gbm_init y) = Finished tr f /\
    (forall k, (k < 100)%nat -> nth k tr [] = map (fun v => INR k * v) y) /\
    (forall i, wm_confidence pred f i = nth i y 0 / 2).
Proof.
  intros y Hy pred half_target. unfold run. cbn [b_pre gbm_booster gbm_pre].
  assert (E0 : repeat 0 (length y) = map (fun v => INR 0 * v) y).
  { apply (list_eq_nth 0); [rewrite repeat_length, map_length; reflexivity|]. intros i Hi. rewrite repeat_length in Hi.
    rewrite nth_repeat_lt by exact Hi. rewrite (nth_map_in _ y i 0) by exact Hi. simpl. lra. }
  rewrite E0. cbn [gbm_max_iter gbm_init].
  destruct (gbm_half y Hy 101 1 [] 0) as [tr [E [Hl Ht]]]; try lia; [reflexivity|].
  eexists; eexists. split; [exact E|]. split; [exact Ht|].
  intros i. unfold wm_confidence, pred. cbn [wm_weights wm_hypotheses].
  assert (G : forall n w, rsum (map (fun p : R * (nat -> R) => fst p * snd p i) (combine (repeat w n) (repeat (fun i0 => nth i0 y 0 / 2) n))) = INR n * w * (nth i y 0 / 2)).
  { induction n as [|n IH]; intros w; [simpl; lra|]. rewrite S_INR. cbn [repeat combine map rsum fst snd]. rewrite IH. lra. }
  rewrite G. assert (INR 100 <> 0) by (apply not_0_INR; lia). field. assumption.
Qed.

(** ** C55: GBM does not always return.  A weak learner that fits the residuals perfectly makes run() panic in its
    second round, for either loss: its second answer is the zero hypothesis *)
Lemma P_C55_gbm_perfect_residual_fit_refuted :
  forall (y : list R) (fuel : nat), y <> [] -> rsum y <> 0 -> (2 <= fuel)%nat ->
  let pred := fun (h : nat -> R) i => h i in
  let residual_fitter := fun (_ : nat) (v : list R) (i : nat) => nth i y 0 - nth i v 0 in
  exists tr, run (gbm_booster pred residual_fitter y (best_coefficient L2)) fuel (gbm_init y) = Crashed tr AssertFailed /\ length tr = 2%nat.
Proof.
  intros y fuel Hne Hy Hf pred rf. destruct fuel as [|[|fuel]]; try lia.
  unfold run. cbn [b_pre gbm_booster gbm_pre run_from b_boost b_post]. unfold gbm_boost. cbn [gbm_max_iter gbm_init gbm_predictions gbm_weights gbm_hyps Nat.ltb Nat.leb].
  assert (E1 : map (pred (rf 1%nat (repeat 0 (length y)))) (seq 0 (length y)) = y).
  { rewrite <- (map_nth_seq 0 y) at 3. apply map_ext_in. intros i Hi. apply in_seq in Hi. unfold pred, rf. rewrite nth_repeat_lt by lia. lra. }
  rewrite E1. unfold best_coefficient at 1. rewrite Reqb_false by exact Hy. cbn [negb assert_ bind].
  replace (rsum y / rsum y) with 1 by (field; exact Hy). rewrite Reqb_false by lra. cbn [gbm_max_iter gbm_predictions gbm_weights gbm_hyps Nat.ltb Nat.leb].
  assert (E2 : map (fun q => fst q + 1 * snd q) (combine (repeat 0 (length y)) y) = y).
  { rewrite (combine_nth_map _ _ _ 0 0) by apply repeat_length. rewrite repeat_length.
    rewrite <- (map_nth_seq 0 y) at 2. apply map_ext_in. intros i Hi. apply in_seq in Hi. cbn [fst snd]. rewrite nth_repeat_lt by lia. lra. }
  rewrite E2.
  assert (E3 : rsum (map (pred (rf 2%nat y)) (seq 0 (length y))) = 0).
  { rewrite (rsum_map_ext _ (fun _ => 0)); [rewrite rsum_map_const; lra|]. intros i _. unfold pred, rf. lra. }
  unfold best_coefficient. rewrite E3, Reqb_true by reflexivity. cbn [negb assert_ bind]. eexists. split; reflexivity.
Qed.

(** it returns if every answer has a coefficient and the first one's is positive *)
Lemma P_C55_gbm_returns_partial :
  forall (H : Type) (pred : H -> nat -> R) (produce : nat -> list R -> H) (y : list R) (best : list R -> list R -> res R) (fuel : nat),
  (101 <= fuel)%nat ->
  (forall t v, exists c, best y (map (pred (produce t v)) (seq 0 (length y))) = Ok c) ->
  (forall v c, best y (map (pred (produce 1%nat v)) (seq 0 (length y))) = Ok c -> 0 < c) ->
  exists tr f, run (gbm_booster pred produce y best) fuel (gbm_init y) = Finished tr f.
Proof.
  intros H pred produce y best fuel Hf Hb H1. unfold run. cbn [b_pre gbm_booster gbm_pre gbm_max_iter gbm_init].
  destruct fuel as [|fuel]; [lia|]. cbn [run_from b_boost b_post gbm_booster]. unfold gbm_boost. cbn [gbm_max_iter gbm_predictions gbm_weights gbm_hyps Nat.ltb Nat.leb].
  set (v0 := repeat 0 (length y)). destruct (Hb 1%nat v0) as [c Ec]. rewrite Ec. cbn [bind]. pose proof (H1 v0 c Ec) as Hc.
  rewrite Reqb_false by lra. cbn [app].
  assert (G : forall fuel t tr s, (gbm_max_iter s + 2 <= t + fuel)%nat -> (0 < fuel)%nat ->
     (exists ws hs h, gbm_weights s = c :: ws /\ gbm_hyps s = h :: hs) ->
     exists tr' f, run_from (gbm_booster pred produce y best) fuel t tr s = Finished tr' f).
  { clear fuel Hf. induction fuel as [|fuel IH]; intros t tr s Hf Hpos [ws [hs [h [Ew Eh]]]]; [lia|].
    assert (P : exists f, gbm_post s = Ok f).
    { unfold gbm_post. rewrite Ew, Eh. pose proof (from_slices_spec pred (c :: ws) (h :: hs)) as Sp.
      destruct (from_slices (c :: ws) (h :: hs)) as [f|p]; [exists f; reflexivity|]. destruct Sp as [_ Sp]. unfold kept in Sp. simpl in Sp.
      rewrite Rltb_true in Sp by exact Hc. discriminate. }
    destruct P as [f Ef]. cbn [run_from b_boost b_post gbm_booster]. unfold gbm_boost.
    destruct (Nat.ltb_spec (gbm_max_iter s) t) as [Hlt|Hge].
    - rewrite Ef. eexists; eexists; reflexivity.
    - destruct (Hb t (gbm_predictions s)) as [c' Ec']. rewrite Ec'. cbn [bind]. destruct (Reqb c' 0).
      + rewrite Ef. eexists; eexists; reflexivity.
      + apply IH; [simpl; lia|lia|]. cbn [gbm_weights gbm_hyps]. rewrite Ew, Eh. eexists; eexists; eexists. split; reflexivity. }
  apply G; [simpl; lia|lia|]. eexists; eexists; eexists. split; reflexivity.
Qed.
