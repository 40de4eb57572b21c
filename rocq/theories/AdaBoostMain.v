(** AdaBoost: statements about whole executions. *)
From Verif Require Import Base Spec SortLib Utils UtilsProofs WMajority WMajorityProofs Booster AdaBoost
  AdaBoostProofs.
Open Scope R_scope.

Lemma combine_app_eq {A B} (a a' : list A) (b b' : list B) :
  length a = length b -> combine (a ++ a') (b ++ b') = combine a b ++ combine a' b'.
Proof.
  revert b; induction a as [|x a IH]; intros [|z b] Hl; simpl in *; try lia; [reflexivity|].
  f_equal. apply IH. lia.
Qed.

Lemma answers_app {H} (produce : nat -> list R -> H) tr d :
  answers produce (tr ++ [d]) = answers produce tr ++ [produce (S (length tr)) d].
Proof.
  unfold answers. rewrite app_length. simpl length. rewrite seq_app.
  rewrite combine_app_eq by apply seq_length. rewrite map_app. reflexivity.
Qed.

Lemma edges_app {H} (conf : H -> nat -> R) produce y tr d :
  edges conf produce y (tr ++ [d]) =
  edges conf produce y tr ++ [edge_of y d (conf (produce (S (length tr)) d))].
Proof.
  unfold edges. rewrite app_length. simpl length. rewrite seq_app.
  rewrite combine_app_eq by apply seq_length. rewrite map_app. reflexivity.
Qed.

Lemma answers_length {H} (produce : nat -> list R -> H) tr : length (answers produce tr) = length tr.
Proof. unfold answers. rewrite map_length. rewrite combine_length, seq_length. apply Nat.min_id. Qed.

Lemma edges_length {H} (conf : H -> nat -> R) produce y tr : length (edges conf produce y tr) = length tr.
Proof. unfold edges. rewrite map_length. rewrite combine_length, seq_length. apply Nat.min_id. Qed.

Lemma firstn_app_le {A} k (l l' : list A) : (k <= length l)%nat -> firstn k (l ++ l') = firstn k l.
Proof.
  intros Hk. rewrite firstn_app. replace (k - length l)%nat with 0%nat by lia. simpl. apply app_nil_r.
Qed.

Lemma valid_instance_nonempty y : is_valid_binary_instance y = Ok tt -> (0 < length y)%nat.
Proof.
  apply valid_nonempty.
Qed.

Lemma n_errors_ext y (f g : nat -> R) : (forall i, f i = g i) -> n_errors y f = n_errors y g.
Proof.
  intros Hext. unfold n_errors. induction (seq 0 (length y)) as [|a l IH]; [reflexivity|].
  cbn [count]. rewrite Hext, IH. reflexivity.
Qed.

Section AdaMain.
  Context {H : Type}.
  Variable conf : H -> nat -> R.
  Variable produce : nat -> list R -> H.
  Variable y : list R.
  Let n := length y.
  Let edges := edges conf produce y.
  Let answers := answers produce.

  (** the combination AdaBoost builds from a trace *)
  Definition ada_history (tr : trace) : list (R * H) :=
    combine (map ada_weight (edges tr)) (answers tr).

  Lemma ada_history_app tr d :
    ada_history (tr ++ [d]) =
    ada_history tr ++ [(ada_weight (edge_of y d (conf (produce (S (length tr)) d))), produce (S (length tr)) d)].
  Proof.
    unfold ada_history, edges, answers. rewrite edges_app, answers_app, map_app, combine_app_eq; [reflexivity|].
    rewrite map_length, edges_length, answers_length. reflexivity.
  Qed.

  Definition small (e : R) : Prop := -1 < e < 1.

  (** every query of the trace is the exponential distribution of the history before it *)
  Definition good_trace (tr : trace) : Prop :=
    forall k, (k < length tr)%nat -> exp_dist conf y (ada_history (firstn k tr)) (nth k tr []).

  Lemma good_trace_app tr d :
    good_trace tr -> exp_dist conf y (ada_history tr) d -> good_trace (tr ++ [d]).
  Proof.
    intros Ht Hd k Hk. rewrite app_length in Hk. simpl in Hk.
    destruct (Nat.eq_dec k (length tr)) as [->|Hne].
    - rewrite firstn_app_le by lia. rewrite firstn_all, app_nth2, Nat.sub_diag by lia. exact Hd.
    - rewrite firstn_app_le, app_nth1 by lia. apply Ht. lia.
  Qed.

  (** Round limit chosen by [preprocess]. *)
  Definition ada_limit (s : @ada H) : nat :=
    match a_force_quit s with Some it => it | None => ada_max_loop y s end.

  Definition AInv (M : nat) (t : nat) (s : @ada H) (tr : trace) : Prop :=
    (0 < n)%nat /\ a_max_iter s = M /\ t = S (length tr) /\ (length tr <= M)%nat /\
    length (a_weights s) = length (a_hyps s) /\
    combine (a_weights s) (a_hyps s) = ada_history tr /\
    a_weights s = map ada_weight (edges tr) /\
    Forall small (edges tr) /\
    good_trace tr /\
    exp_dist conf y (ada_history tr) (a_dist s).

  Lemma ada_pre_inv s s0 : ada_pre y s = Ok s0 -> AInv (ada_limit s) 1 s0 [].
  Proof.
    unfold ada_pre. destruct (is_valid_binary_instance y) as [[]|p] eqn:E; simpl; [|discriminate].
    intros Hs. inversion Hs; subst; clear Hs.
    pose proof (valid_instance_nonempty y E) as Hn.
    unfold AInv; simpl. split; [exact Hn|]. do 2 (split; [reflexivity|]). split; [lia|].
    do 3 (split; [reflexivity|]). split; [constructor|].
    split; [intros k Hk; simpl in Hk; lia|]. apply (exp_dist_uniform conf y Hn).
  Qed.

  (** One round, fully described. *)
  Lemma ada_boost_step M t s tr :
    AInv M t s tr ->
    let d := a_dist s in
    let h := produce t d in
    let e := edge_of y d (conf h) in
    (length tr = M /\ ada_boost conf produce y t s = ([], Ok (s, Break M))) \/
    ((length tr < M)%nat /\ exp_dist conf y (ada_history tr) d /\
     1 <= Rabs e /\ exists s',
       ada_boost conf produce y t s = ([d], Ok (s', Break t)) /\
       a_weights s' = [rsignum e] /\ a_hyps s' = [h]) \/
    ((length tr < M)%nat /\ small e /\ exists s',
       ada_boost conf produce y t s = ([d], Ok (s', Continue)) /\ AInv M (S t) s' (tr ++ [d])).
  Proof.
    intros [Hn [HM [Ht [Hlim [Hlen [Hc [Hw [Hsm [Hg Hd]]]]]]]]] d h e.
    unfold ada_boost. rewrite HM. destruct (Nat.ltb_spec M t) as [L|L].
    - left. split; [lia|reflexivity].
    - right. fold d. fold h.
      assert (Hl : length d = n) by apply Hd.
      rewrite (edge_inner_product conf y h d Hl). fold e.
      destruct (Rleb_spec 1 (Rabs e)) as [B|B].
      + left. split; [lia|]. split; [exact Hd|]. split; [exact B|]. eexists. split; [reflexivity|]. split; reflexivity.
      + right. split; [lia|].
        assert (He : small e) by (unfold small; destruct (Rabs_def2 e 1); lra).
        split; [exact He|].
        destruct (exp_dist_update conf y (ada_history tr) d (ada_weight e) h Hn Hd) as [d' [E1 [E2 E3]]].
        unfold ada_update. fold (ada_weight e). rewrite E1. simpl bind.
        eexists. split; [reflexivity|].
        assert (Hh : ada_history tr ++ [(ada_weight e, h)] = ada_history (tr ++ [d])).
        { rewrite ada_history_app. subst t. reflexivity. }
        unfold AInv; simpl. rewrite Hh in E2.
        split; [exact Hn|]. split; [reflexivity|].
        rewrite !app_length. simpl. split; [lia|]. split; [lia|]. split; [lia|].
        split. { rewrite combine_app_eq by exact Hlen. rewrite Hc, <- Hh. reflexivity. }
        unfold edges. rewrite edges_app. rewrite <- Ht. fold h. fold e. fold edges.
        split. { rewrite map_app, <- Hw. reflexivity. }
        split. { apply Forall_app. split; [exact Hsm|]. constructor; [exact He|constructor]. }
        split; [apply good_trace_app; assumption|]. exact E2.
  Qed.

  (** What is known of a finished run. *)
  Definition ada_result (M : nat) (tr : trace) (f : wmajority H) : Prop :=
    (length tr = M /\ Forall small (edges tr) /\
     from_slices (map ada_weight (edges tr)) (answers tr) = Ok f) \/
    (exists tr0 d, tr = tr0 ++ [d] /\ (length tr <= M)%nat /\ Forall small (edges tr0) /\
       let h := produce (length tr) d in
       1 <= edge_of y d (conf h) /\ f = mkWM [1] [h]).

  Lemma combine_split_eq {A B} (a a' : list A) (b b' : list B) :
    length a = length b -> length a' = length b' -> combine a b = combine a' b' -> a = a' /\ b = b'.
  Proof.
    intros H1 H2 E.
    pose proof (combine_split a b H1) as S1. pose proof (combine_split a' b' H2) as S2.
    rewrite E in S1. rewrite S1 in S2. inversion S2. split; reflexivity.
  Qed.

  Lemma from_slices_single (h : H) : from_slices [1] [h] = Ok (mkWM [1] [h]).
  Proof.
    unfold from_slices, kept. simpl. rewrite Rltb_true by lra. simpl. unfold normalize. simpl.
    rewrite Rabs_pos_eq by lra. rewrite Reqb_false by lra. simpl. repeat f_equal. field.
  Qed.

  Lemma from_slices_single_neg (h : H) : from_slices [-1] [h] = Panic AssertFailed.
  Proof.
    unfold from_slices, kept. simpl. rewrite Rltb_false by lra. simpl. unfold normalize. simpl.
    rewrite Reqb_true by reflexivity. reflexivity.
  Qed.

  Lemma ada_run_spec fuel s :
    (good_trace (trace_of (run (adaboost conf produce y) fuel s)) /\
     (length (trace_of (run (adaboost conf produce y) fuel s)) <= ada_limit s)%nat /\
     (trace_of (run (adaboost conf produce y) fuel s) <> [] -> (0 < n)%nat)) /\
    (forall tr f, run (adaboost conf produce y) fuel s = Finished tr f ->
       (good_trace tr /\ (0 < n)%nat) /\ ada_result (ada_limit s) tr f).
  Proof.
    apply (run_inv (adaboost conf produce y) (AInv (ada_limit s))
             (fun tr => good_trace tr /\ (length tr <= ada_limit s)%nat /\ (tr <> [] -> (0 < n)%nat))
             (fun tr f => (good_trace tr /\ (0 < n)%nat) /\ ada_result (ada_limit s) tr f)).
    - split; [intros k Hk; simpl in Hk; lia|]. split; [simpl; lia|]. congruence.
    - intros s0. apply ada_pre_inv.
    - intros t s' tr [Hn [HM [Ht [Hlim [Hlen [Hc [Hw [Hsm [Hg Hd]]]]]]]]].
      split; [exact Hg|]. split; [exact Hlim|]. intros _; exact Hn.
    - intros t s' tr Hinv. pose proof Hinv as [Hn [HM [Ht [Hlim [Hlen [Hc [Hw [Hsm [Hg Hd]]]]]]]]].
      destruct (ada_boost_step _ _ _ _ Hinv) as [[HL E]|[[HL [Hed [He [s1 [E [Ew Eh]]]]]]|[HL [He [s1 [E Hinv']]]]]];
        simpl b_boost; rewrite E.
      + rewrite app_nil_r. split; [split; [exact Hg|split; [exact Hlim|intros _; exact Hn]]|].
        simpl. unfold ada_post.
        assert (Ehyp : a_hyps s' = answers tr).
        { apply (combine_split_eq (a_weights s') (map ada_weight (edges tr)) (a_hyps s') (answers tr)); auto.
          unfold edges, answers. rewrite map_length, edges_length, answers_length. reflexivity. }
        rewrite Hw, Ehyp.
        destruct (from_slices (map ada_weight (edges tr)) (answers tr)) as [f|p] eqn:Ef; [|exact I].
        split; [split; assumption|]. left. split; [exact HL|]. split; [exact Hsm|exact Ef].
      + assert (Hg' : good_trace (tr ++ [a_dist s'])) by (apply good_trace_app; assumption).
        split.
        { split; [exact Hg'|]. split; [rewrite app_length; simpl; lia|]. intros _; exact Hn. }
        simpl. unfold ada_post. rewrite Ew, Eh. unfold rsignum.
        destruct (Rltb_spec (edge_of y (a_dist s') (conf (produce t (a_dist s')))) 0) as [N|N].
        * rewrite from_slices_single_neg. exact I.
        * rewrite from_slices_single. split; [split; assumption|]. right.
          exists tr, (a_dist s'). split; [reflexivity|].
          rewrite app_length. simpl. split; [lia|]. split; [exact Hsm|].
          replace (length tr + 1)%nat with t by lia.
          split; [|reflexivity]. rewrite Rabs_pos_eq in He by lra. exact He.
      + exact Hinv'.
  Qed.

  (** Termination. *)
  Lemma ada_run_from_terminates M fuel t s tr :
    AInv M t s tr -> (S M < t + fuel)%nat ->
    match run_from (adaboost conf produce y) fuel t tr s with
    | Unfinished _ => False | Crashed _ p => p = AssertFailed | Finished _ _ => True end.
  Proof.
    revert t s tr; induction fuel as [|fuel IH]; intros t s tr Hinv Hf.
    - exfalso. destruct Hinv as [_ [_ [Ht [Hl _]]]]. lia.
    - cbn [run_from].
      destruct (ada_boost_step _ _ _ _ Hinv) as [[HL E]|[[HL [Hed [He [s1 [E [Ew Eh]]]]]]|[HL [He [s1 [E Hinv']]]]]];
        simpl b_boost; rewrite E.
      + simpl. unfold ada_post. pose proof (from_slices_spec conf (a_weights s) (a_hyps s)) as S.
        destruct (from_slices (a_weights s) (a_hyps s)); [exact I|]. apply S.
      + simpl. unfold ada_post. pose proof (from_slices_spec conf (a_weights s1) (a_hyps s1)) as S.
        destruct (from_slices (a_weights s1) (a_hyps s1)); [exact I|]. apply S.
      + apply IH; [exact Hinv'|lia].
  Qed.

  (** ** The potential after a good trace *)
  Lemma ada_potential tr :
    (0 < n)%nat ->
    (forall h i, In h (answers tr) -> (i < n)%nat -> -1 <= nth i y 0 * conf h i <= 1) ->
    good_trace tr -> Forall small (edges tr) ->
    expZ conf y (ada_history tr) <= INR n * rprod (map (fun g => sqrt (1 - g ^ 2)) (edges tr)).
  Proof.
    intros Hn. induction tr as [|d tr IH] using rev_ind; intros Hm Hg Hsm.
    - unfold ada_history. simpl. right. unfold expZ.
      rewrite (rsum_map_ext _ (fun _ => 1)).
      + rewrite rsum_map_const, seq_length. fold n. lra.
      + intros i _. unfold expw, vote. simpl. rewrite Rmult_0_r, Ropp_0. apply exp_0.
    - assert (Hg0 : good_trace tr).
      { intros k Hk. specialize (Hg k). rewrite app_length in Hg. simpl in Hg.
        rewrite firstn_app_le, app_nth1 in Hg by lia. apply Hg. lia. }
      assert (Hd : exp_dist conf y (ada_history tr) d).
      { specialize (Hg (length tr)). rewrite app_length in Hg. simpl in Hg.
        rewrite firstn_app_le, firstn_all, app_nth2, Nat.sub_diag in Hg by lia. apply Hg. lia. }
      unfold edges in Hsm. rewrite edges_app in Hsm. fold edges in Hsm. apply Forall_app in Hsm.
      destruct Hsm as [Hsm He]. inversion He as [|? ? He' _]; subst; clear He.
      rewrite ada_history_app.
      set (h := produce (S (length tr)) d) in *. set (e := edge_of y d (conf h)) in *.
      destruct (exp_dist_update conf y (ada_history tr) d (ada_weight e) h Hn Hd) as [d' [_ [_ E3]]].
      rewrite E3. unfold edges. rewrite edges_app. fold h. fold e. fold edges.
      rewrite map_app. unfold rprod. rewrite fold_right_app. simpl fold_right at 1.
      assert (Hround : rsum (map (fun i => nth i d 0 * exp (- ada_weight e * (nth i y 0 * conf h i))) (seq 0 n))
                       <= sqrt (1 - e ^ 2)).
      { destruct (exp_dist_pos conf y _ d Hn Hd) as [P1 P2].
        eapply Rle_trans; [apply (round_bound y d (conf h) (ada_weight e))|].
        - split; [intros x Hx; left; apply P1; exact Hx|exact P2].
        - apply Hd.
        - intros i Hi. apply Hm; [unfold answers; rewrite answers_app; apply in_or_app; right; left; reflexivity|exact Hi].
        - fold e. rewrite ada_round_value by exact He'. lra. }
      assert (Hm0 : forall h i, In h (answers tr) -> (i < n)%nat -> -1 <= nth i y 0 * conf h i <= 1) by (intros h' i Hin Hi; apply Hm; [unfold answers; rewrite answers_app; apply in_or_app; left; exact Hin|exact Hi]).
      specialize (IH Hm0 Hg0 Hsm).
      pose proof (expZ_pos conf y (ada_history tr) Hn) as HZ.
      assert (Hprod : forall l b, fold_right Rmult b l = fold_right Rmult 1 l * b).
      { clear. induction l as [|a l IHl]; intros b; simpl; [lra|]. rewrite IHl. ring. }
      rewrite (Hprod _ (sqrt (1 - e ^ 2) * 1)). fold (rprod (map (fun g => sqrt (1 - g ^ 2)) (edges tr))).
      rewrite Rmult_1_r, <- Rmult_assoc. fold n in Hround.
      apply Rle_trans with (expZ conf y (ada_history tr) * sqrt (1 - e ^ 2)).
      + apply Rmult_le_compat_l; [lra|exact Hround].
      + apply Rmult_le_compat_r; [apply sqrt_pos|exact IH].
  Qed.

  Lemma rprod_nonneg l : (forall x, In x l -> 0 <= x) -> 0 <= rprod l.
  Proof.
    induction l as [|a l IH]; simpl; intros Hl; [lra|]. apply Rmult_le_pos; [apply Hl; left; reflexivity|].
    apply IH. intros x Hx; apply Hl; right; exact Hx.
  Qed.

  Lemma pm1_margin_one yi c : pm1 yi -> yi * c = 1 -> sign_label c = yi.
  Proof.
    intros [-> | ->] E; unfold sign_label; destruct (Rle_dec 0 c); try reflexivity; lra.
  Qed.

  Lemma n_errors_zero (g : nat -> R) : (forall i, (i < n)%nat -> g i = nth i y 0) -> n_errors y g = 0%nat.
  Proof.
    intros Hg. unfold n_errors. fold n.
    assert (G : forall l, (forall i, In i l -> (i < n)%nat) ->
      count (fun i => negb (if Req_EM_T (g i) (nth i y 0) then true else false)) l = 0%nat).
    { induction l as [|a l IH]; intros Hl; [reflexivity|]. simpl.
      destruct (Req_EM_T (g a) (nth a y 0)) as [E|E]; simpl.
      - apply IH. intros i Hi; apply Hl; right; exact Hi.
      - exfalso. apply E, Hg, Hl. left; reflexivity. }
    apply G. intros i Hi. apply in_seq in Hi. lia.
  Qed.

  (** Training error bound for the returned hypothesis. *)
  Lemma ada_training_error fuel s tr f :
    (forall i, (i < n)%nat -> pm1 (nth i y 0)) ->
    (forall h i, In h (answers tr) -> (i < n)%nat -> -1 <= conf h i <= 1) ->
    run (adaboost conf produce y) fuel s = Finished tr f ->
    Forall (fun e => 0 <= e) (edges tr) ->
    INR (n_errors y (wm_predict conf f)) <= INR n * rprod (map (fun g => sqrt (1 - g ^ 2)) (edges tr)).
  Proof.
    intros Hy Hc Hrun Hpos.
    assert (Hm : forall h i, In h (answers tr) -> (i < n)%nat -> -1 <= nth i y 0 * conf h i <= 1).
    { intros h i Hin Hi. specialize (Hc h i Hin Hi). destruct (Hy i Hi) as [-> | ->]; lra. }
    destruct (ada_run_spec fuel s) as [_ HF]. destruct (HF tr f Hrun) as [[Hg Hn] [[HM [Hsm Hf]]|Hperf]].
    - assert (Hwpos : forall w, In w (map ada_weight (edges tr)) -> 0 <= w).
      { intros w Hw. apply in_map_iff in Hw. destruct Hw as [e [<- He]].
        rewrite Forall_forall in Hpos, Hsm. specialize (Hpos e He). specialize (Hsm e He). unfold small in Hsm.
        destruct Hpos as [Hpos|<-]; [left; apply ada_weight_pos; lra|right; unfold ada_weight; replace ((1 + 0) / (1 - 0)) with 1 by field; rewrite ln_1; lra]. }
      pose proof (from_slices_spec conf (map ada_weight (edges tr)) (answers tr)) as S.
      rewrite Hf in S. cbv zeta in S. destruct S as [Hz [_ [_ [_ [_ Hconf]]]]].
      destruct (kept_nonneg conf (map ada_weight (edges tr)) (answers tr) Hwpos) as [_ Hv].
      { unfold edges, answers; rewrite map_length, edges_length, answers_length; reflexivity. }
      apply Rle_trans with (expZ conf y (ada_history tr)).
      + eapply Rle_trans; [|apply (n_errors_potential conf y (ada_history tr) Hy)].
        right. apply f_equal. apply n_errors_ext.
        intros i. unfold wm_predict. rewrite predict_sign, Hconf, sign_label_scale by exact Hz. rewrite Hv. reflexivity.
      + apply ada_potential; assumption.
    - destruct Hperf as [tr0 [d [-> [HlM [Hsm [He ->]]]]]].
      rewrite n_errors_zero.
      + simpl INR. apply Rmult_le_pos; [apply pos_INR|]. apply rprod_nonneg.
        intros x Hx. apply in_map_iff in Hx. destruct Hx as [g [<- _]]. apply sqrt_pos.
      + intros i Hi. unfold wm_predict. rewrite predict_sign. unfold wm_confidence. simpl.
        rewrite Rplus_0_r, Rmult_1_l. apply pm1_margin_one; [apply Hy; exact Hi|].
        assert (Hd : exp_dist conf y (ada_history tr0) d).
        { specialize (Hg (length tr0)). rewrite app_length in Hg. simpl in Hg.
          rewrite firstn_app_le, firstn_all, app_nth2, Nat.sub_diag in Hg by lia. apply Hg. lia. }
        eapply (edge_one y d); eauto.
        * apply (exp_dist_pos conf y _ d Hn Hd).
        * apply Hd.
        * intros j Hj. apply Hm; [|exact Hj]. unfold answers. rewrite answers_app. apply in_or_app. right. left. rewrite app_length. simpl. rewrite Nat.add_1_r. reflexivity.
  Qed.
End AdaMain.
