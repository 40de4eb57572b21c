(** Facts about the objective functions: C42, C56. *)
From Verif Require Import Base SortLib Spec Utils UtilsProofs WMajority Feature Sample Objective.
Open Scope R_scope.

Definition greedy (u left : R) (ms : list R) : R := soft_margin_loop u left ms 0.

Lemma loop_acc u : forall ms left a, soft_margin_loop u left ms a = a + soft_margin_loop u left ms 0.
Proof.
  induction ms as [|m ms IH]; intros left a; simpl; [lra|]. destruct (Rltb u left); [|lra].
  rewrite IH, (IH _ (0 + u * m)). lra.
Qed.

Lemma greedy_cons u left m ms : greedy u left (m :: ms) = if Rltb u left then u * m + greedy u (left - u) ms else left * m.
Proof. unfold greedy. simpl. destruct (Rltb u left); [rewrite loop_acc; lra|lra]. Qed.

Lemma greedy_zero u ms : 0 <= u -> greedy u 0 ms = 0.
Proof. intros Hu. destruct ms as [|m ms]; [reflexivity|]. rewrite greedy_cons. rewrite Rltb_false by exact Hu. lra. Qed.

(** the greedy value grows at least at the rate of the smallest margin *)
Lemma greedy_slope u m : 0 < u -> forall ms a b, (forall x, In x ms -> m <= x) -> 0 <= a -> a <= b -> b <= u * INR (length ms) ->
  (b - a) * m <= greedy u b ms - greedy u a ms.
Proof.
  intros Hu. induction ms as [|h ms IH]; intros a b Hm Ha Hab Hb.
  - simpl in Hb. unfold greedy; simpl. assert (b = a) by lra. subst. lra.
  - pose proof (Hm h (or_introl eq_refl)) as Hh. assert (Hm' : forall x, In x ms -> m <= x) by (intros x H; apply Hm; right; exact H).
    change (length (h :: ms)) with (S (length ms)) in Hb. rewrite S_INR in Hb.
    rewrite !greedy_cons. destruct (Rltb_spec u b) as [B|B], (Rltb_spec u a) as [A|A]; try lra.
    + specialize (IH (a - u) (b - u) Hm' ltac:(lra) ltac:(lra) ltac:(lra)). lra.
    + specialize (IH 0 (b - u) Hm' ltac:(lra) ltac:(lra) ltac:(lra)). rewrite greedy_zero in IH by lra. nra.
    + nra.
Qed.

Lemma greedy_lower u : 0 < u -> forall ms w, StronglySorted Rle ms -> length w = length ms -> (forall x, In x w -> 0 <= x <= u) ->
  greedy u (rsum w) ms <= dot w ms.
Proof.
  intros Hu. induction ms as [|m ms IH]; intros [|w0 w] Hs Hl Hw; simpl in Hl; try lia.
  - unfold greedy; simpl. unfold dot; simpl. lra.
  - inversion Hs as [|? ? Hs' Hf]; subst. pose proof (Hw w0 (or_introl eq_refl)) as H0.
    assert (Hw' : forall x, In x w -> 0 <= x <= u) by (intros x H; apply Hw; right; exact H).
    specialize (IH w Hs' ltac:(lia) Hw'). assert (Ed : dot (w0 :: w) (m :: ms) = w0 * m + dot w ms) by reflexivity. rewrite Ed.
    assert (Hsum : 0 <= rsum w) by (apply rsum_nonneg; intros x H; apply Hw'; exact H).
    assert (Hub : rsum w <= u * INR (length ms)).
    { assert (length w = length ms) as <- by lia. clear -Hw'. induction w as [|x w IHw]; [simpl; lra|]. change (length (x :: w)) with (S (length w)).
      rewrite S_INR. simpl rsum. pose proof (Hw' x (or_introl eq_refl)). assert (rsum w <= u * INR (length w)) by (apply IHw; intros; apply Hw'; right; assumption). lra. }
    rewrite Forall_forall in Hf. rewrite greedy_cons. simpl rsum. destruct (Rltb_spec u (w0 + rsum w)) as [B|B].
    + pose proof (greedy_slope u m Hu ms (w0 + rsum w - u) (rsum w) Hf ltac:(lra) ltac:(lra) Hub) as G. nra.
    + pose proof (greedy_slope u m Hu ms 0 (rsum w) Hf ltac:(lra) ltac:(lra) Hub) as G. rewrite greedy_zero in G by lra. nra.
Qed.

Lemma greedy_attained u : 0 < u -> forall ms left, 0 <= left <= u * INR (length ms) ->
  exists w, length w = length ms /\ (forall x, In x w -> 0 <= x <= u) /\ rsum w = left /\ dot w ms = greedy u left ms.
Proof.
  intros Hu. induction ms as [|m ms IH]; intros left Hl.
  - simpl in Hl. exists []. split; [reflexivity|]. split; [intros x []|]. unfold greedy, dot; simpl. lra.
  - change (length (m :: ms)) with (S (length ms)) in *. rewrite S_INR in Hl. rewrite greedy_cons. destruct (Rltb_spec u left) as [B|B].
    + destruct (IH (left - u) ltac:(lra)) as [w [W1 [W2 [W3 W4]]]]. exists (u :: w). split; [simpl; lia|]. split; [intros x [<-|H]; [lra|apply W2; exact H]|].
      split; [simpl; lra|]. unfold dot in *; simpl. fold (zipmul w ms). lra.
    + exists (left :: repeat 0 (length ms)). split; [simpl; rewrite repeat_length; reflexivity|]. split.
      * intros x [<-|H]; [lra|]. apply repeat_spec in H. subst. lra.
      * split; [simpl; rewrite rsum_repeat; lra|]. unfold dot; simpl.
        assert (Z : forall ms k, rsum (map (fun p => fst p * snd p) (combine (repeat 0 k) ms)) = 0).
        { clear. induction ms as [|m ms IH]; intros [|k]; simpl; try reflexivity. rewrite IH. lra. }
        unfold zipmul. rewrite Z. lra.
Qed.

Lemma Rleb_total a b : Rleb a b = true \/ Rleb b a = true.
Proof. destruct (Rle_dec a b); [left|right]; apply Rleb_true; lra. Qed.
Lemma Rleb_trans a b c : Rleb a b = true -> Rleb b c = true -> Rleb a c = true.
Proof. destruct (Rleb_spec a b); [|discriminate]. destruct (Rleb_spec b c); [|discriminate]. intros _ _. apply Rleb_true. lra. Qed.

Lemma isort_sorted_R l : StronglySorted Rle (isort Rleb l).
Proof.
  pose proof (isort_sorted Rleb Rleb_total Rleb_trans l) as S. induction S as [|a t S IH F]; constructor; [exact IH|].
  rewrite Forall_forall in *. intros x Hx. specialize (F x Hx). destruct (Rleb_spec a x); [assumption|discriminate].
Qed.

Lemma eval_margins s conf : length (s_target s) = fst (shape s) ->
  map (fun p => snd p * fst p) (combine (map conf (seq 0 (fst (shape s)))) (s_target s)) = margins_of (s_target s) conf.
Proof.
  intros Ht. rewrite (combine_nth_map _ _ _ 0 0) by (rewrite map_length, seq_length; congruence).
  rewrite map_length, seq_length, <- Ht. unfold margins_of. apply map_ext_in. intros i Hi. apply in_seq in Hi. cbn [fst snd].
  rewrite nth_map_seq by lia. reflexivity.
Qed.

Lemma edge_dot y d f : length d = length y -> edge_of y d f = dot d (margins_of y f).
Proof.
  intros H. unfold edge_of, margins_of. rewrite dot_nth by (rewrite map_length, seq_length; exact H). rewrite H. apply rsum_map_ext.
  intros i Hi. apply in_seq in Hi. rewrite nth_map_seq by lia. reflexivity.
Qed.

(** min over all capped weightings of any permutation of the margins *)
Lemma greedy_min u ms : 0 < u -> 1 <= u * INR (length ms) ->
  is_min_of (fun d => length d = length ms /\ (forall x, In x d -> 0 <= x <= u) /\ rsum d = 1) (fun d => dot d ms) (greedy u 1 (isort Rleb ms)).
Proof.
  intros Hu H1. 
  assert (Hp : Permutation (isort Rleb ms) (map (fun i => nth i ms 0) (seq 0 (length ms)))).
  { rewrite map_nth_seq. symmetry. apply isort_perm. }
  destruct (Permutation_map_inv _ _ Hp) as [ix [E Pix]].
  assert (Lix : length ix = length ms) by (rewrite <- (Permutation_length Pix); apply seq_length).
  assert (Hdot : forall d, length d = length ms -> dot d ms = dot (map (fun i => nth i d 0) ix) (isort Rleb ms)).
  { intros d Hd. rewrite dot_nth by exact Hd. rewrite Hd. rewrite E.
    assert (Z : forall l, dot (map (fun i => nth i d 0) l) (map (fun i => nth i ms 0) l) = rsum (map (fun i => nth i d 0 * nth i ms 0) l)).
    { induction l as [|i l IH]; [reflexivity|]. unfold dot in *; simpl. rewrite <- IH. reflexivity. }
    rewrite Z. apply rsum_perm, Permutation_map. exact Pix. }
  split.
  - destruct (greedy_attained u Hu (isort Rleb ms) 1) as [w [W1 [W2 [W3 W4]]]]; [rewrite isort_length; lra|]. rewrite isort_length in W1.
    (* put the weights back in place: d with nth (nth j ix) d = nth j w *)
    assert (Hinv : exists d, length d = length ms /\ map (fun i => nth i d 0) ix = w).
    { set (pos := fun i => find (fun j => Nat.eqb (nth j ix 0%nat) i) (seq 0 (length ix))).
      exists (map (fun i => match pos i with Some j => nth j w 0 | None => 0 end) (seq 0 (length ms))).
      split; [rewrite map_length, seq_length; reflexivity|]. apply (list_eq_nth 0); [rewrite map_length; congruence|].
      intros j Hj. rewrite map_length in Hj. rewrite (nth_map_in _ ix j 0%nat) by exact Hj.
      assert (Hin : (nth j ix 0%nat < length ms)%nat).
      { assert (In (nth j ix 0%nat) (seq 0 (length ms))) by (apply (Permutation_in _ (Permutation_sym Pix)), nth_In, Hj). apply in_seq in H. lia. }
      rewrite nth_map_seq by exact Hin. unfold pos.
      assert (F : find (fun j0 => Nat.eqb (nth j0 ix 0%nat) (nth j ix 0%nat)) (seq 0 (length ix)) = Some j).
      { destruct (find _ _) as [k|] eqn:Ef.
        - apply find_some in Ef. destruct Ef as [Hk Ek]. apply in_seq in Hk. apply Nat.eqb_eq in Ek. f_equal.
          apply (NoDup_nth ix 0%nat); [apply (Permutation_NoDup Pix), seq_NoDup|lia|exact Hj|exact Ek].
        - exfalso. pose proof (find_none _ _ Ef j ltac:(apply in_seq; lia)) as Q. cbv beta in Q. rewrite Nat.eqb_refl in Q. discriminate. }
      rewrite F. reflexivity. }
    destruct Hinv as [d [Ld Ed]]. exists d. split.
    + assert (Pd : Permutation d w).
      { rewrite <- Ed. rewrite <- (map_nth_seq 0 d) at 1. apply Permutation_map. rewrite Ld. exact Pix. }
      split; [exact Ld|]. split; [intros x Hx; apply W2, (Permutation_in _ Pd), Hx|]. rewrite (rsum_perm _ _ Pd). exact W3.
    + rewrite Hdot by exact Ld. rewrite Ed. exact W4.
  - intros d [Ld [Hd Hs]]. rewrite Hdot by exact Ld. rewrite <- Hs.
    assert (Hs' : rsum (map (fun i => nth i d 0) ix) = rsum d).
    { rewrite <- (rsum_nth d), Ld. apply rsum_perm, Permutation_map, Permutation_sym, Pix. }
    rewrite <- Hs'. apply greedy_lower; [exact Hu|apply isort_sorted_R|rewrite map_length, isort_length; congruence|].
    intros x Hx. apply in_map_iff in Hx. destruct Hx as [i [<- Hi]]. apply Hd, nth_In. rewrite Ld.
    apply (Permutation_in _ (Permutation_sym Pix)) in Hi. apply in_seq in Hi. lia.
Qed.

(** ** C42: the soft margin objective is the least edge over all distributions capped by 1/nu; it is evaluated
    exactly when the sample is non-empty and 1 <= nu <= n *)
Lemma P_C42_soft_margin :
  forall nu s conf, length (s_target s) = fst (shape s) ->
  match soft_margin_eval nu s conf with
  | Ok v => (0 < fst (shape s) /\ 0 < snd (shape s))%nat /\ 1 <= nu <= INR (fst (shape s)) /\
      is_min_of (fun d => length d = fst (shape s) /\ in_capped_simplex nu d) (fun d => edge_of (s_target s) d conf) v
  | Panic _ => fst (shape s) = 0%nat \/ snd (shape s) = 0%nat \/ nu < 1 \/ INR (fst (shape s)) < nu
  end.
Proof.
  intros nu s conf Ht. unfold soft_margin_eval, check_sample, check_nu, bind, assert_.
  destruct (Nat.ltb_spec 0 (fst (shape s))) as [Hn|Hn]; [|left; lia].
  destruct (Nat.ltb_spec 0 (snd (shape s))) as [Hf|Hf]; [|right; left; lia].
  destruct (Rleb_spec 1 nu) as [H1|H1]; simpl; [|right; right; left; lra].
  destruct (Rleb_spec nu (INR (s_n_sample s))) as [H2|H2]; simpl; [|right; right; right; lra].
  split; [split; assumption|]. split; [split; assumption|].
  change (s_n_sample s) with (fst (shape s)). rewrite (eval_margins s conf Ht).
  assert (Lm : length (margins_of (s_target s) conf) = fst (shape s)) by (unfold margins_of; rewrite map_length, seq_length; exact Ht).
  destruct (greedy_min (1 / nu) (margins_of (s_target s) conf)) as [[d [[D1 [D2 D3]] D4]] D5].
  - apply Rdiv_lt_0_compat; lra.
  - rewrite Lm. simpl fst. apply (Rmult_le_reg_r nu); [lra|]. field_simplify; lra.
  - split.
    + exists d. split; [split; [congruence|split; assumption]|]. rewrite edge_dot by congruence. exact D4.
    + intros d' [L [C S]]. rewrite edge_dot by congruence. apply D5. split; [congruence|split; assumption].
Qed.

(** the hard margin objective is the smallest margin *)
Lemma P_C42_hard_margin :
  forall s conf, length (s_target s) = fst (shape s) -> (0 < fst (shape s))%nat -> (0 < snd (shape s))%nat ->
  exists v, hard_margin_eval s conf = Ok v /\ is_min_of (fun i => (i < fst (shape s))%nat) (fun i => nth i (s_target s) 0 * conf i) v.
Proof.
  intros s conf Ht Hn Hf. unfold hard_margin_eval, soft_margin_eval, check_sample, check_nu, bind, assert_.
  destruct (Nat.ltb_spec 0 (fst (shape s))) as [_|]; [|lia]. destruct (Nat.ltb_spec 0 (snd (shape s))) as [_|]; [|lia].
  assert (H1 : 1 <= INR (fst (shape s))) by (apply le_INR in Hn; simpl (INR 1) in Hn; exact Hn).
  rewrite (Rleb_true 1 1), (Rleb_true 1 (INR (fst (shape s)))) by lra. simpl andb. cbv iota.
  rewrite (eval_margins s conf Ht). set (ms := margins_of (s_target s) conf).
  assert (Lm : length ms = fst (shape s)) by (unfold ms, margins_of; rewrite map_length, seq_length; exact Ht).
  assert (Hnth : forall i, (i < fst (shape s))%nat -> nth i ms 0 = nth i (s_target s) 0 * conf i).
  { intros i Hi. unfold ms, margins_of. rewrite nth_map_seq by lia. reflexivity. }
  pose proof (isort_perm Rleb ms) as P. pose proof (isort_sorted_R ms) as S. destruct (isort Rleb ms) as [|m t].
  - apply Permutation_length in P. simpl in P. lia.
  - eexists. split; [reflexivity|]. simpl. rewrite Rltb_false by lra. replace (0 + 1 * m) with m by lra. inversion S as [|? ? _ F]; subst. rewrite Forall_forall in F.
    split.
    + assert (Hin : In m ms) by (apply (Permutation_in _ (Permutation_sym P)); left; reflexivity). apply (In_nth _ _ 0) in Hin. destruct Hin as [i [Hi E]].
      exists i. rewrite Lm in Hi. split; [exact Hi|]. rewrite <- (Hnth i Hi). exact E.
    + intros i Hi. change (s_n_sample s) with (fst (shape s)) in Hi. rewrite <- (Hnth i Hi). assert (Hin : In (nth i ms 0) (m :: t)) by (apply (Permutation_in _ P), nth_In; lia).
      destruct Hin as [<-|Hin]; [lra|apply F; exact Hin].
Qed.

(** a larger nu (a smaller cap) never lowers the soft margin, and all of them are at least the hard margin *)
Lemma P_C42_soft_margin_monotone :
  forall nu nu' s conf v v', length (s_target s) = fst (shape s) -> nu <= nu' ->
  soft_margin_eval nu s conf = Ok v -> soft_margin_eval nu' s conf = Ok v' -> v <= v'.
Proof.
  intros nu nu' s conf v v' Ht Hnu E E'. pose proof (P_C42_soft_margin nu s conf Ht) as P. pose proof (P_C42_soft_margin nu' s conf Ht) as P'.
  rewrite E in P. rewrite E' in P'. destruct P as [_ [H1 [_ P]]]. destruct P' as [_ [_ [[d [[Ld [Cd Sd]] Ed]] _]]]. rewrite <- Ed. apply P.
  split; [exact Ld|]. split; [|exact Sd]. intros x Hx. specialize (Cd x Hx). assert (1 / nu' <= 1 / nu); [|lra].
  unfold Rdiv. rewrite !Rmult_1_l. apply Rinv_le_contravar; lra.
Qed.

(** ** C56: the exponential loss objective is computed from the predicted labels: it is 1/e plus (e - 1/e) times the
    error rate, whatever the confidences are *)
Lemma P_C56_exponential_loss :
  forall s conf, length (s_target s) = fst (shape s) -> (0 < fst (shape s))%nat -> (0 < snd (shape s))%nat ->
  (forall y, In y (s_target s) -> pm1 y) ->
  exponential_loss_eval s conf =
    Ok (exp (-1) + (exp 1 - exp (-1)) * (INR (n_errors (s_target s) (fun i => sign_label (conf i))) / INR (fst (shape s)))).
Proof.
  intros s conf Ht Hn Hf Hy. unfold exponential_loss_eval, check_sample, bind, assert_.
  destruct (Nat.ltb_spec 0 (fst (shape s))) as [_|]; [|lia]. destruct (Nat.ltb_spec 0 (snd (shape s))) as [_|]; [|lia]. f_equal.
  rewrite (combine_nth_map _ _ _ 0 0) by (rewrite map_length, seq_length; congruence).
  rewrite map_length, seq_length, <- Ht.
  assert (Hpos : 0 < INR (length (s_target s))) by (apply lt_0_INR; lia).
  enough (Z : forall l, (forall i, In i l -> (i < length (s_target s))%nat) ->
     rsum (map (fun i => exp (- snd (nth i (map (fun i0 => predict_of_confidence (conf i0)) (seq 0 (length (s_target s)))) 0, nth i (s_target s) 0) *
        fst (nth i (map (fun i0 => predict_of_confidence (conf i0)) (seq 0 (length (s_target s)))) 0, nth i (s_target s) 0))) l) =
     INR (length l) * exp (-1) + (exp 1 - exp (-1)) * INR (count (fun i => negb (if Req_EM_T (sign_label (conf i)) (nth i (s_target s) 0) then true else false)) l)).
  { rewrite Z by (intros i Hi; apply in_seq in Hi; lia). rewrite seq_length. unfold n_errors. field. lra. }
  induction l as [|i l IH]; intros Hl; [simpl; lra|]. cbn [map rsum count]. rewrite IH by (intros j Hj; apply Hl; right; exact Hj).
  change (length (i :: l)) with (S (length l)). rewrite S_INR. cbn [fst snd].
  rewrite nth_map_seq by (apply Hl; left; reflexivity).
  assert (Hi : pm1 (nth i (s_target s) 0)) by (apply Hy, nth_In, Hl; left; reflexivity).
  assert (Ep : predict_of_confidence (conf i) = sign_label (conf i)).
  { unfold predict_of_confidence, sign_label. destruct (Rleb_spec 0 (conf i)), (Rle_dec 0 (conf i)); try lra; reflexivity. }
  rewrite Ep. destruct (Req_EM_T (sign_label (conf i)) (nth i (s_target s) 0)) as [E|E]; simpl negb; cbv iota.
  - rewrite E. destruct Hi as [Hi|Hi]; rewrite Hi.
    + replace (- (1) * 1) with (-1) by lra. lra.
    + replace (- -1 * -1) with (-1) by lra. lra.
  - rewrite S_INR. unfold sign_label in *. destruct (Rle_dec 0 (conf i)); destruct Hi as [Hi|Hi]; rewrite Hi in *; try congruence.
    + replace (- -1 * 1) with 1 by lra. lra.
    + replace (- (1) * -1) with 1 by lra. lra.
Qed.

Example C42_nonvacuous : forall a : string, exists s, length (s_target s) = fst (shape s) /\ (0 < fst (shape s))%nat /\ (0 < snd (shape s))%nat /\
  (forall y, In y (s_target s) -> pm1 y).
Proof.
  intros a. exists (from_dataframe [(a, [1; 2; 3])] 3 [1; -1; -1]). simpl. repeat split; try lia. unfold pm1. intros y [<-|[<-|[<-|[]]]]; auto.
Qed.
