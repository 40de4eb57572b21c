(** Facts about training a neural network: C48 (shapes), C57 (gradient descent). *)
From Coq Require Import String.
From Verif Require Import Base Spec SortLib Utils UtilsProofs WMajority AdaBoost AdaBoostMore Feature Sample SampleFacts Task TaskFacts NN NNSpec NNFacts NNTrain NNGrad.
Open Scope R_scope.

(** *** the matched losses *)
Lemma loss_diff_nth p y k : length p = length y -> nth k (loss_diff p y) 0 = nth k p 0 - nth k y 0.
Proof.
  intros H. unfold loss_diff. destruct (Nat.lt_ge_cases k (length p)) as [L|L].
  - rewrite (nth_map_in _ _ k (0, 0)) by (rewrite combine_length; lia). rewrite combine_nth by exact H. reflexivity.
  - rewrite nth_overflow by (rewrite map_length, combine_length; lia). rewrite (nth_overflow p), (nth_overflow y) by lia. lra.
Qed.
Lemma loss_diff_length p y : length p = length y -> length (loss_diff p y) = length y.
Proof. intros H. unfold loss_diff. rewrite map_length, combine_length. lia. Qed.

Lemma good_id y : good_output half_squared IdAct y.
Proof.
  intros u t0 d [Lu [Ld Hd]]. unfold actv; cbn [act_eval]. rewrite (dot_sum (length y)) by (try exact Ld; apply loss_diff_length, Lu).
  unfold half_squared. eapply dlim_eq.
  - apply (dlim_scal (/ 2)). apply (dlim_sum (seq 0 (length y)) (fun k t => (nth k (u t) 0 - nth k y 0) ^ 2) (fun k => 2 * (nth k (u t0) 0 - nth k y 0) * nth k d 0)).
    intros k Hk. apply in_seq in Hk. apply (dlim_ext (fun t => (nth k (u t) 0 - nth k y 0) * (nth k (u t) 0 - nth k y 0))); [intros t; ring|].
    assert (D : derivable_pt_lim (fun t => nth k (u t) 0 - nth k y 0) t0 (nth k d 0 - 0)) by (apply dlim_minus; [apply Hd; lia|apply derivable_pt_lim_const]).
    eapply dlim_eq; [apply (dlim_mult _ _ _ _ _ D D)|]. cbv beta. ring.
  - rewrite <- rsum_map_mult. apply rsum_map_ext. intros k _. rewrite loss_diff_nth by apply Lu. field.
Qed.

Lemma good_sigmoid y : good_output binary_cross_entropy (Sigmoid 1) y.
Proof.
  intros u t0 d [Lu [Ld Hd]]. unfold actv; cbn [act_eval].
  set (sg := fun v => 1 / (1 + exp (- 1 * v))).
  assert (Ls : forall t, length (map sg (u t)) = length y) by (intros t; rewrite map_length; apply Lu).
  assert (Es : forall v, 0 < 1 + exp (- 1 * v)) by (intros v; pose proof (exp_pos (- 1 * v)); lra).
  assert (En : forall k t, (k < length y)%nat -> nth k (map sg (u t)) 0 = sg (nth k (u t) 0)) by (intros k t Hk; apply nth_map_in; rewrite Lu; exact Hk).
  assert (Dsg : forall v, derivable_pt_lim sg v (sg v * (1 - sg v))).
  { intros v. unfold sg. eapply dlim_eq.
    - apply (dlim_div (fun _ => 1) (fun v => 1 + exp (- 1 * v))); [apply derivable_pt_lim_const| |specialize (Es v); lra].
      apply dlim_plus; [apply derivable_pt_lim_const|]. apply dlim_exp. apply dlim_scal. apply dlim_id.
    - specialize (Es v). cbv beta. field. lra. }
  assert (Bsg : forall v, 0 < sg v < 1).
  { intros v. unfold sg. specialize (Es v). pose proof (exp_pos (- 1 * v)). split; [apply Rdiv_lt_0_compat; lra|]. apply (Rmult_lt_reg_r (1 + exp (- 1 * v))); [exact Es|]. field_simplify; lra. }
  apply (dlim_ext (fun t => - rsum (map (fun k => nth k y 0 * ln (sg (nth k (u t) 0)) + (1 - nth k y 0) * ln (1 - sg (nth k (u t) 0))) (seq 0 (length y))))).
  { intros t. unfold binary_cross_entropy. f_equal. apply rsum_map_ext. intros k Hk. apply in_seq in Hk. fold sg. rewrite En by lia. reflexivity. }
  rewrite (dot_sum (length y)) by (try exact Ld; apply loss_diff_length, Ls).
  apply (dlim_ext (fun t => -1 * rsum (map (fun k => nth k y 0 * ln (sg (nth k (u t) 0)) + (1 - nth k y 0) * ln (1 - sg (nth k (u t) 0))) (seq 0 (length y))))); [intros t; ring|].
  eapply dlim_eq.
  - apply dlim_scal. apply (dlim_sum (seq 0 (length y)) (fun k t => nth k y 0 * ln (sg (nth k (u t) 0)) + (1 - nth k y 0) * ln (1 - sg (nth k (u t) 0)))
      (fun k => (nth k y 0 - sg (nth k (u t0) 0)) * nth k d 0)).
    intros k Hk. apply in_seq in Hk.
    assert (D : derivable_pt_lim (fun t => sg (nth k (u t) 0)) t0 (sg (nth k (u t0) 0) * (1 - sg (nth k (u t0) 0)) * nth k d 0)).
    { apply (dlim_comp (fun t => nth k (u t) 0) sg); [apply Hd; lia|apply Dsg]. }
    pose proof (Bsg (nth k (u t0) 0)) as B.
    eapply dlim_eq.
    + apply dlim_plus; apply dlim_scal; apply dlim_ln.
      * exact D.
      * lra.
      * apply dlim_minus; [apply derivable_pt_lim_const|exact D].
      * lra.
    + cbv beta. field. lra.
  - rewrite <- rsum_map_mult. apply rsum_map_ext. intros k Hk. apply in_seq in Hk. rewrite loss_diff_nth by apply Ls. fold sg. rewrite En by lia. ring.
Qed.

Lemma good_softmax y : y <> [] -> rsum y = 1 -> good_output cross_entropy (SoftMax 1) y.
Proof.
  intros Hy Hsum u t0 d [Lu [Ld Hd]]. assert (Hyl : (0 < length y)%nat) by (destruct y; [congruence|simpl; lia]).
  set (S := fun t => rsum (map (fun j => exp (nth j (u t) 0)) (seq 0 (length y)))).
  assert (HSpos : forall t, 0 < S t).
  { intros t. unfold S. apply rsum_pos; [destruct y; [congruence|discriminate]|]. intros v Hv. apply in_map_iff in Hv. destruct Hv as [j [<- _]]. apply exp_pos. }
  assert (Ea : forall t, actv (SoftMax 1) (u t) = softmax (u t)).
  { intros t. unfold actv; cbn [act_eval]. assert (Em : map (fun xi => 1 * xi) (u t) = u t) by (rewrite <- (map_id (u t)) at 2; apply map_ext; intros; lra).
    rewrite Em. rewrite project_softmax; [reflexivity|]. apply nonempty_pos. rewrite Lu. exact Hyl. }
  assert (Esum : forall t, rsum (map exp (u t)) = S t).
  { intros t. unfold S. rewrite <- (Lu t). rewrite (rsum_map_idx exp (u t) 0). reflexivity. }
  assert (En : forall t k, (k < length y)%nat -> nth k (softmax (u t)) 0 = exp (nth k (u t) 0) / S t).
  { intros t k Hk. unfold softmax. rewrite (nth_map_in _ (u t) k 0) by (rewrite Lu; exact Hk). rewrite Esum. reflexivity. }
  assert (Lsm : forall t, length (softmax (u t)) = length y) by (intros t; unfold softmax; rewrite map_length; apply Lu).
  apply (dlim_ext (fun t => ln (S t) - rsum (map (fun k => nth k y 0 * nth k (u t) 0) (seq 0 (length y))))).
  { intros t. unfold cross_entropy. rewrite Ea.
    transitivity (- rsum (map (fun k => nth k y 0 * nth k (u t) 0 - ln (S t) * nth k y 0) (seq 0 (length y)))).
    - rewrite rsum_map_minus, (rsum_map_mult (ln (S t))), rsum_nth, Hsum. lra.
    - f_equal. apply rsum_map_ext. intros k Hk. apply in_seq in Hk. rewrite En by lia. specialize (HSpos t).
      unfold Rdiv. rewrite ln_mult by (try apply exp_pos; apply Rinv_0_lt_compat; exact HSpos). rewrite ln_exp, ln_Rinv by exact HSpos. ring. }
  rewrite (dot_sum (length y)) by (try exact Ld; apply loss_diff_length; rewrite Ea; apply Lsm).
  assert (DS : derivable_pt_lim S t0 (rsum (map (fun j => exp (nth j (u t0) 0) * nth j d 0) (seq 0 (length y))))).
  { unfold S. apply (dlim_sum (seq 0 (length y)) (fun j t => exp (nth j (u t) 0))). intros j Hj. apply in_seq in Hj. apply (dlim_exp (fun t => nth j (u t) 0)). apply Hd. lia. }
  eapply dlim_eq.
  - apply dlim_minus; [apply (dlim_ln S); [exact DS|apply HSpos]|].
    apply (dlim_sum (seq 0 (length y)) (fun k t => nth k y 0 * nth k (u t) 0) (fun k => nth k y 0 * nth k d 0)). intros k Hk. apply in_seq in Hk. apply dlim_scal, Hd. lia.
  - rewrite <- (rsum_map_mult (/ S t0)), <- rsum_map_minus. apply rsum_map_ext. intros k Hk. apply in_seq in Hk.
    rewrite loss_diff_nth by (rewrite Ea; apply Lsm). rewrite Ea, En by lia. unfold Rdiv. ring.
Qed.

(** *** label vectors *)
Lemma vectorize_ok y K : (K = 1%nat \/ y < INR K) -> (0 < K)%nat -> exists v, vectorize y K = Ok v /\ length v = K /\ ((1 < K)%nat -> rsum v = 1).
Proof.
  intros H HK. unfold vectorize. destruct (Nat.eqb_spec K 1) as [->|Hne].
  - exists [y]. split; [reflexivity|]. split; [reflexivity|]. lia.
  - destruct H as [H|H]; [contradiction|].
    assert (Hlt : ((if Rleb y 0 then 0%nat else as_usize y) < K)%nat).
    { destruct (Rleb_spec y 0) as [L|L]; [lia|]. apply INR_lt. eapply Rle_lt_trans; [|exact H].
      unfold as_usize. pose proof (base_Int_part y) as [B1 B2].
      assert (Hz : (0 <= Int_part y)%Z). { assert (-1 < IZR (Int_part y)) by lra. apply lt_IZR in H0. lia. }
      rewrite INR_IZR_INZ, Z2Nat.id by exact Hz. exact B1. }
    destruct (Nat.ltb_spec (if Rleb y 0 then 0%nat else as_usize y) K); [|lia].
    eexists. split; [reflexivity|]. split; [rewrite upd_length; apply repeat_length|]. intros _.
    set (k := if Rleb y 0 then 0%nat else as_usize y) in *.
    assert (E : dot (repeat 1 K) (upd k 1 (repeat 0 K)) = 1) by (rewrite (dot_onehot K) by (try apply repeat_length; exact Hlt); rewrite nth_repeat_lt by exact Hlt; lra).
    rewrite (dot_sum K) in E by (rewrite ?upd_length; apply repeat_length).
    etransitivity; [|exact E]. rewrite <- (rsum_nth (upd k 1 (repeat 0 K))). rewrite upd_length, repeat_length. apply rsum_map_ext. intros j Hj. apply in_seq in Hj. rewrite nth_repeat_lt by lia. lra.
Qed.

Definition row_of (s : sample) (i : nat) : list R := match at_ s i with Ok (x, _) => x | Panic _ => [] end.
Definition vec_of (s : sample) (K i : nat) : list R := match vectorize (nth i (s_target s) 0) K with Ok v => v | Panic _ => [] end.
Definition batch_of (s : sample) (K : nat) (indices : list nat) : batch := map (fun i => (row_of s i, vec_of s K i)) indices.

Lemma fits_row s dims indices i : fits s dims indices -> In i indices ->
  at_ s i = Ok (row_of s i, nth i (s_target s) 0) /\ length (row_of s i) = hd 0%nat dims.
Proof.
  intros [M [Ht [Hd [F [_ Hi]]]]] Hin. destruct (Hi i Hin) as [Hlt _].
  destruct (P_C49_sample_bookkeeping s M) as [E1 [_ [_ [_ E2]]]]. destruct (E2 i Ht Hlt) as [xs [A1 A2]].
  unfold row_of. rewrite A1. split; [reflexivity|]. assert (L2 : length (s_features s) = length xs) by (clear - A2; induction A2; simpl; congruence). lia.
Qed.

Lemma last_pos dims : Forall (lt 0) dims -> dims <> [] -> (0 < last dims 0)%nat.
Proof. induction dims as [|d dims IH]; intros F H; [congruence|]. inversion F; subst. destruct dims; [assumption|]. apply IH; [assumption|discriminate]. Qed.

Lemma fits_vec s dims indices i : fits s dims indices -> dims <> [] -> In i indices ->
  let K := last dims 0%nat in vectorize (nth i (s_target s) 0) K = Ok (vec_of s K i) /\ length (vec_of s K i) = K /\ ((1 < K)%nat -> rsum (vec_of s K i) = 1).
Proof.
  intros [M [Ht [Hd [F [Hne Hi]]]]] Hdn Hin K. destruct (Hi i Hin) as [Hlt HK]. unfold vec_of.
  destruct (vectorize_ok (nth i (s_target s) 0) K HK (last_pos dims F Hdn)) as [v [E1 [E2 E3]]]. rewrite E1. repeat split; assumption.
Qed.

Lemma net_ok_dims dims acts net : net_ok dims acts net -> dims <> [].
Proof. intros H. destruct H; discriminate. Qed.

Lemma batch_of_ok s dims indices : fits s dims indices -> dims <> [] -> batch_ok (hd 0%nat dims) (last dims 0%nat) (batch_of s (last dims 0%nat) indices).
Proof.
  intros H Hd. split.
  - destruct H as [_ [_ [_ [_ [Hne _]]]]]. unfold batch_of. destruct indices; [congruence|discriminate].
  - intros e He. unfold batch_of in He. apply in_map_iff in He. destruct He as [i [<- Hi]]. cbn [fst snd].
    split; [apply (fits_row s dims indices i H Hi)|apply (fits_vec s dims indices i H Hd Hi)].
Qed.

Lemma batch_forward_ok s dims acts net : net_ok dims acts net -> forall indices, (forall i, In i indices -> exists all, fits s dims all /\ In i all) ->
  batch_forward net (last dims 0%nat) s indices =
  Ok (map (fun e => mkExample (inputs net (fst e)) (dfsl net (fst e)) (loss_diff (netv net (fst e)) (snd e))) (batch_of s (last dims 0%nat) indices)).
Proof.
  intros Hn. induction indices as [|i ix IH]; intros H; [reflexivity|]. destruct (H i (or_introl eq_refl)) as [all [Hf Hi]].
  destruct (fits_row s dims all i Hf Hi) as [E1 E2]. destruct (fits_vec s dims all i Hf (net_ok_dims _ _ _ Hn) Hi) as [E3 [E4 _]].
  cbn [batch_forward]. rewrite E1. cbn [bind fst snd]. rewrite (forward_record_ok dims acts net Hn) by (try exact E2; apply Hf). cbn [bind fst snd].
  rewrite E3. cbn [bind]. rewrite IH by (intros k Hk; apply H; right; exact Hk). reflexivity.
Qed.

Lemma outs_eq net : forall B, map (fun l => map (fun e => nth l (inputs net (fst e)) []) B) (seq 0 (length net)) = outs net B.
Proof.
  induction net as [|l net IH]; intros B; [reflexivity|]. cbn [length seq map outs]. f_equal.
  rewrite <- seq_shift, map_map. rewrite <- IH. apply map_ext. intros k. unfold shift. rewrite map_map. reflexivity.
Qed.
Lemma dfss_eq net : forall B, map (fun l => map (fun e => nth l (dfsl net (fst e)) []) B) (seq 0 (length net - 1)) = dfss net B.
Proof.
  induction net as [|l net IH]; intros B; [reflexivity|]. destruct net as [|l1 net]; [reflexivity|].
  set (rest := l1 :: net) in *. replace (length (l :: rest) - 1)%nat with (S (length rest - 1)) by (unfold rest; simpl; lia).
  cbn [seq map]. change (dfss (l :: rest) B) with (map (fun e : list R * list R => dfv (l_act l) (aff l (fst e))) B :: dfss rest (shift l B)). f_equal.
  rewrite <- seq_shift, map_map, <- IH. apply map_ext. intros k. unfold shift. rewrite map_map. reflexivity.
Qed.

Lemma train_ok rate s dims acts net indices : net_ok dims acts net -> net <> [] -> fits s dims indices ->
  train rate s indices net = Ok (updnet rate net (batch_of s (last dims 0%nat) indices)).
Proof.
  intros Hn Hne Hf. unfold train. destruct (Nat.eqb_spec (length net) 0) as [E|_]; [destruct net; [congruence|discriminate]|].
  rewrite (output_dim_ok dims acts net Hn Hne). cbn [bind].
  rewrite (batch_forward_ok s dims acts net Hn) by (intros i Hi; exists indices; split; assumption). cbn [bind].
  set (B := batch_of s (last dims 0%nat) indices).
  pose proof (back_layers_net rate dims acts net B Hn ltac:(apply Hf) Hne (batch_of_ok s dims indices Hf (net_ok_dims _ _ _ Hn))) as G.
  assert (E1 : map (fun l => map (fun e => nth l (e_inputs e) []) (map (fun e => mkExample (inputs net (fst e)) (dfsl net (fst e)) (loss_diff (netv net (fst e)) (snd e))) B)) (seq 0 (length net)) = outs net B).
  { rewrite <- outs_eq. apply map_ext. intros k. rewrite map_map. reflexivity. }
  assert (E2 : map (fun l => map (fun e => nth l (e_dfs e) []) (map (fun e => mkExample (inputs net (fst e)) (dfsl net (fst e)) (loss_diff (netv net (fst e)) (snd e))) B)) (seq 0 (length net - 1)) = dfss net B).
  { rewrite <- dfss_eq. apply map_ext. intros k. rewrite map_map. reflexivity. }
  rewrite E1, E2, map_map. cbn [e_delta]. unfold top in G. rewrite G. cbn [bind]. rewrite rev_involutive. reflexivity.
Qed.

Lemma updnet_ok rate dims acts net : net_ok dims acts net -> forall B, net_ok dims acts (updnet rate net B).
Proof. induction 1 as [d|d0 d1 ds a acts l ls Hl Ha Hn IH]; intros B; cbn [updnet]; constructor; [apply updl_ok; exact Hl|exact Ha|apply IH]. Qed.

(** ** C48: shapes.  On every input of the right dimension the forward pass succeeds and has the output dimension *)
Lemma P_C48_forward_shape :
  forall dims acts net x, net_ok dims acts net -> Forall (lt 0) dims -> length x = hd 0%nat dims ->
  exists p, net_eval net x = Ok p /\ length p = last dims 0%nat.
Proof. intros dims acts net x Hn F Hx. exists (netv net x). apply (net_eval_ok dims acts net Hn F x Hx). Qed.

(** a training step never panics on a batch that fits and keeps every layer's dimensions and activation; so does a
    whole training run, whatever its minibatches *)
Lemma P_C48_train_shape :
  forall rate s dims acts net indices, net_ok dims acts net -> net <> [] -> fits s dims indices ->
  exists net', train rate s indices net = Ok net' /\ net_ok dims acts net'.
Proof. intros rate s dims acts net indices Hn Hne Hf. eexists. split; [apply (train_ok rate s dims acts); assumption|]. apply updnet_ok, Hn. Qed.

Lemma net_nonempty dims acts net net' : net_ok dims acts net -> net_ok dims acts net' -> net <> [] -> net' <> [].
Proof. intros H H' Hne ->. inversion H'; subst. inversion H; subst. congruence. Qed.

Lemma P_C48_training_run :
  forall batches n_iter rate s dims acts net, net_ok dims acts net -> net <> [] -> (forall b, In b batches -> fits s dims b) ->
  exists net', run_epochs batches n_iter rate s net = Ok net' /\ net_ok dims acts net'.
Proof.
  intros batches n_iter rate s dims acts. induction batches as [|b bs IH]; intros net Hn Hne Hb.
  - exists net. split; [reflexivity|exact Hn].
  - assert (It : forall k net, net_ok dims acts net -> net <> [] -> exists net', iterate_train k rate s b net = Ok net' /\ net_ok dims acts net').
    { induction k as [|k IHk]; intros m Hm Hmne; [exists m; split; [reflexivity|exact Hm]|]. cbn [iterate_train].
      destruct (P_C48_train_shape rate s dims acts m b Hm Hmne (Hb b (or_introl eq_refl))) as [m' [E Hm']]. rewrite E. cbn [bind].
      apply IHk; [exact Hm'|apply (net_nonempty dims acts m); assumption]. }
    destruct (It n_iter net Hn Hne) as [net1 [E1 H1]]. cbn [run_epochs]. rewrite E1. cbn [bind].
    apply IH; [exact H1|apply (net_nonempty dims acts net); assumption|intros b' Hb'; apply Hb; right; exact Hb'].
Qed.

(** *** gradient descent *)
Lemma smooth_at_smooth dims acts net : net_ok dims acts net -> Forall (lt 0) dims -> forall x, length x = hd 0%nat dims -> smooth_at net x -> smooth net x.
Proof.
  induction 1 as [d|d0 d1 ds a acts l ls Hl Ha Hn IH]; intros F x Hx Hs; [exact I|].
  assert (F1 : Forall (lt 0) (d1 :: ds)) by (inversion F; assumption). assert (Hd1 : (0 < d1)%nat) by (inversion F1; assumption). cbn [hd] in Hx.
  destruct (layer_fwd l d1 d0 x Hl Hd1 Hx) as [E1 [_ [_ [Lz [E2 _]]]]].
  destruct ls as [|l1 ls]; [exact I|]. destruct Hs as [Hh Hs]. split.
  - destruct Hh as [Hh|[th [Hh Hth]]]; [left; exact Hh|right; exists th; split; [exact Hh|]]. apply Hth, E1.
  - apply (IH F1 (z1 l x) Lz). apply Hs, E2.
Qed.

Lemma set_weight_ok dims acts net : net_ok dims acts net -> forall k a b t, (k < length net)%nat -> (a < nth (S k) dims 0)%nat -> net_ok dims acts (set_weight net k a b t).
Proof.
  induction 1 as [d|d0 d1 ds ac acts l ls Hl Ha Hn IH]; intros k a b t Hk Hka; [simpl in Hk; lia|]. destruct k as [|k].
  - change (set_weight (l :: ls) 0 a b t) with (layer_w l a b t :: ls). constructor; [apply layer_w_ok; assumption|exact Ha|exact Hn].
  - rewrite set_weight_cons. constructor; [exact Hl|exact Ha|]. apply IH; [simpl in Hk; lia|exact Hka].
Qed.
Lemma set_bias_ok dims acts net : net_ok dims acts net -> forall k a t, (k < length net)%nat -> net_ok dims acts (set_bias net k a t).
Proof.
  induction 1 as [d|d0 d1 ds ac acts l ls Hl Ha Hn IH]; intros k a t Hk; [simpl in Hk; lia|]. destruct k as [|k].
  - change (set_bias (l :: ls) 0 a t) with (layer_b l a t :: ls). constructor; [apply layer_b_ok; exact Hl|exact Ha|exact Hn].
  - rewrite set_bias_cons. constructor; [exact Hl|exact Ha|]. apply IH. simpl in Hk; lia.
Qed.

Lemma row_loss_eq loss s dims acts net indices i : net_ok dims acts net -> net <> [] -> fits s dims indices -> In i indices ->
  row_loss loss s net i = loss (netv net (row_of s i)) (vec_of s (last dims 0%nat) i).
Proof.
  intros Hn Hne Hf Hi. unfold row_loss. destruct (fits_row s dims indices i Hf Hi) as [E1 E2]. destruct (fits_vec s dims indices i Hf (net_ok_dims _ _ _ Hn) Hi) as [E3 _].
  rewrite E1, (output_dim_ok dims acts net Hn Hne). destruct (net_eval_ok dims acts net Hn ltac:(apply Hf) (row_of s i) E2) as [E4 _]. rewrite E4, E3. reflexivity.
Qed.

Lemma acts_last dims acts net : net_ok dims acts net -> net <> [] -> act_last net = last acts IdAct.
Proof.
  induction 1 as [d|d0 d1 ds a acts l ls Hl Ha Hn IH]; intros Hne; [congruence|]. destruct ls as [|l1 ls].
  - inversion Hn; subst. reflexivity.
  - assert (E : act_last (l1 :: ls) = last acts IdAct) by (apply IH; discriminate). unfold act_last in *. inversion Hn; subst. simpl in *. exact E.
Qed.

Lemma good_all s dims acts net indices loss : net_ok dims acts net -> net <> [] -> fits s dims indices -> matched loss (last acts IdAct) (last dims 0%nat) ->
  forall i, In i indices -> good_output loss (act_last net) (vec_of s (last dims 0%nat) i).
Proof.
  intros Hn Hne Hf Hm i Hi. rewrite (acts_last dims acts net Hn Hne). destruct (fits_vec s dims indices i Hf (net_ok_dims _ _ _ Hn) Hi) as [_ [L1 L2]].
  destruct Hm as [K Hk|K|K]; [|apply good_id|apply good_sigmoid]. apply good_softmax; [|apply L2; exact Hk]. apply nonempty_pos. lia.
Qed.

(** ** C57: one training step is one step of gradient descent on the loss of the batch.  For every network whose
    output activation matches the loss and every batch at which the hidden layers are differentiable, every weight and
    every bias moves by -rate times the partial derivative of the batch loss in it (all evaluated at the old network) *)
Lemma P_C57_weight_step :
  forall loss rate s dims acts net net' indices k a b,
  net_ok dims acts net -> net <> [] -> fits s dims indices -> matched loss (last acts IdAct) (last dims 0%nat) ->
  (forall i x y, In i indices -> at_ s i = Ok (x, y) -> smooth_at net x) ->
  (k < length net)%nat -> (a < nth (S k) dims 0)%nat -> (b < nth k dims 0)%nat ->
  train rate s indices net = Ok net' ->
  exists g, derivable_pt_lim (fun t => batch_loss loss s indices (set_weight net k a b t)) (weight net k a b) g /\
    weight net' k a b = weight net k a b - rate * g.
Proof.
  intros loss rate s dims acts net net' indices k a b Hn Hne Hf Hm Hsm Hk Hka Hkb E.
  rewrite (train_ok rate s dims acts net indices Hn Hne Hf) in E. injection E as <-. set (K := last dims 0%nat) in *.
  eexists. split; [|apply (updnet_weight rate dims acts net Hn k a b); assumption].
  unfold batch_of. rewrite map_map. cbn [fst snd]. unfold batch_loss.
  apply (dlim_sum indices (fun i t => row_loss loss s (set_weight net k a b t) i)). intros i Hi.
  destruct (fits_row s dims indices i Hf Hi) as [E1 E2]. destruct (fits_vec s dims indices i Hf (net_ok_dims _ _ _ Hn) Hi) as [_ [E4 _]].
  apply (dlim_ext (fun t => loss (netv (set_weight net k a b t) (row_of s i)) (vec_of s K i))).
  { intros t. symmetry. apply (row_loss_eq loss s dims acts _ indices); [apply set_weight_ok; assumption| |exact Hf|exact Hi].
    apply (net_nonempty dims acts net); [exact Hn|apply set_weight_ok; assumption|exact Hne]. }
  apply (loss_weight_derivative loss dims acts net Hn); try assumption; [apply Hf|apply (good_all s dims acts net indices); assumption|].
  apply (smooth_at_smooth dims acts net Hn); [apply Hf|exact E2|apply (Hsm i _ _ Hi E1)].
Qed.

Lemma P_C57_bias_step :
  forall loss rate s dims acts net net' indices k a,
  net_ok dims acts net -> net <> [] -> fits s dims indices -> matched loss (last acts IdAct) (last dims 0%nat) ->
  (forall i x y, In i indices -> at_ s i = Ok (x, y) -> smooth_at net x) ->
  (k < length net)%nat -> (a < nth (S k) dims 0)%nat ->
  train rate s indices net = Ok net' ->
  exists g, derivable_pt_lim (fun t => batch_loss loss s indices (set_bias net k a t)) (bias net k a) g /\
    bias net' k a = bias net k a - rate * g.
Proof.
  intros loss rate s dims acts net net' indices k a Hn Hne Hf Hm Hsm Hk Hka E.
  rewrite (train_ok rate s dims acts net indices Hn Hne Hf) in E. injection E as <-. set (K := last dims 0%nat) in *.
  eexists. split; [|apply (updnet_bias rate dims acts net Hn k a); assumption].
  unfold batch_of. rewrite map_map. cbn [fst snd]. unfold batch_loss.
  apply (dlim_sum indices (fun i t => row_loss loss s (set_bias net k a t) i)). intros i Hi.
  destruct (fits_row s dims indices i Hf Hi) as [E1 E2]. destruct (fits_vec s dims indices i Hf (net_ok_dims _ _ _ Hn) Hi) as [_ [E4 _]].
  apply (dlim_ext (fun t => loss (netv (set_bias net k a t) (row_of s i)) (vec_of s K i))).
  { intros t. symmetry. apply (row_loss_eq loss s dims acts _ indices); [apply set_bias_ok; assumption| |exact Hf|exact Hi].
    apply (net_nonempty dims acts net); [exact Hn|apply set_bias_ok; assumption|exact Hne]. }
  apply (loss_bias_derivative loss dims acts net Hn); try assumption; [apply Hf|apply (good_all s dims acts net indices); assumption|].
  apply (smooth_at_smooth dims acts net Hn); [apply Hf|exact E2|apply (Hsm i _ _ Hi E1)].
Qed.

Definition ex_s : sample := from_dataframe [("x"%string, [1; 2])] 2 [0; 1].
Definition ex_net : list layer := [mkLayer 1 1 [[1]] [0] (ReLu 0); mkLayer 2 1 [[1]; [-1]] [0; 0] (SoftMax 1)].
Lemma ex_made : made ex_s.
Proof. apply made_dataframe. intros c [<-|[]]. reflexivity. Qed.
Lemma ex_net_ok : net_ok [1; 1; 2]%nat [ReLu 0; SoftMax 1] ex_net.
Proof.
  constructor; [|reflexivity|constructor; [|reflexivity|constructor]].
  - repeat split; try reflexivity. intros r [<-|[]]; reflexivity.
  - repeat split; try reflexivity. intros r [<-|[<-|[]]]; reflexivity.
Qed.
Lemma ex_fits : fits ex_s [1; 1; 2]%nat [1; 0]%nat.
Proof.
  split; [apply ex_made|]. split; [reflexivity|]. split; [reflexivity|]. split; [repeat constructor|]. split; [discriminate|].
  intros i [<-|[<-|[]]]; simpl; (split; [lia|right; lra]).
Qed.
Lemma ex_smooth i x y : In i [1; 0]%nat -> at_ ex_s i = Ok (x, y) -> smooth_at ex_net x.
Proof.
  intros Hi E. unfold ex_net, smooth_at. split; [|trivial]. right. exists 0. split; [reflexivity|].
  destruct Hi as [<-|[<-|[]]]; unfold at_, ex_s in E; simpl in E; injection E as <- <-; intros u Eu; unfold affine in Eu; simpl in Eu; injection Eu as <-; unfold inner_product, dot, zipmul; simpl; intros [H|[]]; lra.
Qed.

(** a two-layer ReLU/softmax network on a two-row sample meets the hypotheses *)
Example C57_example :
  exists net', train (1 / 2) ex_s [1; 0]%nat ex_net = Ok net' /\
  exists g, derivable_pt_lim (fun t => batch_loss cross_entropy ex_s [1; 0]%nat (set_weight ex_net 0 0 0 t)) 1 g /\
    weight net' 0 0 0 = 1 - 1 / 2 * g.
Proof.
  destruct (P_C48_train_shape (1 / 2) ex_s [1; 1; 2]%nat [ReLu 0; SoftMax 1] ex_net [1; 0]%nat ex_net_ok ltac:(discriminate) ex_fits) as [net' [E _]].
  exists net'. split; [exact E|].
  exact (P_C57_weight_step cross_entropy (1 / 2) ex_s _ _ ex_net net' [1; 0]%nat 0 0 0 ex_net_ok ltac:(discriminate) ex_fits (matched_softmax 2 ltac:(lia)) ex_smooth ltac:(simpl; lia) ltac:(simpl; lia) ltac:(simpl; lia) E).
Qed.

(** ** C58: with a hidden sigmoid layer the step is not a gradient step: here the weight of the sigmoid moves twice as
    far as the gradient of the loss says *)
Definition ex_sig_s : sample := from_dataframe [("x"%string, [1])] 1 [0].
Definition ex_sig_net : list layer := [mkLayer 1 1 [[0]] [0] (Sigmoid 1); mkLayer 1 1 [[1]] [0] IdAct].
Lemma ex_sig_ok : net_ok [1; 1; 1]%nat [Sigmoid 1; IdAct] ex_sig_net.
Proof. constructor; [|reflexivity|constructor; [|reflexivity|constructor]]; (repeat split; try reflexivity; intros r [<-|[]]; reflexivity). Qed.
Lemma ex_sig_fits : fits ex_sig_s [1; 1; 1]%nat [0]%nat.
Proof.
  split; [apply made_dataframe; intros c [<-|[]]; reflexivity|]. split; [reflexivity|]. split; [reflexivity|]. split; [repeat constructor|]. split; [discriminate|].
  intros i [<-|[]]; simpl; (split; [lia|left; reflexivity]).
Qed.

Lemma P_C58_hidden_sigmoid_refuted :
  exists s dims net net' g, net_ok dims [Sigmoid 1; IdAct] net /\ fits s dims [0]%nat /\ train 1 s [0]%nat net = Ok net' /\
    derivable_pt_lim (fun t => batch_loss half_squared s [0]%nat (set_weight net 0 0 0 t)) (weight net 0 0 0) g /\ g <> 0 /\
    weight net' 0 0 0 = weight net 0 0 0 - 1 * (2 * g).
Proof.
  exists ex_sig_s, [1; 1; 1]%nat, ex_sig_net, (updnet 1 ex_sig_net (batch_of ex_sig_s 1 [0]%nat)), (1 / 8).
  split; [exact ex_sig_ok|]. split; [exact ex_sig_fits|].
  split; [apply (train_ok 1 ex_sig_s [1; 1; 1]%nat [Sigmoid 1; IdAct]); [exact ex_sig_ok|discriminate|exact ex_sig_fits]|].
  split; [|split; [lra|]].
  - change (weight ex_sig_net 0 0 0) with 0.
    apply (dlim_ext (fun t => / 2 * (1 / (1 + exp (- 1 * t)) * (1 / (1 + exp (- 1 * t)))))).
    { intros t. unfold batch_loss. cbn [map rsum]. rewrite (row_loss_eq half_squared ex_sig_s [1; 1; 1]%nat [Sigmoid 1; IdAct] _ [0]%nat);
        [|apply set_weight_ok; [exact ex_sig_ok|simpl; lia|simpl; lia]|discriminate|exact ex_sig_fits|left; reflexivity].
      unfold half_squared, netv, z1, aff, actv, row_of, vec_of, dot, zipmul. simpl.
      replace (- (1) * (t * 1 + 0 + 0)) with (-1 * t) by lra. assert (0 < 1 + exp (-1 * t)) by (pose proof (exp_pos (-1 * t)); lra). field. lra. }
    assert (E0 : exp (-1 * 0) = 1) by (rewrite Rmult_0_r; apply exp_0).
    assert (D : derivable_pt_lim (fun t => 1 / (1 + exp (- 1 * t))) 0 (1 / 4)).
    { eapply dlim_eq.
      - apply (dlim_div (fun _ => 1) (fun v => 1 + exp (- 1 * v))); [apply derivable_pt_lim_const| |cbv beta; rewrite E0; lra].
        apply dlim_plus; [apply derivable_pt_lim_const|]. apply dlim_exp. apply dlim_scal. apply dlim_id.
      - cbv beta. rewrite E0. field. }
    eapply dlim_eq; [apply dlim_scal, (dlim_mult _ _ _ _ _ D D)|]. cbv beta. rewrite E0. field.
  - rewrite (updnet_weight 1 [1; 1; 1]%nat [Sigmoid 1; IdAct] ex_sig_net ex_sig_ok) by (simpl; lia).
    change (weight ex_sig_net 0 0 0) with 0.
    unfold batch_of, row_of, vec_of. simpl. unfold dfv, vm, z1, actv, aff, dot, zipmul, loss_diff, entry. simpl.
    replace (- (1) * (0 * 1 + 0 + 0)) with 0 by lra. rewrite exp_0. field.
Qed.

(** ** C59: what the classifier answers.  Binary task, two softmax outputs: the prediction is the label of the more
    probable output (the second output stands for +1) and the confidence is in absolute value its probability *)
Lemma softmax_out eta net : forall dims acts x, net_ok dims acts net -> net <> [] -> Forall (lt 0) dims -> last acts IdAct = SoftMax eta -> length x = hd 0%nat dims ->
  forall v, In v (netv net x) -> 0 < v.
Proof.
  induction net as [|l net IH]; intros dims acts x Hn Hne F Ha Hx v Hv; [congruence|]. inversion Hn as [|d0 d1 ds a acts' ? ? Hl Hla Hn']; subst.
  assert (F1 : Forall (lt 0) (d1 :: ds)) by (inversion F; assumption). assert (Hd1 : (0 < d1)%nat) by (inversion F1; assumption). cbn [hd] in Hx.
  destruct (layer_fwd l d1 d0 x Hl Hd1 Hx) as [_ [La [_ [Lz _]]]]. cbn [netv] in Hv. destruct net as [|l1 net].
  - inversion Hn'; subst. simpl in Ha. cbn [netv] in Hv. unfold z1, actv in Hv. rewrite Ha in Hv. cbn [act_eval] in Hv.
    assert (Hne' : map (fun xi => eta * xi) (aff l x) <> []) by (apply nonempty_pos; rewrite map_length; lia).
    rewrite project_softmax in Hv by exact Hne'. unfold softmax in Hv. apply in_map_iff in Hv. destruct Hv as [w [<- _]].
    apply Rdiv_lt_0_compat; [apply exp_pos|apply expsum_pos', Hne'].
  - apply (IH (d1 :: ds) acts' (z1 l x)); try assumption; [discriminate|]. inversion Hn'; subst. exact Ha.
Qed.

Lemma P_C59_binary_prediction :
  forall eta dims acts net s row x y, net_ok dims acts net -> net <> [] -> Forall (lt 0) dims -> last dims 0%nat = 2%nat -> last acts IdAct = SoftMax eta ->
  at_ s row = Ok (x, y) -> length x = hd 0%nat dims ->
  exists p0 p1 c, net_eval net x = Ok [p0; p1] /\ 0 < p0 /\ 0 < p1 /\ nn_confidence Binary net s row = Ok c /\
    (p0 <= p1 -> predict_of_confidence c = 1) /\ (p1 < p0 -> predict_of_confidence c = -1) /\ Rabs c = Rmax p0 p1.
Proof.
  intros eta dims acts net s row x y Hn Hne F Hd Ha Eat Hx. destruct (net_eval_ok dims acts net Hn F x Hx) as [E L]. rewrite Hd in L.
  pose proof (softmax_out eta net dims acts x Hn Hne F Ha Hx) as Hpos.
  destruct (netv net x) as [|p0 [|p1 [|]]] eqn:Ev; simpl in L; try lia.
  assert (P0 : 0 < p0) by (apply Hpos; left; reflexivity). assert (P1 : 0 < p1) by (apply Hpos; right; left; reflexivity).
  exists p0, p1, (if Rltb p1 p0 then - p0 else p1). unfold nn_confidence. rewrite Eat. cbn [bind fst]. rewrite E. cbn [bind binarize].
  repeat split; try assumption; try reflexivity; unfold predict_of_confidence; destruct (Rltb_spec p1 p0) as [L1|L1]; intros; try lra.
  - rewrite Rleb_true by lra. reflexivity.
  - rewrite Rleb_false by lra. reflexivity.
  - rewrite Rabs_Ropp, Rabs_pos_eq, Rmax_left by lra. reflexivity.
  - rewrite Rabs_pos_eq, Rmax_right by lra. reflexivity.
Qed.

(** multi-class task: the confidence is the number of the class, so the prediction of a binary classifier built on it
    (the trait's predict) is +1 for every network, every class and every input *)
Lemma P_C59_multiclass_prediction_refuted :
  forall n_class net s row c, nn_confidence (MultiClass n_class) net s row = Ok c -> (exists m, c = INR m) /\ predict_of_confidence c = 1.
Proof.
  intros n_class net s row c E. unfold nn_confidence in E. destruct (at_ s row) as [[x y]|]; [|discriminate]. cbn [bind fst] in E.
  destruct (net_eval net x) as [p|]; [|discriminate]. cbn [bind] in E.
  pose proof (P_C45_discretize p n_class) as D. rewrite E in D. destruct D as [m [-> _]]. split; [exists m; reflexivity|].
  unfold predict_of_confidence. pose proof (pos_INR m). rewrite Rleb_true by lra. reflexivity.
Qed.
