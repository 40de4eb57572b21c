(** Facts about the function a neural network computes: C59. *)
From Coq Require Import String.
From Verif Require Import Base Spec SortLib Utils UtilsProofs WMajority AdaBoost AdaBoostMore Feature Sample SampleFacts Task TaskFacts NN NNSpec NNFacts NNTrain NNGrad NNTrainFacts NNValueSpec.
Open Scope R_scope.

Lemma act_eval_value a u : u <> [] -> act_eval a u = Ok (map (act_value a u) (seq 0 (length u))).
Proof.
  intros Hne. destruct a as [eta|eta|th|].
  - pose proof (P_C48_softmax eta u) as H. destruct (act_eval (SoftMax eta) u) as [p|k]; [|congruence]. destruct H as [_ [L H]]. f_equal.
    apply (list_eq_nth 0); [rewrite map_length, seq_length; exact L|]. intros i Hi. rewrite L in Hi.
    rewrite (nth_map_seq (act_value (SoftMax eta) u) (length u) i 0) by exact Hi. apply H, Hi.
  - cbn [act_eval]. f_equal. apply (list_eq_nth 0); [rewrite !map_length, seq_length; reflexivity|]. intros i Hi. rewrite map_length in Hi.
    rewrite (nth_map_in _ _ i 0) by exact Hi. rewrite (nth_map_seq (act_value (Sigmoid eta) u) (length u) i 0) by exact Hi. cbn [act_value].
    replace (- eta * nth i u 0) with (- (eta * nth i u 0)) by ring. unfold Rdiv. ring.
  - cbn [act_eval]. f_equal. apply (list_eq_nth 0); [rewrite !map_length, seq_length; reflexivity|]. intros i Hi. rewrite map_length in Hi.
    rewrite (nth_map_in _ _ i 0) by exact Hi. rewrite (nth_map_seq (act_value (ReLu th) u) (length u) i 0) by exact Hi. cbn [act_value].
    destruct (Rleb_spec (nth i u 0) th); destruct (Rlt_dec th (nth i u 0)); try lra; reflexivity.
  - cbn [act_eval]. f_equal. apply (list_eq_nth 0); [rewrite map_length, seq_length; reflexivity|]. intros i Hi.
    rewrite (nth_map_seq (act_value IdAct u) (length u) i 0) by exact Hi. reflexivity.
Qed.

Lemma forward_value l d1 d0 x : layer_ok l d1 d0 -> (0 < d1)%nat -> length x = d0 -> forward l x = Ok (layer_value l x).
Proof.
  intros [H1 [H2 [H3 [H4 H5]]]] Hd Hx. unfold forward, affine. rewrite H2, Hx, Nat.eqb_refl. cbn [assert_ bind].
  set (u := map (fun p => inner_product (fst p) x + snd p) (combine (l_matrix l) (l_bias l))).
  assert (Lu : length u = d1) by (unfold u; rewrite map_length, combine_length; lia).
  rewrite act_eval_value by (intros E; rewrite E in Lu; simpl in Lu; lia). f_equal. unfold layer_value. rewrite H1, Lu.
  assert (Eu : u = map (fun k => rsum (map (fun j => nth j (nth k (l_matrix l) []) 0 * nth j x 0) (seq 0 (length x))) + nth k (l_bias l) 0) (seq 0 d1)).
  { apply (list_eq_nth 0); [rewrite map_length, seq_length; exact Lu|]. intros k Hk. rewrite Lu in Hk.
    rewrite (nth_map_seq (fun k => rsum (map (fun j => nth j (nth k (l_matrix l) []) 0 * nth j x 0) (seq 0 (length x))) + nth k (l_bias l) 0) d1 k 0) by exact Hk.
    unfold u. rewrite (nth_map_in _ _ k ([], 0)) by (rewrite combine_length; lia). rewrite combine_nth by lia. cbn [fst snd]. f_equal.
    assert (Lr : length (nth k (l_matrix l) []) = length x) by (rewrite Hx; apply H4, nth_In; lia).
    unfold inner_product. rewrite <- Lr. first [apply dot_nth | rewrite dot_nth; reflexivity]; exact Lr. }
  rewrite <- Eu. reflexivity.
Qed.

(** ** C59: on every input of the right dimension the network computes the composition of its layers, each one the
    activation of W x + b *)
Lemma P_C59_network_value :
  forall dims acts net x, net_ok dims acts net -> Forall (lt 0) dims -> length x = hd 0%nat dims ->
  net_eval net x = Ok (net_value net x) /\ length (net_value net x) = last dims 0%nat.
Proof.
  intros dims acts net x Hn F Hx. assert (E : net_eval net x = Ok (net_value net x)).
  { revert x Hx. induction Hn as [d|d0 d1 ds a acts l ls Hl Ha Hn IH]; intros x Hx; [reflexivity|].
    assert (F1 : Forall (lt 0) (d1 :: ds)) by (inversion F; assumption). assert (Hd1 : (0 < d1)%nat) by (inversion F1; assumption). cbn [hd] in Hx.
    cbn [net_eval]. rewrite (forward_value l d1 d0 x Hl Hd1 Hx). cbn [bind]. change (net_value (l :: ls) x) with (net_value ls (layer_value l x)).
    apply IH; [exact F1|]. unfold layer_value. cbv zeta. rewrite map_length, seq_length. apply Hl. }
  split; [exact E|]. destruct (P_C48_forward_shape dims acts net x Hn F Hx) as [p [E' L]]. congruence.
Qed.

(** the regressor answers the single output of the network; on any other task it panics *)
Lemma P_C59_regression :
  forall dims acts net s row x y, net_ok dims acts net -> Forall (lt 0) dims -> last dims 0%nat = 1%nat ->
  at_ s row = Ok (x, y) -> length x = hd 0%nat dims ->
  exists v, net_value net x = [v] /\ nn_regress Regression net s row = Ok v /\
    forall t, t <> Regression -> exists k, nn_regress t net s row = Panic k.
Proof.
  intros dims acts net s row x y Hn F Hd Eat Hx. destruct (P_C59_network_value dims acts net x Hn F Hx) as [E L]. rewrite Hd in L.
  destruct (net_value net x) as [|v [|]] eqn:Ev; simpl in L; try lia. exists v. split; [reflexivity|]. unfold nn_regress.
  rewrite Eat. cbn [bind fst]. rewrite E. cbn [bind]. split; [reflexivity|]. intros t Ht. destruct t; try congruence; eexists; reflexivity.
Qed.

(** hypotheses met: one feature, a hidden ReLU layer of two units, one output; on input 3 it computes
    2*max(3-1,0) + 1*max(-3,0) + 5 = 9 *)
Definition ex_value_net : list layer :=
  [mkLayer 2 1 [[1]; [-1]] [-1; 0] (ReLu 0); mkLayer 1 2 [[2; 1]] [5] IdAct].
Example ex_value_meets :
  net_ok [1; 2; 1]%nat [ReLu 0; IdAct] ex_value_net /\ net_value ex_value_net [3] = [9].
Proof.
  split.
  - constructor; [|reflexivity|constructor; [|reflexivity|constructor]]; unfold layer_ok; simpl; repeat split; try reflexivity; intros r H; repeat (destruct H as [<-|H]; [reflexivity|]); contradiction.
  - unfold net_value, ex_value_net, layer_value. cbn [fold_left length l_nrow l_matrix l_bias l_act seq map nth act_value]. unfold rsum; cbn [fold_right fold_left].
    repeat match goal with |- context [Rlt_dec ?a ?b] => destruct (Rlt_dec a b) end; try lra; f_equal; lra.
Qed.

(** ** C57: a training run is a chain of such steps: n_iter steps on the first minibatch, then n_iter on the second, and
    so on, each one starting from the network the previous one left *)
Lemma P_C57_run_is_a_chain_of_steps :
  forall batches n_iter rate s net net', run_epochs batches n_iter rate s net = Ok net' ->
  exists nets : nat -> list layer, nets 0%nat = net /\ nets (length batches * n_iter)%nat = net' /\
    forall e i, (e < length batches)%nat -> (i < n_iter)%nat ->
      train rate s (nth e batches []) (nets (e * n_iter + i)%nat) = Ok (nets (S (e * n_iter + i))).
Proof.
  intros batches n_iter rate s. induction batches as [|b bs IH]; intros net net' E.
  - cbn [run_epochs] in E. injection E as <-. exists (fun _ => net). split; [reflexivity|]. split; [reflexivity|]. intros e i He. simpl in He. lia.
  - cbn [run_epochs] in E. destruct (iterate_train n_iter rate s b net) as [m|] eqn:Ei; [|discriminate]. cbn [bind] in E.
    assert (It : forall k net, iterate_train k rate s b net = Ok m -> exists nets : nat -> list layer, nets 0%nat = net /\ nets k = m /\ forall i, (i < k)%nat -> train rate s b (nets i) = Ok (nets (S i))).
    { clear. induction k as [|k IHk]; intros net E.
      - cbn [iterate_train] in E. injection E as <-. exists (fun _ => net). split; [reflexivity|]. split; [reflexivity|]. intros i Hi. lia.
      - cbn [iterate_train] in E. destruct (train rate s b net) as [net1|] eqn:E1; [|discriminate]. cbn [bind] in E. destruct (IHk net1 E) as [nets [A [B C]]].
        exists (fun j => match j with O => net | S j' => nets j' end). split; [reflexivity|]. split; [exact B|]. intros [|i] Hi; [rewrite A; exact E1|apply C; lia]. }
    destruct (It n_iter net Ei) as [nets1 [A1 [B1 C1]]]. destruct (IH m net' E) as [nets2 [A2 [B2 C2]]].
    exists (fun j => if Nat.ltb j n_iter then nets1 j else nets2 (j - n_iter)%nat). split; [|split].
    + destruct (Nat.ltb_spec 0 n_iter) as [L|L]; [exact A1|]. assert (n_iter = 0%nat) by lia. subst n_iter. simpl. congruence.
    + cbn [length]. destruct (Nat.ltb_spec (S (length bs) * n_iter) n_iter) as [L|L]; [exfalso; lia|].
      replace (S (length bs) * n_iter - n_iter)%nat with (length bs * n_iter)%nat by lia. exact B2.
    + intros e i He Hi. destruct e as [|e]; cbn [nth].
      * replace (0 * n_iter + i)%nat with i by lia. rewrite (proj2 (Nat.ltb_lt i n_iter)) by exact Hi. rewrite C1 by exact Hi. f_equal.
        destruct (Nat.ltb_spec (S i) n_iter) as [L|L]; [reflexivity|]. assert (S i = n_iter) by lia. rewrite H, B1. replace (n_iter - n_iter)%nat with 0%nat by lia. symmetry. exact A2.
      * simpl in He. destruct (Nat.ltb_spec (S e * n_iter + i) n_iter) as [L|L]; [exfalso; lia|]. destruct (Nat.ltb_spec (S (S e * n_iter + i)) n_iter) as [L'|L']; [exfalso; lia|].
        replace (S e * n_iter + i - n_iter)%nat with (e * n_iter + i)%nat by lia. replace (S (S e * n_iter + i) - n_iter)%nat with (S (e * n_iter + i)) by lia. apply C2; [lia|exact Hi].
Qed.
