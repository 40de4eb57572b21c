(** Facts about the remaining chains of configuration calls (C67) and about the neural network learner (C71). *)
From Coq Require Import String Ascii NArith.
From Verif Require Import Base Spec Utils Booster AdaBoost AdaBoostMore Feature Sample SampleFacts CrossVal CrossValFacts TextSpec Reader Task NN NNSpec NNFacts NNTrain NNTrainFacts
  Logger Research BuilderSpec Builders BuildersFacts Settings.
Open Scope R_scope.

(** ** C67: the reader of files.  Any chain of calls is accepted, and the last call of each kind counts. *)
Lemma P_C67_sample_reader :
  forall calls : list rd_call, exists r, apply_calls reader_call reader_default calls = Ok r /\
  rd_file r = last_set rd_pick_file None calls /\ rd_header r = last_set rd_pick_header false calls /\ rd_target r = last_set rd_pick_target None calls.
Proof.
  intros calls.
  destruct (calls_ok reader_call (fun _ => True) (fun _ => True) ltac:(intros s a _ _; eexists; split; [reflexivity|exact I]) calls reader_default I (fun _ _ => I)) as [r E].
  exists r. split; [exact E|]. repeat split; refine (calls_field _ _ _ _ calls _ r E); intros s0 [b|f|t] s' E'; inversion E'; reflexivity.
Qed.

(** ** C67: cross validation.  A ratio must lie strictly between 0 and 1; the training part then has floor(ratio * n) rows
    (0.8 and 5 folds by default). *)
Lemma P_C67_cross_validation :
  forall (s : sample) (calls : list cv_call), let n := INR (fst (shape s)) in
  ((forall r, In (VRatio r) calls -> 0 < r < 1) -> exists c, apply_calls crossval_call (cv_new s) calls = Ok c /\
     INR (cv_train_size c) <= last_set cv_pick_ratio 0.8 calls * n < INR (cv_train_size c) + 1 /\
     cv_n_folds c = last_set cv_pick_folds 5%nat calls /\ cv_ix c = last_set cv_pick_order (seq 0 (fst (shape s))) calls /\
     cv_sample c = s /\ cv_current_fold c = 0%nat) /\
  (forall r, In (VRatio r) calls -> ~ (0 < r < 1) -> apply_calls crossval_call (cv_new s) calls = Panic AssertFailed).
Proof.
  intros s calls n.
  assert (Hs : forall c a c', cv_sample c = s -> crossval_call c a = Ok c' -> cv_sample c' = s).
  { intros c [r|k|o] c' Hc E; cbn [crossval_call] in E; [|inversion E; exact Hc|inversion E; exact Hc].
    unfold cv_train_ratio in E. destruct (Rltb 0 r && Rltb r 1)%bool; [|discriminate]. inversion E. exact Hc. }
  split.
  - intros Hg.
    destruct (calls_ok crossval_call (fun c => cv_sample c = s) (fun a => match a with VRatio r => 0 < r < 1 | _ => True end)) with (l := calls) (s := cv_new s) as [c E].
    + intros c [r|k|o] Hc Hr; cbn [crossval_call]; [|eexists; split; [reflexivity|exact Hc]|eexists; split; [reflexivity|exact Hc]].
      unfold cv_train_ratio. rewrite !Rltb_true by lra. cbn [andb assert_ bind]. eexists. split; [reflexivity|exact Hc].
    + reflexivity.
    + intros [r|k|o] Hin; [apply Hg, Hin|exact I|exact I].
    + exists c. split; [exact E|]. split; [|split; [|split; [|split]]].
      * assert (G : forall l c0 ratio c1, cv_sample c0 = s -> 0 <= ratio -> INR (cv_train_size c0) <= ratio * n < INR (cv_train_size c0) + 1 ->
          apply_calls crossval_call c0 l = Ok c1 -> INR (cv_train_size c1) <= last_set cv_pick_ratio ratio l * n < INR (cv_train_size c1) + 1).
        { assert (Hn : 0 <= n) by apply pos_INR.
          induction l as [|a l IH]; intros c0 ratio c1 Hc Hr H E0; cbn [apply_calls] in E0; [inversion E0; subst; exact H|].
          destruct (crossval_call c0 a) as [c2|] eqn:E1; [|discriminate]. cbn [bind] in E0. unfold last_set. cbn [fold_left].
          destruct a as [r|k|o]; cbn [cv_pick_ratio crossval_call] in *.
          - unfold cv_train_ratio in E1. destruct (Rltb_spec 0 r) as [R1|R1]; [|discriminate]. destruct (Rltb r 1); [|discriminate]. cbn [andb assert_ bind] in E1. injection E1 as <-.
            apply (IH (mkCV (as_usize (r * INR (fst (shape (cv_sample c0))))) (cv_current_fold c0) (cv_n_folds c0) (cv_sample c0) (cv_ix c0)) r c1); [exact Hc|lra| |exact E0].
            cbn [cv_train_size]. rewrite Hc. fold n. split; [apply as_usize_le; nra|apply as_usize_gt].
          - injection E1 as <-. apply (IH (cv_set_n_folds c0 k) ratio c1); assumption.
          - injection E1 as <-. apply (IH (cv_shuffle c0 o) ratio c1); assumption. }
        apply (G calls (cv_new s) 0.8 c); [reflexivity|lra| |exact E]. unfold cv_new. cbn [cv_train_size]. fold n. rewrite (Rmult_comm 0.8). assert (0 <= n) by apply pos_INR.
        split; [apply as_usize_le; nra|apply as_usize_gt].
      * refine (calls_field crossval_call cv_n_folds cv_pick_folds _ calls _ c E). intros c0 [r|k|o] c' E'; cbn [crossval_call] in E'; [|inversion E'; reflexivity|inversion E'; reflexivity].
        unfold cv_train_ratio in E'. destruct (Rltb 0 r && Rltb r 1)%bool; [|discriminate]. inversion E'. reflexivity.
      * refine (calls_field crossval_call cv_ix cv_pick_order _ calls _ c E). intros c0 [r|k|o] c' E'; cbn [crossval_call] in E'; [|inversion E'; reflexivity|inversion E'; reflexivity].
        unfold cv_train_ratio in E'. destruct (Rltb 0 r && Rltb r 1)%bool; [|discriminate]. inversion E'. reflexivity.
      * apply (calls_inv crossval_call (fun c => cv_sample c = s) Hs calls (cv_new s) c eq_refl E).
      * apply (calls_inv crossval_call (fun c => cv_current_fold c = 0%nat)) with (l := calls) (s := cv_new s) (s' := c); [|reflexivity|exact E].
        intros c0 [r|k|o] c' Hc E'; cbn [crossval_call] in E'; [|inversion E'; exact Hc|inversion E'; exact Hc].
        unfold cv_train_ratio in E'. destruct (Rltb 0 r && Rltb r 1)%bool; [|discriminate]. inversion E'. exact Hc.
  - intros r Hin Hr. apply (calls_bad crossval_call (fun c => cv_sample c = s) AssertFailed (VRatio r)); [exact Hs| | |reflexivity|exact Hin].
    + intros c [r'|k|o] q Hc E; cbn [crossval_call] in E; [|discriminate|discriminate]. unfold cv_train_ratio in E. destruct (Rltb 0 r' && Rltb r' 1)%bool; inversion E; reflexivity.
    + intros c Hc. cbn [crossval_call]. unfold cv_train_ratio. destruct (Rltb_spec 0 r), (Rltb_spec r 1); cbn [andb assert_ bind]; try reflexivity. lra.
Qed.

(** ** C67: the neural network.  The layers appended are the layers of the network, in that order; the initial size of a
    minibatch is the largest of 128, 64, 32, ..., 2, 1 that the sample can fill. *)
Lemma halve_le f size n : (halve_until f size n <= size)%nat.
Proof.
  revert size. induction f as [|f IH]; intros size; [reflexivity|]. cbn [halve_until]. destruct (Nat.ltb n size); [|reflexivity].
  eapply Nat.le_trans; [apply IH|]. apply Nat.div_le_upper_bound; lia.
Qed.

Lemma P_C67_neural_network :
  forall (s : sample) (calls : list nn_call), exists c, apply_calls network_call (nn_init s) calls = Ok c /\
  nn_dims c = snd (shape s) :: map fst (appended calls) /\ nn_acts c = map snd (appended calls) /\
  nn_epochs c = last_set nn_pick_epochs 100%nat calls /\ nn_iters c = last_set nn_pick_iters 200%nat calls /\
  nn_task c = last_set nn_pick_task Binary calls /\
  exists initial, nn_batch_size c = last_set nn_pick_batch initial calls /\
    (fst (shape s) = 0%nat -> initial = 0%nat) /\
    ((0 < fst (shape s))%nat -> exists k, (k <= 7)%nat /\ initial = Nat.pow 2 k /\ (Nat.pow 2 k <= fst (shape s))%nat /\
       ((k < 7)%nat -> (fst (shape s) < Nat.pow 2 (S k))%nat)).
Proof.
  intros s calls.
  destruct (calls_ok network_call (fun _ => True) (fun _ => True) ltac:(intros c a _ _; eexists; split; [reflexivity|exact I]) calls (nn_init s) I (fun _ _ => I)) as [c E].
  exists c. split; [exact E|].
  assert (L : forall l c0 c1, apply_calls network_call c0 l = Ok c1 -> nn_dims c1 = nn_dims c0 ++ map fst (appended l) /\ nn_acts c1 = nn_acts c0 ++ map snd (appended l)).
  { induction l as [|a l IH]; intros c0 c1 E0; cbn [apply_calls] in E0; [inversion E0; rewrite !app_nil_r; auto|].
    cbn [network_call bind] in E0. destruct (IH _ c1 E0) as [-> ->]. destruct a as [d act|k|k|k|t]; cbn [nn_dims nn_acts appended flat_map app map]; try (split; reflexivity).
    rewrite <- !app_assoc. split; reflexivity. }
  destruct (L calls _ c E) as [-> ->]. split; [reflexivity|]. split; [reflexivity|].
  split; [|split; [|split]]; [refine (calls_field _ _ _ _ calls _ c E); intros s0 [d act|k|k|k|t] s' E'; inversion E'; reflexivity ..|].
  exists (nn_batch_size (nn_init s)). split; [refine (calls_field _ _ _ _ calls _ c E); intros s0 [d act|k|k|k|t] s' E'; inversion E'; reflexivity|].
  unfold nn_init. cbn [nn_batch_size]. generalize (fst (shape s)). clear. intros n.
  split.
  - intros ->. reflexivity.
  - intros Hn.
    assert (D : (128 <= n \/ 64 <= n < 128 \/ 32 <= n < 64 \/ 16 <= n < 32 \/ 8 <= n < 16 \/ 4 <= n < 8 \/ 2 <= n < 4 \/ n = 1)%nat) by lia.
    assert (St : forall f size, (n < size)%nat -> halve_until (S f) size n = halve_until f (size / 2) n).
    { intros f size Hlt. cbn [halve_until]. destruct (Nat.ltb_spec n size); [reflexivity|lia]. }
    assert (Fi : forall f size, (size <= n)%nat -> halve_until f size n = size).
    { intros f size Hle. destruct f; [reflexivity|]. cbn [halve_until]. destruct (Nat.ltb_spec n size); [lia|reflexivity]. }
    destruct D as [D|[D|[D|[D|[D|[D|[D|D]]]]]]].
    + exists 7%nat. rewrite Fi by exact D. change (Nat.pow 2 7) with 128%nat. repeat split; try lia.
    + exists 6%nat. rewrite St by lia. change (128 / 2)%nat with 64%nat. rewrite Fi by lia. change (Nat.pow 2 6) with 64%nat. change (Nat.pow 2 7) with 128%nat. repeat split; try lia.
    + exists 5%nat. rewrite St by lia. change (128 / 2)%nat with 64%nat. rewrite St by lia. change (64 / 2)%nat with 32%nat. rewrite Fi by lia. change (Nat.pow 2 5) with 32%nat. change (Nat.pow 2 6) with 64%nat. repeat split; try lia.
    + exists 4%nat. rewrite St by lia. change (128 / 2)%nat with 64%nat. rewrite St by lia. change (64 / 2)%nat with 32%nat. rewrite St by lia. change (32 / 2)%nat with 16%nat. rewrite Fi by lia. change (Nat.pow 2 4) with 16%nat. change (Nat.pow 2 5) with 32%nat. repeat split; try lia.
    + exists 3%nat. rewrite St by lia. change (128 / 2)%nat with 64%nat. rewrite St by lia. change (64 / 2)%nat with 32%nat. rewrite St by lia. change (32 / 2)%nat with 16%nat. rewrite St by lia. change (16 / 2)%nat with 8%nat. rewrite Fi by lia. change (Nat.pow 2 3) with 8%nat. change (Nat.pow 2 4) with 16%nat. repeat split; try lia.
    + exists 2%nat. rewrite St by lia. change (128 / 2)%nat with 64%nat. rewrite St by lia. change (64 / 2)%nat with 32%nat. rewrite St by lia. change (32 / 2)%nat with 16%nat. rewrite St by lia. change (16 / 2)%nat with 8%nat. rewrite St by lia. change (8 / 2)%nat with 4%nat. rewrite Fi by lia. change (Nat.pow 2 2) with 4%nat. change (Nat.pow 2 3) with 8%nat. repeat split; try lia.
    + exists 1%nat. rewrite St by lia. change (128 / 2)%nat with 64%nat. rewrite St by lia. change (64 / 2)%nat with 32%nat. rewrite St by lia. change (32 / 2)%nat with 16%nat. rewrite St by lia. change (16 / 2)%nat with 8%nat. rewrite St by lia. change (8 / 2)%nat with 4%nat. rewrite St by lia. change (4 / 2)%nat with 2%nat. rewrite Fi by lia. change (Nat.pow 2 1) with 2%nat. change (Nat.pow 2 2) with 4%nat. repeat split; try lia.
    + exists 0%nat. rewrite D. change (Nat.pow 2 0) with 1%nat. change (Nat.pow 2 1) with 2%nat. repeat split; try lia; try reflexivity.
Qed.

(** ** C67: the builder of loggers.  With times that fit 64 bits no call panics, the limit is the last one given, in
    milliseconds; [build] succeeds iff all six components were given, and then uses the last of each. *)
Lemma u128_small a b : (a * b <= u128_max)%N -> u128_mul a b = Ok (a * b)%N.
Proof. intros Hle. unfold u128_mul. destruct (N.leb_spec (a * b) u128_max); [reflexivity|lia]. Qed.

Lemma P_C67_logger :
  forall (B W F G S : Type) (calls : list (lg_call B W F G S)),
  (forall t, In (GSecs t) calls \/ In (GMins t) calls -> (t < 2 ^ 64)%N) ->
  exists l, apply_calls logger_call lgb_new calls = Ok l /\
  let limit := last_set lg_pick_limit u128_max calls in
  let every := last_set lg_pick_round 100%N calls in
  (forall b w f g tr te, last_set lg_pick_booster None calls = Some b -> last_set lg_pick_learner None calls = Some w ->
     last_set lg_pick_objective None calls = Some f -> last_set lg_pick_loss None calls = Some g ->
     last_set lg_pick_train None calls = Some tr -> last_set lg_pick_test None calls = Some te ->
     lgb_build l = Ok (mkLogger b w f g tr te limit every) /\
     (limit = u128_max -> every = 100%N -> lgb_build l = Ok (logger_new b w f g tr te))) /\
  ((exists lg, lgb_build l = Ok lg) ->
     last_set lg_pick_booster None calls <> None /\ last_set lg_pick_learner None calls <> None /\ last_set lg_pick_objective None calls <> None /\
     last_set lg_pick_loss None calls <> None /\ last_set lg_pick_train None calls <> None /\ last_set lg_pick_test None calls <> None).
Proof.
  intros B W F G S calls Ht.
  assert (M : forall t, (t < 2 ^ 64)%N -> u128_mul t 1000 = Ok (1000 * t)%N /\ u128_mul t 60 = Ok (t * 60)%N /\ u128_mul (t * 60) 1000 = Ok (60000 * t)%N).
  { intros t Hlt. change (2 ^ 64)%N with 18446744073709551616%N in Hlt. repeat split; rewrite u128_small by (unfold u128_max; lia); f_equal; lia. }
  destruct (calls_ok (@logger_call B W F G S) (fun _ => True) (fun c => match c with GSecs t | GMins t => (t < 2 ^ 64)%N | _ => True end)) with (l := calls) (s := @lgb_new B W F G S) as [l E].
  - intros l c _ Q. destruct c; cbn [logger_call]; try (eexists; split; [reflexivity|exact I]).
    + rewrite (proj1 (M t Q)). cbn [bind]. eexists. split; [reflexivity|exact I].
    + destruct (M t Q) as [_ [-> M2]]. cbn [bind]. rewrite M2. cbn [bind]. eexists. split; [reflexivity|exact I].
  - exact I.
  - intros c Hin. destruct c; try exact I; apply Ht; [left|right]; exact Hin.
  - exists l. split; [exact E|].
    assert (Ff : forall (A : Type) (field : lgb B W F G S -> A) pick, (forall l0 c l', logger_call l0 c = Ok l' -> field l' = match pick c with Some v => v | None => field l0 end) -> field l = last_set pick (field lgb_new) calls).
    { intros A field pick Hst. exact (calls_field logger_call field pick Hst calls _ l E). }
    assert (Cs : forall l0 c l', logger_call (B:=B) (W:=W) (F:=F) (G:=G) (S:=S) l0 c = Ok l' ->
       match c with GSecs t => l' = with_limit l0 (1000 * t)%N | GMins t => l' = with_limit l0 (60000 * t)%N | _ => True end).
    { intros l0 c l' E'. destruct c; try exact I; cbn [logger_call] in E'.
      - unfold u128_mul in E'. destruct (t * 1000 <=? u128_max)%N; [|discriminate]. cbn [bind] in E'. injection E' as <-. f_equal. lia.
      - unfold u128_mul in E'. destruct (t * 60 <=? u128_max)%N; [|discriminate]. cbn [bind] in E'. destruct (t * 60 * 1000 <=? u128_max)%N; [|discriminate]. cbn [bind] in E'. injection E' as <-. f_equal. lia. }
    assert (F1 := Ff _ lg_booster lg_pick_booster). assert (F2 := Ff _ lg_learner lg_pick_learner). assert (F3 := Ff _ lg_objective lg_pick_objective).
    assert (F4 := Ff _ lg_loss lg_pick_loss). assert (F5 := Ff _ lg_train lg_pick_train). assert (F6 := Ff _ lg_test lg_pick_test).
    assert (F7 := Ff _ lg_time_limit lg_pick_limit). assert (F8 := Ff _ lg_round lg_pick_round).
    assert (Q : forall (X : Prop), X -> X) by auto.
    specialize (F1 ltac:(intros l0 c l' E'; pose proof (Cs l0 c l' E') as C'; destruct c; cbn [logger_call] in E'; try subst l'; try (injection E' as <-); reflexivity)).
    specialize (F2 ltac:(intros l0 c l' E'; pose proof (Cs l0 c l' E') as C'; destruct c; cbn [logger_call] in E'; try subst l'; try (injection E' as <-); reflexivity)).
    specialize (F3 ltac:(intros l0 c l' E'; pose proof (Cs l0 c l' E') as C'; destruct c; cbn [logger_call] in E'; try subst l'; try (injection E' as <-); reflexivity)).
    specialize (F4 ltac:(intros l0 c l' E'; pose proof (Cs l0 c l' E') as C'; destruct c; cbn [logger_call] in E'; try subst l'; try (injection E' as <-); reflexivity)).
    specialize (F5 ltac:(intros l0 c l' E'; pose proof (Cs l0 c l' E') as C'; destruct c; cbn [logger_call] in E'; try subst l'; try (injection E' as <-); reflexivity)).
    specialize (F6 ltac:(intros l0 c l' E'; pose proof (Cs l0 c l' E') as C'; destruct c; cbn [logger_call] in E'; try subst l'; try (injection E' as <-); reflexivity)).
    specialize (F7 ltac:(intros l0 c l' E'; pose proof (Cs l0 c l' E') as C'; destruct c; cbn [logger_call] in E'; try subst l'; try (injection E' as <-); reflexivity)).
    specialize (F8 ltac:(intros l0 c l' E'; pose proof (Cs l0 c l' E') as C'; destruct c; cbn [logger_call] in E'; try subst l'; try (injection E' as <-); reflexivity)).
    cbn [lgb_new lg_booster lg_learner lg_objective lg_loss lg_train lg_test lg_time_limit lg_round] in F1, F2, F3, F4, F5, F6, F7, F8.
    cbn zeta. rewrite <- F1, <- F2, <- F3, <- F4, <- F5, <- F6, <- F7, <- F8. unfold lgb_build. split.
    + intros b w f g tr te -> -> -> -> -> ->. cbn [expect bind]. split; [reflexivity|]. intros -> ->. reflexivity.
    + destruct (lg_booster l), (lg_learner l), (lg_objective l), (lg_loss l), (lg_train l), (lg_test l); cbn [expect bind]; intros [lg Elg]; try discriminate Elg; repeat split; discriminate.
Qed.

(** ** C71: the neural network learner.  Whatever initial weights Layer::new draws and whatever rows the minibatches
    contain, [produce] returns a network whose layers are the ones that were appended -- provided at least one
    layer was appended, the dimensions are positive and the labels fit the output dimension. *)
Lemma layer_new_ok draw r c a : layer_ok (layer_new draw r c a) r c.
Proof.
  unfold layer_ok, layer_new. cbn [l_nrow l_ncol l_matrix l_bias]. repeat split; try (rewrite map_length, seq_length; reflexivity).
  intros row Hr. apply in_map_iff in Hr. destruct Hr as [i [<- _]]. rewrite map_length, seq_length. reflexivity.
Qed.
Lemma new_layers_ok draws : forall (ls : list (nat * activation)) k d, net_ok (d :: map fst ls) (map snd ls) (new_layers draws k d (map fst ls) (map snd ls)).
Proof.
  intros ls. induction ls as [|[d1 a] ls IH]; intros k d; cbn [map fst snd new_layers]; [constructor|].
  constructor; [apply layer_new_ok|reflexivity|apply IH].
Qed.

Lemma P_C71_learner_returns :
  forall (s : sample) (calls : list nn_call) draws batches,
  let dims := snd (shape s) :: map fst (appended calls) in
  appended calls <> [] -> (forall b, In b batches -> fits s dims b) ->
  exists c net, apply_calls network_call (nn_init s) calls = Ok c /\ nn_produce c draws batches s = Ok net /\
    net_ok dims (map snd (appended calls)) net /\
    (Forall (lt 0) dims -> forall x, length x = snd (shape s) -> exists p, net_eval net x = Ok p /\ length p = fst (last (appended calls) (0%nat, IdAct))).
Proof.
  intros s calls draws batches dims Hne Hb. destruct (P_C67_neural_network s calls) as [c [E [Ed [Ea _]]]]. exists c.
  unfold nn_produce. rewrite Ed, Ea.
  destruct (P_C48_training_run batches (nn_iters c) (/ 1000 / INR (nn_batch_size c)) s dims (map snd (appended calls)) (new_layers draws 0 (snd (shape s)) (map fst (appended calls)) (map snd (appended calls)))) as [net [En Hn]]; [apply new_layers_ok| |exact Hb|].
  - destruct (appended calls) as [|[d a] ls]; [congruence|discriminate].
  - exists net. split; [exact E|]. split; [exact En|]. split; [exact Hn|]. intros Fd x Hx.
    destruct (net_eval_ok dims _ net Hn Fd x Hx) as [E1 E2]. exists (netv net x). split; [exact E1|]. rewrite E2. unfold dims.
    clear -Hne. destruct (appended calls) as [|p ls]; [congruence|]. clear Hne. revert p. induction ls as [|p' ls IH]; intros p; [reflexivity|].
    change (last (snd (shape s) :: map fst (p :: p' :: ls)) 0%nat) with (last (snd (shape s) :: map fst (p' :: ls)) 0%nat). rewrite IH. reflexivity.
Qed.

(** with no epochs or no iterations the network is the initial one: the drawn weights, layer by layer *)
Lemma P_C71_initial_weights :
  forall (s : sample) (calls : list nn_call) draws k i j, (k < length (appended calls))%nat ->
  let width := nth k (snd (shape s) :: map fst (appended calls)) 0%nat in
  let height := fst (nth k (appended calls) (0%nat, IdAct)) in
  exists c net, apply_calls network_call (nn_init s) calls = Ok c /\ nn_produce c draws [] s = Ok net /\
  ((i < height)%nat -> (j < width)%nat -> weight net k i j = draws k (i * width + j)%nat) /\
  ((i < height)%nat -> bias net k i = draws k (height * width + i)%nat).
Proof.
  intros s calls draws k i j Hk width height. destruct (P_C67_neural_network s calls) as [c [E [Ed [Ea _]]]]. exists c.
  unfold nn_produce. rewrite Ed, Ea. eexists. split; [exact E|]. split; [reflexivity|].
  assert (G : forall (ls : list (nat * activation)) k0 d k1, (k1 < length ls)%nat ->
    nth k1 (new_layers draws k0 d (map fst ls) (map snd ls)) dummy_layer =
    layer_new (draws (k0 + k1)%nat) (fst (nth k1 ls (0%nat, IdAct))) (nth k1 (d :: map fst ls) 0%nat) (snd (nth k1 ls (0%nat, IdAct)))).
  { induction ls as [|[d1 a] ls IH]; intros k0 d k1 Hk1; [simpl in Hk1; lia|]. destruct k1 as [|k1].
    - cbn [map fst snd new_layers nth]. rewrite Nat.add_0_r. reflexivity.
    - cbn [map fst snd new_layers nth]. rewrite IH by (simpl in Hk1; lia). replace (S k0 + k1)%nat with (k0 + S k1)%nat by lia. destruct k1; reflexivity. }
  unfold weight, bias. rewrite G by exact Hk. fold width height. cbn [plus]. unfold layer_new. cbn [l_matrix l_bias]. split.
  - intros Hi Hj. rewrite (nth_map_seq _ height i []) by exact Hi. rewrite (nth_map_seq _ width j 0) by exact Hj. reflexivity.
  - intros Hi. rewrite (nth_map_seq _ height i 0) by exact Hi. reflexivity.
Qed.

(** a learner to which no layer was appended panics as soon as there is an epoch with an iteration *)
Lemma P_C71_no_layer :
  forall (s : sample) (calls : list nn_call) draws b batches, appended calls = [] -> last_set nn_pick_iters 200%nat calls <> 0%nat ->
  exists c, apply_calls network_call (nn_init s) calls = Ok c /\ exists k, nn_produce c draws (b :: batches) s = Panic k.
Proof.
  intros s calls draws b batches Hn Hi. destruct (P_C67_neural_network s calls) as [c [E [Ed [Ea [_ [Ei _]]]]]]. exists c. split; [exact E|].
  unfold nn_produce. rewrite Ed, Ea, Hn. cbn [map new_layers run_epochs]. rewrite Ei.
  destruct (last_set nn_pick_iters 200%nat calls); [congruence|]. cbn [iterate_train]. unfold train, output_dim. cbn [rev]. cbn [bind]. eexists. reflexivity.
Qed.

(** a learner with two layers on a sample of two rows meets the hypotheses *)
Example C71_hypotheses_met : let calls := [NEpoch 2; NAppend 1 (ReLu 0); NIter 3; NAppend 2 (SoftMax 1)] in
  appended calls = [(1%nat, ReLu 0); (2%nat, SoftMax 1)] /\ last_set nn_pick_iters 200%nat calls = 3%nat /\
  (forall b, In b [[1; 0]; [0; 1]]%nat -> fits ex_s (snd (shape ex_s) :: map fst (appended calls)) b).
Proof.
  split; [reflexivity|]. split; [reflexivity|]. intros b [<-|[<-|[]]]; [exact ex_fits|].
  destruct ex_fits as [A1 [A2 [A3 [A4 [A5 A6]]]]]. repeat split; try assumption; [discriminate|apply A6|apply A6]; destruct H as [<-|[<-|[]]]; simpl; auto.
Qed.

Example C67_logger_ex : let calls := [GBooster 1; GWeakLearner 2; GObjective 3; GSecs 5; GLoss 4; GTrain 5; GTest 6; GMins 2]%N in
  (forall t, In (GSecs t) calls \/ In (GMins t) calls -> (t < 2 ^ 64)%N) /\ last_set lg_pick_limit u128_max calls = 120000%N /\ last_set lg_pick_booster None calls = Some 1%N.
Proof.
  split; [|split; reflexivity]. intros t [H|H]; repeat (destruct H as [H|H]; [inversion H; subst; reflexivity|]); destruct H.
Qed.
