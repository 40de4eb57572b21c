(** Back-propagation computes gradients (lemmas used by NNTrainFacts). *)
From Verif Require Import Base Spec SortLib Utils UtilsProofs AdaBoost AdaBoostMore Feature Sample Task TaskFacts NN NNSpec NNFacts NNTrain.
Open Scope R_scope.

Lemma rsum_swap2 {A B} (f : A -> B -> R) l l' :
  rsum (map (fun a => rsum (map (fun b => f a b) l')) l) = rsum (map (fun b => rsum (map (fun a => f a b) l)) l').
Proof.
  induction l as [|a l IH]; simpl; [symmetry; rewrite rsum_map_const; lra|]. rewrite IH, <- rsum_map_plus. reflexivity.
Qed.

Lemma dot_sum n a b : length a = n -> length b = n -> dot a b = rsum (map (fun k => nth k a 0 * nth k b 0) (seq 0 n)).
Proof.
  intros Ha Hb. unfold dot. f_equal. apply (list_eq_nth 0); [rewrite zipmul_length, map_length, seq_length; lia|].
  intros k Hk. rewrite nth_zipmul by congruence. rewrite zipmul_length in Hk. rewrite nth_map_seq by lia. reflexivity.
Qed.

(** the vector function f has derivative d (of dimension n) at t0 *)
Definition Dv (n : nat) (f : R -> list R) (t0 : R) (d : list R) : Prop :=
  (forall t, length (f t) = n) /\ length d = n /\ forall k, (k < n)%nat -> derivable_pt_lim (fun t => nth k (f t) 0) t0 (nth k d 0).

(** the derivative of an affine layer *)
Definition mv (M : list (list R)) (v : list R) : list R := map (fun r => dot r v) M.

Lemma Dv_aff l r c f t0 d : layer_ok l r c -> Dv c f t0 d -> Dv r (fun t => aff l (f t)) t0 (mv (l_matrix l) d).
Proof.
  intros Hl [Lf [Ld Hd]]. pose proof Hl as [E1 [E2 [E3 [E4 E5]]]].
  split; [intros t; apply (affine_ok l r c (f t) Hl (Lf t))|]. split; [unfold mv; rewrite map_length; exact E3|].
  intros k Hk. unfold mv. rewrite (nth_map_in _ _ k []) by lia.
  assert (Lr : length (nth k (l_matrix l) []) = c) by (apply E4, nth_In; lia).
  apply (dlim_ext (fun t => rsum (map (fun j => nth j (nth k (l_matrix l) []) 0 * nth j (f t) 0) (seq 0 c)) + nth k (l_bias l) 0)).
  { intros t. rewrite (aff_nth l r c _ k Hl Hk). f_equal. symmetry. apply dot_sum; [exact Lr|apply Lf]. }
  rewrite (dot_sum c) by assumption.
  eapply dlim_eq; [apply dlim_plus; [|apply derivable_pt_lim_const]|apply Rplus_0_r].
  apply (dlim_sum (seq 0 c) (fun j t => nth j (nth k (l_matrix l) []) 0 * nth j (f t) 0)). intros j Hj. apply in_seq in Hj. apply dlim_scal. apply Hd. lia.
Qed.

(** a hidden activation that is differentiable at u *)
Definition hidden_ok (a : activation) (u : list R) : Prop := a = IdAct \/ exists th, a = ReLu th /\ ~ In th u.

Lemma Dv_act a n u t0 d : hidden_ok a (u t0) -> Dv n u t0 d -> Dv n (fun t => actv a (u t)) t0 (zipmul (dfv a (u t0)) d).
Proof.
  intros Ha [Lu [Ld Hd]]. destruct Ha as [->|[th [-> Hth]]].
  - unfold actv, dfv; cbn [act_eval act_diff]. split; [exact Lu|]. split; [rewrite zipmul_length, repeat_length, Lu; lia|]. intros k Hk.
    rewrite nth_zipmul by (rewrite repeat_length, Lu; congruence). rewrite nth_repeat_lt by (rewrite Lu; exact Hk). rewrite Rmult_1_l. apply Hd, Hk.
  - unfold actv, dfv; cbn [act_eval act_diff]. split; [intros t; rewrite map_length; apply Lu|]. split; [rewrite zipmul_length, map_length, Lu; lia|]. intros k Hk.
    rewrite nth_zipmul by (rewrite map_length, Lu; congruence). rewrite (nth_map_in _ (u t0) k 0) by (rewrite Lu; exact Hk).
    apply (dlim_ext (fun t => (fun v => if Rleb v th then 0 else v) (nth k (u t) 0))).
    { intros t. rewrite (nth_map_in _ (u t) k 0) by (rewrite Lu; exact Hk). reflexivity. }
    apply (dlim_comp (fun t => nth k (u t) 0) (fun v => if Rleb v th then 0 else v)); [apply Hd, Hk|]. apply dlim_relu. intros E. apply Hth. rewrite <- E. apply nth_In. rewrite Lu. exact Hk.
Qed.

(** an output activation matched with a loss: the derivative of the loss in the pre-activation is output - target *)
Definition good_output (loss : list R -> list R -> R) (a : activation) (y : list R) : Prop :=
  forall u t0 d, Dv (length y) u t0 d -> derivable_pt_lim (fun t => loss (actv a (u t)) y) t0 (dot (loss_diff (actv a (u t0)) y) d).

Definition act_last (net : list layer) : activation := l_act (last net dummy_layer).

Fixpoint smooth (net : list layer) (x : list R) : Prop :=
  match net with
  | [] => True
  | l :: rest => match rest with [] => True | _ => hidden_ok (l_act l) (aff l x) /\ smooth rest (z1 l x) end
  end.

Lemma vm_nth d M n m j : length d = n -> length M = n -> (0 < n)%nat -> (forall r, In r M -> length r = m) -> (j < m)%nat ->
  nth j (vm d M) 0 = rsum (map (fun k => nth k d 0 * nth j (nth k M []) 0) (seq 0 n)).
Proof.
  intros Hd HM Hn Hr Hj. unfold vm. assert (Hh : length (hd [] M) = m) by (destruct M as [|r0 M]; [simpl in HM; lia|]; apply Hr; left; reflexivity).
  rewrite nth_map_seq by (rewrite Hh; exact Hj). rewrite Hd. reflexivity.
Qed.

(** transposition: <d M, v> = <d, M v> *)
Lemma vm_mv d M n m v : length d = n -> length M = n -> (0 < n)%nat -> (forall r, In r M -> length r = m) -> length v = m ->
  dot d (mv M v) = dot (vm d M) v.
Proof.
  intros Hd HM Hn Hr Hv. rewrite (dot_sum n d) by (try assumption; unfold mv; rewrite map_length; assumption).
  rewrite (dot_sum m) by (try assumption; apply (vm_length d M n m); assumption).
  transitivity (rsum (map (fun k => rsum (map (fun j => nth k d 0 * (nth j (nth k M []) 0 * nth j v 0)) (seq 0 m))) (seq 0 n))).
  - apply rsum_map_ext. intros k Hk. apply in_seq in Hk. rewrite (rsum_map_mult (nth k d 0)). f_equal. unfold mv. rewrite (nth_map_in _ M k []) by lia.
    apply dot_sum; [apply Hr, nth_In; lia|exact Hv].
  - rewrite rsum_swap2. apply rsum_map_ext. intros j Hj. apply in_seq in Hj. rewrite (vm_nth d M n m) by (assumption || lia).
    rewrite Rmult_comm, <- rsum_map_mult. apply rsum_map_ext. intros k _. ring.
Qed.

Lemma dot_zipmul a b c n : length a = n -> length b = n -> length c = n -> dot a (zipmul b c) = dot (zipmul b a) c.
Proof.
  intros Ha Hb Hc. rewrite (dot_sum n), (dot_sum n); try assumption; try (rewrite zipmul_length; lia).
  apply rsum_map_ext. intros k _. rewrite !nth_zipmul by congruence. ring.
Qed.

Lemma delta1_cons l l1 rest x y : delta1 (l :: l1 :: rest) x y = zipmul (dfv (l_act l) (aff l x)) (vm (delta1 (l1 :: rest) (z1 l x) y) (l_matrix l1)).
Proof. reflexivity. Qed.

(** the derivative of the loss when the pre-activation of the first layer moves *)
Lemma backprop loss dims acts net : net_ok dims acts net -> Forall (lt 0) dims -> forall l rest, net = l :: rest ->
  forall x y u t0 d, length x = hd 0%nat dims -> length y = last dims 0%nat -> good_output loss (act_last net) y -> smooth net x ->
  u t0 = aff l x -> Dv (nth 1 dims 0%nat) u t0 d ->
  derivable_pt_lim (fun t => loss (netv rest (actv (l_act l) (u t))) y) t0 (dot (delta1 net x y) d).
Proof.
  intros Hok. induction Hok as [d|d0 d1 ds a acts l ls Hl Ha Hn IH]; intros F l' rest Enet x y u t0 du Hx Hy Hout Hsm Hu HDu; [discriminate|].
  injection Enet as <- <-. assert (F1 : Forall (lt 0) (d1 :: ds)) by (inversion F; assumption).
  assert (Hd1 : (0 < d1)%nat) by (inversion F1; assumption). cbn [hd nth] in *.
  destruct ls as [|l1 rest].
  - assert (ds = []) by (inversion Hn; reflexivity). subst ds. simpl in Hy. cbn [netv delta1]. unfold z1. rewrite <- Hu.
    unfold act_last in Hout. simpl in Hout. apply Hout. rewrite Hy. exact HDu.
  - destruct Hsm as [Hh Hsm].
    assert (G : exists d2 ds', ds = d2 :: ds' /\ layer_ok l1 d2 d1 /\ (0 < d2)%nat).
    { inversion Hn as [|? d2 ds' ? ? ? ? Q1 Q2 Q3]. exists d2, ds'. split; [reflexivity|]. split; [exact Q1|]. subst ds. inversion F1 as [|? ? G1 G2]. inversion G2. assumption. }
    destruct G as [d2 [ds' [-> [Hl1 Hd2]]]].
    destruct (layer_fwd l d1 d0 x Hl Hd1 Hx) as [_ [_ [_ [Lz [_ [_ Ldf]]]]]].
    set (v := fun t => aff l1 (actv (l_act l) (u t))).
    assert (Hact : Dv d1 (fun t => actv (l_act l) (u t)) t0 (zipmul (dfv (l_act l) (u t0)) du)) by (apply Dv_act; [rewrite Hu; exact Hh|exact HDu]).
    assert (Hv : Dv d2 v t0 (mv (l_matrix l1) (zipmul (dfv (l_act l) (u t0)) du))) by (apply (Dv_aff l1 d2 d1); assumption).
    assert (Hv0 : v t0 = aff l1 (z1 l x)) by (unfold v, z1; rewrite Hu; reflexivity).
    pose proof (IH F1 l1 rest eq_refl (z1 l x) y v t0 _ Lz Hy Hout Hsm Hv0 Hv) as D.
    cbn [netv]. eapply dlim_eq; [exact D|]. rewrite delta1_cons, Hu. destruct HDu as [_ [Ldu _]].
    pose proof Hl1 as [_ [_ [M1 [M2 _]]]].
    assert (Ldel : length (delta1 (l1 :: rest) (z1 l x) y) = d2).
    { rewrite (delta1_length (d1 :: d2 :: ds') acts (l1 :: rest) Hn F1); [reflexivity|discriminate|exact Lz|exact Hy]. }
    rewrite (vm_mv _ _ d2 d1) by (try assumption; rewrite zipmul_length; lia).
    apply dot_zipmul with (n := d1); [apply (vm_length _ _ d2 d1); assumption|exact Ldf|exact Ldu].
Qed.

(** moving one weight or one bias of the first layer *)
Definition layer_w (l : layer) (a b : nat) (t : R) : layer :=
  mkLayer (l_nrow l) (l_ncol l) (upd a (upd b t (nth a (l_matrix l) [])) (l_matrix l)) (l_bias l) (l_act l).
Definition layer_b (l : layer) (a : nat) (t : R) : layer := mkLayer (l_nrow l) (l_ncol l) (l_matrix l) (upd a t (l_bias l)) (l_act l).

Lemma In_upd {A} k (v : A) l x : In x (upd k v l) -> x = v \/ In x l.
Proof. revert k; induction l as [|a l IH]; intros [|k] H; simpl in *; try tauto. - destruct H as [H|H]; auto. - destruct H as [H|H]; auto. destruct (IH k H); auto. Qed.

Lemma layer_w_ok l r c a b t : layer_ok l r c -> (a < r)%nat -> layer_ok (layer_w l a b t) r c.
Proof.
  intros [E1 [E2 [E3 [E4 E5]]]] Ha. unfold layer_ok, layer_w; simpl. rewrite upd_length. repeat split; try assumption.
  intros q Hq. apply In_upd in Hq. destruct Hq as [->|Hq]; [|apply E4, Hq]. rewrite upd_length. apply E4, nth_In. lia.
Qed.
Lemma layer_b_ok l r c a t : layer_ok l r c -> layer_ok (layer_b l a t) r c.
Proof. intros [E1 [E2 [E3 [E4 E5]]]]. unfold layer_ok, layer_b; simpl. rewrite upd_length. repeat split; assumption. Qed.

Lemma Dv_upd n (v : list R) b t0 : length v = n -> (b < n)%nat -> Dv n (fun t => upd b t v) t0 (upd b 1 (repeat 0 n)).
Proof.
  intros Hv Hb. split; [intros t; rewrite upd_length; exact Hv|]. split; [rewrite upd_length; apply repeat_length|]. intros k Hk.
  destruct (Nat.eq_dec b k) as [->|Hne].
  - rewrite upd_nth_same by (rewrite repeat_length; exact Hk). apply (dlim_ext (fun t => t)); [intros t; rewrite upd_nth_same by lia; reflexivity|apply dlim_id].
  - rewrite upd_nth_other by exact Hne. rewrite nth_repeat_lt by exact Hk. apply (dlim_ext (fun _ => nth k v 0)); [intros t; rewrite upd_nth_other by exact Hne; reflexivity|]. apply derivable_pt_lim_const.
Qed.

Lemma dot_onehot n v a c : length v = n -> (a < n)%nat -> dot v (upd a c (repeat 0 n)) = nth a v 0 * c.
Proof.
  intros Hv Ha. rewrite (dot_sum n) by (try assumption; rewrite upd_length; apply repeat_length).
  assert (G : forall ks, NoDup ks -> (forall k, In k ks -> (k < n)%nat) -> rsum (map (fun k => nth k v 0 * nth k (upd a c (repeat 0 n)) 0) ks) = if in_dec Nat.eq_dec a ks then nth a v 0 * c else 0).
  { induction ks as [|k ks IH]; intros Hnd Hks; [reflexivity|]. inversion Hnd as [|? ? N1 N2]; subst. cbn [map rsum].
    rewrite IH by (try assumption; intros j Hj; apply Hks; right; exact Hj). destruct (Nat.eq_dec k a) as [->|Hne].
    - rewrite upd_nth_same by (rewrite repeat_length; exact Ha). destruct (in_dec Nat.eq_dec a ks); [contradiction|]. destruct (in_dec Nat.eq_dec a (a :: ks)) as [_|N]; [lra|]. exfalso; apply N; left; reflexivity.
    - rewrite upd_nth_other by congruence. rewrite nth_repeat_lt by (apply Hks; left; reflexivity). destruct (in_dec Nat.eq_dec a ks) as [I|I], (in_dec Nat.eq_dec a (k :: ks)) as [J|J]; try lra; exfalso.
      + apply J; right; exact I.
      + destruct J as [J|J]; congruence. }
  rewrite G; [|apply seq_NoDup|intros k Hk; apply in_seq in Hk; lia]. destruct (in_dec Nat.eq_dec a (seq 0 n)) as [_|N]; [reflexivity|]. exfalso. apply N, in_seq. lia.
Qed.

Lemma Dv_layer_w l r c a b x : layer_ok l r c -> (a < r)%nat -> (b < c)%nat -> length x = c ->
  Dv r (fun t => aff (layer_w l a b t) x) (nth b (nth a (l_matrix l) []) 0) (upd a (nth b x 0) (repeat 0 r)).
Proof.
  intros Hl Ha Hb Hx. split; [intros t; apply (affine_ok _ r c x (layer_w_ok l r c a b t Hl Ha) Hx)|]. split; [rewrite upd_length; apply repeat_length|].
  intros k Hk. pose proof Hl as [E1 [E2 [E3 [E4 E5]]]].
  assert (En : forall t, nth k (aff (layer_w l a b t) x) 0 = dot (nth k (upd a (upd b t (nth a (l_matrix l) [])) (l_matrix l)) []) x + nth k (l_bias l) 0).
  { intros t. rewrite (aff_nth _ r c x k (layer_w_ok l r c a b t Hl Ha) Hk). reflexivity. }
  destruct (Nat.eq_dec a k) as [->|Hne].
  - rewrite upd_nth_same by (rewrite repeat_length; exact Hk).
    assert (Lrow : length (nth k (l_matrix l) []) = c) by (apply E4, nth_In; lia).
    destruct (Dv_upd c (nth k (l_matrix l) []) b (nth b (nth k (l_matrix l) []) 0) Lrow Hb) as [L1 [L2 L3]].
    apply (dlim_ext (fun t => rsum (map (fun j => nth j x 0 * nth j (upd b t (nth k (l_matrix l) [])) 0) (seq 0 c)) + nth k (l_bias l) 0)).
    { intros t. rewrite En, upd_nth_same by lia. f_equal. rewrite dot_comm. symmetry. apply dot_sum; [exact Hx|apply L1]. }
    eapply dlim_eq; [apply dlim_plus; [|apply derivable_pt_lim_const]|].
    + apply (dlim_sum (seq 0 c) (fun j t => nth j x 0 * nth j (upd b t (nth k (l_matrix l) [])) 0) (fun j => nth j x 0 * nth j (upd b 1 (repeat 0 c)) 0)).
      intros j Hj. apply in_seq in Hj. apply dlim_scal, L3. lia.
    + rewrite <- (dot_sum c) by assumption. rewrite dot_onehot by assumption. ring.
  - rewrite upd_nth_other by exact Hne. rewrite nth_repeat_lt by exact Hk.
    apply (dlim_ext (fun _ => dot (nth k (l_matrix l) []) x + nth k (l_bias l) 0)); [intros t; rewrite En, upd_nth_other by exact Hne; reflexivity|apply derivable_pt_lim_const].
Qed.

Lemma Dv_layer_b l r c a x : layer_ok l r c -> (a < r)%nat -> length x = c ->
  Dv r (fun t => aff (layer_b l a t) x) (nth a (l_bias l) 0) (upd a 1 (repeat 0 r)).
Proof.
  intros Hl Ha Hx. split; [intros t; apply (affine_ok _ r c x (layer_b_ok l r c a t Hl) Hx)|]. split; [rewrite upd_length; apply repeat_length|].
  intros k Hk. pose proof Hl as [E1 [E2 [E3 [E4 E5]]]].
  destruct (Dv_upd r (l_bias l) a (nth a (l_bias l) 0) E5 Ha) as [_ [_ L3]].
  apply (dlim_ext (fun t => dot (nth k (l_matrix l) []) x + nth k (upd a t (l_bias l)) 0)).
  { intros t. rewrite (aff_nth _ r c x k (layer_b_ok l r c a t Hl) Hk). reflexivity. }
  eapply dlim_eq; [apply dlim_plus; [apply derivable_pt_lim_const|apply L3, Hk]|lra].
Qed.

Lemma upd_id {A} k (l : list A) d : (k < length l)%nat -> upd k (nth k l d) l = l.
Proof. intros H. apply (upd_self k (nth k l d) l d H eq_refl). Qed.

Lemma layer_w_self l r c a b : layer_ok l r c -> (a < r)%nat -> (b < c)%nat -> layer_w l a b (nth b (nth a (l_matrix l) []) 0) = l.
Proof.
  intros [E1 [E2 [E3 [E4 E5]]]] Ha Hb. unfold layer_w. rewrite upd_id by (rewrite E4; [exact Hb|apply nth_In; lia]). rewrite upd_id by lia. destruct l; reflexivity.
Qed.
Lemma layer_b_self l r c a : layer_ok l r c -> (a < r)%nat -> layer_b l a (nth a (l_bias l) 0) = l.
Proof. intros [E1 [E2 [E3 [E4 E5]]]] Ha. unfold layer_b. rewrite upd_id by lia. destruct l; reflexivity. Qed.

(** the pair (delta of layer k, input of layer k) *)
Fixpoint delta_at (net : list layer) (x y : list R) (k : nat) : list R :=
  match net, k with l :: rest, O => delta1 (l :: rest) x y | l :: rest, S k => delta_at rest (z1 l x) y k | [], _ => [] end.
Fixpoint input_at (net : list layer) (x : list R) (k : nat) : list R :=
  match net, k with l :: rest, O => x | l :: rest, S k => input_at rest (z1 l x) k | [], _ => [] end.

Lemma set_weight_cons l net k a b t : set_weight (l :: net) (S k) a b t = l :: set_weight net k a b t.
Proof. reflexivity. Qed.
Lemma set_bias_cons l net k a t : set_bias (l :: net) (S k) a t = l :: set_bias net k a t.
Proof. reflexivity. Qed.

Lemma good_last_cons l l1 rest : act_last (l :: l1 :: rest) = act_last (l1 :: rest).
Proof. reflexivity. Qed.

Lemma loss_weight_derivative loss dims acts net : net_ok dims acts net -> Forall (lt 0) dims ->
  forall k a b x y, (k < length net)%nat -> (a < nth (S k) dims 0)%nat -> (b < nth k dims 0)%nat ->
  length x = hd 0%nat dims -> length y = last dims 0%nat -> good_output loss (act_last net) y -> smooth net x ->
  derivable_pt_lim (fun t => loss (netv (set_weight net k a b t) x) y) (weight net k a b) (nth a (delta_at net x y k) 0 * nth b (input_at net x k) 0).
Proof.
  intros Hok. induction Hok as [d|d0 d1 ds ac acts l ls Hl Ha Hn IH]; intros F k a b x y Hk Hka Hkb Hx Hy Hout Hsm; [simpl in Hk; lia|].
  assert (F1 : Forall (lt 0) (d1 :: ds)) by (inversion F; assumption). assert (Hd1 : (0 < d1)%nat) by (inversion F1; assumption). cbn [hd] in Hx.
  destruct k as [|k].
  - simpl in Hka, Hkb. cbn [delta_at input_at].
    assert (Hok : net_ok (d0 :: d1 :: ds) (ac :: acts) (l :: ls)) by (constructor; assumption).
    pose proof (backprop loss _ _ _ Hok F l ls eq_refl x y (fun t => aff (layer_w l a b t) x) (weight (l :: ls) 0 a b) (upd a (nth b x 0) (repeat 0 d1)) Hx Hy Hout Hsm) as D.
    eapply dlim_eq; [apply D|].
    + unfold weight. cbn [nth]. rewrite (layer_w_self l d1 d0) by assumption. reflexivity.
    + apply (Dv_layer_w l d1 d0); assumption.
    + apply dot_onehot; [|exact Hka]. rewrite (delta1_length _ _ _ Hok F); [reflexivity|discriminate|exact Hx|exact Hy].
  - destruct ls as [|l1 rest]; [simpl in Hk; lia|]. destruct Hsm as [Hh Hsm].
    destruct (layer_fwd l d1 d0 x Hl Hd1 Hx) as [_ [_ [_ [Lz _]]]].
    apply (IH F1 k a b (z1 l x) y); [simpl in *; lia|exact Hka|exact Hkb|exact Lz|exact Hy|exact Hout|exact Hsm].
Qed.

Lemma loss_bias_derivative loss dims acts net : net_ok dims acts net -> Forall (lt 0) dims ->
  forall k a x y, (k < length net)%nat -> (a < nth (S k) dims 0)%nat ->
  length x = hd 0%nat dims -> length y = last dims 0%nat -> good_output loss (act_last net) y -> smooth net x ->
  derivable_pt_lim (fun t => loss (netv (set_bias net k a t) x) y) (bias net k a) (nth a (delta_at net x y k) 0).
Proof.
  intros Hok. induction Hok as [d|d0 d1 ds ac acts l ls Hl Ha Hn IH]; intros F k a x y Hk Hka Hx Hy Hout Hsm; [simpl in Hk; lia|].
  assert (F1 : Forall (lt 0) (d1 :: ds)) by (inversion F; assumption). assert (Hd1 : (0 < d1)%nat) by (inversion F1; assumption). cbn [hd] in Hx.
  destruct k as [|k].
  - simpl in Hka. cbn [delta_at].
    assert (Hok : net_ok (d0 :: d1 :: ds) (ac :: acts) (l :: ls)) by (constructor; assumption).
    pose proof (backprop loss _ _ _ Hok F l ls eq_refl x y (fun t => aff (layer_b l a t) x) (bias (l :: ls) 0 a) (upd a 1 (repeat 0 d1)) Hx Hy Hout Hsm) as D.
    eapply dlim_eq; [apply D|].
    + unfold bias. cbn [nth]. rewrite (layer_b_self l d1 d0) by assumption. reflexivity.
    + apply (Dv_layer_b l d1 d0); assumption.
    + rewrite dot_onehot; [lra| |exact Hka]. rewrite (delta1_length _ _ _ Hok F); [reflexivity|discriminate|exact Hx|exact Hy].
  - destruct ls as [|l1 rest]; [simpl in Hk; lia|]. destruct Hsm as [Hh Hsm].
    destruct (layer_fwd l d1 d0 x Hl Hd1 Hx) as [_ [_ [_ [Lz _]]]].
    apply (IH F1 k a (z1 l x) y); [simpl in *; lia|exact Hka|exact Lz|exact Hy|exact Hout|exact Hsm].
Qed.

Lemma rsum_map_idx {A} (f : A -> R) l d : rsum (map f l) = rsum (map (fun k => f (nth k l d)) (seq 0 (length l))).
Proof. transitivity (rsum (map f (map (fun k => nth k l d) (seq 0 (length l))))); [rewrite map_nth_seq; reflexivity|]. rewrite map_map. reflexivity. Qed.

(** what the step does to one parameter *)
Lemma updnet_weight rate dims acts net : net_ok dims acts net -> forall k a b B, (k < length net)%nat -> (a < nth (S k) dims 0)%nat -> (b < nth k dims 0)%nat ->
  weight (updnet rate net B) k a b = weight net k a b - rate * rsum (map (fun e => nth a (delta_at net (fst e) (snd e) k) 0 * nth b (input_at net (fst e) k) 0) B).
Proof.
  induction 1 as [d|d0 d1 ds ac acts l ls Hl Ha Hn IH]; intros k a b B Hk Hka Hkb; [simpl in Hk; lia|].
  destruct k as [|k].
  - simpl in Hka, Hkb. unfold weight. cbn [updnet nth]. rewrite (entry_updl rate l d1 d0) by assumption. f_equal. f_equal. rewrite map_length.
    rewrite (rsum_map_idx _ B ([], [])). apply rsum_map_ext. intros k Hk0. apply in_seq in Hk0. unfold entry.
    rewrite (nth_map_in _ B k ([], [])) by lia. rewrite (nth_map_in _ B k ([], [])) by lia. reflexivity.
  - change (weight (updnet rate (l :: ls) B) (S k) a b) with (weight (updnet rate ls (shift l B)) k a b).
    change (weight (l :: ls) (S k) a b) with (weight ls k a b).
    rewrite (IH k a b (shift l B)) by (simpl in *; lia || assumption). unfold shift. rewrite map_map. reflexivity.
Qed.

Lemma updnet_bias rate dims acts net : net_ok dims acts net -> forall k a B, (k < length net)%nat -> (a < nth (S k) dims 0)%nat ->
  bias (updnet rate net B) k a = bias net k a - rate * rsum (map (fun e => nth a (delta_at net (fst e) (snd e) k) 0) B).
Proof.
  induction 1 as [d|d0 d1 ds ac acts l ls Hl Ha Hn IH]; intros k a B Hk Hka; [simpl in Hk; lia|].
  destruct k as [|k].
  - simpl in Hka. unfold bias. cbn [updnet nth]. rewrite (bias_updl rate l d1 d0) by assumption. f_equal. f_equal. rewrite map_length.
    rewrite (rsum_map_idx _ B ([], [])). apply rsum_map_ext. intros k Hk0. apply in_seq in Hk0. unfold entry.
    rewrite (nth_map_in _ B k ([], [])) by lia. reflexivity.
  - change (bias (updnet rate (l :: ls) B) (S k) a) with (bias (updnet rate ls (shift l B)) k a).
    change (bias (l :: ls) (S k) a) with (bias ls k a).
    rewrite (IH k a (shift l B)) by (simpl in *; lia || assumption). unfold shift. rewrite map_map. reflexivity.
Qed.
