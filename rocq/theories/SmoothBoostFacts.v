(** Properties C16, C17, C18, C52: SmoothBoost. *)
From Verif Require Import Base Spec SortLib Utils UtilsProofs WMajority WMajorityProofs Booster AdaBoost
  AdaBoostProofs AdaBoostMain AdaBoostMore Num SmoothSpec SmoothAnalysis SmoothBoost.
Open Scope R_scope.

Lemma exp_le_1 x : x <= 0 -> exp x <= 1.
Proof. intros Hx. rewrite <- exp_0. apply exp_le_exp. exact Hx. Qed.

Lemma sb_weight_phi g N : 0 < g < 1 / 2 -> sb_weight g N = phi g N.
Proof.
  intros Hg. unfold sb_weight, phi. destruct (Rleb_spec N 0); destruct (Rle_dec N 0); try contradiction; [reflexivity|].
  unfold Rpower. f_equal. field.
Qed.

Lemma sb_weight_range g N : 0 <= g < 1 / 2 -> 0 < sb_weight g N <= 1.
Proof.
  intros Hg. unfold sb_weight. destruct (Rleb_spec N 0) as [L|L]; [lra|]. unfold Rpower. split; [apply exp_pos|].
  apply exp_le_1. assert (ln (1 - g) <= 0) by (pose proof (ln_le_sub (1 - g)); lra). nra.
Qed.

Lemma combine_repeat_firstn {A} (w : R) (n : nat) (hs : list A) :
  combine (repeat w n) hs = combine (repeat w (Nat.min n (length hs))) (firstn n hs).
Proof.
  revert hs; induction n as [|n IH]; intros [|h hs]; simpl; try reflexivity. f_equal. apply IH.
Qed.

Lemma from_slices_repeat {A} (w : R) (n : nat) (hs : list A) :
  0 < w -> (0 < n)%nat -> hs <> [] ->
  let k := Nat.min n (length hs) in
  from_slices (repeat w n) hs = Ok (mkWM (repeat (1 / INR k) k) (firstn n hs)).
Proof.
  intros Hw Hn Hhs k.
  assert (Hk : (0 < k)%nat) by (unfold k; destruct hs; [congruence|simpl; lia]).
  assert (Hlen : length (repeat w k) = length (firstn n hs)).
  { rewrite repeat_length, firstn_length. reflexivity. }
  assert (Ek : kept (repeat w n) hs = combine (repeat w k) (firstn n hs)).
  { unfold kept. rewrite combine_repeat_firstn. fold k. apply kept_all; [|exact Hlen].
    intros x Hx. apply repeat_spec in Hx. subst. exact Hw. }
  unfold from_slices. rewrite Ek.
  assert (E1 : map fst (combine (repeat w k) (firstn n hs)) = repeat w k).
  { revert Hlen. generalize (repeat w k) (firstn n hs). clear. induction l as [|a l IH]; intros [|b l'] H; simpl in *; try lia; [reflexivity|]. f_equal. apply IH. lia. }
  assert (E2 : map snd (combine (repeat w k) (firstn n hs)) = firstn n hs).
  { revert Hlen. generalize (repeat w k) (firstn n hs). clear. induction l as [|a l IH]; intros [|b l'] H; simpl in *; try lia; [reflexivity|]. f_equal. apply IH. lia. }
  rewrite E1, E2. unfold normalize.
  assert (Ea : map Rabs (repeat w k) = repeat w k).
  { apply map_Rabs_pos. intros x Hx. apply repeat_spec in Hx. subst. exact Hw. }
  rewrite Ea, rsum_repeat. pose proof (INR_pos k Hk) as HI.
  rewrite Reqb_false by nra. simpl. f_equal. f_equal.
  clear -HI Hw. generalize (INR k) HI. clear HI. intros r Hr. induction k as [|k IH]; [reflexivity|]. simpl. f_equal; [field; lra|exact IH].
Qed.

Section Smooth.
  Context {H : Type}.
  Variable conf : H -> nat -> R.
  Variable produce : nat -> list R -> H.
  Variable y : list R.
  Variable umax : nat.
  Let n := length y.
  Let answers := answers produce.
  Let edges := edges conf produce y.
  Let sbr := smoothboost conf produce y umax.

  Variables K G : R.      (* kappa, gamma *)
  Let TH := G / (2 + G).

  (** N_i after the rounds of [tr] *)
  Definition sb_N (tr : trace) (i : nat) : R := 1 + margin_sum conf y (answers tr) i - INR (length tr) * TH.
  Definition sb_M (tr : trace) (i : nat) : R := match tr with [] => 1 | _ => sb_weight G (sb_N tr i) end.

  Lemma sb_N_app tr d i :
    sb_N (tr ++ [d]) i = sb_N tr i + (nth i y 0 * conf (produce (S (length tr)) d) i - TH).
  Proof.
    unfold sb_N, margin_sum, answers. rewrite answers_app, map_app, rsum_app, app_length, plus_INR. simpl. ring.
  Qed.

  Definition bounded : Prop := forall t d i, (i < n)%nat -> -1 <= nth i y 0 * conf (produce t d) i <= 1.
  Definition PhiSum (tr : trace) : R := rsum (map (fun i => Phi G (sb_N tr i)) (seq 0 n)).

  Definition progress (tr : trace) : Prop :=
    0 < G -> bounded -> Forall (fun e => 2 * G <= e) (edges tr) ->
    INR (length tr) * (K * INR n * (2 * G - TH - slack G TH)) <= PhiSum tr.

  Definition valid_params : Prop := 0 < K < 1 /\ 0 <= G < 1 / 2.

  (** total weight *)
  Definition sb_total (tr : trace) : R := rsum (map (sb_M tr) (seq 0 n)).

  Definition sb_dist (tr : trace) : list R := map (fun mj => mj / sb_total tr) (map (sb_M tr) (seq 0 n)).

  Definition good_strace (tr : trace) : Prop :=
    forall k, (k < length tr)%nat -> nth k tr [] = sb_dist (firstn k tr) /\ INR n * K <= sb_total (firstn k tr).

  Lemma good_strace_app tr : good_strace tr -> INR n * K <= sb_total tr -> good_strace (tr ++ [sb_dist tr]).
  Proof.
    intros Ht Hd k Hk. rewrite app_length in Hk. simpl in Hk.
    destruct (Nat.eq_dec k (length tr)) as [->|Hne].
    - rewrite firstn_app_le by lia. rewrite firstn_all, app_nth2, Nat.sub_diag by lia. split; [reflexivity|exact Hd].
    - rewrite firstn_app_le, app_nth1 by lia. apply Ht. lia.
  Qed.

  Definition SInv (M t : nat) (s : @sb H) (tr : trace) : Prop :=
    (0 < n)%nat /\ valid_params /\ sb_kappa s = K /\ sb_gamma s = G /\ sb_theta s = TH /\
    sb_max_iter s = M /\ sb_terminated s = M /\ t = S (length tr) /\ (length tr <= M)%nat /\
    sb_hyps s = answers tr /\
    sb_n s = map (sb_N tr) (seq 0 n) /\ sb_m s = map (sb_M tr) (seq 0 n) /\
    good_strace tr /\ Forall (smooth_dist K n) tr /\ progress tr.

  Lemma sb_pre_inv s s0 :
    sb_kappa s = K -> sb_gamma s = G -> 0 <= G ->
    sb_pre y umax s = Ok s0 -> SInv (sb_max_loop umax K G) 1 s0 [].
  Proof.
    intros HK HG HG0. unfold sb_pre. rewrite HK, HG.
    destruct (is_valid_binary_instance y) as [[]|p] eqn:E; simpl; [|discriminate].
    pose proof (valid_instance_nonempty y E) as Hn.
    unfold sb_check. destruct (Rleb_spec 0 K); simpl; [|discriminate]. destruct (Rltb_spec K 1); simpl; [|discriminate].
    destruct (Rleb_spec K 0); simpl; [discriminate|]. destruct (Rleb_spec (G / (2 + G)) G) as [L|L]; simpl; [|discriminate].
    destruct (Rltb_spec G (1 / 2)); simpl; [|discriminate]. intros Hs. inversion Hs; subst s0; clear Hs.
    assert (Hc : forall c : R, repeat c n = map (fun _ => c) (seq 0 n)).
    { intros c. apply (list_eq_nth 0); [rewrite repeat_length, map_length, seq_length; reflexivity|].
      intros i Hi. rewrite repeat_length in Hi. rewrite nth_repeat_lt, nth_map_seq by exact Hi. reflexivity. }
    unfold SInv; simpl. split; [exact Hn|]. split.
    { split; [lra|]. split; assumption. }
    do 5 (split; [reflexivity|]). split; [reflexivity|]. split; [lia|]. split; [reflexivity|].
    split. { fold n. rewrite Hc. apply map_ext. intros i. unfold sb_N, margin_sum, answers. simpl. ring. }
    split. { fold n. rewrite Hc. reflexivity. }
    split; [intros k Hk; simpl in Hk; lia|]. split; [constructor|]. intros HG1 _ _. unfold PhiSum. simpl length. rewrite Rmult_0_l.
    apply rsum_nonneg. intros x Hx. apply in_map_iff in Hx. destruct Hx as [i [<- _]].
    replace (sb_N [] i) with 1 by (unfold sb_N, margin_sum, answers; simpl; ring).
    assert (E0 : Phi G 0 = 0) by (unfold Phi; destruct (Rle_dec 0 0); lra).
    rewrite <- E0 at 1. apply Phi_mono; lra.
  Qed.

  Lemma sb_M_range tr i : valid_params -> 0 < sb_M tr i <= 1.
  Proof. intros [_ HG]. unfold sb_M. destruct tr; [lra|]. apply sb_weight_range. exact HG. Qed.

  Lemma sb_total_pos tr : (0 < n)%nat -> valid_params -> 0 < sb_total tr.
  Proof.
    intros Hn Hv. apply rsum_pos; [destruct n; [lia|discriminate]|]. intros x Hx. apply in_map_iff in Hx.
    destruct Hx as [i [<- _]]. apply sb_M_range. exact Hv.
  Qed.

  Lemma sb_dist_nth tr i : (i < n)%nat -> nth i (sb_dist tr) 0 = sb_M tr i / sb_total tr.
  Proof. intros Hi. unfold sb_dist. rewrite map_map. rewrite nth_map_seq by exact Hi. reflexivity. Qed.

  Lemma sb_dist_smooth tr :
    (0 < n)%nat -> valid_params -> INR n * K <= sb_total tr -> smooth_dist K n (sb_dist tr).
  Proof.
    intros Hn Hv Hs. pose proof (sb_total_pos tr Hn Hv) as HT. pose proof (INR_pos n Hn) as HnR.
    assert (HKn : 0 < K * INR n) by (apply Rmult_lt_0_compat; [apply Hv|exact HnR]).
    split; [unfold sb_dist; rewrite !map_length; apply seq_length|].
    assert (Hx : forall x, In x (sb_dist tr) -> exists i, x = sb_M tr i / sb_total tr).
    { intros x Hx. unfold sb_dist in Hx. rewrite map_map in Hx. apply in_map_iff in Hx. destruct Hx as [i [<- _]]. exists i. reflexivity. }
    split; [split|].
    - intros x Hi. destruct (Hx x Hi) as [i ->]. apply Rdiv_lt_0_compat; [apply sb_M_range; exact Hv|exact HT].
    - unfold sb_dist. rewrite (rsum_map_div (sb_total tr) (fun x => x)), map_id. fold (sb_total tr). field. lra.
    - intros x Hi. destruct (Hx x Hi) as [i ->]. pose proof (sb_M_range tr i Hv) as HM.
      apply Rdiv_le_iff; [exact HT|]. 
      assert (1 <= 1 / (K * INR n) * sb_total tr); [|lra].
      apply (Rmult_le_reg_r (K * INR n)); [exact HKn|].
      replace (1 / (K * INR n) * sb_total tr * (K * INR n)) with (sb_total tr).
      + lra.
      + field. split; [lra|]. apply Rgt_not_eq. apply Hv.
  Qed.

  Lemma progress_app tr :
    (0 < n)%nat -> valid_params -> INR n * K <= sb_total tr -> progress tr -> progress (tr ++ [sb_dist tr]).
  Proof.
    intros Hn Hv Hs Hp HG Hb He. unfold edges in He. rewrite edges_app in He. apply Forall_app in He. destruct He as [He1 He2].
    inversion He2 as [|? ? He _]; subst. clear He2. specialize (Hp HG Hb He1).
    pose proof (sb_total_pos tr Hn Hv) as HT. destruct Hv as [HK HG2].
    assert (HG' : 0 < G < 1 / 2) by lra.
    rewrite app_length, plus_INR. simpl (INR (length [sb_dist tr])).
    set (rate := 2 * G - TH - slack G TH) in *.
    assert (Hrate : 0 < rate) by (unfold rate; apply rate_pos; [exact HG'|reflexivity]).
    set (h := produce (S (length tr)) (sb_dist tr)) in *.
    assert (Hth : 0 < TH < 1 / 4) by (apply (th_range G TH HG'); reflexivity).
    assert (Hstep : forall i, (i < n)%nat ->
       sb_M tr i * (nth i y 0 * conf h i - TH - slack G TH) <= Phi G (sb_N (tr ++ [sb_dist tr]) i) - (match tr with [] => 0 | _ => Phi G (sb_N tr i) end)).
    { intros i Hi. rewrite sb_N_app. fold h. pose proof (Hb (S (length tr)) (sb_dist tr) i Hi) as Hbi. fold h in Hbi.
      set (d := nth i y 0 * conf h i - TH).
      assert (Hd : - (1 + TH) <= d <= 1 + TH) by (unfold d; lra).
      unfold sb_M. destruct tr as [|q tr].
      - pose proof (Phi_step G TH HG' eq_refl 0 d Hd) as P. unfold phi in P. destruct (Rle_dec 0 0); [|lra].
        assert (Phi G 0 = 0) by (unfold Phi; destruct (Rle_dec 0 0); lra).
        assert (Phi G (0 + d) <= Phi G (sb_N [] i + d)).
        { apply Phi_mono; [exact HG'|]. unfold sb_N, margin_sum, answers. simpl. lra. }
        lra.
      - rewrite sb_weight_phi by exact HG'. pose proof (Phi_step G TH HG' eq_refl (sb_N (q :: tr) i) d Hd) as P. lra. }
    assert (Hsum : sb_total tr * rate <= rsum (map (fun i => sb_M tr i * (nth i y 0 * conf h i - TH - slack G TH)) (seq 0 n))).
    { assert (E : rsum (map (fun i => sb_M tr i * (nth i y 0 * conf h i - TH - slack G TH)) (seq 0 n))
                = sb_total tr * edge_of y (sb_dist tr) (conf h) + sb_total tr * (- TH - slack G TH)).
      { unfold edge_of. fold n. rewrite <- rsum_map_mult. unfold sb_total at 2.
        rewrite (Rmult_comm (rsum _)), <- rsum_map_mult, <- rsum_map_plus. apply rsum_map_ext.
        intros i Hi. apply in_seq in Hi. rewrite sb_dist_nth by lia. field. lra. }
      rewrite E. unfold rate. nra. }
    assert (Hle : rsum (map (fun i => sb_M tr i * (nth i y 0 * conf h i - TH - slack G TH)) (seq 0 n))
                  <= PhiSum (tr ++ [sb_dist tr]) - (match tr with [] => 0 | _ => PhiSum tr end)).
    { apply Rle_trans with (rsum (map (fun i => Phi G (sb_N (tr ++ [sb_dist tr]) i) - (match tr with [] => 0 | _ => Phi G (sb_N tr i) end)) (seq 0 n))).
      - apply rsum_map_le. intros i Hi. apply in_seq in Hi. apply Hstep. lia.
      - rewrite rsum_map_minus. unfold PhiSum. destruct tr; [|lra].
        rewrite (rsum_map_const 0). lra. }
    assert (Hm : K * INR n * rate <= sb_total tr * rate) by (apply Rmult_le_compat_r; lra).
    destruct tr; [simpl length; simpl INR; lra|lra].
  Qed.

  Lemma sb_boost_step M t s tr :
    SInv M t s tr ->
    (length tr = M /\ sb_boost conf produce y t s = ([], Ok (s, Break M))) \/
    ((length tr < M)%nat /\ sb_total tr < K * INR n /\ exists s',
       sb_boost conf produce y t s = ([], Ok (s', Break t)) /\ sb_terminated s' = length tr /\ sb_hyps s' = answers tr) \/
    ((length tr < M)%nat /\ exists s', sb_boost conf produce y t s = ([sb_dist tr], Ok (s', Continue)) /\
       SInv M (S t) s' (tr ++ [sb_dist tr])).
  Proof.
    intros [Hn [Hv [HK [HG [HTH [HM [HT [Ht [Hlim [Hh [Hns [Hms [Hgd [Hsm Hpr]]]]]]]]]]]]]].
    unfold sb_boost. rewrite HM. destruct (Nat.ltb_spec M t) as [L|L].
    - left. split; [lia|reflexivity].
    - right. rewrite HK, Hms. fold (sb_total tr). destruct (Rltb_spec (sb_total tr) (INR (length y) * K)) as [B|B].
      + left. split; [lia|]. split; [fold n in B; lra|]. eexists. split; [reflexivity|]. simpl. split; [lia|exact Hh].
      + right. split; [lia|]. fold (sb_dist tr). eexists. split; [reflexivity|].
        fold n in B. assert (Hs : INR n * K <= sb_total tr) by lra.
        unfold SInv. cbn [sb_kappa sb_gamma sb_theta sb_max_iter sb_terminated sb_hyps sb_n sb_m].
        split; [exact Hn|]. split; [exact Hv|]. split; [reflexivity|]. split; [exact HG|]. split; [exact HTH|].
        split; [reflexivity|]. split; [exact HT|]. rewrite app_length. simpl length.
        split; [lia|]. split; [lia|].
        split. { rewrite Hh. unfold answers. rewrite answers_app. replace (S (length tr)) with t by lia. reflexivity. }
        assert (En : map (fun p => fst p + snd p - sb_theta s)
          (combine (sb_n s) (map (fun p => snd p * conf (produce t (sb_dist tr)) (fst p)) (combine (seq 0 (length y)) y)))
          = map (sb_N (tr ++ [sb_dist tr])) (seq 0 n)).
        { rewrite Hns, HTH. fold (margins_of_hypothesis conf y (produce t (sb_dist tr))). rewrite margins_of_hypothesis_spec.
          rewrite (combine_nth_map _ _ _ 0 0) by (rewrite margins_length, map_length, seq_length; reflexivity).
          rewrite map_length, seq_length. apply map_ext_in. intros i Hi. apply in_seq in Hi. cbn [fst snd].
          rewrite nth_map_seq, margins_nth by lia. rewrite sb_N_app. replace (S (length tr)) with t by lia. ring. }
        split; [exact En|].
        split. { rewrite En, map_map, HG. apply map_ext. intros i. unfold sb_M. destruct tr; reflexivity. }
        split. { apply good_strace_app; assumption. }
        split. { apply Forall_app. split; [exact Hsm|]. constructor; [|constructor]. apply sb_dist_smooth; assumption. }
        apply progress_app; assumption.
  Qed.

  Lemma sb_total_first : sb_total [] = INR n.
  Proof. unfold sb_total, sb_M. rewrite (rsum_map_const 1), seq_length. ring. Qed.

  Definition sb_result (M : nat) (tr : trace) (f : wmajority H) : Prop :=
    (0 < n)%nat /\ valid_params /\ (0 < length tr)%nat /\ good_strace tr /\ Forall (smooth_dist K n) tr /\ progress tr /\
    (length tr = M \/ ((length tr < M)%nat /\ sb_total tr < K * INR n)) /\
    let k := Nat.min n (length tr) in
    f = mkWM (repeat (1 / INR k) k) (firstn n (answers tr)).

  Lemma sb_post_ok M tr s : SInv M (S (length tr)) s tr -> forall s',
    sb_terminated s' = length tr -> sb_hyps s' = answers tr ->
    match sb_post y s' with
    | Ok f => (0 < length tr)%nat /\ (let k := Nat.min n (length tr) in f = mkWM (repeat (1 / INR k) k) (firstn n (answers tr)))
    | Panic p => p = NonFinite /\ tr = []
    end.
  Proof.
    intros Hinv s' Ht Hh. destruct Hinv as [Hn _]. unfold sb_post. rewrite Ht, Hh.
    destruct (Nat.eqb_spec (length tr) 0) as [E|E]; [split; [reflexivity|]; destruct tr; [reflexivity|discriminate]|].
    rewrite from_slices_repeat.
    - split; [lia|]. unfold answers. rewrite answers_length. reflexivity.
    - apply Rdiv_lt_0_compat; [lra|]. apply INR_pos. lia.
    - exact Hn.
    - intros X. apply E. rewrite <- (answers_length produce). fold answers. rewrite X. reflexivity.
  Qed.

  Lemma sb_run_spec fuel s :
    sb_kappa s = K -> sb_gamma s = G -> 0 <= G ->
    (good_strace (trace_of (run sbr fuel s)) /\ Forall (smooth_dist K n) (trace_of (run sbr fuel s)) /\
     (length (trace_of (run sbr fuel s)) <= sb_max_loop umax K G)%nat) /\
    (forall tr f, run sbr fuel s = Finished tr f -> sb_result (sb_max_loop umax K G) tr f).
  Proof.
    intros HK HG HG0. set (M := sb_max_loop umax K G).
    apply (run_inv sbr (SInv M) (fun tr => good_strace tr /\ Forall (smooth_dist K n) tr /\ (length tr <= M)%nat) (sb_result M)).
    - split; [intros k Hk; simpl in Hk; lia|]. split; [constructor|simpl; lia].
    - intros s0 E. apply (sb_pre_inv s s0 HK HG HG0 E).
    - intros t s' tr Hi. destruct Hi as [_ [_ [_ [_ [_ [_ [_ [_ [Hl [_ [_ [_ [Hgd [Hs _]]]]]]]]]]]]]]. repeat split; assumption || apply Hgd; assumption.
    - intros t s' tr Hinv. pose proof Hinv as [Hn [Hv [_ [_ [_ [HM [HT [Ht [Hl [Hh [_ [_ [Hgd [Hs Hpr]]]]]]]]]]]]]].
      subst t. destruct (sb_boost_step _ _ _ _ Hinv) as [[HL E]|[[HL [HB [s1 [E [E1 E2]]]]]|[HL [s1 [E Hinv']]]]];
        simpl b_boost; rewrite E.
      + rewrite app_nil_r. split; [split; [exact Hgd|split; assumption]|]. simpl b_post.
        pose proof (sb_post_ok M tr s' Hinv s') as P. rewrite HT, HL in P. specialize (P eq_refl Hh).
        destruct (sb_post y s') as [f|p]; [|exact I]. destruct P as [P1 P2].
        unfold sb_result. rewrite HL. split; [exact Hn|]. split; [exact Hv|]. split; [lia|]. split; [exact Hgd|]. split; [exact Hs|]. split; [exact Hpr|]. split; [left; reflexivity|]. exact P2.
      + rewrite app_nil_r. split; [split; [exact Hgd|split; assumption]|]. simpl b_post.
        pose proof (sb_post_ok M tr s' Hinv s1 E1 E2) as P.
        destruct (sb_post y s1) as [f|p]; [|exact I]. destruct P as [P1 P2].
        unfold sb_result. split; [exact Hn|]. split; [exact Hv|]. split; [exact P1|]. split; [exact Hgd|]. split; [exact Hs|]. split; [exact Hpr|]. split; [right; split; assumption|exact P2].
      + exact Hinv'.
  Qed.

  Lemma sb_run_from_terminates M fuel t s tr :
    (0 < M)%nat -> SInv M t s tr -> (M - length tr < fuel)%nat ->
    exists tr' f, run_from sbr fuel t tr s = Finished tr' f.
  Proof.
    intros HM0. revert t s tr. induction fuel as [|fuel IH]; intros t s tr Hinv Hf; [lia|].
    cbn [run_from]. pose proof Hinv as [Hn [Hv [_ [_ [_ [HM [HT [Ht [Hl [Hh [_ [_ [Hgd [Hs Hpr]]]]]]]]]]]]]].
    subst t. destruct (sb_boost_step _ _ _ _ Hinv) as [[HL E]|[[HL [HB [s1 [E [E1 E2]]]]]|[HL [s1 [E Hinv']]]]];
      simpl b_boost; rewrite E.
    - simpl b_post. pose proof (sb_post_ok M tr s Hinv s) as P. rewrite HT, HL in P. specialize (P eq_refl Hh).
      destruct (sb_post y s) as [f|p]; [eauto|]. destruct P as [_ ->]. simpl in HL. lia.
    - simpl b_post. pose proof (sb_post_ok M tr s Hinv s1 E1 E2) as P.
      destruct (sb_post y s1) as [f|p]; [eauto|]. destruct P as [_ ->].
      rewrite sb_total_first in HB. pose proof (INR_pos n Hn). destruct Hv as [HKK _]. nra.
    - apply IH; [exact Hinv'|]. rewrite app_length. simpl. lia.
  Qed.

  Lemma sb_max_loop_pos : (0 < umax)%nat -> valid_params -> (0 < sb_max_loop umax K G)%nat.
  Proof.
    intros Hu [HK HG]. unfold sb_max_loop. destruct (Reqb_spec (K * G ^ 2 * sqrt (1 - G)) 0) as [E|E]; [exact Hu|].
    apply ceil_usize_pos. apply Rdiv_lt_0_compat; [lra|].
    assert (0 <= K * G ^ 2 * sqrt (1 - G)). { apply Rmult_le_pos; [nra|apply sqrt_pos]. } lra.
  Qed.

  Lemma progress_bound tr :
    (0 < n)%nat -> valid_params -> 0 < G -> bounded -> Forall (fun e => 2 * G <= e) (edges tr) -> progress tr ->
    (length tr < sb_max_loop umax K G)%nat.
  Proof.
    intros Hn [HK HG2] HG Hb He Hp. specialize (Hp HG Hb He). assert (HG' : 0 < G < 1 / 2) by lra.
    pose proof (INR_pos n Hn) as HnR. set (L := - ln (1 - G)).
    assert (HL : 0 < L) by (apply (L_pos G HG')).
    assert (Hlt : PhiSum tr < INR n * (2 / L)).
    { unfold PhiSum. replace (INR n * (2 / L)) with (rsum (map (fun _ => 2 / L) (seq 0 n))) by (rewrite rsum_map_const, seq_length; reflexivity).
      assert (G0 : forall l : list nat, l <> [] -> rsum (map (fun i => Phi G (sb_N tr i)) l) < rsum (map (fun _ => 2 / L) l)).
      { induction l as [|a l IHl]; [congruence|]. intros _. simpl. pose proof (Phi_lt G HG' (sb_N tr a)) as P. fold L in P.
        destruct l; [simpl; lra|]. assert (n0 :: l <> []) by discriminate. specialize (IHl H0). simpl in *. lra. }
      apply G0. destruct n; [lia|discriminate]. }
    pose proof (rate_bound G TH HG' eq_refl) as Rb. fold L in Rb.
    set (rate := 2 * G - TH - slack G TH) in *.
    set (D := K * G ^ 2 * sqrt (1 - G)).
    assert (HD : 0 < D). { unfold D. apply Rmult_lt_0_compat; [apply Rmult_lt_0_compat; [lra|apply pow_lt; lra]|]. apply sqrt_lt_R0. lra. }
    apply INR_lt. apply Rlt_le_trans with (2 / D).
    - apply Rlt_div_iff; [exact HD|].
      assert (T1 : INR (length tr) * (K * rate) < 2 / L).
      { apply (Rmult_lt_reg_l (INR n)); [exact HnR|].
        replace (INR n * (INR (length tr) * (K * rate))) with (INR (length tr) * (K * INR n * rate)) by ring. lra. }
      assert (T2 : INR (length tr) * (K * rate) * L < 2) by (apply Rlt_div_iff; assumption).
      apply Rle_lt_trans with (INR (length tr) * (K * rate) * L); [|exact T2].
      replace (INR (length tr) * (K * rate) * L) with (INR (length tr) * (K * (L * rate))) by ring.
      apply Rmult_le_compat_l; [apply pos_INR|]. unfold D. rewrite Rmult_assoc.
      apply Rmult_le_compat_l; [lra|exact Rb].
    - unfold sb_max_loop. fold D. rewrite Reqb_false by lra. apply ceil_usize_ge.
  Qed.
End Smooth.

Lemma half_error_edge y d h :
  is_dist d -> length d = length y -> (forall i, (i < length y)%nat -> pm1 (nth i y 0)) ->
  (forall i, (i < length y)%nat -> -1 <= h i <= 1) ->
  half_error y d h = (1 - edge_of y d h) / 2.
Proof.
  intros [Hd Hs] Hl Hy Hh. unfold half_error, edge_of.
  rewrite (rsum_map_ext _ (fun i => nth i d 0 - nth i d 0 * (nth i y 0 * h i))).
  - rewrite rsum_map_minus. rewrite <- Hl at 1. rewrite rsum_nth, Hs. lra.
  - intros i Hi. apply in_seq in Hi. destruct Hi as [_ Hi]. simpl in Hi. specialize (Hy i Hi). specialize (Hh i Hi).
    destruct Hy as [E|E]; rewrite E.
    + rewrite Rabs_left1 by lra. ring.
    + rewrite Rabs_pos_eq by lra. ring.
Qed.

(** ** C16: smooth distributions, for every weak learner *)
Lemma P_C16_smoothboost_queries_are_smooth :
  forall (H : Type) (conf : H -> nat -> R) (produce : nat -> list R -> H) (y : list R) (umax : nat) (s : sb) (fuel : nat) d,
  0 <= sb_gamma s ->
  In d (trace_of (run (smoothboost conf produce y umax) fuel s)) ->
  smooth_dist (sb_kappa s) (length y) d.
Proof.
  intros H conf produce y umax s fuel d Hg0 Hd.
  destruct (sb_run_spec conf produce y umax _ _ fuel s eq_refl eq_refl Hg0) as [[_ [HF _]] _].
  rewrite Forall_forall in HF. apply HF. exact Hd.
Qed.

(** ** C17 *)
(** The defaults are not usable: with the parameters of [init] run() panics on every sample, whatever the weak
    learner, before the first query (gamma = 1/2 fails the precondition gamma < 1/2). *)
Lemma P_C17_smoothboost_defaults_refuted :
  forall (H : Type) (conf : H -> nat -> R) (produce : nat -> list R -> H) (y : list R) (umax : nat) (kappa : R) (fuel : nat),
  run (smoothboost conf produce y umax) fuel (sb_init umax) = Crashed [] AssertFailed /\
  run (smoothboost conf produce y umax) fuel (sb_tolerance (sb_init umax) kappa) = Crashed [] AssertFailed.
Proof.
  intros H conf produce y umax kappa fuel. 
  assert (G : forall s : @sb H, sb_gamma s = 1 / 2 -> run (smoothboost conf produce y umax) fuel s = Crashed [] AssertFailed).
  { intros s Hg. unfold run. simpl b_pre. unfold sb_pre. rewrite Hg.
    destruct (is_valid_binary_instance y) as [[]|p] eqn:E; simpl.
    - unfold sb_check. destruct (negb (Rleb 0 (sb_kappa s) && Rltb (sb_kappa s) 1) || Rleb (sb_kappa s) 0); [reflexivity|].
      rewrite (Rltb_false (1 / 2) (1 / 2)) by lra. rewrite andb_false_r. reflexivity.
    - destruct (valid_cases y) as [V|V]; rewrite V in E; inversion E; reflexivity. }
  split; apply G; reflexivity.
Qed.

(** What the returned vote is: the first n hypotheses (n = number of examples), equally weighted. *)
Lemma P_C17_smoothboost_result :
  forall (H : Type) (conf : H -> nat -> R) (produce : nat -> list R -> H) (y : list R) (umax : nat) (s : sb) (fuel : nat) tr f,
  0 <= sb_gamma s ->
  run (smoothboost conf produce y umax) fuel s = Finished tr f ->
  let k := Nat.min (length y) (length tr) in
  wm_hypotheses f = firstn (length y) (answers produce tr) /\ wm_weights f = repeat (1 / INR k) k /\ (0 < k)%nat.
Proof.
  intros H conf produce y umax s fuel tr f Hg0 Hr k.
  destruct (sb_run_spec conf produce y umax _ _ fuel s eq_refl eq_refl Hg0) as [_ HF].
  destruct (HF tr f Hr) as [Hn [_ [Ht [_ [_ [_ [_ ->]]]]]]]. simpl. repeat split; unfold k; lia.
Qed.

(** so all hypotheses are used, with equal weights, as long as there are no more rounds than examples *)
Lemma P_C17_smoothboost_uses_all_partial :
  forall (H : Type) (conf : H -> nat -> R) (produce : nat -> list R -> H) (y : list R) (umax : nat) (s : sb) (fuel : nat) tr f,
  0 <= sb_gamma s ->
  run (smoothboost conf produce y umax) fuel s = Finished tr f ->
  (length tr <= length y)%nat ->
  wm_hypotheses f = answers produce tr /\ wm_weights f = repeat (1 / INR (length tr)) (length tr) /\
  (forall i, wm_confidence conf f i = rsum (map (fun h => conf h i) (answers produce tr)) / INR (length tr)).
Proof.
  intros H conf produce y umax s fuel tr f Hg0 Hr Hl.
  destruct (P_C17_smoothboost_result H conf produce y umax s fuel tr f Hg0 Hr) as [E1 [E2 E3]].
  rewrite Nat.min_r in E2, E3 by exact Hl.
  assert (E1' : wm_hypotheses f = answers produce tr).
  { rewrite E1. apply firstn_all2. rewrite answers_length. exact Hl. }
  split; [exact E1'|]. split; [exact E2|]. intros i. unfold wm_confidence. rewrite E1', E2.
  rewrite (combine_nth_map _ _ _ 0 (produce 0%nat [])) by (rewrite repeat_length, answers_length; reflexivity).
  rewrite <- rsum_map_div. rewrite repeat_length. rewrite <- (map_nth_seq (produce 0%nat []) (answers produce tr)).
  rewrite map_map, answers_length. apply rsum_map_ext. intros j Hj. apply in_seq in Hj. cbn [fst snd].
  rewrite nth_repeat_lt by lia. rewrite nth_map_seq by lia. unfold Rdiv. ring.
Qed.

(** ** C52: number of rounds and termination *)
Lemma P_C52_smoothboost_terminates :
  forall (H : Type) (conf : H -> nat -> R) (produce : nat -> list R -> H) (y : list R) (umax : nat) (s : sb) (fuel : nat),
  0 <= sb_gamma s ->
  (length (trace_of (run (smoothboost conf produce y umax) fuel s)) <= sb_max_loop umax (sb_kappa s) (sb_gamma s))%nat /\
  ((0 < umax)%nat -> is_valid_binary_instance y = Ok tt -> 0 < sb_kappa s < 1 -> 0 <= sb_gamma s < 1 / 2 ->
   (sb_max_loop umax (sb_kappa s) (sb_gamma s) < fuel)%nat ->
   exists tr f, run (smoothboost conf produce y umax) fuel s = Finished tr f).
Proof.
  intros H conf produce y umax s fuel Hg0. split.
  - apply (sb_run_spec conf produce y umax _ _ fuel s eq_refl eq_refl Hg0).
  - intros Hu Hy HK HG Hf. unfold run. simpl b_pre.
    assert (Hpre : exists s0, sb_pre y umax s = Ok s0).
    { unfold sb_pre. rewrite Hy. simpl. unfold sb_check. rewrite Rleb_true, Rltb_true, Rleb_false by lra. simpl.
      rewrite Rleb_true, Rltb_true; [eexists; reflexivity|lra|]. apply Rdiv_le_iff; nra. }
    destruct Hpre as [s0 E]. rewrite E.
    pose proof (sb_pre_inv conf produce y umax (sb_kappa s) (sb_gamma s) s s0 eq_refl eq_refl Hg0 E) as I.
    eapply sb_run_from_terminates; [|exact I|simpl; lia]. apply sb_max_loop_pos; [exact Hu|split; assumption].
Qed.

(** ** C18: progress *)
(** If every answer of the run meets the documented weak-learner guarantee with gamma > 0, the run stops before
    max_loop rounds; then fewer than kappa n examples have a vote at most T theta - 1, and fewer than
    kappa n / sqrt(1 - gamma) have one at most T theta (T = number of rounds). *)
Lemma P_C18_smoothboost_margin_partial :
  forall (H : Type) (conf : H -> nat -> R) (produce : nat -> list R -> H) (y : list R) (umax : nat) (s : sb) (fuel : nat),
  let kappa := sb_kappa s in let gamma := sb_gamma s in let theta := gamma / (2 + gamma) in
  let n := length y in
  is_valid_binary_instance y = Ok tt ->
  (forall i, (i < n)%nat -> pm1 (nth i y 0)) ->
  (forall t d i, (i < n)%nat -> -1 <= conf (produce t d) i <= 1) ->
  0 < kappa < 1 -> 0 < gamma < 1 / 2 ->
  (sb_max_loop umax kappa gamma < fuel)%nat ->
  let queries := trace_of (run (smoothboost conf produce y umax) fuel s) in
  (forall k, (k < length queries)%nat ->
     half_error y (nth k queries []) (conf (produce (S k) (nth k queries []))) <= 1 / 2 - gamma) ->
  exists tr f, run (smoothboost conf produce y umax) fuel s = Finished tr f /\
    (0 < length tr < sb_max_loop umax kappa gamma)%nat /\
    let m := margin_sum conf y (answers produce tr) in let T := INR (length tr) in
    n_at_most n m (T * theta - 1) < kappa * INR n /\
    sqrt (1 - gamma) * n_at_most n m (T * theta) < kappa * INR n.
Proof.
  intros H conf produce y umax s fuel kappa gamma theta n Hy Hpm Hc HK HG Hf queries Hwl.
  assert (Hg0 : 0 <= gamma) by lra.
  assert (HML : (0 < sb_max_loop umax kappa gamma)%nat).
  { unfold sb_max_loop. rewrite Reqb_false.
    - apply ceil_usize_pos. apply Rdiv_lt_0_compat; [lra|]. apply Rmult_lt_0_compat; [apply Rmult_lt_0_compat; [lra|apply pow_lt; lra]|]. apply sqrt_lt_R0. lra.
    - apply Rgt_not_eq. apply Rmult_lt_0_compat; [apply Rmult_lt_0_compat; [lra|apply pow_lt; lra]|]. apply sqrt_lt_R0. lra. }
  assert (Hfin : exists tr f, run (smoothboost conf produce y umax) fuel s = Finished tr f).
  { unfold run. simpl b_pre.
    assert (Hpre : exists s0, sb_pre y umax s = Ok s0).
    { unfold sb_pre. rewrite Hy. simpl. fold kappa gamma. unfold sb_check. rewrite Rleb_true, Rltb_true, Rleb_false by lra. simpl.
      rewrite Rleb_true, Rltb_true; [eexists; reflexivity|lra|]. apply Rdiv_le_iff; nra. }
    destruct Hpre as [s0 E]. rewrite E.
    pose proof (sb_pre_inv conf produce y umax kappa gamma s s0 eq_refl eq_refl Hg0 E) as I.
    eapply sb_run_from_terminates; [exact HML|exact I|simpl; lia]. }
  destruct Hfin as [tr [f Hr]]. exists tr, f. split; [exact Hr|].
  destruct (sb_run_spec conf produce y umax _ _ fuel s eq_refl eq_refl Hg0) as [_ HF].
  destruct (HF tr f Hr) as [Hn [Hv [Ht [_ [Hsm [Hpr [Hstop _]]]]]]].
  unfold queries in Hwl. rewrite Hr in Hwl. cbn [trace_of] in Hwl.
  assert (Hbnd : bounded conf produce y).
  { intros t d i Hi. specialize (Hc t d i Hi). destruct (Hpm i Hi) as [E|E]; rewrite E; lra. }
  assert (Hedges : Forall (fun e => 2 * gamma <= e) (edges conf produce y tr)).
  { rewrite Forall_forall. intros e He. apply (In_nth _ _ 0) in He. destruct He as [k [Hk <-]].
    rewrite edges_length in Hk. unfold edges.
    rewrite (nth_map_in _ _ k (0%nat, [])) by (rewrite combine_length, seq_length; lia).
    rewrite combine_nth by (apply seq_length). cbn [fst snd]. rewrite seq_nth by exact Hk. 
    specialize (Hwl k Hk). rewrite Forall_forall in Hsm.
    assert (Hin : In (nth k tr []) tr) by (apply nth_In; exact Hk). destruct (Hsm _ Hin) as [Hl [[Hp Hs] _]].
    rewrite half_error_edge in Hwl.
    - simpl. simpl in Hwl. lra.
    - split; [intros x Hx; left; apply Hp; exact Hx|exact Hs].
    - exact Hl.
    - exact Hpm.
    - intros i Hi. apply Hc. exact Hi. }
  assert (Hlt : (length tr < sb_max_loop umax kappa gamma)%nat).
  { apply (progress_bound conf produce y umax kappa gamma tr Hn Hv); [lra|exact Hbnd|exact Hedges|exact Hpr]. }
  split; [lia|]. destruct Hstop as [Hs|[_ Hs]]; [unfold kappa, gamma in *; lia|].
  fold kappa gamma in Hs. cbv zeta. fold n in Hs.
  assert (Htr : tr <> []) by (intros X; rewrite X in Ht; simpl in Ht; lia).
  assert (EM : forall i, sb_M conf produce y gamma tr i = sb_weight gamma (1 + margin_sum conf y (answers produce tr) i - INR (length tr) * theta)).
  { intros i. unfold sb_M. destruct tr; [congruence|reflexivity]. }
  assert (Hs2 : rsum (map (fun i => sb_weight gamma (1 + margin_sum conf y (answers produce tr) i - INR (length tr) * theta)) (seq 0 n)) < kappa * INR n).
  { rewrite <- (rsum_map_ext _ _ (seq 0 n) (fun i _ => EM i)). exact Hs. }
  split.
  - eapply Rle_lt_trans; [|exact Hs2]. unfold n_at_most. apply count_le_rsum.
    + intros i _. left. apply sb_weight_range. lra.
    + intros i _ Hi. destruct (Rle_dec _ _) as [L|L] in Hi; [|discriminate]. unfold sb_weight.
      rewrite Rleb_true; lra.
  - eapply Rle_lt_trans; [|exact Hs2]. unfold n_at_most.
    assert (Hsq : 0 < sqrt (1 - gamma)) by (apply sqrt_lt_R0; lra).
    set (g := fun i => sb_weight gamma (1 + margin_sum conf y (answers produce tr) i - INR (length tr) * theta)).
    apply Rle_trans with (sqrt (1 - gamma) * rsum (map (fun i => g i / sqrt (1 - gamma)) (seq 0 n))).
    + apply Rmult_le_compat_l; [lra|]. apply count_le_rsum.
      * intros i _. left. apply Rdiv_lt_0_compat; [|exact Hsq]. apply sb_weight_range. lra.
      * intros i _ Hi. destruct (Rle_dec _ _) as [L|L] in Hi; [|discriminate]. apply Rle_div_iff; [exact Hsq|]. rewrite Rmult_1_l.
        unfold g, sb_weight. destruct (Rleb_spec (1 + margin_sum conf y (answers produce tr) i - INR (length tr) * theta) 0) as [B|B].
        -- apply Rle_trans with (sqrt 1); [apply sqrt_le_1; lra|rewrite sqrt_1; lra].
        -- rewrite <- (Rpower_sqrt (1 - gamma)) by lra. unfold Rpower. apply exp_le_exp.
           assert (ln (1 - gamma) <= 0) by (pose proof (ln_le_sub (1 - gamma)); lra). nra.
    + rewrite rsum_map_div. right. field. lra.
Qed.

(** ** C16: the exact distribution of every round *)
Lemma P_C16_smoothboost_distribution_form :
  forall (H : Type) (conf : H -> nat -> R) (produce : nat -> list R -> H) (y : list R) (umax : nat) (s : sb) (fuel : nat) tr k,
  0 <= sb_gamma s ->
  trace_of (run (smoothboost conf produce y umax) fuel s) = tr -> (k < length tr)%nat ->
  let theta := sb_gamma s / (2 + sb_gamma s) in
  let N i := 1 + margin_sum conf y (answers produce (firstn k tr)) i - INR k * theta in
  let W i := if (k =? 0)%nat then 1 else if Rle_dec (N i) 0 then 1 else Rpower (1 - sb_gamma s) (N i / 2) in
  nth k tr [] = map (fun i => W i / rsum (map W (seq 0 (length y)))) (seq 0 (length y)).
Proof.
  intros H conf produce y umax s fuel tr k Hg0 E Hk theta N W.
  destruct (sb_run_spec conf produce y umax _ _ fuel s eq_refl eq_refl Hg0) as [[Hgd _] _]. rewrite E in Hgd.
  destruct (Hgd k Hk) as [-> _]. unfold sb_dist, sb_total. rewrite map_map.
  assert (EM : forall i, sb_M conf produce y (sb_gamma s) (firstn k tr) i = W i).
  { intros i. unfold sb_M, W. destruct k as [|k]; [reflexivity|]. destruct tr as [|q tr]; [simpl in Hk; lia|].
    cbn [firstn Nat.eqb]. change (q :: firstn k tr) with (firstn (S k) (q :: tr)).
    assert (EN : sb_N conf produce y (sb_gamma s) (firstn (S k) (q :: tr)) i = N i).
    { unfold sb_N, N. rewrite firstn_length, Nat.min_l by lia. reflexivity. }
    rewrite EN. unfold sb_weight. destruct (Rleb_spec (N i) 0); destruct (Rle_dec (N i) 0); try contradiction; [reflexivity|].
    f_equal. field. }
  apply map_ext. intros i. rewrite EM. f_equal. apply rsum_map_ext. intros j _. apply EM.
Qed.

(** ** A weak learner that ignores the distribution *)
Lemma answers_fixed {H} (h : nat -> H) tr : answers (fun t _ => h t) tr = map h (seq 1 (length tr)).
Proof.
  unfold answers. generalize 1%nat as k. induction tr as [|d tr IH]; intros k; simpl; [reflexivity|]. f_equal. apply IH.
Qed.

(** ** C17: a run in which most hypotheses are dropped (labels (1,-1), the constant hypothesis 0) *)
Definition sbc (kappa gamma : R) : @sb (nat -> R) := mkSb kappa (gamma / (2 + gamma)) gamma 1 1 [] [] [].

Lemma P_C17_smoothboost_all_hypotheses_refuted :
  exists (y : list R) (produce : nat -> list R -> nat -> R) (fuel : nat) (s : sb) tr f,
    sb_set_gamma (sb_tolerance (sb_init 1) (1 / 2)) (1 / 4) = Ok s /\
    run (smoothboost fconf produce y 1) fuel s = Finished tr f /\
    (length (wm_hypotheses f) < length tr)%nat.
Proof.
  set (pr := fun (_ : nat) (_ : list R) (_ : nat) => 0).
  assert (Es : exists s, sb_set_gamma (sb_tolerance (@sb_init (nat -> R) 1) (1 / 2)) (1 / 4) = Ok s /\ sb_kappa s = 1 / 2 /\ sb_gamma s = 1 / 4).
  { unfold sb_set_gamma. rewrite Rleb_true, Rltb_true by lra. eexists. split; [reflexivity|]. split; reflexivity. }
  destruct Es as [s [Es [Ek Eg]]].
  set (M := sb_max_loop 1 (1 / 2) (1 / 4)).
  destruct (P_C52_smoothboost_terminates _ fconf pr y2 1 s (S M)) as [_ T].
  { rewrite Eg. lra. }
  destruct T as [tr [f Hr]]; [lia|apply y2_valid|rewrite Ek; lra|rewrite Eg; lra|rewrite Ek, Eg; fold M; lia|].
  exists y2, pr, (S M), s, tr, f. split; [exact Es|]. split; [exact Hr|].
  destruct (sb_run_spec fconf pr y2 1 _ _ (S M) s Ek Eg) as [_ HF]; [lra|].
  destruct (HF tr f Hr) as [Hn [Hv [Ht [_ [_ [_ [Hstop ->]]]]]]]. cbn [wm_hypotheses]. rewrite firstn_length, answers_length.
  destruct Hstop as [HM|[_ Hs]].
  - enough (2 < length tr)%nat by (change (length y2) with 2%nat; lia). rewrite HM. apply INR_lt.
    unfold sb_max_loop. set (D := 1 / 2 * (1 / 4) ^ 2 * sqrt (1 - 1 / 4)).
    assert (Hq : 0 < sqrt (1 - 1 / 4) <= 1).
    { split; [apply sqrt_lt_R0; lra|]. apply Rle_trans with (sqrt 1); [apply sqrt_le_1; lra|rewrite sqrt_1; lra]. }
    assert (HD : 0 < D <= 1 / 32) by (unfold D; nra).
    rewrite Reqb_false by lra. eapply Rlt_le_trans; [|apply ceil_usize_ge].
    apply Rlt_div_iff; [lra|]. simpl. lra.
  - exfalso. apply (Rlt_not_le _ _ Hs). unfold sb_total. simpl length.
    assert (HW : forall i, 1 / 2 <= sb_M fconf pr y2 (1 / 4) tr i).
    { intros i. unfold sb_M. destruct tr as [|q tr]; [lra|]. unfold sb_weight.
      destruct (Rleb_spec (sb_N fconf pr y2 (1 / 4) (q :: tr) i) 0) as [L|L]; [lra|].
      assert (HN : sb_N fconf pr y2 (1 / 4) (q :: tr) i <= 1).
      { unfold sb_N, margin_sum, pr. rewrite (answers_fixed (fun _ _ => 0)), map_map.
        rewrite (rsum_map_ext _ (fun _ => 0)) by reflexivity. rewrite rsum_map_const.
        pose proof (pos_INR (length (q :: tr))). assert (0 < 1 / 4 / (2 + 1 / 4)) by lra. nra. }
      apply Rle_trans with (sqrt (1 - 1 / 4)).
      - apply Rle_trans with (sqrt ((1 / 2) ^ 2)); [rewrite sqrt_pow2; lra|apply sqrt_le_1; lra].
      - rewrite <- (Rpower_sqrt (1 - 1 / 4)) by lra. unfold Rpower. apply exp_le_exp.
        assert (ln (1 - 1 / 4) <= 0) by (pose proof (ln_le_sub (1 - 1 / 4)); lra). nra. }
    cbn [seq map rsum y2 length]. pose proof (HW 0%nat). pose proof (HW 1%nat). simpl INR. lra.
Qed.

(** ** C18: a run meeting every hypothesis of the theorem above after which more than a kappa fraction of the
    examples has margin below theta *)
Definition y24 : list R := 1 :: repeat (-1) 23.
(** 15 rounds wrong on the first example, then 1/2 on it; always right on the others *)
Definition h24 (t i : nat) : R := match i with O => if (t <=? 15)%nat then -1 else 1 / 2 | _ => -1 end.

Lemma y24_valid : is_valid_binary_instance y24 = Ok tt.
Proof.
  apply valid_pm1; unfold y24; [|left; reflexivity|right; simpl; auto]. intros v [<-|Hv]; [auto|]. apply repeat_spec in Hv. auto.
Qed.

Lemma y24_nth i : (1 <= i < 24)%nat -> nth i y24 0 = -1.
Proof. intros Hi. unfold y24. destruct i; [lia|]. cbn [nth]. apply nth_repeat_lt. lia. Qed.

Lemma y24_pm1 i : (i < length y24)%nat -> pm1 (nth i y24 0).
Proof.
  intros Hi. unfold y24 in Hi. cbn [length] in Hi. rewrite repeat_length in Hi.
  destruct i; [left; reflexivity|right; apply y24_nth; lia].
Qed.

Lemma margin24_B tr i : (1 <= i < 24)%nat -> margin_sum fconf y24 (answers (fun t _ => h24 t) tr) i = INR (length tr).
Proof.
  intros Hi. unfold margin_sum. rewrite y24_nth by exact Hi. rewrite answers_fixed, map_map.
  rewrite (rsum_map_ext _ (fun _ => -1)) by (intros t _; unfold fconf, h24; destruct i; [lia|reflexivity]).
  rewrite rsum_map_const, seq_length. ring.
Qed.

Lemma margin24_A tr :
  margin_sum fconf y24 (answers (fun t _ => h24 t) tr) 0 =
  if (length tr <=? 15)%nat then - INR (length tr) else -15 + (INR (length tr) - 15) / 2.
Proof.
  unfold margin_sum. rewrite answers_fixed, map_map. change (nth 0 y24 0) with 1. rewrite Rmult_1_l.
  generalize (length tr) as T. induction T as [|T IH]; [simpl; lra|].
  rewrite seq_S, map_app, rsum_app, IH. cbn [map rsum].
  change (fconf (h24 (1 + T)) 0) with (if (S T <=? 15)%nat then -1 else 1 / 2). rewrite S_INR.
  destruct (Nat.leb_spec T 15); destruct (Nat.leb_spec (S T) 15); try lia; try lra.
  assert (T = 15%nat) by lia. subst. simpl. lra.
Qed.

Lemma n24 : length y24 = 24%nat.
Proof. reflexivity. Qed.

Lemma pow34 k : Rpower (1 - 1 / 4) (INR k) = (3 / 4) ^ k.
Proof. rewrite Rpower_pow by lra. f_equal. lra. Qed.

Lemma Rpower34_le a b : a <= b -> Rpower (1 - 1 / 4) b <= Rpower (1 - 1 / 4) a.
Proof.
  intros Hab. unfold Rpower. apply exp_le_exp.
  assert (ln (1 - 1 / 4) <= 0) by (pose proof (ln_le_sub (1 - 1 / 4)); lra). nra.
Qed.

Definition kap24 : R := 19 / 480.
Definition s24 : @sb (nat -> R) := sbc kap24 (1 / 4).
Definition pr24 : nat -> list R -> nat -> R := fun t _ => h24 t.

(** weights of the examples before round k+1 *)
Lemma M24_B tr i : (1 <= i < 24)%nat -> sb_M fconf pr24 y24 (1 / 4) tr i =
  match length tr with O => 1 | S _ => Rpower (1 - 1 / 4) ((1 + INR (length tr) * (8 / 9)) * (1 / 2)) end.
Proof.
  intros Hi. unfold sb_M. destruct tr as [|q tr]; [reflexivity|]. cbn [length]. change (S (length tr)) with (length (q :: tr)).
  assert (E : sb_N fconf pr24 y24 (1 / 4) (q :: tr) i = 1 + INR (length (q :: tr)) * (8 / 9)).
  { unfold sb_N. unfold pr24. rewrite margin24_B by exact Hi. field. }
  rewrite E. unfold sb_weight. pose proof (pos_INR (length (q :: tr))). rewrite Rleb_false by lra. reflexivity.
Qed.

Lemma total24 tr : sb_total fconf pr24 y24 (1 / 4) tr =
  sb_M fconf pr24 y24 (1 / 4) tr 0 + 23 * sb_M fconf pr24 y24 (1 / 4) tr 1.
Proof.
  unfold sb_total. rewrite n24. change (seq 0 24) with (0%nat :: seq 1 23). cbn [map rsum]. f_equal.
  rewrite (rsum_map_ext _ (fun _ => sb_M fconf pr24 y24 (1 / 4) tr 1)).
  - rewrite rsum_map_const, seq_length. replace (INR 23) with 23 by (simpl; lra). reflexivity.
  - intros i Hi. apply in_seq in Hi. rewrite !M24_B by lia. reflexivity.
Qed.

Lemma P_C18_smoothboost_kappa_fraction_refuted :
  exists (produce : nat -> list R -> nat -> R) (y : list R) (s : sb) (fuel : nat) tr f,
  let kappa := sb_kappa s in let gamma := sb_gamma s in let theta := gamma / (2 + gamma) in
  let n := length y in
  (is_valid_binary_instance y = Ok tt /\
   (forall i, (i < n)%nat -> pm1 (nth i y 0)) /\
   (forall t d i, (i < n)%nat -> -1 <= fconf (produce t d) i <= 1) /\
   0 < kappa < 1 /\ 0 < gamma < 1 / 2 /\
   (sb_max_loop 1 kappa gamma < fuel)%nat) /\
  run (smoothboost fconf produce y 1) fuel s = Finished tr f /\
  (forall k, (k < length tr)%nat ->
     half_error y (nth k tr []) (fconf (produce (S k) (nth k tr []))) <= 1 / 2 - gamma) /\
  exists i0, (i0 < n)%nat /\
    margin_sum fconf y (answers produce tr) i0 / INR (length tr) < theta /\ kappa * INR n < 1.
Proof.
  set (M := sb_max_loop 1 kap24 (1 / 4)).
  destruct (P_C52_smoothboost_terminates _ fconf pr24 y24 1 s24 (S M)) as [_ T]; [simpl; lra|].
  destruct T as [tr [f Hr]]; [lia|apply y24_valid|simpl; unfold kap24; lra|simpl; lra|simpl; fold M; lia|].
  exists pr24, y24, s24, (S M), tr, f. cbv zeta. simpl sb_kappa. simpl sb_gamma. rewrite n24.
  assert (Hh : forall t d i, -1 <= fconf (pr24 t d) i <= 1).
  { intros t d i. unfold fconf, pr24, h24. destruct i; [destruct (t <=? 15)%nat|]; lra. }
  destruct (sb_run_spec fconf pr24 y24 1 kap24 (1 / 4) (S M) s24 eq_refl eq_refl) as [_ HF]; [lra|].
  destruct (HF tr f Hr) as [Hn [Hv [Ht [Hgd [Hsm [_ [_ _]]]]]]].
  split.
  { split; [apply y24_valid|]. split; [intros i Hi; apply y24_pm1; rewrite n24; exact Hi|].
    split; [intros; apply Hh|]. split; [unfold kap24; lra|]. split; [lra|fold M; lia]. }
  split; [exact Hr|]. split.
  - intros k Hk. destruct (Hgd k Hk) as [Ed _].
    assert (Hin : In (nth k tr []) tr) by (apply nth_In; exact Hk). rewrite Forall_forall in Hsm.
    destruct (Hsm _ Hin) as [Hl [[Hp Hs] _]].
    assert (Hd : is_dist (nth k tr [])) by (split; [intros x Hx; left; apply Hp; exact Hx|exact Hs]).
    rewrite half_error_edge; [|exact Hd|exact Hl|apply y24_pm1|intros; apply Hh].
    set (d := nth k tr []) in *. set (tk := firstn k tr) in *.
    assert (Hlk : length tk = k) by (unfold tk; rewrite firstn_length; lia).
    assert (Edge : edge_of y24 d (fconf (pr24 (S k) d)) = nth 0 d 0 * h24 (S k) 0 + (1 - nth 0 d 0)).
    { assert (Es : 1 = nth 0 d 0 + rsum (map (fun i => nth i d 0) (seq 1 23))).
      { rewrite <- Hs, <- (rsum_nth d), Hl, n24. reflexivity. }
      unfold edge_of. rewrite n24. change (seq 0 24) with (0%nat :: seq 1 23). cbn [map rsum].
      rewrite (rsum_map_ext _ (fun i => nth i d 0)).
      - change (nth 0 y24 0) with 1. unfold fconf, pr24. lra.
      - intros i Hi. apply in_seq in Hi. rewrite y24_nth by lia. unfold fconf, pr24, h24. destruct i; [lia|]. ring. }
    rewrite Edge.
    assert (H0 : 0 <= nth 0 d 0).
    { apply Hd. apply nth_In. rewrite Hl. rewrite n24. lia. }
    unfold h24. destruct (Nat.leb_spec (S k) 15) as [L|L].
    + (* phase 1: the first example has at most a quarter of the weight *)
      assert (H4 : nth 0 d 0 <= 1 / 4); [|lra].
      rewrite Ed, sb_dist_nth by (rewrite n24; lia).
      apply Rdiv_le_iff; [apply (sb_total_pos _ _ _ kap24); assumption|]. rewrite total24.
      assert (HA : sb_M fconf pr24 y24 (1 / 4) tk 0 <= 1) by (apply (sb_M_range _ _ _ kap24); exact Hv).
      assert (HB : (3 / 4) ^ 7 <= sb_M fconf pr24 y24 (1 / 4) tk 1).
      { rewrite M24_B by lia. rewrite Hlk. destruct k; [|].
        - simpl. lra.
        - rewrite <- pow34. apply Rpower34_le. 
          assert (INR (S k) <= INR 14) by (apply le_INR; lia). simpl (INR 14) in *. simpl (INR 7). lra. }
      assert (HA0 : 0 < sb_M fconf pr24 y24 (1 / 4) tk 0) by (apply (sb_M_range _ _ _ kap24); exact Hv).
      simpl in HB. lra.
    + assert (nth 0 d 0 <= 1).
      { rewrite <- Hs. apply rsum_in_le; [apply Hd|]. apply nth_In. rewrite Hl, n24. lia. }
      lra.
  - exists 0%nat. split; [lia|].
    assert (HT57 : (length tr <= 57)%nat).
    { destruct (Nat.le_gt_cases (length tr) 57) as [|G]; [assumption|exfalso].
      destruct (Hgd 57%nat) as [_ C]; [lia|]. rewrite n24 in C. apply Rle_not_lt in C. apply C. clear C.
      rewrite total24. set (tk := firstn 57 tr).
      assert (Hlk : length tk = 57%nat) by (unfold tk; rewrite firstn_length; lia).
      assert (HB : sb_M fconf pr24 y24 (1 / 4) tk 1 <= (3 / 4) ^ 25).
      { rewrite M24_B, Hlk by lia. rewrite <- pow34. apply Rpower34_le. simpl INR. lra. }
      assert (HA : sb_M fconf pr24 y24 (1 / 4) tk 0 <= 91 / 100).
      { assert (E : sb_N fconf pr24 y24 (1 / 4) tk 0 = 2 / 3).
        { unfold sb_N, pr24. rewrite margin24_A, Hlk. simpl INR. simpl Nat.leb. cbv iota. field. }
        unfold sb_M. destruct tk eqn:Etk; [simpl in Hlk; lia|]. rewrite <- Etk in *. rewrite E. unfold sb_weight.
        rewrite Rleb_false by lra.
        destruct (Rle_dec (Rpower (1 - 1 / 4) (2 / 3 * (1 / 2))) (91 / 100)) as [|N]; [assumption|exfalso].
        set (z := Rpower (1 - 1 / 4) (2 / 3 * (1 / 2))) in *.
        assert (Hz : z * z * z = 3 / 4).
        { unfold z. rewrite <- !Rpower_plus. replace (2 / 3 * (1 / 2) + 2 / 3 * (1 / 2) + 2 / 3 * (1 / 2)) with 1 by field.
          rewrite Rpower_1 by lra. lra. }
        assert (91 / 100 < z) by lra. assert (91 / 100 * (91 / 100) < z * z) by nra. nra. }
      replace (INR 24) with 24 by (simpl; lra). unfold kap24. simpl in HB. lra. }
    split.
    + apply Rdiv_lt_iff; [apply INR_pos; exact Ht|]. unfold pr24. rewrite margin24_A.
      assert (1 <= INR (length tr)) by (apply (le_INR 1); lia).
      assert (INR (length tr) <= 57) by (replace 57 with (INR 57) by (simpl; lra); apply le_INR; lia).
      destruct (length tr <=? 15)%nat; lra.
    + unfold kap24. replace (INR 24) with 24 by (simpl; lra). lra.
Qed.
