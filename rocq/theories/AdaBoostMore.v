(** AdaBoost: further consequences and concrete executions. *)
From Verif Require Import Base Spec SortLib Utils UtilsProofs WMajority WMajorityProofs Booster AdaBoost
  AdaBoostProofs AdaBoostMain.
Open Scope R_scope.

Lemma as_usize_le r : 0 <= r -> INR (as_usize r) <= r.
Proof.
  intros Hr. unfold as_usize. destruct (base_Int_part r) as [B1 B2].
  assert (Hz : (0 <= Int_part r)%Z).
  { apply le_IZR. apply Rnot_lt_le. intros L. assert (IZR (Int_part r) <= -1).
    { apply IZR_le. apply lt_IZR in L. lia. } lra. }
  rewrite INR_IZR_INZ, Z2Nat.id by exact Hz. exact B1.
Qed.

Lemma as_usize_gt r : r < INR (as_usize r) + 1.
Proof.
  unfold as_usize. destruct (base_Int_part r) as [B1 B2].
  rewrite INR_IZR_INZ. assert (IZR (Int_part r) <= IZR (Z.of_nat (Z.to_nat (Int_part r)))) by (apply IZR_le; lia).
  lra.
Qed.

Lemma as_usize_ge r k : INR k <= r -> (k <= as_usize r)%nat.
Proof.
  intros Hk. pose proof (as_usize_gt r). apply INR_le. 
  assert (Hs : INR k < INR (S (as_usize r))) by (rewrite S_INR; lra).
  apply INR_lt in Hs. apply le_INR. lia.
Qed.

Lemma as_usize_small r : r < 1 -> as_usize r = 0%nat.
Proof.
  intros Hr. unfold as_usize. destruct (base_Int_part r) as [B1 B2].
  assert (L : IZR (Int_part r) < 1) by lra. apply lt_IZR in L. lia.
Qed.

Section More.
  Context {H : Type}.
  Variable conf : H -> nat -> R.
  Variable produce : nat -> list R -> H.
  Variable y : list R.
  Let n := length y.

  (** edges >= gamma in all T rounds and T gamma^2 > 2 ln n : no training error *)
  Lemma rprod_sqrt_bound g l :
    0 < g -> Forall (fun e => g <= e) l -> 
    rprod (map (fun e => sqrt (1 - e ^ 2)) l) <= exp (- (g ^ 2 / 2) * INR (length l)).
  Proof.
    intros Hg. induction 1 as [|e l He Hl IH].
    - simpl. rewrite Rmult_0_r, exp_0. lra.
    - cbn [map rprod fold_right length]. fold (rprod (map (fun e => sqrt (1 - e ^ 2)) l)).
      rewrite S_INR. replace (- (g ^ 2 / 2) * (INR (length l) + 1))
        with (- (g ^ 2 / 2) + - (g ^ 2 / 2) * INR (length l)) by ring.
      rewrite exp_plus. apply Rmult_le_compat.
      + apply sqrt_pos.
      + apply rprod_nonneg. intros x Hx. apply in_map_iff in Hx. destruct Hx as [z [<- _]]. apply sqrt_pos.
      + apply Rle_trans with (sqrt (exp (- g ^ 2))).
        * apply sqrt_le_1_alt. pose proof (exp_ge_1x (- g ^ 2)). nra.
        * right. rewrite <- (sqrt_pow2 (exp (- (g ^ 2 / 2)))) by (left; apply exp_pos).
          f_equal. replace (exp (- (g ^ 2 / 2)) ^ 2) with (exp (- (g ^ 2 / 2)) * exp (- (g ^ 2 / 2))) by ring.
          rewrite <- exp_plus. f_equal. field.
      + exact IH.
  Qed.

  Lemma ada_zero_error fuel s tr f g :
    (forall i, (i < n)%nat -> pm1 (nth i y 0)) ->
    (forall h i, In h (answers produce tr) -> (i < n)%nat -> -1 <= conf h i <= 1) ->
    run (adaboost conf produce y) fuel s = Finished tr f ->
    0 < g -> Forall (fun e => g <= e) (edges conf produce y tr) ->
    2 * ln (INR n) < g ^ 2 * INR (length tr) ->
    n_errors y (wm_predict conf f) = 0%nat.
  Proof.
    intros Hy Hc Hrun Hg Hes HT.
    assert (Hpos : Forall (fun e => 0 <= e) (edges conf produce y tr)).
    { eapply Forall_impl; [|exact Hes]. intros e He; cbv beta in *; lra. }
    pose proof (ada_training_error conf produce y fuel s tr f Hy Hc Hrun Hpos) as B.
    pose proof (rprod_sqrt_bound g _ Hg Hes) as B2. rewrite edges_length in B2.
    assert (Hn : (0 < n)%nat).
    { destruct (ada_run_spec conf produce y fuel s) as [_ HF]. apply (HF tr f Hrun). }
    pose proof (INR_pos n Hn) as HnR.
    assert (B3 : INR n * exp (- (g ^ 2 / 2) * INR (length tr)) < 1).
    { rewrite <- (exp_ln (INR n)) at 1 by exact HnR. rewrite <- exp_plus, <- exp_0.
      apply exp_increasing. nra. }
    assert (B4 : INR (n_errors y (wm_predict conf f)) < INR 1).
    { simpl INR. eapply Rle_lt_trans; [exact B|]. eapply Rle_lt_trans; [|exact B3].
      apply Rmult_le_compat_l; [lra|exact B2]. }
    apply INR_lt in B4. lia.
  Qed.

  (** consecutive queries: a +-1 hypothesis has edge zero afterwards *)
  Lemma ada_edge_zero fuel s k tr :
    trace_of (run (adaboost conf produce y) fuel s) = tr ->
    (S k < length tr)%nat ->
    (forall i, (i < n)%nat -> pm1 (nth i y 0)) ->
    let h := nth k (answers produce tr) (produce 0%nat []) in
    (forall i, (i < n)%nat -> pm1 (conf h i)) ->
    Forall small (firstn (S k) (edges conf produce y tr)) ->
    edge_of y (nth (S k) tr []) (conf h) = 0.
  Proof.
    intros Htr Hk Hy h Hh Hsm. destruct (ada_run_spec conf produce y fuel s) as [[Hg [_ Hn]] _].
    rewrite Htr in Hg, Hn.
    assert (Hn' : (0 < n)%nat) by (apply Hn; intros E; rewrite E in Hk; simpl in Hk; lia).
    (* split the trace *)
    assert (Hsplit : firstn (S k) tr = firstn k tr ++ [nth k tr []]).
    { clear -Hk. revert tr Hk; induction k as [|k IH]; intros [|a tr] Hk; simpl in *; try lia; [reflexivity|].
      f_equal. apply IH. lia. }
    pose proof (Hg (S k) Hk) as [Hl1 Hd1]. pose proof (Hg k ltac:(lia)) as Hd0.
    set (d := nth k tr []) in *. set (d' := nth (S k) tr []) in *.
    assert (Eh : h = produce (S k) d).
    { unfold h. unfold answers.
      rewrite (nth_map_in _ (combine (seq 1 (length tr)) tr) k (0%nat, [])) by
        (rewrite combine_length, seq_length, Nat.min_id; lia).
      rewrite combine_nth by apply seq_length. cbn [fst snd]. rewrite seq_nth by lia. reflexivity. }
    rewrite Hsplit, ada_history_app in Hd1.
    replace (S (length (firstn k tr))) with (S k) in Hd1 by (rewrite firstn_length_le; lia).
    rewrite <- Eh in Hd1. set (e := edge_of y d (conf h)) in *.
    assert (He : small e).
    { assert (Ee : firstn (S k) (edges conf produce y tr) = edges conf produce y (firstn (S k) tr)).
      { assert (Hx : forall m, (m <= length tr)%nat -> firstn m (edges conf produce y tr) = edges conf produce y (firstn m tr)).
        { intros m Hm. unfold edges. rewrite firstn_map. f_equal.
          rewrite combine_firstn. f_equal. rewrite firstn_length_le by lia.
          clear -Hm. replace (length tr) with (m + (length tr - m))%nat by lia. rewrite seq_app.
          rewrite firstn_app, seq_length, Nat.sub_diag. simpl. rewrite app_nil_r.
          apply firstn_all2. rewrite seq_length. lia. }
        apply Hx. lia. }
      rewrite Ee, Hsplit, edges_app in Hsm. apply Forall_app in Hsm. destruct Hsm as [_ Hsm].
      pose proof (Forall_inv Hsm) as Hsm'.
      replace (S (length (firstn k tr))) with (S k) in Hsm' by (rewrite firstn_length_le; lia).
      rewrite <- Eh in Hsm'. exact Hsm'. }
    pose proof (expZ_pos conf y (ada_history conf produce y (firstn k tr)) Hn') as HZ0.
    pose proof (expZ_pos conf y (ada_history conf produce y (firstn k tr) ++ [(ada_weight e, h)]) Hn') as HZ1.
    destruct (exp_dist_pos conf y _ d Hn' Hd0) as [_ Hsum]. destruct Hd0 as [Hl0 Hd0].
    set (Z0 := expZ conf y (ada_history conf produce y (firstn k tr))) in *.
    set (Z1 := expZ conf y (ada_history conf produce y (firstn k tr) ++ [(ada_weight e, h)])) in *.
    set (w := ada_weight e) in *.
    unfold edge_of. fold n.
    rewrite (rsum_map_ext _ (fun i => Z0 / Z1 * ((exp (- w) - exp w) / 2 * nth i d 0 +
        (exp (- w) + exp w) / 2 * (nth i d 0 * (nth i y 0 * conf h i))))).
    - rewrite rsum_map_mult, rsum_map_plus, !rsum_map_mult.
      assert (E1 : rsum (map (fun i => nth i d 0) (seq 0 n)) = 1) by (replace n with (length d) by exact Hl0; rewrite rsum_nth; exact Hsum).
      rewrite E1. change (rsum (map (fun i => nth i d 0 * (nth i y 0 * conf h i)) (seq 0 n))) with e.
      assert (Hz : (exp (- w) - exp w) / 2 * 1 + (exp (- w) + exp w) / 2 * e = 0).
      { unfold w. destruct (ada_weight_exp e He) as [-> ->].
        unfold small in He.
        assert (S1 : (1 + e) * sqrt ((1 - e) / (1 + e)) = sqrt (1 - e ^ 2)).
        { rewrite <- (sqrt_pow2 (1 + e)) at 1 by lra. rewrite <- sqrt_mult_alt by (apply pow2_ge_0).
          f_equal. field. lra. }
        assert (S2 : (1 - e) * sqrt ((1 + e) / (1 - e)) = sqrt (1 - e ^ 2)).
        { rewrite <- (sqrt_pow2 (1 - e)) at 1 by lra. rewrite <- sqrt_mult_alt by (apply pow2_ge_0).
          f_equal. field. lra. }
        lra. }
      rewrite Hz. ring.
    - intros i Hi. apply in_seq in Hi. assert (Hi' : (i < n)%nat) by lia.
      rewrite Hd1 by exact Hi'. rewrite expw_app.
      assert (Ex : expw conf y (ada_history conf produce y (firstn k tr)) i = nth i d 0 * Z0).
      { rewrite Hd0 by exact Hi'. unfold Z0. field. unfold Z0 in HZ0. lra. }
      rewrite Ex. fold w.
      destruct (Hy i Hi') as [Ey|Ey]; destruct (Hh i Hi') as [Ec|Ec]; rewrite Ey, Ec; fold Z1.
      + replace (- w * (1 * 1)) with (- w) by ring. field. lra.
      + replace (- w * (1 * -1)) with w by ring. field. lra.
      + replace (- w * (-1 * 1)) with w by ring. field. lra.
      + replace (- w * (-1 * -1)) with (- w) by ring. field. lra.
  Qed.
End More.

(** ** Concrete executions (labels [1; -1], hypotheses are functions on the rows) *)
Definition y2 : list R := [1; -1].
Definition fconf (h : nat -> R) (i : nat) : R := h i.

Lemma y2_valid : is_valid_binary_instance y2 = Ok tt.
Proof.
  apply valid_pm1; [|simpl; auto 20|simpl; auto 20]. intros v Hv. simpl in Hv. repeat (destruct Hv as [<-|Hv]; [auto|]). destruct Hv.
Qed.

Lemma y2_pm1 i : (i < length y2)%nat -> pm1 (nth i y2 0).
Proof.
  unfold pm1. destruct i as [|[|i]]; simpl; intros Hi; [left|right|]; try reflexivity; lia.
Qed.

(** always wrong: edge -1 in the first round *)
Definition h_wrong (i : nat) : R := - nth i y2 0.

Lemma ada_negative_edge_run fuel :
  run (adaboost fconf (fun _ _ => h_wrong) y2) (S fuel) (ada_init y2) = Crashed [[1 / 2; 1 / 2]] AssertFailed.
Proof.
  assert (Ed : repeat (1 / INR (length y2)) (length y2) = [1 / 2; 1 / 2]).
  { simpl. replace (1 + 1) with 2 by lra. reflexivity. }
  assert (Hp : ada_pre y2 (@ada_init (nat -> R) y2) =
    Ok (mkAda [1 / 2; 1 / 2] (1 / (INR (length y2) + 1)) [] [] (ada_max_loop y2 (@ada_init (nat -> R) y2)) None)).
  { unfold ada_pre. rewrite y2_valid. cbn [bind]. rewrite Ed. reflexivity. }
  unfold run, adaboost, b_pre. rewrite Hp. cbn [run_from b_boost]. unfold ada_boost.
  cbn [a_max_iter a_force_quit a_tolerance a_dist].
  assert (HL : (1 <= ada_max_loop y2 (@ada_init (nat -> R) y2))%nat).
  { unfold ada_max_loop. simpl. apply as_usize_ge. simpl INR.
    replace (1 + 1) with 2 by lra. pose proof ln_lt_2.
    replace (ln 2 / (1 / (2 + 1) * (1 / (2 + 1) * 1))) with (9 * ln 2) by field. lra. }
  destruct (Nat.ltb_spec (ada_max_loop y2 (@ada_init (nat -> R) y2)) 1) as [L|L]; [lia|].
  cbn [app].
  assert (Ee : inner_product (margins_of_hypothesis fconf y2 h_wrong) [1 / 2; 1 / 2] = -1).
  { unfold inner_product, dot, zipmul, margins_of_hypothesis, fconf, h_wrong. simpl. field. }
  rewrite Ee. rewrite Rleb_true by (rewrite Rabs_left; lra).
  simpl b_post. unfold ada_post. simpl a_weights. simpl a_hyps. unfold rsignum.
  rewrite Rltb_true by lra. rewrite from_slices_single_neg. reflexivity.
Qed.

(** two rounds, the second hypothesis worse than random *)
Definition h_one (i : nat) : R := match i with O => 1 / 2 | _ => 0 end.
Definition h_two (i : nat) : R := match i with O => 0 | _ => 1 end.
Definition wl_12 (t : nat) (_ : list R) : nat -> R := match t with 1%nat => h_one | _ => h_two end.
Definition ada2 : @ada (nat -> R) := ada_force_quit_at (ada_init y2) 2.

Lemma ada_dropped_run :
  exists tr f,
    run (adaboost fconf wl_12 y2) 3 ada2 = Finished tr f /\
    (* the vote that the distributions were computed from is right on row 1 ... *)
    sign_label (vote fconf (combine (map ada_weight (edges fconf wl_12 y2 tr)) (answers wl_12 tr)) 1) = nth 1 y2 0 /\
    (* ... the returned hypothesis is wrong there *)
    wm_predict fconf f 1 <> nth 1 y2 0.
Proof.
  assert (Hpre : exists s0, b_pre (adaboost fconf wl_12 y2) ada2 = Ok s0).
  { simpl. unfold ada_pre. rewrite y2_valid. eexists; reflexivity. }
  destruct Hpre as [s0 Hpre].
  pose proof (ada_pre_inv fconf wl_12 y2 ada2 s0 Hpre) as I0.
  unfold run. rewrite Hpre.
  assert (Hd0 : a_dist s0 = [1 / 2; 1 / 2]).
  { simpl in Hpre. unfold ada_pre in Hpre. rewrite y2_valid in Hpre. inversion Hpre. simpl.
    replace (1 + 1) with 2 by lra. reflexivity. }
  change (ada_limit y2 ada2) with 2%nat in I0.
  assert (Ee1 : edge_of y2 (a_dist s0) (fconf (wl_12 1 (a_dist s0))) = 1 / 4).
  { rewrite Hd0. unfold edge_of, fconf, y2, h_one. simpl. field. }
  cbn [run_from].
  destruct (ada_boost_step fconf wl_12 y2 _ _ _ _ I0) as [[HL _]|[[_ [_ [He _]]]|[_ [He1 [s1 [E1 I1]]]]]].
  { simpl in HL. lia. }
  { rewrite Ee1, Rabs_pos_eq in He by lra. lra. }
  simpl b_boost. rewrite E1. cbn [app].
  set (d1 := a_dist s1).
  assert (Hd1 : is_pos_dist d1 /\ length d1 = 2%nat).
  { destruct I1 as [Hn [_ [_ [_ [_ [_ [_ [_ [_ Hd]]]]]]]]]. split; [eapply exp_dist_pos; eassumption|apply Hd]. }
  destruct Hd1 as [[Hp1 Hs1] Hl1].
  assert (Hb : exists a b, d1 = [a; b] /\ 0 < a /\ 0 < b /\ a + b = 1).
  { destruct d1 as [|a [|b [|c d1]]]; try (simpl in Hl1; lia). exists a, b. split; [reflexivity|].
    split; [apply Hp1; left; reflexivity|]. split; [apply Hp1; right; left; reflexivity|]. simpl in Hs1. lra. }
  destruct Hb as [a [b [Ed1 [Ha [Hbp Hab]]]]].
  assert (Ee2 : edge_of y2 d1 (fconf (wl_12 2 d1)) = - b).
  { rewrite Ed1. unfold edge_of, fconf, y2, h_two. simpl. field. }
  destruct (ada_boost_step fconf wl_12 y2 _ _ _ _ I1) as [[HL _]|[[_ [_ [He _]]]|[_ [He2 [s2 [E2 I2]]]]]].
  { simpl in HL. lia. }
  { fold d1 in He. rewrite Ee2, Rabs_left in He by lra. lra. }
  rewrite E2. cbn [app]. fold d1.
  destruct (ada_boost_step fconf wl_12 y2 _ _ _ _ I2) as [[HL E3]|[[HL _]|[HL _]]]; try (simpl in HL; lia).
  rewrite E3. cbn [app].
  assert (Ew : a_weights s2 = [ada_weight (1 / 4); ada_weight (- b)] /\ a_hyps s2 = [h_one; h_two]).
  { destruct I2 as [Hn [_ [_ [_ [Hlen [Hc [Hw [_ [_ _]]]]]]]]].
    assert (Hww : a_weights s2 = [ada_weight (1 / 4); ada_weight (- b)]).
    { rewrite Hw. unfold edges. cbn [app combine length seq map fst snd]. rewrite Ee1. fold d1. rewrite Ee2. reflexivity. }
    split; [exact Hww|].
    unfold ada_history in Hc. rewrite <- Hw in Hc.
    assert (Hal : length (answers wl_12 (([] ++ [a_dist s0]) ++ [a_dist s1])) = 2%nat) by reflexivity.
    apply (combine_split_eq (a_weights s2) (a_weights s2)) in Hc; [|exact Hlen|rewrite Hww; reflexivity].
    destruct Hc as [_ Hc]. rewrite Hc. reflexivity. }
  destruct Ew as [Ew Eh].
  simpl b_post. unfold ada_post. rewrite Ew, Eh.
  assert (Hw1 : 0 < ada_weight (1 / 4)) by (apply ada_weight_pos; lra).
  assert (Hw2 : ada_weight (- b) < 0).
  { unfold ada_weight. assert (ln ((1 + - b) / (1 - - b)) < 0); [|lra].
    rewrite <- ln_1. apply ln_increasing; [apply Rdiv_lt_0_compat; lra|]. apply Rdiv_lt_iff; lra. }
  pose proof (from_slices_spec fconf [ada_weight (1 / 4); ada_weight (- b)] [h_one; h_two]) as S.
  assert (Hk : kept [ada_weight (1 / 4); ada_weight (- b)] [h_one; h_two] = [(ada_weight (1 / 4), h_one)]).
  { unfold kept. cbn [combine filter fst]. rewrite Rltb_true by exact Hw1. rewrite Rltb_false by lra. reflexivity. }
  destruct (from_slices [ada_weight (1 / 4); ada_weight (- b)] [h_one; h_two]) as [f|p].
  - exists [a_dist s0; d1], f. split; [reflexivity|].
    rewrite Hk in S. cbv zeta in S. destruct S as [Hz [_ [_ [_ [_ Hcf]]]]]. split.
    + unfold edges, answers. cbn [length seq combine map fst snd]. rewrite Ee1, Ee2.
      unfold vote, sign_label, y2. cbn [combine map fst snd rsum nth]. unfold fconf. cbn [wl_12 h_one h_two].
      destruct (Rle_dec 0 (ada_weight (1 / 4) * 0 + (ada_weight (- b) * 1 + 0))); [lra|reflexivity].
    + unfold wm_predict. rewrite predict_sign, Hcf. unfold vote, sign_label, y2, fconf.
      cbn [map fst snd rsum nth h_one].
      match goal with |- context [Rle_dec ?u ?v] => destruct (Rle_dec u v) as [L|L] end; [intros E; lra|].
      exfalso. apply L. right. unfold Rdiv. ring.
  - rewrite Hk in S. destruct S as [_ S]. discriminate.
Qed.

(** ** A tolerance so large that max_loop() is zero *)
Lemma ada_large_tolerance_crash {H} (conf : H -> nat -> R) produce y tol fuel :
  is_valid_binary_instance y = Ok tt -> 0 < tol -> ln (INR (length y)) < tol ^ 2 ->
  run (adaboost conf produce y) (S fuel) (ada_tolerance (ada_init y) tol) = Crashed [] AssertFailed.
Proof.
  intros Hv Ht Hln.
  assert (E : ada_max_loop y (@ada_tolerance H (ada_init y) tol) = 0%nat).
  { unfold ada_max_loop. apply as_usize_small. simpl a_tolerance.
    apply Rdiv_lt_iff; [apply pow_lt; exact Ht|lra]. }
  assert (Hp : ada_pre y (@ada_tolerance H (ada_init y) tol) =
    Ok (mkAda (repeat (1 / INR (length y)) (length y)) tol [] [] 0 None)).
  { unfold ada_pre. rewrite Hv. cbn [bind ada_tolerance ada_init a_force_quit].
    unfold ada_tolerance, ada_init in E. simpl in E. rewrite <- E. reflexivity. }
  unfold run, adaboost, b_pre. rewrite Hp. cbn [run_from b_boost]. unfold ada_boost.
  cbn [a_max_iter Nat.ltb Nat.leb app b_post]. unfold ada_post. cbn [a_weights a_hyps].
  unfold from_slices, kept, normalize. simpl. rewrite Reqb_true by reflexivity. reflexivity.
Qed.
