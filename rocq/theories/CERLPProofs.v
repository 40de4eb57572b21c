(** Convergence of the Frank-Wolfe rules and of CERLPBoost. *)
From Verif Require Import Base Spec RegSpec SortLib Utils UtilsProofs WMajority WMajorityProofs Booster AdaBoost
  AdaBoostProofs AdaBoostMain AdaBoostMore Num Hoeffding FrankWolfe FrankWolfeProofs FrankWolfeFacts CERLP.
Open Scope R_scope.

Lemma from_slices_dist {H} (conf : H -> nat -> R) ws (hs : list H) : length ws = length hs -> is_dist ws ->
  exists f, from_slices ws hs = Ok f /\ forall i, wm_confidence conf f i = vote conf (combine ws hs) i.
Proof.
  intros L [H1 H2]. pose proof (from_slices_spec conf ws hs) as S.
  assert (K : forall ws hs, length ws = length hs -> (forall x, In x ws -> 0 <= x) ->
     rsum (map fst (@kept H ws hs)) = rsum ws /\ forall i, vote conf (kept ws hs) i = vote conf (combine ws hs) i).
  { clear. unfold kept. induction ws as [|w ws IH]; intros [|h hs] L Hp; simpl in *; try lia; [split; reflexivity|].
    destruct (IH hs ltac:(lia) ltac:(intros; apply Hp; right; assumption)) as [I1 I2]. pose proof (Hp w (or_introl eq_refl)).
    destruct (Rltb_spec 0 w) as [P|P]; simpl.
    - split; [rewrite I1; reflexivity|]. intros i. unfold vote in *; simpl. rewrite I2. reflexivity.
    - assert (w = 0) by lra. subst w. split; [rewrite I1; ring|]. intros i. rewrite I2. unfold vote; simpl. ring. }
  destruct (K ws hs L H1) as [K1 K2]. destruct (from_slices ws hs) as [f|p].
  - exists f. split; [reflexivity|]. intros i. destruct S as [_ [_ [_ [_ [_ S]]]]]. rewrite S, K1, K2, H2. field.
  - destruct S as [_ S]. rewrite S in K1. simpl in K1. rewrite H2 in K1. lra.
Qed.

Lemma position_spec {A} (p : A -> bool) l : match position p l with Some k => exists a, nth_error l k = Some a /\ p a = true | None => forall a, In a l -> p a = false end.
Proof.
  induction l as [|a l IH]; simpl; [intros ? []|]. destruct (p a) eqn:E; [exists a; split; [reflexivity|exact E]|].
  destruct (position p l) as [k|]; simpl; [exact IH|]. intros b [<-|Hb]; [exact E|apply IH, Hb].
Qed.

(** ** Recursion for the suboptimality *)
Lemma fw_recursion eta (t : nat) eps num eps' : (1 <= t)%nat -> 0 < eta -> eps <= num -> eps <= 8 * eta / INR t ->
  eps' <= eps - 2 / INR (t + 1) * num + 2 * eta * (2 / INR (t + 1)) ^ 2 -> eps' <= 8 * eta / INR (t + 1).
Proof.
  intros Ht He Hnum Heps He'. rewrite plus_INR in *. simpl (INR 1) in *. assert (1 <= INR t) by (apply (le_INR 1) in Ht; exact Ht). set (u := INR t) in *. clearbody u.
  set (l := 2 / (u + 1)) in *. assert (Hl : 0 < l <= 1) by (unfold l; split; [apply Rdiv_lt_0_compat; lra|apply Rdiv_le_iff; lra]).
  assert (E1 : eps' <= (1 - l) * eps + 2 * eta * l ^ 2) by nra.
  assert (E2 : (1 - l) * eps <= (1 - l) * (8 * eta / u)) by (apply Rmult_le_compat_l; lra).
  assert (E3 : (1 - l) * (8 * eta / u) + 2 * eta * l ^ 2 <= 8 * eta / (u + 1)); [|lra].
  assert (E4 : 8 * eta / (u + 1) - ((1 - l) * (8 * eta / u) + 2 * eta * l ^ 2) = 8 * eta * (/ (u * (u + 1) ^ 2))).
  { unfold l. field. split; lra. }
  assert (0 < / (u * (u + 1) ^ 2)) by (apply Rinv_0_lt_compat, Rmult_lt_0_compat; [lra|apply pow_lt; lra]). nra.
Qed.

Lemma fw_end eta ht lnr T : 0 < ht -> 0 < lnr -> eta = lnr / ht -> 8 * lnr / ht ^ 2 <= T -> 8 * eta / (T + 1) <= ht.
Proof.
  intros Hh Hl -> HT. assert (0 < 8 * lnr / ht ^ 2) by (apply Rdiv_lt_0_compat; [lra|apply pow_lt; lra]).
  apply Rdiv_le_iff; [lra|]. apply (Rmult_le_compat_r (ht ^ 2)) in HT; [|left; apply pow_lt; lra]. unfold Rdiv in HT. rewrite Rmult_assoc, Rinv_l in HT by (apply pow_nonzero; lra).
  apply (Rmult_le_reg_r ht); [exact Hh|]. replace (8 * (lnr / ht) * ht) with (8 * lnr) by (field; lra). nra.
Qed.

Section Progress.
  Context {H : Type}.
  Variable conf : H -> nat -> R.
  Variable y : list R.
  Variables eta nu : R.
  Let n := length y.
  Hypothesis Hn : (0 < n)%nat.
  Hypothesis Heta : 0 < eta.
  Hypothesis Hnu : 1 <= nu <= INR n.
  Hypothesis Hmarg : forall h i, (i < n)%nat -> -1 <= nth i y 0 * conf h i <= 1.

  Definition mvote (ws : list R) (hs : list H) : list R := margins_of y (vote conf (combine ws hs)).

  Lemma mvote_length ws hs : length (mvote ws hs) = n.
  Proof. apply margins_length. Qed.

  Lemma mvote_bounded ws hs i : length ws = length hs -> is_dist ws -> (i < n)%nat -> -1 <= nth i (mvote ws hs) 0 <= 1.
  Proof.
    intros L Hd Hi. unfold mvote. rewrite margins_nth by exact Hi.
    replace (nth i y 0 * vote conf (combine ws hs) i) with (vote (fun h i => nth i y 0 * conf h i) (combine ws hs) i).
    - apply vote_bounded; [exact L|exact Hd|]. intros h _. apply Hmarg, Hi.
    - unfold vote. rewrite <- rsum_map_mult. apply rsum_map_ext. intros p _. ring.
  Qed.

  Lemma edge_phi d ws hs : length d = n -> edge_of y d (vote conf (combine ws hs)) = rsum (map (fun i => nth i d 0 * nth i (mvote ws hs) 0) (seq 0 n)).
  Proof. intros Hd. unfold edge_of. fold n. apply rsum_map_ext. intros i Hi. apply in_seq in Hi. unfold mvote. rewrite margins_nth by (fold n; lia). reflexivity. Qed.

  Lemma edge_le_phi d ws hs : best n eta nu d (mvote ws hs) -> edge_of y d (vote conf (combine ws hs)) <= phi n eta d (mvote ws hs).
  Proof.
    intros Hb. rewrite edge_phi by apply Hb. apply (phi_edge n eta nu Heta Hnu); [apply Hb|]. apply (best_facts n eta nu Hn Hnu d _ Hb).
  Qed.

  (** one step of the classic or short-step rule *)
  Lemma fw_progress_gen lam c t d ws hs k h : fw_type c = Classic /\ lam = 2 / INR (t + 1) \/ fw_type c = ShortStep -> 0 <= lam <= 1 -> fw_eta c = eta ->
    length ws = length hs -> is_dist ws -> nth_error hs k = Some h -> best n eta nu d (mvote ws hs) ->
    0 < edge_of y d (conf h) - edge_of y d (vote conf (combine ws hs)) ->
    exists ws', next_iterate conf y c t d hs k ws = Ok ws' /\ length ws' = length hs /\ is_dist ws' /\
      forall d', best n eta nu d' (mvote ws' hs) ->
        phi n eta d (mvote ws hs) + lam * (edge_of y d (conf h) - edge_of y d (vote conf (combine ws hs))) - 2 * eta * lam ^ 2
        <= phi n eta d' (mvote ws' hs).
  Proof.
    intros Hty Hlam Hce Hl Hd Hk Hb Hnum. set (num := edge_of y d (conf h) - edge_of y d (vote conf (combine ws hs))) in *.
    assert (Hlt : (k < length hs)%nat) by (apply nth_error_Some; congruence).
    destruct (fw_numer_denom conf y d ws hs h (proj1 Hb)) as [F1 [F2 [F3 F4]]].
    set (ps := combine _ d) in *. set (den := fold_left (fun (a : R) (p : R * R) => Rmax a (Rabs (fst p))) ps 0) in *.
    assert (Hden2 : den <= 2).
    { apply F3; [lra|]. intros i Hi. pose proof (Hmarg h i Hi). pose proof (mvote_bounded ws hs i Hl Hd Hi) as B. unfold mvote in B. rewrite margins_nth in B by exact Hi.
      apply Rabs_le. lra. }
    assert (Step : forall s, 0 <= s <= 1 -> exists ws', interior_point s k ws = Ok ws' /\ length ws' = length hs /\ is_dist ws' /\
       forall d', best n eta nu d' (mvote ws' hs) -> phi n eta d (mvote ws hs) + s * num - eta / 2 * (s * den) ^ 2 <= phi n eta d' (mvote ws' hs)).
    { intros s Hs. destruct (interior_point_ok s k ws Hs) as [ws' [E [L N]]]. exists ws'. split; [exact E|]. split; [congruence|]. split; [apply (interior_dist s k ws ws'); [exact Hs|lia|exact Hd|exact L|exact N]|].
      intros d' Hb'.
      assert (Hdiff : forall i, (i < n)%nat -> nth i (mvote ws' hs) 0 - nth i (mvote ws hs) 0 = s * (nth i y 0 * conf h i - nth i y 0 * vote conf (combine ws hs) i)).
      { intros i Hi. unfold mvote. rewrite !margins_nth by exact Hi. rewrite (interior_vote conf s k ws ws' hs h i Hk Hl L N). ring. }
      pose proof (smooth n eta nu Hn Heta Hnu d (mvote ws hs) d' (mvote ws' hs) (s * den) Hb Hb') as S.
      assert (S1 : 0 <= s * den) by (apply Rmult_le_pos; lra). specialize (S S1).
      assert (S2 : forall i, (i < n)%nat -> Rabs (nth i (mvote ws' hs) 0 - nth i (mvote ws hs) 0) <= s * den).
      { intros i Hi. rewrite Hdiff by exact Hi. rewrite Rabs_mult, (Rabs_pos_eq s) by lra. apply Rmult_le_compat_l; [lra|]. apply F2, Hi. }
      specialize (S S2). eapply Rle_trans; [|exact S]. right. f_equal. f_equal.
      rewrite (rsum_map_ext _ (fun i => s * (nth i d 0 * (nth i y 0 * conf h i) - nth i d 0 * (nth i y 0 * vote conf (combine ws hs) i)))).
      - rewrite rsum_map_mult, rsum_map_minus. unfold num, edge_of. fold n. reflexivity.
      - intros i Hi. apply in_seq in Hi. rewrite Hdiff by lia. ring. }
    assert (Hq : forall s, 0 <= s -> eta / 2 * (s * den) ^ 2 <= 2 * eta * s ^ 2).
    { intros s Hs. assert (0 <= (s * den) ^ 2 <= (s * 2) ^ 2).
      { split; [apply pow2_ge_0|]. apply pow_incr. split; [apply Rmult_le_pos; lra|apply Rmult_le_compat_l; lra]. } nra. }
    unfold next_iterate. rewrite (proj2 (Nat.ltb_lt _ _) Hlt). cbn [negb].
    destruct Hty as [[Hty Elam]|Hty]; rewrite Hty.
    - unfold fw_classic. rewrite <- Elam. destruct (Step lam Hlam) as [ws' [E [L [D P]]]]. exists ws'. split; [exact E|]. split; [exact L|]. split; [exact D|]. intros d' Hb'. specialize (P d' Hb'). specialize (Hq lam (proj1 Hlam)). lra.
    - unfold fw_short_step. destruct (Nat.eqb_spec (length hs) 1) as [E1|E1].
      { exfalso. destruct hs as [|h1 [|]]; simpl in *; try lia. destruct k; [|lia]. simpl in Hk. injection Hk as ->. destruct ws as [|w [|]]; simpl in Hl; try lia.
        destruct Hd as [_ Hd]. simpl in Hd. assert (w = 1) by lra. subst w. unfold num in Hnum.
        assert (Ee : edge_of y d (vote conf (combine [1] [h])) = edge_of y d (conf h)); [|simpl in Hnum, Ee; lra].
        unfold edge_of. apply rsum_map_ext. intros i _. unfold vote. simpl. ring. }
      rewrite Hk. fold ps. rewrite F1. fold den num.
      assert (Hden : 0 < den).
      { destruct F4 as [P|P]; [exact P|]. exfalso. assert (num <= 0); [|lra]. unfold num, edge_of. rewrite <- rsum_map_minus.
        rewrite (rsum_map_ext _ (fun _ => 0)); [rewrite rsum_map_const; lra|]. intros i Hi. apply in_seq in Hi. specialize (F2 i ltac:(lia)). rewrite <- P in F2.
        assert (nth i y 0 * conf h i - nth i y 0 * vote conf (combine ws hs) i = 0).
        { destruct (Req_dec (nth i y 0 * conf h i - nth i y 0 * vote conf (combine ws hs) i) 0) as [|Z]; [assumption|]. apply Rabs_pos_lt in Z. lra. }
        rewrite <- Rmult_minus_distr_l. rewrite H0. ring. }
      assert (Hq0 : 0 < eta * den ^ 2) by (apply Rmult_lt_0_compat; [exact Heta|apply pow_lt; exact Hden]).
      rewrite Hce. rewrite Reqb_false by lra.
      set (s0 := num / (eta * den ^ 2)). destruct (Step (rclamp 0 1 s0)) as [ws' [E [L [D P]]]]; [apply rclamp_in; lra|].
      exists ws'. split; [exact E|]. split; [exact L|]. split; [exact D|]. intros d' Hb'. specialize (P d' Hb'). eapply Rle_trans; [|exact P].
      (* the clamped step maximises s * num - eta/2 (s den)^2 over [0,1] *)
      assert (Opt : lam * num - eta / 2 * (lam * den) ^ 2 <= rclamp 0 1 s0 * num - eta / 2 * (rclamp 0 1 s0 * den) ^ 2).
      { assert (E0 : num = eta * den ^ 2 * s0) by (unfold s0; field; lra). assert (Hs0 : 0 <= s0) by (unfold s0; apply Rlt_le, Rdiv_lt_0_compat; assumption).
        rewrite E0. unfold rclamp. destruct (Rltb_spec s0 0); [lra|].
        assert (G : forall s, lam * (eta * den ^ 2 * s0) - eta / 2 * (lam * den) ^ 2 <= s * (eta * den ^ 2 * s0) - eta / 2 * (s * den) ^ 2 <->
                              0 <= eta * den ^ 2 * ((s - lam) * (s0 - (s + lam) / 2))).
        { intros s. split; intros; nra. }
        destruct (Rltb_spec 1 s0) as [B|B]; apply G; (apply Rmult_le_pos; [left; exact Hq0|]).
        - apply Rmult_le_pos; lra.
        - replace ((s0 - lam) * (s0 - (s0 + lam) / 2)) with ((s0 - lam) ^ 2 / 2) by field. pose proof (pow2_ge_0 (s0 - lam)). lra. }
      specialize (Hq lam (proj1 Hlam)). lra.
  Qed.

  Lemma fw_progress c t d ws hs k h : fw_type c = Classic \/ fw_type c = ShortStep -> fw_eta c = eta -> (1 <= t)%nat ->
    length ws = length hs -> is_dist ws -> nth_error hs k = Some h -> best n eta nu d (mvote ws hs) ->
    0 < edge_of y d (conf h) - edge_of y d (vote conf (combine ws hs)) ->
    exists ws', next_iterate conf y c t d hs k ws = Ok ws' /\ length ws' = length hs /\ is_dist ws' /\
      forall d', best n eta nu d' (mvote ws' hs) ->
        phi n eta d (mvote ws hs) + 2 / INR (t + 1) * (edge_of y d (conf h) - edge_of y d (vote conf (combine ws hs))) - 2 * eta * (2 / INR (t + 1)) ^ 2
        <= phi n eta d' (mvote ws' hs).
  Proof.
    intros Hty Hce Ht. apply (fw_progress_gen (2 / INR (t + 1))); [tauto| |exact Hce].
    assert (2 <= INR (t + 1)) by (replace 2 with (INR 2) by (simpl; lra); apply le_INR; lia). split; [left; apply Rdiv_lt_0_compat; lra|apply Rdiv_le_iff; lra].
  Qed.

  (** the value of the first vote, [1] on a single hypothesis, starting from the uniform distribution *)
  Lemma fw_first d h d' : best n eta nu d (mvote [] []) -> best n eta nu d' (mvote [1] [h]) ->
    edge_of y d (conf h) - eta / 2 <= phi n eta d' (mvote [1] [h]).
  Proof.
    intros Hb Hb'. pose proof (smooth n eta nu Hn Heta Hnu d (mvote [] []) d' (mvote [1] [h]) 1 Hb Hb' ltac:(lra)) as S.
    assert (Z : forall i, (i < n)%nat -> nth i (mvote [] []) 0 = 0) by (intros i Hi; unfold mvote; rewrite margins_nth by exact Hi; unfold vote; simpl; ring).
    assert (Z1 : forall i, (i < n)%nat -> nth i (mvote [1] [h]) 0 = nth i y 0 * conf h i) by (intros i Hi; unfold mvote; rewrite margins_nth by exact Hi; unfold vote; simpl; ring).
    assert (S1 : forall i, (i < n)%nat -> Rabs (nth i (mvote [1] [h]) 0 - nth i (mvote [] []) 0) <= 1).
    { intros i Hi. rewrite Z, Z1 by exact Hi. apply Rabs_le. pose proof (Hmarg h i Hi). lra. }
    specialize (S S1). eapply Rle_trans; [|exact S].
    assert (P0 : 0 <= phi n eta d (mvote [] [])).
    { eapply Rle_trans; [|apply (edge_le_phi d [] [] Hb)]. right. symmetry. unfold edge_of. rewrite (rsum_map_ext _ (fun _ => 0)); [rewrite rsum_map_const; ring|]. intros i _. unfold vote. simpl. ring. }
    assert (E : rsum (map (fun i => nth i d 0 * (nth i (mvote [1] [h]) 0 - nth i (mvote [] []) 0)) (seq 0 n)) = edge_of y d (conf h)).
    { unfold edge_of. fold n. apply rsum_map_ext. intros i Hi. apply in_seq in Hi. rewrite Z, Z1 by lia. ring. }
    rewrite E. lra.
  Qed.

  (** the regularised value bounds the soft margin from below up to ln(n/nu)/eta *)
  Lemma phi_soft_margin d ws hs c : best n eta nu d (mvote ws hs) -> capped nu y c ->
    phi n eta d (mvote ws hs) - ln (INR n / nu) / eta <= edge_of y c (vote conf (combine ws hs)).
  Proof.
    intros Hb [Lc Cc]. pose proof (phi_min n eta nu Hn Heta Hnu d (mvote ws hs) c Hb Lc Cc) as P.
    pose proof (proj2 (phi_edge n eta nu Heta Hnu c (mvote ws hs) Lc Cc)) as Q. rewrite edge_phi by exact Lc. lra.
  Qed.
End Progress.
