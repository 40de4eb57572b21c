(** Properties C36, C37: the Frank-Wolfe routine. *)
From Verif Require Import Base Spec RegSpec SortLib Utils UtilsProofs WMajority WMajorityProofs Booster AdaBoost
  AdaBoostProofs AdaBoostMain AdaBoostMore Num Hoeffding FrankWolfe FrankWolfeProofs.
Open Scope R_scope.

Lemma capped_uniform nu y : (0 < length y)%nat -> 1 <= nu <= INR (length y) -> capped nu y (repeat (1 / INR (length y)) (length y)).
Proof.
  intros Hn Hnu. pose proof (lt_0_INR _ Hn). split; [apply repeat_length|]. split.
  - intros x Hx. apply repeat_spec in Hx. subst. split; [left; apply Rdiv_lt_0_compat; lra|]. unfold Rdiv. rewrite !Rmult_1_l. apply Rinv_le_contravar; lra.
  - rewrite rsum_repeat. field. lra.
Qed.

Lemma phi_reg_edge eta y d (f : nat -> R) : length d = length y -> phi (length y) eta d (margins_of y f) = reg_edge eta y d f.
Proof.
  intros Hd. unfold phi, reg_edge, edge_of. f_equal.
  - apply rsum_map_ext. intros i Hi. apply in_seq in Hi. rewrite margins_nth by lia. reflexivity.
  - f_equal. f_equal. rewrite <- Hd. rewrite <- (map_map (fun i => nth i d 0) xlnx), map_nth_seq. reflexivity.
Qed.

Lemma best_objective eta nu y (f : nat -> R) d : (0 < length y)%nat -> 0 < eta -> 1 <= nu <= INR (length y) ->
  best (length y) eta nu d (margins_of y f) -> soft_objective eta nu y f (reg_edge eta y d f).
Proof.
  intros Hn He Hnu Hb. pose proof (proj1 (best_facts _ _ _ Hn Hnu _ _ Hb)) as Hc. split.
  - exists d. split; [split; [apply Hb|exact Hc]|reflexivity].
  - intros c [Lc Cc]. rewrite <- !phi_reg_edge by (try apply Hb; exact Lc). apply (phi_min _ _ nu Hn He Hnu); assumption.
Qed.

(** ** C36: for the classic rule every update keeps the hypothesis weights on the simplex *)
Lemma P_C36_classic_keeps_simplex :
  forall (H : Type) (conf : H -> nat -> R) (y : list R) (c : fw) (it : nat) (dist : list R) (hs : list H) (k : nat) (ws : list R),
  fw_type c = Classic -> (1 <= it)%nat -> (k < length hs)%nat -> length ws = length hs -> is_dist ws ->
  exists ws', next_iterate conf y c it dist hs k ws = Ok ws' /\ length ws' = length hs /\ is_dist ws'.
Proof.
  intros H conf y c it dist hs k ws Ht Hit Hk Hl Hd. unfold next_iterate. rewrite (proj2 (Nat.ltb_lt _ _) Hk). cbn [negb]. rewrite Ht.
  assert (Hs : 0 <= 2 / INR (it + 1) <= 1).
  { assert (2 <= INR (it + 1)) by (replace 2 with (INR 2) by (simpl; lra); apply le_INR; lia). split; [left; apply Rdiv_lt_0_compat; lra|]. apply Rdiv_le_iff; lra. }
  destruct (interior_point_ok (2 / INR (it + 1)) k ws Hs) as [ws' [E [L N]]]. exists ws'. split; [exact E|]. split; [congruence|].
  eapply interior_dist; [exact Hs| |exact Hd|exact L|exact N]. lia.
Qed.

(** ** the line-search rule *)
Lemma P_C36_line_search_keeps_simplex :
  forall (H : Type) (conf : H -> nat -> R) (y : list R) (c : fw) (it : nat) (dist : list R) (hs : list H) (k : nat) (ws : list R),
  fw_type c = LineSearch -> (0 < length y)%nat -> 1 <= fw_nu c <= INR (length y) ->
  (k < length hs)%nat -> length ws = length hs -> is_dist ws ->
  exists ws', next_iterate conf y c it dist hs k ws = Ok ws' /\ length ws' = length hs /\ is_dist ws'.
Proof.
  intros H conf y c it dist hs k ws Ht Hn Hnu Hk Hl Hd. unfold next_iterate. rewrite (proj2 (Nat.ltb_lt _ _) Hk). cbn [negb]. rewrite Ht.
  unfold fw_line_search. rewrite exp_distribution_spec, !margins_of_weighted_spec.
  set (dm := margins_of y (vote conf (combine (map _ _) hs))). set (bm := margins_of y (vote conf (combine ws hs))).
  assert (Ld : length dm = length y) by apply margins_length. assert (Lb : length bm = length y) by apply margins_length.
  destruct (best_project (length y) (fw_eta c) (fw_nu c) Hn Hnu dm Ld) as [d [E _]]. rewrite E. cbn [bind].
  destruct (Rleb_spec (inner_product d dm) 0) as [L|L].
  - rewrite (proj2 (Nat.ltb_lt k (length ws))) by lia. eexists. split; [reflexivity|]. destruct (unit_dist k (length ws)) as [U1 U2]; [lia|]. split; [congruence|exact U1].
  - destruct (bisect_ok (seg_grad c bm dm) (bisect_fuel 1) 0 1) as [s [Es Hs]]; [lra|rewrite Rminus_0_r; apply bisect_fuel_enough| |].
    + intros s _. apply seg_grad_ok; rewrite Lb; [exact Hn|congruence|exact Hnu].
    + rewrite Es. cbn [bind]. destruct (interior_point_ok s k ws Hs) as [ws' [E' [L' N]]]. exists ws'. split; [exact E'|]. split; [congruence|].
      eapply interior_dist; [exact Hs| |exact Hd|exact L'|exact N]. lia.
Qed.

Lemma fw_numer_denom {H} (conf : H -> nat -> R) y dist (ws : list R) hs h :
  length dist = length y ->
  let ps := combine (map (fun p => fst p - snd p) (combine (margins_of_hypothesis conf y h) (margins_of_weighted_hypothesis conf y ws hs))) dist in
  fold_left (fun a p => a + snd p * fst p) ps 0 = edge_of y dist (conf h) - edge_of y dist (vote conf (combine ws hs)) /\
  (forall i, (i < length y)%nat -> Rabs (nth i y 0 * conf h i - nth i y 0 * vote conf (combine ws hs) i) <= fold_left (fun a p => Rmax a (Rabs (fst p))) ps 0) /\
  (forall D, 0 <= D -> (forall i, (i < length y)%nat -> Rabs (nth i y 0 * conf h i - nth i y 0 * vote conf (combine ws hs) i) <= D) -> fold_left (fun a p => Rmax a (Rabs (fst p))) ps 0 <= D) /\
  0 <= fold_left (fun a p => Rmax a (Rabs (fst p))) ps 0.
Proof.
  intros Hd. rewrite margins_of_hypothesis_spec, margins_of_weighted_spec.
  set (v := vote conf (combine ws hs)).
  assert (E : combine (map (fun p => fst p - snd p) (combine (margins_of y (conf h)) (margins_of y v))) dist
            = map (fun i => (nth i y 0 * conf h i - nth i y 0 * v i, nth i dist 0)) (seq 0 (length y))).
  { rewrite (combine_nth_map _ _ _ 0 0) by (rewrite !margins_length; reflexivity). rewrite margins_length.
    rewrite <- (map_id (combine _ dist)). rewrite (combine_nth_map _ _ _ 0 0) by (rewrite map_length, seq_length; congruence). rewrite map_length, seq_length.
    apply map_ext_in. intros i Hi. apply in_seq in Hi. rewrite nth_map_seq by lia. cbn [fst snd]. rewrite !margins_nth by lia. reflexivity. }
  rewrite E. cbv zeta. split; [|split; [|split]].
  - rewrite fold_plus_gen, map_map. cbn [fst snd]. unfold edge_of. rewrite <- rsum_map_minus, Rplus_0_l. apply rsum_map_ext. intros; ring.
  - intros i Hi. destruct (fold_max_gen (fun p : R * R => Rabs (fst p)) (map (fun i => (nth i y 0 * conf h i - nth i y 0 * v i, nth i dist 0)) (seq 0 (length y))) 0) as [_ G].
    apply (G (nth i y 0 * conf h i - nth i y 0 * v i, nth i dist 0)). apply (in_map (fun i => (nth i y 0 * conf h i - nth i y 0 * v i, nth i dist 0))). apply in_seq. lia.
  - intros D HD G. apply fold_max_le; [exact HD|]. intros x Hx. apply in_map_iff in Hx. destruct Hx as [i [<- Hi]]. apply in_seq in Hi. apply G. lia.
  - apply (fold_max_gen (fun p : R * R => Rabs (fst p))).
Qed.

(** ** the short-step rule; its step size is undefined (NaN, assertion failure) exactly when the new hypothesis has the
    same margin as the current vote on every example *)
Lemma P_C36_short_step_keeps_simplex :
  forall (H : Type) (conf : H -> nat -> R) (y : list R) (c : fw) (it : nat) (dist : list R) (hs : list H) (k : nat) (ws : list R) h,
  fw_type c = ShortStep -> 0 < fw_eta c -> length dist = length y ->
  nth_error hs k = Some h -> length ws = length hs -> is_dist ws ->
  match next_iterate conf y c it dist hs k ws with
  | Ok ws' => length ws' = length hs /\ is_dist ws'
  | Panic p => p = AssertFailed /\ forall i, (i < length y)%nat -> nth i y 0 * conf h i = nth i y 0 * vote conf (combine ws hs) i
  end.
Proof.
  intros H conf y c it dist hs k ws h Ht He Hdl Hk Hl Hd. unfold next_iterate.
  assert (Hlt : (k < length hs)%nat) by (apply nth_error_Some; congruence). rewrite (proj2 (Nat.ltb_lt _ _) Hlt). cbn [negb]. rewrite Ht.
  unfold fw_short_step. destruct (Nat.eqb_spec (length hs) 1) as [E1|E1].
  { split; [simpl; congruence|]. split; [intros x [<-|[]]; lra|simpl; lra]. }
  rewrite Hk. destruct (fw_numer_denom conf y dist ws hs h Hdl) as [F1 [F2 [F3 F4]]]. rewrite F1.
  set (den := fold_left (fun (a : R) (p : R * R) => Rmax a (Rabs (fst p))) _ 0) in *. set (num := edge_of y dist (conf h) - edge_of y dist (vote conf (combine ws hs))) in *. clearbody den num.
  assert (K : forall s, 0 <= s <= 1 -> match interior_point s k ws with Ok ws' => length ws' = length hs /\ is_dist ws' | Panic p => p = AssertFailed /\ forall i, (i < length y)%nat -> nth i y 0 * conf h i = nth i y 0 * vote conf (combine ws hs) i end).
  { intros s Hs. destruct (interior_point_ok s k ws Hs) as [ws' [E [L N]]]. rewrite E. split; [congruence|]. apply (interior_dist s k ws ws'); [exact Hs|lia|exact Hd|exact L|exact N]. }
  destruct (Reqb_spec (fw_eta c * den ^ 2) 0) as [Z|Z]; [|apply K, rclamp_in; lra].
  destruct (Rltb_spec 0 num); [apply K; lra|]. destruct (Rltb_spec num 0); [apply K; lra|].
  split; [reflexivity|]. assert (D0 : den = 0) by (apply Rmult_integral in Z; destruct Z as [Z|Z]; [lra|]; simpl in Z; rewrite Rmult_1_r in Z; apply Rmult_integral in Z; destruct Z; assumption). intros i Hi. specialize (F2 i Hi). rewrite D0 in F2.
  pose proof (Rabs_pos (nth i y 0 * conf h i - nth i y 0 * vote conf (combine ws hs) i)) as A.
  assert (A0 : Rabs (nth i y 0 * conf h i - nth i y 0 * vote conf (combine ws hs) i) = 0) by lra. destruct (Req_dec (nth i y 0 * conf h i - nth i y 0 * vote conf (combine ws hs) i) 0) as [Z0|Z0]; [lra|]. apply Rabs_no_R0 in Z0. contradiction.
Qed.

(** the first round starts from the weight vector [0]: the classic and the short-step rule move to [1] *)
Lemma P_C36_first_round :
  forall (H : Type) (conf : H -> nat -> R) (y : list R) (c : fw) (dist : list R) (h : H),
  fw_type c = Classic \/ fw_type c = ShortStep ->
  next_iterate conf y c 1 dist [h] 0 [0] = Ok [1].
Proof.
  intros H conf y c dist h [E|E]; unfold next_iterate; simpl negb; rewrite E; cbv iota; [|reflexivity].
  unfold fw_classic, interior_point, check_stepsize. replace (2 / INR (1 + 1)) with 1 by (simpl; field).
  rewrite (Rleb_true 0 1), (Rleb_true 1 1) by lra. simpl. f_equal. f_equal. ring.
Qed.

(** ** C36 fails in the first round of the line-search and pairwise rules: a hypothesis with a positive edge under
    every distribution (say, one that classifies everything correctly) gets a total weight of at most 1e-9, not 1 *)
Lemma line_search_first {H} (conf : H -> nat -> R) y c h :
  (0 < length y)%nat -> 1 <= fw_nu c <= INR (length y) ->
  (forall d, capped (fw_nu c) y d -> 0 < edge_of y d (conf h)) ->
  exists s, fw_line_search conf y c [h] 0 [0] = Ok [s] /\ 0 <= s <= / 1000000000.
Proof.
  intros Hn Hnu Hpos. unfold fw_line_search.
  rewrite exp_distribution_spec, !margins_of_weighted_spec. cbn [length seq combine map fst snd Nat.eqb].
  set (dm := margins_of y (vote conf [(1 - 0, h)])). set (bm := margins_of y (vote conf [(0, h)])).
  assert (Ld : length dm = length y) by apply margins_length. assert (Lb : length bm = length y) by apply margins_length.
  assert (Edm : forall d, length d = length y -> inner_product d dm = edge_of y d (conf h)).
  { intros d Hd. unfold inner_product. rewrite dot_nth by congruence. rewrite Hd. unfold edge_of. apply rsum_map_ext. intros i Hi. apply in_seq in Hi.
    unfold dm. rewrite margins_nth by lia. unfold vote. simpl. ring. }
  assert (Hg : forall m, length m = length y -> exists d, exp_distribution_from_margins (fw_eta c) (fw_nu c) m = Ok d /\ 0 < inner_product d dm).
  { intros m Lm. destruct (best_project (length y) (fw_eta c) (fw_nu c) Hn Hnu m Lm) as [d [E Hb]]. exists d. split; [exact E|].
    rewrite Edm by apply Hb. apply Hpos. split; [apply Hb|]. apply (best_facts _ _ _ Hn Hnu _ _ Hb). }
  destruct (Hg dm Ld) as [d [E Hd]]. rewrite E. cbn [bind]. rewrite Rleb_false by exact Hd.
  destruct (bisect_ok (seg_grad c bm dm) (bisect_fuel 1) 0 1) as [s [Es Hs]]; [lra|rewrite Rminus_0_r; apply bisect_fuel_enough| |].
  { intros s _. apply seg_grad_ok; rewrite Lb; [exact Hn|congruence|exact Hnu]. }
  rewrite Es. cbn [bind]. exists s. split.
  - unfold interior_point, check_stepsize. rewrite (Rleb_true 0 s), (Rleb_true s 1) by lra. simpl. f_equal. f_equal. ring.
  - apply bisect_positive in Es; [unfold SUB_TOLERANCE in Es; lra|lra|]. intros t Ht. unfold seg_grad.
    destruct (Hg (seg_margins bm dm t)) as [d' [E' Hd']].
    + unfold seg_margins. rewrite map_length, combine_length, Ld, Lb. apply Nat.min_id.
    + rewrite E'. cbn [bind]. exists (inner_product d' dm). split; [reflexivity|exact Hd'].
Qed.

Lemma P_C36_line_search_first_round_refuted :
  forall (H : Type) (conf : H -> nat -> R) (y : list R) (c : fw) (it : nat) (dist : list R) (h : H),
  fw_type c = LineSearch \/ fw_type c = BlendedPairwise ->
  (0 < length y)%nat -> 1 <= fw_nu c <= INR (length y) ->
  (forall d, capped (fw_nu c) y d -> 0 < edge_of y d (conf h)) ->
  exists s, next_iterate conf y c it dist [h] 0 [0] = Ok [s] /\ 0 <= s <= / 1000000000 /\ ~ is_dist [s].
Proof.
  intros H conf y c it dist h Ht Hn Hnu Hpos. destruct (line_search_first conf y c h Hn Hnu Hpos) as [s [E Hs]].
  exists s. split; [|split; [exact Hs|intros [_ B]; simpl in B; lra]]. unfold next_iterate. simpl negb. cbv iota. destruct Ht as [Ht|Ht]; rewrite Ht; [exact E|].
  unfold fw_blended_pairwise, bp_edges. cbn [combine length seq map filter fst snd]. rewrite Rleb_true by lra. cbn [negb map fold_left fst snd Nat.add length Nat.eqb].
  assert (Ee : edge_of_weighted_hypothesis conf y dist [0] [h] = 0).
  { unfold edge_of_weighted_hypothesis. rewrite margins_of_weighted_spec. 
    assert (Z : forall l1 l2, (forall x, In x l1 -> x = 0) -> rsum (map (fun p => snd p * fst p) (combine l1 l2)) = 0).
    { clear. induction l1 as [|x l1 IH]; intros [|z l2] Hz; simpl; try reflexivity. rewrite IH by (intros; apply Hz; right; assumption). rewrite (Hz x (or_introl eq_refl)). ring. }
    apply Z. intros x Hx. unfold margins_of in Hx. apply in_map_iff in Hx. destruct Hx as [i [<- _]]. unfold vote. simpl. ring. }
  rewrite Ee. rewrite Rleb_false by lra. exact E.
Qed.

(** a perfect hypothesis meets the assumptions *)
Example C36_first_round_nonvacuous : exists (conf : unit -> nat -> R) (y : list R),
  (0 < length y)%nat /\ 1 <= 1 <= INR (length y) /\ (forall d, capped 1 y d -> 0 < edge_of y d (conf tt)).
Proof.
  exists (fun _ i => nth i y2 0), y2. split; [simpl; lia|]. split; [simpl; lra|]. intros d [L [_ S]].
  destruct d as [|a [|b [|]]]; simpl in L; try lia. unfold edge_of, y2. simpl in *. lra.
Qed.

(** ** the pairwise rule: on the simplex as long as the hypothesis returned by the weak learner has no weight yet *)
Lemma bp_fold_spec k (L : list (nat * R)) st : (forall j e, In (j, e) L -> j <> k /\ -1 <= e <= 1) ->
  (snd (fst st) = snd st \/ (fst (snd (fst st)) = -2 /\ fst (snd st) = -2)) -> fst (snd (fst st)) = fst (snd st) ->
  let '(worst, loc, glob) := fold_left (bp_step k) L st in
  fst loc = fst glob /\ (loc = glob \/ (fst loc = -2 /\ fst glob = -2)) /\
  (In (snd worst, fst worst) L \/ worst = fst (fst st)) /\ (In (snd glob, fst glob) L \/ glob = snd st) /\
  (L <> [] -> fst (fst (fst st)) = 2 -> In (snd worst, fst worst) L) /\ (L <> [] -> fst (snd st) = -2 -> In (snd glob, fst glob) L /\ loc = glob).
Proof.
  revert st. induction L as [|[j e] L IH]; intros [[worst loc] glob] HL Hst Hst2; cbn [fold_left fst snd] in *.
  - split; [exact Hst2|]. split; [exact Hst|]. split; [right; reflexivity|]. split; [right; reflexivity|]. split; intros; congruence.
  - destruct (HL j e (or_introl eq_refl)) as [Hj He]. unfold bp_step at 2. cbn [fst snd]. destruct (Nat.eqb_spec j k) as [|_]; [contradiction|]. cbn [negb andb].
    rewrite Hst2. set (loc1 := if Rltb (fst glob) e then (e, j) else loc). set (glob1 := if Rltb (fst glob) e then (e, j) else glob). set (worst1 := if Rltb e (fst worst) then (e, j) else worst).
    specialize (IH (worst1, loc1, glob1)). cbn [fst snd] in IH.
    assert (A1 : loc1 = glob1 \/ (fst loc1 = -2 /\ fst glob1 = -2)).
    { unfold loc1, glob1. destruct (Rltb_spec (fst glob) e); [left; reflexivity|exact Hst]. }
    assert (A2 : fst loc1 = fst glob1) by (unfold loc1, glob1; destruct (Rltb (fst glob) e); [reflexivity|exact Hst2]).
    specialize (IH ltac:(intros; apply HL; right; assumption) A1 A2).
    destruct (fold_left (bp_step k) L (worst1, loc1, glob1)) as [[w' l'] g']. destruct IH as [I1 [I2 [I3 [I4 [I5 I6]]]]].
    split; [exact I1|]. split; [exact I2|].
    assert (W : In (snd w', fst w') ((j, e) :: L) \/ w' = worst).
    { destruct I3 as [I3|I3]; [left; right; exact I3|]. unfold worst1 in I3. destruct (Rltb e (fst worst)); [left; left; rewrite I3; reflexivity|right; exact I3]. }
    assert (G : In (snd g', fst g') ((j, e) :: L) \/ g' = glob).
    { destruct I4 as [I4|I4]; [left; right; exact I4|]. unfold glob1 in I4. destruct (Rltb (fst glob) e); [left; left; rewrite I4; reflexivity|right; exact I4]. }
    split; [exact W|]. split; [exact G|]. split.
    + intros _ E2. destruct I3 as [I3|I3]; [right; exact I3|]. unfold worst1 in I3. rewrite Rltb_true in I3 by lra. left. rewrite I3. reflexivity.
    + intros _ E2. assert (Q : In (snd g', fst g') ((j, e) :: L)).
      { destruct I4 as [I4|I4]; [right; exact I4|]. unfold glob1 in I4. rewrite Rltb_true in I4 by lra. left. rewrite I4. reflexivity. }
      split; [exact Q|]. destruct I2 as [I2|[I2 I2']]; [exact I2|]. exfalso.
      destruct (HL _ _ Q) as [_ B]. lra.
Qed.

Lemma upd_sum i x (l : list R) : (i < length l)%nat -> rsum (upd i x l) = rsum l - nth i l 0 + x.
Proof. revert i; induction l as [|a l IH]; intros [|i] Hi; simpl in *; try lia; [lra|]. rewrite IH by lia. lra. Qed.

Lemma upd_in i x (l : list R) z : In z (upd i x l) -> z = x \/ In z l.
Proof. revert i; induction l as [|a l IH]; intros [|i] Hz; simpl in *; try tauto; [destruct Hz; [left; congruence|tauto]|]. destruct Hz as [->|Hz]; [tauto|]. destruct (IH _ Hz); tauto. Qed.

Lemma P_C36_pairwise_keeps_simplex :
  forall (H : Type) (conf : H -> nat -> R) (y : list R) (c : fw) (it : nat) (dist : list R) (hs : list H) (k : nat) (ws : list R),
  fw_type c = BlendedPairwise -> (0 < length y)%nat -> 1 <= fw_nu c <= INR (length y) ->
  length dist = length y -> is_dist dist ->
  (forall h i, In h hs -> (i < length y)%nat -> -1 <= nth i y 0 * conf h i <= 1) ->
  (k < length hs)%nat -> length ws = length hs -> is_dist ws -> nth k ws 0 = 0 ->
  exists ws', next_iterate conf y c it dist hs k ws = Ok ws' /\ length ws' = length hs /\ is_dist ws'.
Proof.
  intros H conf y c it dist hs k ws Ht Hn Hnu Ldist Hdist Hc Hk Hl Hd Hw0.
  unfold next_iterate. rewrite (proj2 (Nat.ltb_lt _ _) Hk). cbn [negb]. rewrite Ht.
  assert (LS : exists ws', fw_line_search conf y c hs k ws = Ok ws' /\ length ws' = length hs /\ is_dist ws').
  { destruct (P_C36_line_search_keeps_simplex H conf y (mkFw (fw_eta c) (fw_nu c) LineSearch) it dist hs k ws eq_refl Hn Hnu Hk Hl Hd) as [ws' [E P]].
    exists ws'. split; [|exact P]. unfold next_iterate in E. rewrite (proj2 (Nat.ltb_lt _ _) Hk) in E. exact E. }
  unfold fw_blended_pairwise. set (L := bp_edges conf y dist hs ws).
  assert (HL : forall j e, In (j, e) L -> ((j < length hs)%nat /\ 0 < nth j ws 0) /\ -1 <= e <= 1).
  { intros j e Hin. unfold L, bp_edges in Hin. apply in_map_iff in Hin. destruct Hin as [[j' [w h]] [E Hp]]. cbn [fst snd] in E. injection E as -> <-.
    apply filter_In in Hp. destruct Hp as [Hp Hb]. cbn [fst snd] in Hb. destruct (Rleb_spec w 0); [discriminate|].
    apply (In_nth _ _ (0%nat, (0, h))) in Hp. destruct Hp as [i [Hi Ei]].
    assert (Lc : length (combine ws hs) = length hs) by (rewrite combine_length, Hl; apply Nat.min_id).
    rewrite combine_length, seq_length, Nat.min_id, Lc in Hi.
    rewrite combine_nth in Ei by (rewrite seq_length; reflexivity). rewrite Lc, nth_seq0 in Ei by exact Hi. rewrite combine_nth in Ei by exact Hl. injection Ei as E1 E2 E3.
    subst i. split; [split; [exact Hi|congruence || (rewrite E2; lra)]|].
    rewrite edge_of_hypothesis_spec by exact Ldist. apply edge_bounds; [exact Hdist|exact Ldist|]. intros i' Hi'. apply Hc; [|exact Hi']. rewrite <- E3. apply nth_In, Hi. }
  assert (HLk : forall j e, In (j, e) L -> j <> k /\ -1 <= e <= 1).
  { intros j e Hin. destruct (HL j e Hin) as [[_ P] Q]. split; [|exact Q]. intros ->. lra. }
  assert (Lne : L <> []).
  { intros E. assert (Z : forall i, (i < length ws)%nat -> nth i ws 0 = 0).
    { intros i Hi. destruct Hd as [D1 _]. assert (0 <= nth i ws 0) by (apply D1, nth_In, Hi). destruct (Rle_dec (nth i ws 0) 0) as [|P]; [lra|]. exfalso.
      destruct hs as [|h0 hs']; [simpl in Hk; lia|]. set (hs := h0 :: hs') in *.
      assert (Hin : In (i, edge_of_hypothesis conf y dist (nth i hs h0)) L).
      { unfold L, bp_edges. apply in_map_iff. exists (i, (nth i ws 0, nth i hs h0)). split; [reflexivity|]. apply filter_In. split.
        - assert (Lc : length (combine ws hs) = length ws) by (rewrite combine_length, Hl; apply Nat.min_id).
          replace (i, (nth i ws 0, nth i hs h0)) with (nth i (combine (seq 0 (length (combine ws hs))) (combine ws hs)) (0%nat, (0, h0))).
          + apply nth_In. rewrite combine_length, seq_length, Nat.min_id, Lc. exact Hi.
          + rewrite combine_nth by (rewrite seq_length; reflexivity). rewrite nth_seq0 by congruence. rewrite combine_nth by exact Hl. reflexivity.
        - cbn [fst snd]. rewrite Rleb_false by lra. reflexivity. }
      rewrite E in Hin. exact Hin. }
    assert (rsum ws = 0); [|destruct Hd as [_ D2]; lra]. rewrite <- rsum_nth, (rsum_map_ext _ (fun _ => 0)), rsum_map_const; [ring|]. intros i Hi. apply in_seq in Hi. apply Z. lia. }
  pose proof (bp_fold_spec k L ((2, length hs), (-2, length hs), (-2, k)) HLk) as B. cbn [fst snd] in B. specialize (B ltac:(right; split; reflexivity) eq_refl).
  destruct (fold_left (bp_step k) L ((2, length hs), (-2, length hs), (-2, k))) as [[worst loc] glob]. destruct B as [_ [_ [_ [_ [B1 B2]]]]].
  specialize (B1 Lne eq_refl). destruct (B2 Lne eq_refl) as [B3 ->]. clear B2.
  assert (Eloc : (if negb (Nat.eqb (snd glob + 1) (length hs)) then glob else glob) = glob) by (destruct (negb _); reflexivity). rewrite Eloc.
  destruct (HL _ _ B1) as [[Pw1 Pw2] _]. destruct (HL _ _ B3) as [[Pg1 Pg2] _].
  destruct (Rleb _ _); [|exact LS].
  rewrite (proj2 (Nat.ltb_lt (snd worst) (length ws))) by lia. cbn [negb].
  destruct (nth_error hs (snd glob)) as [hl|] eqn:Eg; [|apply nth_error_None in Eg; lia].
  destruct (nth_error hs (snd worst)) as [hw|] eqn:Ew; [|apply nth_error_None in Ew; lia].
  rewrite exp_distribution_spec, margins_of_weighted_spec, !margins_of_hypothesis_spec. set (m0 := margins_of y (vote conf (combine (map _ _) hs))).
  destruct (best_project (length y) (fw_eta c) (fw_nu c) Hn Hnu m0 ltac:(apply margins_length)) as [d [E _]]. rewrite E. cbn [bind].
  set (dm := map (fun p => fst p - snd p) (combine (margins_of y (conf hl)) (margins_of y (conf hw)))).
  assert (Ldm : length dm = length y) by (unfold dm; rewrite map_length, combine_length, !margins_length; apply Nat.min_id).
  assert (Hmax : 0 <= nth (snd worst) ws 0) by lra.
  assert (Hkw : k <> snd worst) by (intros Ek; rewrite <- Ek in Pw2; lra).
  destruct (Rleb (inner_product d dm) 0).
  - rewrite (proj2 (Nat.ltb_lt k (length ws))) by lia. eexists. split; [reflexivity|]. split; [rewrite !upd_length; congruence|]. split.
    + intros x Hx. apply upd_in in Hx. destruct Hx as [->|Hx]; [lra|]. apply upd_in in Hx. destruct Hx as [->|Hx]; [exact Hmax|]. apply (proj1 Hd), Hx.
    + rewrite upd_sum by (rewrite upd_length; lia). rewrite upd_nth_other by exact Hkw. rewrite upd_sum by lia. rewrite Hw0, (proj2 Hd). ring.
  - destruct (bisect_ok (seg_grad c (margins_of y (vote conf (combine ws hs))) dm) (bisect_fuel (nth (snd worst) ws 0)) 0 (nth (snd worst) ws 0)) as [s [Es Hs]]; [exact Hmax|rewrite Rminus_0_r; apply bisect_fuel_enough| |].
    { intros s _. apply seg_grad_ok; rewrite margins_length; [exact Hn|congruence|exact Hnu]. }
    rewrite Es. cbn [bind]. rewrite (proj2 (Nat.ltb_lt (snd glob) (length ws))) by lia. cbn [negb]. eexists. split; [reflexivity|]. split; [rewrite !upd_length; congruence|]. split.
    + intros x Hx. apply upd_in in Hx. destruct Hx as [->|Hx].
      * destruct (Nat.eq_dec (snd glob) (snd worst)) as [Eq|Ne]; [rewrite Eq, upd_nth_same by lia; lra|rewrite upd_nth_other by exact Ne; lra].
      * apply upd_in in Hx. destruct Hx as [->|Hx]; [lra|]. apply (proj1 Hd), Hx.
    + rewrite upd_sum by (rewrite upd_length; lia). rewrite upd_sum by lia. rewrite (proj2 Hd). ring.
Qed.

(** ** C36: where the weight goes.  The classic, short-step and line-search rules move the weights towards the new
    hypothesis by some fraction s (the classic rule by 2/(t+1)) *)
Lemma bisect_range grad : forall fuel lb ub s, bisect fuel grad lb ub = Ok s -> lb <= ub -> lb <= s <= ub.
Proof.
  induction fuel as [|fuel IH]; intros lb ub s; cbn [bisect]; destruct (Rltb SUB_TOLERANCE (ub - lb)); try discriminate; try (intros E Hle; injection E as <-; lra).
  intros E Hle. destruct (grad ((lb + ub) / 2)) as [g|p]; cbn [bind] in E; [|discriminate].
  destruct (Rltb g 0); [apply IH in E; lra|]. destruct (Rltb 0 g); [apply IH in E; lra|injection E as <-; lra].
Qed.
Lemma interior_shape s k ws ws' : interior_point s k ws = Ok ws' ->
  0 <= s <= 1 /\ length ws' = length ws /\ forall i, (i < length ws)%nat -> nth i ws' 0 = (1 - s) * nth i ws 0 + s * (if Nat.eqb i k then 1 else 0).
Proof.
  intros E. assert (B : 0 <= s <= 1) by (unfold interior_point, check_stepsize in E; destruct (Rleb_spec 0 s), (Rleb_spec s 1); cbn [andb assert_ bind] in E; try discriminate; lra).
  split; [exact B|]. destruct (interior_point_ok s k ws B) as [w [E1 [L N]]]. rewrite E in E1. injection E1 as <-. split; [exact L|]. intros i Hi. rewrite N by exact Hi. ring.
Qed.

Lemma line_search_shape {H} (conf : H -> nat -> R) y c hs k ws ws' : fw_line_search conf y c hs k ws = Ok ws' ->
  exists s, 0 <= s <= 1 /\ length ws' = length ws /\ forall i, (i < length ws)%nat -> nth i ws' 0 = (1 - s) * nth i ws 0 + s * (if Nat.eqb i k then 1 else 0).
Proof.
  intros E. unfold fw_line_search in E. destruct (exp_distribution _ _ _ _ _ _) as [d|p]; cbn [bind] in E; [|discriminate].
  destruct (Rleb _ 0).
  - destruct (Nat.ltb_spec k (length ws)); [|discriminate]. injection E as <-. exists 1. split; [lra|]. split; [rewrite upd_length; apply repeat_length|]. intros i Hi.
    destruct (Nat.eqb_spec i k) as [->|N]; [rewrite upd_nth_same by (rewrite repeat_length; lia)|rewrite upd_nth_other by auto; rewrite nth_repeat]; ring.
  - destruct (bisect _ _ _ _) as [s|p]; cbn [bind] in E; [|discriminate]. exists s. apply interior_shape. exact E.
Qed.

Lemma P_C36_moves_towards_the_answer :
  forall (H : Type) (conf : H -> nat -> R) (y : list R) (c : fw) (it : nat) (dist : list R) (hs : list H) (k : nat) (ws ws' : list R),
  fw_type c <> BlendedPairwise -> length ws = length hs -> next_iterate conf y c it dist hs k ws = Ok ws' ->
  exists s, 0 <= s <= 1 /\ (fw_type c = Classic -> s = 2 / (INR it + 1)) /\ length ws' = length ws /\
    forall i, (i < length ws)%nat -> nth i ws' 0 = (1 - s) * nth i ws 0 + s * (if Nat.eqb i k then 1 else 0).
Proof.
  intros H conf y c it dist hs k ws ws' Ht Hl E. unfold next_iterate in E. destruct (Nat.ltb_spec k (length hs)) as [Hk|]; cbn [negb] in E; [|discriminate]. destruct (fw_type c) eqn:Ety; [| | |congruence].
  - unfold fw_classic in E. apply interior_shape in E. eexists. split; [apply E|]. split; [|apply E]. intros _. rewrite plus_INR. simpl. reflexivity.
  - unfold fw_short_step in E. destruct (Nat.eqb_spec (length hs) 1) as [L1|_].
    { injection E as <-. assert (k = 0%nat) by lia. subst k. exists 1. split; [lra|]. split; [congruence|]. split; [simpl; lia|]. intros i Hi. assert (i = 0%nat) by lia. subst i. simpl. ring. }
    destruct (nth_error hs k); [|discriminate].
    assert (X : exists s, interior_point s k ws = Ok ws').
    { cbv zeta in E. destruct (Reqb _ 0); [destruct (Rltb 0 _); [eexists; exact E|destruct (Rltb _ 0); [eexists; exact E|discriminate]]|eexists; exact E]. }
    destruct X as [s X]. apply interior_shape in X. exists s. split; [apply X|]. split; [intros Q; congruence|apply X].
  - apply line_search_shape in E. destruct E as [s [A B]]. exists s. split; [exact A|]. split; [intros Q; congruence|exact B].
Qed.

Lemma bp_fold_ext k (L : list (nat * R)) st : let '(worst, loc, glob) := fold_left (bp_step k) L st in
  fst worst <= fst (fst (fst st)) /\ fst (snd st) <= fst glob /\ forall j e, In (j, e) L -> fst worst <= e <= fst glob.
Proof.
  revert st. induction L as [|[j e] L IH]; intros [[worst loc] glob]; cbn [fold_left fst snd].
  - split; [lra|]. split; [lra|]. intros ? ? [].
  - set (st1 := bp_step k (worst, loc, glob) (j, e)). specialize (IH st1). destruct (fold_left (bp_step k) L st1) as [[w' l'] g']. destruct IH as [I1 [I2 I3]].
    unfold st1, bp_step in I1, I2. cbn [fst snd] in I1, I2.
    assert (A : fst w' <= fst worst /\ fst w' <= e) by (destruct (Rltb_spec e (fst worst)); cbn [fst] in I1; lra).
    assert (B : fst glob <= fst g' /\ e <= fst g') by (destruct (Rltb_spec (fst glob) e); cbn [fst] in I2; lra).
    split; [apply A|]. split; [apply B|]. intros j' e' [Eq|Hin]; [injection Eq as <- <-; lra|apply (I3 j'), Hin].
Qed.

(** ** C36, the pairwise rule: either a step towards the new hypothesis, or weight taken from a weighted hypothesis of
    smallest edge and given either entirely to the new hypothesis or in part to a weighted hypothesis of largest edge *)
Lemma P_C36_pairwise_direction :
  forall (H : Type) (conf : H -> nat -> R) (y : list R) (c : fw) (it : nat) (dist : list R) (hs : list H) (k : nat) (ws ws' : list R) (h0 : H),
  fw_type c = BlendedPairwise -> length dist = length y -> is_dist dist ->
  (forall h i, In h hs -> (i < length y)%nat -> -1 <= nth i y 0 * conf h i <= 1) ->
  length ws = length hs -> (forall j, (j < length ws)%nat -> 0 <= nth j ws 0) -> nth k ws 0 = 0 ->
  next_iterate conf y c it dist hs k ws = Ok ws' ->
  let edge j := edge_of y dist (conf (nth j hs h0)) in
  length ws' = length ws /\
  ((exists s, 0 <= s <= 1 /\ forall i, (i < length ws)%nat -> nth i ws' 0 = (1 - s) * nth i ws 0 + s * (if Nat.eqb i k then 1 else 0)) \/
   (exists a b delta, (a < length ws)%nat /\ (b < length ws)%nat /\ 0 < nth a ws 0 /\ (forall j, (j < length ws)%nat -> 0 < nth j ws 0 -> edge a <= edge j) /\
      0 <= delta <= nth a ws 0 /\
      (b = k /\ delta = nth a ws 0 \/ 0 < nth b ws 0 /\ forall j, (j < length ws)%nat -> 0 < nth j ws 0 -> edge j <= edge b) /\
      forall i, (i < length ws)%nat -> nth i ws' 0 = nth i ws 0 + (if Nat.eqb i b then delta else 0) - (if Nat.eqb i a then delta else 0))).
Proof.
  intros H conf y c it dist hs k ws ws' h0 Ht Ldist Hdist Hc Hl Hpos Hw0 E edge.
  unfold next_iterate in E. destruct (Nat.ltb_spec k (length hs)) as [Hk|]; cbn [negb] in E; [|discriminate]. rewrite Ht in E.
  unfold fw_blended_pairwise in E. set (L := bp_edges conf y dist hs ws) in *.
  assert (Lc : length (combine ws hs) = length hs) by (rewrite combine_length, Hl; apply Nat.min_id).
  assert (HL : forall j e, In (j, e) L <-> ((j < length hs)%nat /\ 0 < nth j ws 0) /\ e = edge j).
  { intros j e. unfold L, bp_edges. rewrite in_map_iff. split.
    - intros [[j' [w h]] [Ee Hp]]. cbn [fst snd] in Ee. injection Ee as -> <-.
      apply filter_In in Hp. destruct Hp as [Hp Hb]. cbn [fst snd] in Hb. destruct (Rleb_spec w 0); [discriminate|].
      apply (In_nth _ _ (0%nat, (0, h0))) in Hp. destruct Hp as [i [Hi Ei]]. rewrite combine_length, seq_length, Nat.min_id, Lc in Hi.
      rewrite combine_nth in Ei by (rewrite seq_length; reflexivity). rewrite Lc, nth_seq0 in Ei by exact Hi. rewrite combine_nth in Ei by exact Hl. injection Ei as E1 E2 E3.
      subst i. split; [split; [exact Hi|rewrite E2; lra]|]. rewrite edge_of_hypothesis_spec by exact Ldist. unfold edge. rewrite E3. reflexivity.
    - intros [[Hj Hp] ->]. exists (j, (nth j ws 0, nth j hs h0)). cbn [fst snd]. split; [rewrite edge_of_hypothesis_spec by exact Ldist; reflexivity|]. apply filter_In. split.
      + replace (j, (nth j ws 0, nth j hs h0)) with (nth j (combine (seq 0 (length (combine ws hs))) (combine ws hs)) (0%nat, (0, h0))).
        * apply nth_In. rewrite combine_length, seq_length, Nat.min_id, Lc. exact Hj.
        * rewrite combine_nth by (rewrite seq_length; reflexivity). rewrite nth_seq0 by congruence. rewrite combine_nth by exact Hl. reflexivity.
      + cbn [fst snd]. rewrite Rleb_false by lra. reflexivity. }
  assert (HLb : forall j e, In (j, e) L -> -1 <= e <= 1).
  { intros j e Hin. apply HL in Hin. destruct Hin as [[Hj _] ->]. apply edge_bounds; [exact Hdist|exact Ldist|]. intros i Hi. apply Hc; [apply nth_In, Hj|exact Hi]. }
  assert (HLk : forall j e, In (j, e) L -> j <> k /\ -1 <= e <= 1).
  { intros j e Hin. split; [|apply (HLb j e Hin)]. apply HL in Hin. intros ->. lra. }
  pose proof (bp_fold_spec k L ((2, length hs), (-2, length hs), (-2, k)) HLk) as B. cbn [fst snd] in B. specialize (B ltac:(right; split; reflexivity) eq_refl).
  pose proof (bp_fold_ext k L ((2, length hs), (-2, length hs), (-2, k))) as X. cbn [fst snd] in X.
  destruct (fold_left (bp_step k) L ((2, length hs), (-2, length hs), (-2, k))) as [[worst loc] glob]. destruct B as [_ [_ [B0 [_ [_ B2]]]]]. destruct X as [_ [_ X]].
  destruct (Rleb _ _); [|apply line_search_shape in E; destruct E as [s [S1 [S2 S3]]]; split; [exact S2|left; exists s; split; assumption]].
  destruct (Nat.ltb_spec (snd worst) (length ws)) as [Hw|]; cbn [negb] in E; [|discriminate].
  destruct B0 as [B1| ->]; [|cbn [snd] in Hw; lia].
  assert (Lne : L <> []) by (intros EL; rewrite EL in B1; destruct B1). destruct (B2 Lne eq_refl) as [B3 ->].
  assert (Eloc : (if negb (Nat.eqb (snd glob + 1) (length hs)) then glob else glob) = glob) by (destruct (negb _); reflexivity). rewrite Eloc in E.
  destruct (proj1 (HL _ _) B1) as [[_ Pw] Ew]. destruct (proj1 (HL _ _) B3) as [[Hg Pg] Eg].
  assert (Mw : forall j, (j < length ws)%nat -> 0 < nth j ws 0 -> edge (snd worst) <= edge j).
  { intros j Hj Pj. rewrite <- Ew. apply (X j). apply HL. split; [split; [lia|exact Pj]|reflexivity]. }
  assert (Mg : forall j, (j < length ws)%nat -> 0 < nth j ws 0 -> edge j <= edge (snd glob)).
  { intros j Hj Pj. rewrite <- Eg. apply (X j). apply HL. split; [split; [lia|exact Pj]|reflexivity]. }
  assert (Hkw : snd worst <> k) by (intros Ek; rewrite Ek in Pw; lra).
  destruct (nth_error hs (snd glob)) as [hl|]; [|discriminate]. destruct (nth_error hs (snd worst)) as [hw|]; [|discriminate].
  destruct (exp_distribution _ _ _ _ _ _) as [d|p]; cbn [bind] in E; [|discriminate]. destruct (Rleb _ 0).
  - destruct (Nat.ltb_spec k (length ws)); [|discriminate]. injection E as <-. split; [rewrite !upd_length; reflexivity|]. right. exists (snd worst), k, (nth (snd worst) ws 0).
    split; [exact Hw|]. split; [assumption|]. split; [exact Pw|]. split; [exact Mw|]. split; [lra|]. split; [left; split; reflexivity|]. intros i Hi.
    destruct (Nat.eqb_spec i (snd worst)) as [->|N].
    + rewrite upd_nth_same by (rewrite upd_length; exact Hi). rewrite (proj2 (Nat.eqb_neq _ _) Hkw). ring.
    + rewrite upd_nth_other by auto. destruct (Nat.eqb_spec i k) as [->|N']; [rewrite upd_nth_same by assumption; rewrite Hw0; ring|rewrite upd_nth_other by auto; ring].
  - destruct (bisect _ _ _ _) as [s|p] eqn:Es; cbn [bind] in E; [|discriminate]. destruct (Nat.ltb_spec (snd glob) (length ws)); cbn [negb] in E; [|discriminate]. injection E as <-.
    split; [rewrite !upd_length; reflexivity|]. right. exists (snd worst), (snd glob), s. split; [exact Hw|]. split; [assumption|]. split; [exact Pw|]. split; [exact Mw|]. split; [|split; [right; split; [exact Pg|exact Mg]|]].
    + apply bisect_range in Es; [exact Es|lra].
    + intros i Hi. destruct (Nat.eqb_spec i (snd worst)) as [->|N].
      * rewrite upd_nth_same by (rewrite upd_length; exact Hi). destruct (Nat.eqb_spec (snd worst) (snd glob)) as [Eq|Ne]; [rewrite <- Eq, upd_nth_same by exact Hw; ring|rewrite upd_nth_other by auto; ring].
      * rewrite upd_nth_other by auto. destruct (Nat.eqb_spec i (snd glob)) as [->|N']; [rewrite upd_nth_same by assumption; ring|rewrite upd_nth_other by auto; ring].
Qed.

(** ** C36 fails for the pairwise rule when the weak learner repeats a hypothesis that already has weight: its weight is
    overwritten.  Two examples, two hypotheses with weights 1/2 each; afterwards the weights are (1/2, 0). *)
Definition ref_conf (h i : nat) : R :=
  nth i y2 0 * nth i (nth h [[1; 0]; [-1; 1]] []) 0.

Lemma two_best eta (d m : list R) : 0 < eta -> best 2 eta 1 d m -> exists p q xi, d = [p; q] /\ 0 < p /\ 0 < q /\ p + q = 1 /\ 0 < xi /\ p = xi * exp (- eta * nth 0 m 0) /\ q = xi * exp (- eta * nth 1 m 0).
Proof.
  intros He Hb. assert (Hnu : 1 <= 1 <= INR 2) by (simpl; lra). destruct (best_facts 2 eta 1 ltac:(lia) Hnu d m Hb) as [_ [P _]]. destruct Hb as [Ld [Lm [xi [Hxi [Hv Hs]]]]].
  destruct d as [|p [|q [|]]]; simpl in Ld; try lia. pose proof (P 0%nat ltac:(lia)) as P0. pose proof (P 1%nat ltac:(lia)) as P1. pose proof (Hv 0%nat ltac:(lia)) as V0. pose proof (Hv 1%nat ltac:(lia)) as V1.
  cbn [nth] in P0, P1, V0, V1. simpl in Hs. exists p, q, xi. repeat split; try assumption; try lra; unfold Rmin in *.
  - destruct (Rle_dec (1 / 1) (xi * exp (- eta * nth 0 m 0))); lra.
  - destruct (Rle_dec (1 / 1) (xi * exp (- eta * nth 1 m 0))); lra.
Qed.

Lemma exp1_gt2 : 2 < exp 1.
Proof. pose proof (exp_ineq1 1 ltac:(lra)). lra. Qed.

Lemma P_C36_pairwise_repeated_refuted :
  exists (conf : nat -> nat -> R) (y : list R) (c : fw) (dist : list R) (hs : list nat) (k : nat) (ws : list R),
  fw_type c = BlendedPairwise /\ 0 < fw_eta c /\ 1 <= fw_nu c <= INR (length y) /\
  (forall i, (i < length y)%nat -> pm1 (nth i y 0)) /\ (forall h i, -1 <= conf h i <= 1) /\
  exp_distribution conf (fw_eta c) (fw_nu c) y ws hs = Ok dist /\ NoDup hs /\
  (k < length hs)%nat /\ length ws = length hs /\ is_dist ws /\
  edge_of y dist (vote conf (combine ws hs)) < edge_of y dist (conf (nth k hs 0%nat)) /\
  next_iterate conf y c 2 dist hs k ws = Ok [1 / 2; 0].
Proof.
  set (c := mkFw 1 1 BlendedPairwise). set (ws := [1 / 2; 1 / 2]). set (hs := [0%nat; 1%nat]).
  assert (Hnu : 1 <= 1 <= INR (length y2)) by (simpl; lra).
  destruct (best_project 2 1 1 ltac:(lia) Hnu (margins_of y2 (vote ref_conf (combine ws hs))) (margins_length y2 _)) as [dist [Ed Hb]].
  destruct (two_best 1 _ _ Rlt_0_1 Hb) as [p [q [xi [-> [Hp [Hq [Hpq [Hxi [Ep Eq]]]]]]]]].
  assert (M0 : nth 0 (margins_of y2 (vote ref_conf (combine ws hs))) 0 = 0) by (unfold margins_of, vote, ref_conf, y2, ws, hs; simpl; lra).
  assert (M1 : nth 1 (margins_of y2 (vote ref_conf (combine ws hs))) 0 = 1 / 2) by (unfold margins_of, vote, ref_conf, y2, ws, hs; simpl; lra).
  rewrite M0 in Ep. rewrite M1 in Eq.
  assert (Hpq' : q < p). { rewrite Ep, Eq. apply Rmult_lt_compat_l; [exact Hxi|]. apply exp_increasing. lra. }
  assert (E0 : edge_of y2 [p; q] (ref_conf 0) = p) by (unfold edge_of, ref_conf, y2; simpl; ring).
  assert (E1 : edge_of y2 [p; q] (ref_conf 1) = q - p) by (unfold edge_of, ref_conf, y2; simpl; ring).
  assert (Ev : edge_of y2 [p; q] (vote ref_conf (combine ws hs)) = q / 2) by (unfold edge_of, vote, ref_conf, y2, ws, hs; simpl; field).
  exists ref_conf, y2, c, [p; q], hs, 0%nat, ws. split; [reflexivity|]. split; [simpl; lra|]. split; [exact Hnu|].
  split; [exact y2_pm1|]. split.
  { intros h i. unfold ref_conf, y2. destruct i as [|[|[|]]], h as [|[|[|]]]; simpl; lra. }
  split; [rewrite exp_distribution_spec; exact Ed|]. split; [repeat constructor; simpl; intuition lia|]. split; [simpl; lia|]. split; [reflexivity|].
  split; [split; [intros x [<-|[<-|[]]]; lra|simpl; lra]|]. split; [rewrite Ev; cbn [nth hs]; rewrite E0; lra|].
  unfold next_iterate. simpl negb. cbv iota. unfold c at 1. cbn [fw_type].
  unfold fw_blended_pairwise, bp_edges. unfold ws at 1 2, hs at 1 2 3 4 5 6. cbn [combine length seq map filter fst snd]. rewrite !Rleb_false by lra. cbn [negb filter map fst snd].
  rewrite !edge_of_hypothesis_spec by reflexivity. rewrite E0, E1. cbn [fold_left bp_step Nat.eqb negb andb fst snd].
  rewrite (Rltb_true (-2) p), (Rltb_true p 2) by lra. cbn [fst snd]. rewrite (Rltb_true (-2) (q - p)) by lra. cbn [fst snd]. rewrite (Rltb_false p (q - p)), (Rltb_true (q - p) p) by lra.
  cbn [fst snd Nat.add Nat.eqb negb length hs]. rewrite edge_of_weighted_spec by reflexivity. match goal with |- context [Rleb (p - ?E) _] => change E with (edge_of y2 [p; q] (vote ref_conf (combine ws hs))) end. rewrite Ev. rewrite Rleb_true by lra.
  cbn [length ws Nat.ltb Nat.leb negb nth_error nth].
  unfold hs at 1 2. cbv iota beta. rewrite exp_distribution_spec, margins_of_weighted_spec, !margins_of_hypothesis_spec.
  set (mm := map (fun p0 => snd p0 + 1 / 2 * fst p0) _).
  destruct (best_project 2 1 1 ltac:(lia) Hnu (margins_of y2 (vote ref_conf (combine mm hs))) (margins_length y2 _)) as [d' [Ed' Hb']].
  unfold c. cbn [fw_eta fw_nu]. rewrite Ed'. cbn [bind].
  destruct (two_best 1 _ _ Rlt_0_1 Hb') as [p' [q' [xi' [-> [Hp' [Hq' [Hpq2 [Hxi' [Ep' Eq']]]]]]]]].
  assert (N0 : nth 0 (margins_of y2 (vote ref_conf (combine mm hs))) 0 = 1) by (unfold mm, margins_of, vote, ref_conf, y2, ws, hs; simpl; lra).
  assert (N1 : nth 1 (margins_of y2 (vote ref_conf (combine mm hs))) 0 = 0) by (unfold mm, margins_of, vote, ref_conf, y2, ws, hs; simpl; lra).
  rewrite N0 in Ep'. rewrite N1 in Eq'. replace (- (1) * 0) with 0 in Eq' by ring. rewrite exp_0 in Eq'. replace (- (1) * 1) with (- (1)) in Ep' by ring. rewrite exp_Ropp in Ep'.
  assert (X : 2 * p' < q'). { rewrite Ep', Eq'. pose proof exp1_gt2. assert (/ exp 1 < / 2) by (apply Rinv_lt_contravar; lra). nra. }
  rewrite Rleb_true; [reflexivity|]. unfold inner_product, dot, zipmul, margins_of, ref_conf, y2. simpl. lra.
Qed.

(** ** C37 fails: the line search tests the sign of the gradient at the distribution of the direction instead of at the end
    point, and bisects the wrong way.  In this case the new hypothesis improves the edge of the current distribution,
    the line search moves all the weight to it, and the regularised soft margin it is meant to maximise drops. *)
Definition ls_conf (h i : nat) : R :=
  nth i y2 0 * nth i (nth h [[1; -1]; [-1; 1 / 2]] []) 0.

Lemma P_C37_line_search_refuted :
  exists (conf : nat -> nat -> R) (y : list R) (c : fw) (dist : list R) (hs : list nat) (k : nat) (ws ws' : list R) (v v' : R),
  fw_type c = LineSearch /\ 0 < fw_eta c /\ 1 <= fw_nu c <= INR (length y) /\
  (forall i, (i < length y)%nat -> pm1 (nth i y 0)) /\ (forall h i, -1 <= conf h i <= 1) /\
  exp_distribution conf (fw_eta c) (fw_nu c) y ws hs = Ok dist /\ NoDup hs /\
  (k < length hs)%nat /\ length ws = length hs /\ is_dist ws /\
  edge_of y dist (vote conf (combine ws hs)) < edge_of y dist (conf (nth k hs 0%nat)) /\
  next_iterate conf y c 2 dist hs k ws = Ok ws' /\
  soft_objective (fw_eta c) (fw_nu c) y (vote conf (combine ws hs)) v /\
  soft_objective (fw_eta c) (fw_nu c) y (vote conf (combine ws' hs)) v' /\ v' < v.
Proof.
  set (c := mkFw 1 1 LineSearch). set (ws := [1; 0]). set (hs := [0%nat; 1%nat]).
  assert (Hnu : 1 <= 1 <= INR (length y2)) by (simpl; lra). assert (Hn : (0 < length y2)%nat) by (simpl; lia).
  destruct (best_project 2 1 1 ltac:(lia) Hnu (margins_of y2 (vote ls_conf (combine ws hs))) (margins_length y2 _)) as [dist [Ed Hb]].
  pose proof (best_objective 1 1 y2 _ dist Hn Rlt_0_1 Hnu Hb) as Hobj.
  destruct (two_best 1 _ _ Rlt_0_1 Hb) as [p [q [xi [-> [Hp [Hq [Hpq [Hxi [Ep Eq]]]]]]]]].
  assert (M0 : nth 0 (margins_of y2 (vote ls_conf (combine ws hs))) 0 = 1) by (unfold margins_of, vote, ls_conf, y2, ws, hs; simpl; lra).
  assert (M1 : nth 1 (margins_of y2 (vote ls_conf (combine ws hs))) 0 = -1) by (unfold margins_of, vote, ls_conf, y2, ws, hs; simpl; lra).
  rewrite M0 in Ep. rewrite M1 in Eq.
  assert (Hpq' : p < q). { rewrite Ep, Eq. apply Rmult_lt_compat_l; [exact Hxi|]. apply exp_increasing. lra. }
  assert (Hpq2 : 2 * p < q).
  { rewrite Ep, Eq. pose proof exp1_gt2. replace (- (1) * -1) with 1 by ring. replace (- (1) * 1) with (- (1)) by ring. rewrite exp_Ropp.
    assert (/ exp 1 < / 2) by (apply Rinv_lt_contravar; lra). nra. }
  set (ws' := [0; 1]).
  destruct (best_project 2 1 1 ltac:(lia) Hnu (margins_of y2 (vote ls_conf (combine ws' hs))) (margins_length y2 _)) as [dist' [Ed' Hb']].
  pose proof (best_objective 1 1 y2 _ dist' Hn Rlt_0_1 Hnu Hb') as Hobj'.
  exists ls_conf, y2, c, [p; q], hs, 1%nat, ws, ws'. eexists. eexists. split; [reflexivity|]. split; [simpl; lra|]. split; [exact Hnu|].
  split; [exact y2_pm1|]. split.
  { intros h i. unfold ls_conf, y2. destruct i as [|[|[|]]], h as [|[|[|]]]; simpl; lra. }
  split; [rewrite exp_distribution_spec; exact Ed|]. split; [repeat constructor; simpl; intuition lia|]. split; [simpl; lia|]. split; [reflexivity|].
  split; [split; [intros x [<-|[<-|[]]]; lra|simpl; lra]|]. split.
  { unfold edge_of, vote, ls_conf, y2, ws, hs. simpl. lra. }
  split.
  { unfold next_iterate. simpl negb. cbv iota. unfold c at 1. cbn [fw_type]. unfold fw_line_search. cbn [length ws seq combine map fst snd Nat.eqb].
    rewrite exp_distribution_spec, !margins_of_weighted_spec. set (dirw := [- (1); 1 - 0]).
    destruct (best_project 2 1 1 ltac:(lia) Hnu (margins_of y2 (vote ls_conf (combine dirw hs))) (margins_length y2 _)) as [dd [Edd Hbb]].
    unfold c. cbn [fw_eta fw_nu]. rewrite Edd. cbn [bind]. destruct (two_best 1 _ _ Rlt_0_1 Hbb) as [a [b [xi2 [-> [Ha [Hbp [Hab [Hxi2 [Ea Eb]]]]]]]]].
    assert (D0 : nth 0 (margins_of y2 (vote ls_conf (combine dirw hs))) 0 = -2) by (unfold dirw, margins_of, vote, ls_conf, y2, hs; simpl; lra).
    assert (D1 : nth 1 (margins_of y2 (vote ls_conf (combine dirw hs))) 0 = 3 / 2) by (unfold dirw, margins_of, vote, ls_conf, y2, hs; simpl; lra).
    rewrite D0 in Ea. rewrite D1 in Eb. assert (b < a). { rewrite Ea, Eb. apply Rmult_lt_compat_l; [exact Hxi2|]. apply exp_increasing. lra. }
    rewrite Rleb_true; [reflexivity|]. unfold inner_product, dot, zipmul, dirw, margins_of, vote, ls_conf, y2, hs. simpl. lra. }
  split; [exact Hobj|]. split; [exact Hobj'|].
  apply Rle_lt_trans with (reg_edge 1 y2 [q; p] (vote ls_conf (combine ws' hs))).
  - apply (proj2 Hobj'). split; [reflexivity|]. split; [intros x [<-|[<-|[]]]; lra|simpl; lra].
  - unfold reg_edge, edge_of, vote, ls_conf, y2, ws, ws', hs. simpl. lra.
Qed.

(** the assumptions of the positive theorems hold for two hypotheses with weights (1/3, 2/3), and for (1, 0) with a
    new second one *)
Example C36_nonvacuous : is_dist [1 / 3; 2 / 3] /\ is_dist [1; 0] /\ nth 1 [1; 0] 0 = 0 /\ (1 <= 1 <= INR (length y2)) /\
  is_dist [1 / 2; 1 / 2] /\ (forall h i, In h [0%nat; 1%nat] -> (i < length y2)%nat -> -1 <= nth i y2 0 * ls_conf h i <= 1).
Proof.
  repeat split; try (simpl; lra); try (intros x Hx; simpl in Hx; intuition (subst; lra)); destruct H as [<-|[<-|[]]];
    (destruct i as [|[|i]]; [unfold ls_conf; simpl; lra|unfold ls_conf; simpl; lra|simpl in H0; lia]).
Qed.
