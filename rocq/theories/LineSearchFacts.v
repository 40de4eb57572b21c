(** What the line search of the Frank-Wolfe routine does (C37). *)
From Verif Require Import Base Spec RegSpec SortLib Utils UtilsProofs WMajority WMajorityProofs Booster AdaBoost
  AdaBoostProofs AdaBoostMain AdaBoostMore Num Hoeffding FrankWolfe FrankWolfeProofs FrankWolfeFacts LineSearchSpec.
Open Scope R_scope.

Lemma bisect_negative (grad : R -> res R) : forall fuel lb ub s, lb <= ub ->
  (forall s, lb <= s <= ub -> exists g, grad s = Ok g /\ g < 0) -> bisect fuel grad lb ub = Ok s -> ub - s <= SUB_TOLERANCE / 2.
Proof.
  induction fuel as [|fuel IH]; intros lb ub s Hle Hg; cbn [bisect]; destruct (Rltb_spec SUB_TOLERANCE (ub - lb)) as [L|L].
  - discriminate.
  - intros E; injection E as <-. lra.
  - destruct (Hg ((lb + ub) / 2) ltac:(lra)) as [g [Eg Hp]]. rewrite Eg. cbn [bind].
    rewrite Rltb_true by lra. intros E. apply IH in E; [lra|lra|]. intros t Ht. apply Hg. lra.
  - intros E; injection E as <-. lra.
Qed.

(** a gradient that does not increase: the bisection ends next to an end of the interval, unless the gradient vanishes at
    the first midpoint *)
Lemma bisect_extreme (grad : R -> res R) (G : R -> R) w fuel s : SUB_TOLERANCE < w -> (forall t, 0 <= t <= w -> grad t = Ok (G t)) ->
  (forall t u, 0 <= t -> t <= u -> u <= w -> G u <= G t) -> bisect fuel grad 0 w = Ok s ->
  (G (w / 2) = 0 /\ s = w / 2) \/ (0 < G (w / 2) /\ 0 <= s <= SUB_TOLERANCE / 2) \/ (G (w / 2) < 0 /\ w - SUB_TOLERANCE / 2 <= s <= w).
Proof.
  intros Hw Hg Hm E. assert (Hpos : 0 < SUB_TOLERANCE) by (unfold SUB_TOLERANCE; lra).
  pose proof (bisect_range _ _ _ _ _ E ltac:(lra)) as Hr. destruct fuel as [|fuel]; cbn [bisect] in E; rewrite Rltb_true in E by lra; [discriminate|].
  replace ((0 + w) / 2) with (w / 2) in E by lra. rewrite (Hg (w / 2)) in E by lra. cbn [bind] in E.
  destruct (Rltb_spec (G (w / 2)) 0) as [L|L].
  - right; right. split; [exact L|]. apply bisect_negative in E; [lra|lra|]. intros t Ht. exists (G t). split; [apply Hg; lra|]. pose proof (Hm (w / 2) t). lra.
  - destruct (Rltb_spec 0 (G (w / 2))) as [L'|L'].
    + right; left. split; [exact L'|]. apply bisect_positive in E; [lra|lra|]. intros t Ht. exists (G t). split; [apply Hg; lra|]. pose proof (Hm t (w / 2)). lra.
    + left. injection E as <-. split; lra.
Qed.

Section Seg.
  Variables (n : nat) (c : fw) (base dir : list R).
  Hypothesis Hn : (0 < n)%nat.
  Hypothesis Heta : 0 < fw_eta c.
  Hypothesis Hnu : 1 <= fw_nu c <= INR n.
  Hypothesis Lb : length base = n.
  Hypothesis Ld : length dir = n.

  Lemma seg_length s : length (seg_margins base dir s) = n.
  Proof. unfold seg_margins. rewrite map_length, combine_length, Lb, Ld. apply Nat.min_id. Qed.
  Lemma seg_nth s i : (i < n)%nat -> nth i (seg_margins base dir s) 0 = nth i base 0 + s * nth i dir 0.
  Proof. intros Hi. unfold seg_margins. rewrite (combine_nth_map _ base dir 0 0) by congruence. rewrite (nth_map_seq _ (length base) i 0) by lia. reflexivity. Qed.
  Lemma seg_phi d s t : length d = n -> phi n (fw_eta c) d (seg_margins base dir s) = phi n (fw_eta c) d (seg_margins base dir t) + (s - t) * inner_product d dir.
  Proof.
    intros Hd. unfold phi, inner_product. rewrite dot_nth by congruence. rewrite Hd.
    assert (E : rsum (map (fun i => nth i d 0 * nth i (seg_margins base dir s) 0) (seq 0 n)) = rsum (map (fun i => nth i d 0 * nth i (seg_margins base dir t) 0) (seq 0 n)) + (s - t) * rsum (map (fun i => nth i d 0 * nth i dir 0) (seq 0 n))).
    { rewrite <- rsum_map_mult, <- rsum_map_plus. apply rsum_map_ext. intros i Hi. apply in_seq in Hi. rewrite !seg_nth by lia. ring. }
    rewrite E. ring.
  Qed.

  Definition seg_dist (s : R) : list R := match exp_distribution_from_margins (fw_eta c) (fw_nu c) (seg_margins base dir s) with Ok d => d | Panic _ => [] end.
  Lemma seg_dist_ok s : exp_distribution_from_margins (fw_eta c) (fw_nu c) (seg_margins base dir s) = Ok (seg_dist s) /\ best n (fw_eta c) (fw_nu c) (seg_dist s) (seg_margins base dir s).
  Proof.
    destruct (best_project n (fw_eta c) (fw_nu c) Hn Hnu (seg_margins base dir s) (seg_length s)) as [d [E Hb]]. unfold seg_dist. rewrite E. split; [reflexivity|exact Hb].
  Qed.
  Definition seg_G (s : R) : R := inner_product (seg_dist s) dir.
  Lemma seg_grad_eq s : seg_grad c base dir s = Ok (seg_G s).
  Proof. unfold seg_grad. rewrite (proj1 (seg_dist_ok s)). reflexivity. Qed.
  Lemma seg_upper s t : phi n (fw_eta c) (seg_dist s) (seg_margins base dir s) <= phi n (fw_eta c) (seg_dist t) (seg_margins base dir t) + (s - t) * seg_G t.
  Proof.
    destruct (seg_dist_ok s) as [_ Hs]. destruct (seg_dist_ok t) as [_ Ht]. unfold seg_G. rewrite <- seg_phi by apply Ht.
    apply (phi_min n (fw_eta c) (fw_nu c) Hn Heta Hnu); [exact Hs|apply Ht|]. apply (best_facts n (fw_eta c) (fw_nu c) Hn Hnu _ _ Ht).
  Qed.
  Lemma seg_mono s t : s <= t -> seg_G t <= seg_G s.
  Proof.
    intros Hst. destruct (Req_dec s t) as [->|Hne]; [lra|]. pose proof (seg_upper s t). pose proof (seg_upper t s). nra.
  Qed.
End Seg.

(** ** C37: whatever the sample, the hypotheses and the weights, the line search returns the new hypothesis alone, or the
    half step, or a step within 1e-9 of 0 or of 1 whose objective is strictly smaller than that of the half step *)
Lemma P_C37_line_search_never_beats_half_refuted :
  forall (H : Type) (conf : H -> nat -> R) (y : list R) (c : fw) (it : nat) (dist : list R) (hs : list H) (k : nat) (ws ws' half : list R),
  fw_type c = LineSearch -> (0 < length y)%nat -> 0 < fw_eta c -> 1 <= fw_nu c <= INR (length y) ->
  length ws = length hs -> moved_towards k (1 / 2) ws half -> next_iterate conf y c it dist hs k ws = Ok ws' ->
  moved_towards k 1 ws ws' \/ ws' = half \/
  exists s, moved_towards k s ws ws' /\ (0 <= s <= / 1000000000 \/ 1 - / 1000000000 <= s <= 1) /\
    forall v v', soft_objective (fw_eta c) (fw_nu c) y (vote conf (combine ws' hs)) v ->
      soft_objective (fw_eta c) (fw_nu c) y (vote conf (combine half hs)) v' -> v < v'.
Proof.
  intros H conf y c it dist hs k ws ws' half Ht Hn Heta Hnu Hl Hhalf E.
  unfold next_iterate in E. destruct (Nat.ltb_spec k (length hs)) as [Hk|]; cbn [negb] in E; [|discriminate]. rewrite Ht in E.
  unfold fw_line_search in E. rewrite !margins_of_weighted_spec in E. 
  set (dirw := map (fun p => if Nat.eqb (fst p) k then 1 - snd p else - snd p) (combine (seq 0 (length ws)) ws)) in *.
  assert (Ldw : length dirw = length ws) by (unfold dirw; rewrite map_length, combine_length, seq_length; apply Nat.min_id).
  assert (Ndw : forall j, (j < length ws)%nat -> nth j dirw 0 = (if Nat.eqb j k then 1 else 0) - nth j ws 0).
  { intros j Hj. unfold dirw. rewrite (combine_nth_map _ _ _ 0%nat 0) by apply seq_length. rewrite seq_length. rewrite nth_map_seq by exact Hj. cbn [fst snd]. rewrite nth_seq0 by exact Hj. destruct (Nat.eqb j k); ring. }
  set (base := margins_of y (vote conf (combine ws hs))) in *. set (dir := margins_of y (vote conf (combine dirw hs))) in *.
  assert (Lb : length base = length y) by apply margins_length. assert (Ld : length dir = length y) by apply margins_length.
  destruct (exp_distribution _ _ _ _ _ _) as [d0|]; cbn [bind] in E; [|discriminate].
  assert (Hh : exists h0, nth_error hs k = Some h0) by (destruct (nth_error hs k) eqn:Eh; [eauto|apply nth_error_None in Eh; lia]). destruct Hh as [h0 Hh0].
  destruct (Rleb (inner_product d0 dir) 0).
  - left. destruct (Nat.ltb_spec k (length ws)); [|discriminate]. injection E as <-. split; [rewrite upd_length; apply repeat_length|]. intros i Hi.
    destruct (Nat.eqb_spec i k) as [->|N]; [rewrite upd_nth_same by (rewrite repeat_length; lia)|rewrite upd_nth_other by auto; rewrite nth_repeat]; ring.
  - right. destruct (bisect _ _ _ _) as [s|] eqn:Eb; cbn [bind] in E; [|discriminate]. destruct (interior_shape _ _ _ _ E) as [Hs Hsh].
    assert (Mv : moved_towards k s ws ws') by exact Hsh.
    assert (Seg : forall t w, moved_towards k t ws w -> margins_of y (vote conf (combine w hs)) = seg_margins base dir t).
    { intros t w [Lw Nw]. apply (list_eq_nth 0); [rewrite margins_length, (seg_length (length y)) by assumption; reflexivity|]. intros i Hi. rewrite margins_length in Hi.
      rewrite margins_nth by exact Hi. rewrite (seg_nth (length y)) by assumption. unfold base, dir. rewrite !margins_nth by exact Hi.
      rewrite !(vote_nth conf _ hs h0) by congruence.
      rewrite (rsum_map_ext (fun j => nth j w 0 * conf (nth j hs h0) i) (fun j => nth j ws 0 * conf (nth j hs h0) i + t * (nth j dirw 0 * conf (nth j hs h0) i))).
      - rewrite rsum_map_plus, rsum_map_mult. ring.
      - intros j Hj. apply in_seq in Hj. rewrite Nw, Ndw by lia. ring. }
    assert (Obj : forall t w v, moved_towards k t ws w -> soft_objective (fw_eta c) (fw_nu c) y (vote conf (combine w hs)) v -> v = phi (length y) (fw_eta c) (seg_dist c base dir t) (seg_margins base dir t)).
    { intros t w v Mw Hv. destruct (seg_dist_ok (length y) c base dir Hn Hnu Lb Ld t) as [_ Hb]. rewrite <- (Seg t w Mw) in Hb |- *.
      pose proof (best_objective (fw_eta c) (fw_nu c) y _ _ Hn Heta Hnu Hb) as Ho. rewrite phi_reg_edge by apply Hb.
      destruct Hv as [[d1 [A1 A2]] A3]. destruct Ho as [[d2 [B1 B2]] B3]. pose proof (A3 d2 B1). pose proof (B3 d1 A1). lra. }
    destruct (bisect_extreme (seg_grad c base dir) (seg_G c base dir) 1 (bisect_fuel 1) s) as [[Z ->]|[[Z B]|[Z B]]].
    + unfold SUB_TOLERANCE. lra.
    + intros t _. apply (seg_grad_eq (length y)); assumption.
    + intros t u _ Htu _. apply (seg_mono (length y)); assumption.
    + exact Eb.
    + left. destruct Mv as [L1 N1]. destruct Hhalf as [L2 N2]. apply (list_eq_nth 0); [congruence|]. intros i Hi. rewrite N1, N2 by lia. reflexivity.
    + right. exists s. split; [exact Mv|]. split; [left; unfold SUB_TOLERANCE in B; lra|]. intros v v' Hv Hv'. rewrite (Obj s ws' v Mv Hv), (Obj (1 / 2) half v' Hhalf Hv').
      pose proof (seg_upper (length y) c base dir Hn Heta Hnu Lb Ld s (1 / 2)) as U. unfold SUB_TOLERANCE in B. nra.
    + right. exists s. split; [exact Mv|]. split; [right; unfold SUB_TOLERANCE in B; lra|]. intros v v' Hv Hv'. rewrite (Obj s ws' v Mv Hv), (Obj (1 / 2) half v' Hhalf Hv').
      pose proof (seg_upper (length y) c base dir Hn Heta Hnu Lb Ld s (1 / 2)) as U. unfold SUB_TOLERANCE in B. nra.
Qed.

(** non-vacuity: the case exhibited by [P_C37_line_search_refuted] meets the hypotheses *)
Example ex_line_search_case : exists (conf : nat -> nat -> R) y c dist (hs : list nat) k ws ws' half,
  fw_type c = LineSearch /\ (0 < length y)%nat /\ 0 < fw_eta c /\ 1 <= fw_nu c <= INR (length y) /\
  length ws = length hs /\ moved_towards k (1 / 2) ws half /\ next_iterate conf y c 2 dist hs k ws = Ok ws'.
Proof.
  destruct P_C37_line_search_refuted as [conf [y [c [dist [hs [k [ws [ws' [v [v' [A [B [C [_ [_ [_ [_ [_ [D [_ [_ [E _]]]]]]]]]]]]]]]]]]]]]].
  exists conf, y, c, dist, hs, k, ws, ws', (map (fun i => (1 - 1 / 2) * nth i ws 0 + 1 / 2 * (if Nat.eqb i k then 1 else 0)) (seq 0 (length ws))).
  split; [exact A|]. split; [|split; [exact B|split; [exact C|split; [exact D|split; [|exact E]]]]].
  - destruct (length y); [simpl in C; lra|lia].
  - split; [rewrite map_length, seq_length; reflexivity|]. intros i Hi. rewrite nth_map_seq by exact Hi. reflexivity.
Qed.
