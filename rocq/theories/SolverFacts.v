(** Exact solvers exist: every program that LPBoost poses has an exact answer, so the hypothesis of C34, C63 and C66
    that the solver is exact can be met for every sample, every weak learner and every accepted nu. *)
From Verif Require Import Base Spec RegSpec LPSpec Utils UtilsProofs WMajority WMajorityProofs Booster Reach AdaBoost AdaBoostProofs
  AdaBoostMain AdaBoostMore FrankWolfeProofs CERLPProofs Csc ConicSpec CscProofs Num Duality Solvable LPBoost LPBoostProofs LPBoostFacts BadLearner BadLearnerFacts.
Require Import Coq.Logic.ClassicalEpsilon.
Open Scope R_scope.

(** a solver that is exact whenever an exact answer exists *)
Lemma ideal_solver : exists solve : conic -> answer, forall p, (exists a, solves p a) -> solves p (solve p).
Proof. exists (fun p => epsilon (inhabits (mkAnswer [] [] 0 Solved)) (solves p)). intros p Hp. apply epsilon_spec, Hp. Qed.

Lemma lp_dims {H} (conf : H -> nat -> R) y nu hs : dims (lp_conic conf y nu hs).
Proof.
  split; unfold lp_conic; cbn [k_A k_q k_b c_rows c_cols csc_of]; [|rewrite upd_length, repeat_length; reflexivity].
  unfold lp_cols. cbn [length]. rewrite !app_length, !map_length, combine_length, !seq_length, !repeat_length. cbn [length]. lia.
Qed.

Lemma lp_has_answer {H} (conf : H -> nat -> R) y nu hs : (0 < length y)%nat -> 1 <= nu -> hs <> [] -> exists a, solves (lp_conic conf y nu hs) a.
Proof.
  intros Hn Hnu Hh. set (n := length y) in *. set (T := length hs). assert (HT : (0 < T)%nat) by (unfold T; destruct hs; [congruence|simpl; lia]).
  apply lp_solvable; [apply lp_dims|intros x c; cbn [k_P lp_conic]; apply row_dot_zeros| |].
  - (* all weight on the first hypothesis, rho below all margins *)
    set (B := rsum (map (fun i => Rabs (marg conf y hs 0 i)) (seq 0 n))). exists (- B :: repeat 0 n ++ upd 0 1 (repeat 0 T)).
    apply lp_feasible. fold n T.
    assert (Nw : forall t, (t < T)%nat -> nth (1 + n + t) (- B :: repeat 0 n ++ upd 0 1 (repeat 0 T)) 0 = if Nat.eqb t 0 then 1 else 0).
    { intros t Ht. cbn [nth Nat.add]. rewrite app_nth2 by (rewrite repeat_length; lia). rewrite repeat_length. replace (n + t - n)%nat with t by lia.
      destruct (Nat.eqb_spec t 0) as [->|N]; [apply upd_nth_same; rewrite repeat_length; lia|]. rewrite upd_nth_other by congruence. apply nth_repeat_lt. lia. }
    assert (Nx : forall i, (i < n)%nat -> nth (1 + i) (- B :: repeat 0 n ++ upd 0 1 (repeat 0 T)) 0 = 0).
    { intros i Hi. cbn [nth Nat.add]. rewrite app_nth1 by (rewrite repeat_length; lia). apply nth_repeat_lt. lia. }
    split; [cbn [length]; rewrite app_length, upd_length, !repeat_length; lia|]. split; [|split; [|split]].
    + intros i Hi. rewrite Nx by exact Hi. rewrite (rsum_pick _ 0 T HT).
      * rewrite Nw by lia. cbn [Nat.eqb nth]. assert (Rabs (marg conf y hs 0 i) <= B). { unfold B. apply rsum_in_le; [intros v Hv; apply in_map_iff in Hv; destruct Hv as [? [<- _]]; apply Rabs_pos|]. apply in_map_iff. exists i. split; [reflexivity|apply in_seq; lia]. }
        pose proof (Rle_abs (- marg conf y hs 0 i)). rewrite Rabs_Ropp in *. lra.
      * intros t Ht N0. rewrite Nw by exact Ht. destruct (Nat.eqb_spec t 0); [congruence|ring].
    + rewrite (rsum_map_ext _ (fun t => if Nat.eqb t 0 then 1 else 0)) by (intros t Ht; apply in_seq in Ht; apply Nw; lia). apply rsum_indicator, HT.
    + intros i Hi. rewrite Nx by exact Hi. lra.
    + intros t Ht. rewrite Nw by exact Ht. destruct (Nat.eqb t 0); lra.
  - set (B := rsum (map (fun t => Rabs (marg conf y hs t 0)) (seq 0 T))). exists (- B). intros x Hx. rewrite (lp_objective conf y hs nu Hnu). apply lp_feasible in Hx. fold n T in Hx. destruct Hx as [_ [F1 [F2 [F3 F4]]]]. fold n.
    specialize (F1 0%nat Hn). rewrite Nat.add_0_r in F1.
    assert (W : rsum (map (fun t => nth (1 + n + t) x 0 * marg conf y hs t 0) (seq 0 T)) <= B).
    { unfold B. apply rsum_le_seq. intros t Ht. assert (W1 : nth (1 + n + t) x 0 <= 1).
      { rewrite <- F2. apply rsum_in_le; [intros v Hv; apply in_map_iff in Hv; destruct Hv as [k [<- Hk]]; apply in_seq in Hk; apply F4; lia|]. apply in_map_iff. exists t. split; [reflexivity|apply in_seq; lia]. }
      specialize (F4 t Ht). pose proof (Rle_abs (marg conf y hs t 0)). pose proof (Rabs_pos (marg conf y hs t 0)). nra. }
    assert (X : nth 1 x 0 <= rsum (map (fun i => nth (1 + i) x 0) (seq 0 n))).
    { apply rsum_in_le; [intros v Hv; apply in_map_iff in Hv; destruct Hv as [k [<- Hk]]; apply in_seq in Hk; apply F3; lia|]. apply in_map_iff. exists 0%nat. split; [reflexivity|apply in_seq; lia]. }
    assert (X0 : 0 <= nth 1 x 0) by (apply (F3 0%nat); exact Hn). nra.
Qed.

(** the state of LPBoost in any round, whatever the solver answers *)
Lemma lp_reach {H} (conf : H -> nat -> R) solve produce y (s0 : @lpboost H) t s : reach (lpboost_booster conf solve produce y) s0 t s ->
  (0 < length y)%nat /\ 1 <= lb_nu s0 /\ exists m, lb_model s = Some m /\ lpm_ok conf y (lb_nu s0) (lb_hyps s) m.
Proof.
  induction 1 as [s E|t s q s' _ [Hn [Hnu [m [Em Om]]]] E].
  - change (b_pre _ s0) with (lpb_pre y s0) in E. unfold lpb_pre in E. destruct (is_valid_binary_instance y) as [[]|] eqn:V; cbn [bind] in E; [|discriminate]. apply valid_instance_nonempty in V.
    destruct (Rleb_spec 1 (lb_nu s0)) as [N1|N1]; cbn [andb assert_ bind] in E; [|discriminate]. destruct (Rleb _ _); cbn [andb assert_ bind] in E; [|discriminate]. injection E as <-.
    split; [exact V|]. split; [exact N1|]. eexists. split; [reflexivity|]. cbn [lb_hyps]. apply lpm_init_ok.
  - change (b_boost _ t s) with (lpb_boost conf solve produce y t s) in E. split; [exact Hn|]. split; [exact Hnu|]. unfold lpb_boost, lpm_update in E. rewrite Em in E.
    destruct (lpm_push_ok conf y (lb_nu s0) (lb_hyps s) m (produce t (lb_dist s)) Om) as [m1 [Ep Om1]]. rewrite Ep in E. cbn [bind] in E.
    destruct (slice_from _ _); cbn [bind] in E; [|discriminate]. destruct (slice_to _ _); cbn [bind] in E; [|discriminate]. destruct (Rleb _ _); [discriminate|]. injection E as _ <-. cbn [lb_model lb_hyps].
    eexists. split; [reflexivity|]. exact Om1.
Qed.

(** ** C34: one solver is exact on every program that any run of LPBoost poses *)
Lemma P_C34_exact_solver_exists :
  exists solve : conic -> answer, forall (H : Type) (conf : H -> nat -> R) produce y (s : @lpboost H) p,
  lpb_asks conf solve produce y s p -> solves p (solve p).
Proof.
  destruct ideal_solver as [solve Hs]. exists solve. intros H conf produce y s p [t [s1 [m [m' [Hr [Em Ep]]]]]]. apply Hs.
  destruct (lp_reach conf solve produce y s t s1 Hr) as [Hn [Hnu [m1 [Em1 Om]]]]. rewrite Em in Em1. injection Em1 as <-.
  destruct (lpm_push_ok conf y (lb_nu s) (lb_hyps s1) m (produce t (lb_dist s1)) Om) as [m2 [Ep2 _]]. rewrite Ep2 in Ep. injection Ep as _ <-.
  apply lp_has_answer; [exact Hn|exact Hnu|]. destruct (lb_hyps s1); discriminate.
Qed.

(** ** C34, C63 together, with the hypothesis on the solver discharged: for every sample, every nu in [1, n], every
    tolerance tol >= 0 and every weak learner that answers with the hypothesis of largest edge of a finite class with
    margins in [-1, 1], there is a solver with which LPBoost stops within N + 1 rounds with a vote whose smallest
    margin is within tol of the best possible *)
Lemma P_C34_end_to_end :
  exists solve : conic -> answer, forall (H : Type) (conf : H -> nat -> R) produce y (s : @lpboost H) (C : list H),
  is_valid_binary_instance y = Ok tt -> 1 <= lb_nu s <= INR (length y) -> 0 <= lb_tol s ->
  (forall h i, In h C -> (i < length y)%nat -> -1 <= nth i y 0 * conf h i <= 1) ->
  (forall t d, In (produce t d) C) -> (forall t d c, is_dist d -> In c C -> edge_of y d (conf c) <= edge_of y d (conf (produce t d))) ->
  exists tr f, run (lpboost_booster conf solve produce y) (length C + 1) s = Finished tr f /\ (length tr <= length C + 1)%nat /\
    forall ws hs v v', length ws = length hs -> is_dist ws -> (forall h, In h hs -> In h C) ->
    is_min_of (fun i => (i < length y)%nat) (fun i => nth i y 0 * vote conf (combine ws hs) i) v ->
    is_min_of (fun i => (i < length y)%nat) (fun i => nth i y 0 * wm_confidence conf f i) v' -> v - lb_tol s <= v'.
Proof.
  destruct P_C34_exact_solver_exists as [solve Hs]. exists solve. intros H conf produce y s C Hv Hnu Ht Hb Hc Hm.
  destruct (P_C63_lpboost_terminates H conf solve produce y s (map conf C) (Hs H conf produce y s) Hv Hnu Ht) with (fuel := (length C + 1)%nat) as [tr [f [Er Hl]]].
  - intros t d. exists (conf (produce t d)). split; [apply in_map, Hc|reflexivity].
  - rewrite map_length. lia.
  - exists tr, f. split; [exact Er|]. rewrite map_length in Hl. split; [exact Hl|].
    exact (P_C34_hard_margin_optimal H conf solve produce y s _ tr f (fun h => In h C) (Hs H conf produce y s) Hb Hm Er).
Qed.

(** ** C34 in the user's terms, with an exact solver: LPBoost as created, or with the tolerance and the capping set through
    the builder.  The default tolerance is one over the number of examples *)
Lemma P_C34_configured :
  exists solve : conic -> answer, forall (H : Type) (conf : H -> nat -> R) produce y (s : @lpboost H) (C : list H) tol,
  is_valid_binary_instance y = Ok tt ->
  (s = lpb_init y /\ tol = 1 / INR (length y) \/ s = lpb_tolerance (lpb_init y) tol \/ exists nu, lpb_nu y (lpb_tolerance (lpb_init y) tol) nu = Ok s) ->
  0 <= tol ->
  (forall h i, In h C -> (i < length y)%nat -> -1 <= nth i y 0 * conf h i <= 1) ->
  (forall t d, In (produce t d) C) -> (forall t d c, is_dist d -> In c C -> edge_of y d (conf c) <= edge_of y d (conf (produce t d))) ->
  exists tr f, run (lpboost_booster conf solve produce y) (length C + 1) s = Finished tr f /\ (length tr <= length C + 1)%nat /\
    forall ws hs v v', length ws = length hs -> is_dist ws -> (forall h, In h hs -> In h C) ->
    is_min_of (fun i => (i < length y)%nat) (fun i => nth i y 0 * vote conf (combine ws hs) i) v ->
    is_min_of (fun i => (i < length y)%nat) (fun i => nth i y 0 * wm_confidence conf f i) v' -> v - tol <= v'.
Proof.
  destruct P_C34_end_to_end as [solve Hs]. exists solve. intros H conf produce y s C tol Hv Hcfg Ht Hb Hc Hm.
  assert (N1 : 1 <= INR (length y)) by (apply (le_INR 1); apply (valid_instance_nonempty y Hv)).
  assert (Hst : lb_tol s = tol /\ 1 <= lb_nu s <= INR (length y)).
  { destruct Hcfg as [[-> ->]|[->|[nu E]]]; [split; [reflexivity|simpl; lra]|split; [reflexivity|simpl; lra]|].
    unfold lpb_nu, check_nu in E. destruct (Rleb_spec 1 nu), (Rleb_spec nu (INR (length y))); cbn [andb assert_ bind] in E; try discriminate. injection E as <-. split; [reflexivity|simpl; lra]. }
  destruct Hst as [<- Hnu]. apply Hs; assumption.
Qed.

(** ** C66 with the hypothesis on the solver discharged: for every number n >= 2 of examples there are a sample of that
    size, a weak learner and an exact solver for which LPBoost makes at least n/2 + 1 rounds *)
Lemma P_C66_lower_bound_attained :
  exists solve : conic -> answer, forall y tol nu, is_valid_binary_instance y = Ok tt -> (forall i, (i < length y)%nat -> pm1 (nth i y 0)) ->
  0 <= tol <= 1 / 2 -> 1 <= nu <= INR (length y) ->
  exists pool produce s, bb_build (bb_tolerance (bb_init y) (1 / 2)) = Ok pool /\ (forall t d, bad_produce y pool d = Ok (produce t d)) /\
    lb_tol s = tol /\ lb_nu s = nu /\
    (forall p, lpb_asks (bad_conf y) solve produce y s p -> solves p (solve p)) /\
    exists fuel tr f, run (lpboost_booster (bad_conf y) solve produce y) fuel s = Finished tr f /\ (Nat.div (length y) 2 + 1 <= length tr)%nat.
Proof.
  destruct P_C34_exact_solver_exists as [solve Hs]. exists solve. intros y tol nu Hv Hy Ht Hnu.
  pose proof (valid_instance_nonempty y Hv) as Hn. destruct (P_C46_can_be_built y (1 / 2)) as [pool [Ep [Lp _]]]; [destruct y; [simpl in Hn; lia|discriminate]|lra|].
  destruct pool as [|h0 l] eqn:El; [simpl in Lp; lia|]. rewrite <- El in *.
  set (produce := fun (_ : nat) (d : list R) => max_by_last (fun h => edge_of_hypothesis (bad_conf y) y d h) h0 l). exists pool, produce, (mkLpb [] 1 tol nu None []).
  assert (Hp : forall t d, bad_produce y pool d = Ok (produce t d)) by (intros; rewrite El; reflexivity).
  split; [exact Ep|]. split; [exact Hp|]. split; [reflexivity|]. split; [reflexivity|]. split; [apply Hs|].
  destruct (P_C66_linear_rounds y solve produce (mkLpb [] 1 tol nu None []) (1 / 2) pool Hv Hy ltac:(lra) Ep Hp (Hs _ _ _ _ _) Hnu Ht _ (Nat.lt_succ_diag_r _)) as [tr [f [Er Hl]]].
  eexists _, tr, f. split; [exact Er|apply Hl].
Qed.

(** samples of every size exist *)
Example C66_instances : forall k, let y := 1 :: repeat (-1) (S k) in is_valid_binary_instance y = Ok tt /\ length y = (k + 2)%nat /\ (forall i, (i < length y)%nat -> pm1 (nth i y 0)).
Proof.
  intros k y. split; [|split].
  - apply valid_pm1; unfold y; [|left; reflexivity|right; simpl; auto]. intros v [<-|Hv]; [auto|]. apply repeat_spec in Hv. auto.
  - unfold y. simpl. rewrite repeat_length. lia.
  - intros i Hi. unfold y in *. destruct i as [|i]; [left; reflexivity|]. right. cbn [nth]. simpl in Hi. rewrite repeat_length in Hi. change (nth i (repeat (-1) (S k)) 0 = -1). apply nth_repeat_lt. lia.
Qed.
