(** The line-search rules of MLPBoost: the guarantee of C65 fails, even with an exact solver *)
From Verif Require Import Base Spec RegSpec SortLib Utils UtilsProofs WMajority WMajorityProofs Booster AdaBoost Num FrankWolfe FrankWolfeProofs CERLP
  Csc ConicSpec CscProofs Reach LPBoost EdgeLP EdgeProofs SoftProofs MLP MLPSolveSpec MLPProofs MLPFacts SolverQPFacts LineRunSpec LineRunFacts LineMLPSpec.
Open Scope R_scope.

Section Run.
  Variables (tol : R) (ty : fwtype) (solve : conic -> answer).
  Hypothesis Htol : 0 < tol < 2 / 3.
  Hypothesis Hty : ty = LineSearch \/ ty = BlendedPairwise.
  Notation ht := (tol / 2).
  Definition leta : R := ln 3 / (tol / 2).
  Notation eta := leta.
  Notation noise := (line_noise tol).
  Definition ms0 : @mlp bool := mkMlp (tol / 2) (mkFw (ln (INR 3 / 1) / (5 / 1000)) 1 ty) None [] [] 0 1.
  Notation b := (mlpboost line_conf Bool.eqb solve noise line_best line_y).
  Hypothesis Hex : forall hs p, mlp_asks line_conf Bool.eqb solve noise line_best line_y ms0 hs p -> solves p (solve p).

  Lemma L3 : 0 < ln 3. Proof. rewrite <- ln_1. apply ln_increasing; lra. Qed.
  Lemma eta_ht : eta * ht = ln 3. Proof. unfold leta. field. lra. Qed.
  Lemma leta_ge : ln 3 <= eta.
  Proof. pose proof L3. pose proof eta_ht. assert (0 < eta) by (unfold leta; apply Rdiv_lt_0_compat; lra). nra. Qed.
  Lemma leta_pos : 0 < eta. Proof. pose proof L3. pose proof leta_ge. lra. Qed.
  Lemma noise_01 k : 0 < noise k < 1.
  Proof.
    assert (G : forall x, x < 0 -> 0 < exp x < 1) by (intros x Hx; split; [apply exp_pos|rewrite <- exp_0; apply exp_increasing, Hx]).
    unfold line_noise. destruct (Nat.eqb k 3); apply G; [|lra]. pose proof (exp_pos (- 10 * (ln 3 / (tol / 2)))). lra.
  Qed.
  Lemma gumbel_3 : gumbel noise line_y eta 3 = [-10; 0; 0].
  Proof.
    pose proof leta_pos. unfold gumbel. cbn [length line_y seq map]. unfold line_noise. cbn [Nat.add Nat.eqb]. fold leta.
    assert (A : forall x, ln (1 / exp (- x)) = x) by (intros x; unfold Rdiv; rewrite Rmult_1_l, <- exp_Ropp, ln_exp; ring). replace (-1) with (- (1)) by ring. rewrite !A, ln_1, ln_exp. f_equal; [field; lra|]. f_equal; [unfold Rdiv; ring|]. f_equal. unfold Rdiv; ring.
  Qed.

  (** any exact answer to the second program puts all the weight on the first hypothesis *)
  Lemma corner_answer a : solves (gamma_conic line_conf line_y (1 / 1) (1 / 1) [-10; 0; 0] [true; false]) a -> skipn 7 (a_z a) = [1; 0].
  Proof.
    intros Hs. destruct (gamma_solved line_conf line_y (1 / 1) (1 / 1) [-10; 0; 0] [true; false] eq_refl a Hs) as [_ [Lz [Ld [[Dp Ds] [_ [Lw [[Wp Ws] [Eg [Ev Hopt]]]]]]]]].
    change (1 + 2 * length line_y)%nat with 7%nat in *. set (d := skipn 1 (a_x a)) in *. set (w := skipn 7 (a_z a)) in *. set (g := nth 0 (a_x a) 0) in *. clearbody d w g.
    destruct d as [|x [|x1 [|x2 [|]]]]; try discriminate Ld. destruct w as [|u [|v [|]]]; try discriminate Lw.
    pose proof (Eg true (or_introl eq_refl)) as Et. pose proof (Eg false (or_intror (or_introl eq_refl))) as Ef.
    pose proof (Hopt [1; 0; 0] eq_refl ltac:(split; [intros q Hq; simpl in Hq; intuition lra|simpl; lra]) ltac:(intros q Hq; simpl in Hq; intuition lra)) as O.
    pose proof (Dp x ltac:(simpl; auto)). pose proof (Dp x1 ltac:(simpl; auto)). pose proof (Dp x2 ltac:(simpl; auto)). pose proof (Wp u ltac:(simpl; auto)). pose proof (Wp v ltac:(simpl; auto)).
    unfold edge_of, vote, line_y, line_conf in *. cbn in *.
    assert (x >= 8 / 10) by lra. assert (v = 0) by nra. assert (u = 1) by lra. congruence.
  Qed.

  Definition lm1 : plp := mkPlp 3 1 (erows line_conf line_y [true]) [1] 3 (1 / 1) eta.
  Definition lm2 : plp := mkPlp 3 2 (erows line_conf line_y [true; false]) [1; 0] 6 (1 / 1) eta.
  Definition M : nat := mlp_max_loop (tol / 2) 1 3.
  Definition mst (m : plp) (ws : list R) (hs : list bool) (g : R) : @mlp bool := mkMlp (tol / 2) (mkFw eta 1 ty) (Some m) ws hs M g.
  Notation minit := (mst (plp_init eta 3 (1 / 1)) [] [] 1).

  Lemma pre_ok : mlp_pre line_y ms0 = Ok minit.
  Proof.
    unfold mlp_pre. rewrite line_valid. cbn [bind ms0 ml_half_tol ml_fw fw_nu fw_type]. rewrite Reqb_false by lra. assert (N : INR (length line_y) = 3) by (simpl; ring). rewrite N. unfold mst, M, mlp_max_loop. change (length line_y) with 3%nat. replace (INR 3) with 3 by (simpl; ring). unfold leta. replace (3 / 1) with 3 by lra. reflexivity.
  Qed.

  Lemma upd (m : plp) hs h (ws : list R) : plm_ok line_conf line_y eta 1 hs m ->
    (solves (gamma_conic line_conf line_y (1 / 1) (1 / 1) (gumbel noise line_y eta (pl_drawn m)) (hs ++ [h])) (solve (gamma_conic line_conf line_y (1 / 1) (1 / 1) (gumbel noise line_y eta (pl_drawn m)) (hs ++ [h]))) /\
     skipn 7 (a_z (solve (gamma_conic line_conf line_y (1 / 1) (1 / 1) (gumbel noise line_y eta (pl_drawn m)) (hs ++ [h])))) = ws) ->
    plp_update line_conf solve noise line_y m (Some h) = Ok (mkPlp 3 (length (hs ++ [h])) (erows line_conf line_y (hs ++ [h])) ws (pl_drawn m + 3) (1 / 1) eta, ws).
  Proof.
    intros O [S E]. pose proof (plp_push_ok line_conf line_y eta 1 hs m h O) as O'. unfold plp_update. rewrite (plp_program_ok line_conf noise line_y eta 1 leta_pos noise_01 _ _ O'). cbn [bind]. change (pl_drawn (plp_push line_conf line_y m h)) with (pl_drawn m).
    destruct (exact_usable line_conf noise line_y eta 1 _ _ _ S) as [Lx [Lz _]]. destruct O' as [E1 [E2 [E3 [E4 E5]]]]. rewrite E1. change (length line_y) with 3%nat in *. unfold slice_from. rewrite Lz, Lx. change (2 * 3 + 1)%nat with 7%nat in *.
    rewrite (proj2 (Nat.leb_le 7 _)) by lia. rewrite (proj2 (Nat.leb_le 1 _)) by lia. cbn [bind]. rewrite E2, E3, E4, E5, E. reflexivity.
  Qed.

  (** the objective at a corner *)
  Notation cfw := (mkFw eta 1 ty).
  Lemma obj_low d e ws hs : exp_distribution line_conf eta 1 line_y ws hs = Ok d -> capped 1 line_y d -> edge_of_weighted_hypothesis line_conf line_y d ws hs = e -> e <= -7 / 11 ->
    exists v, objval line_conf line_y cfw hs ws = Ok v /\ v <= -7 / 11 + ht /\ v = e + entropy_from_uni_distribution d / eta.
  Proof.
    intros Ed [L C] Ee He. unfold objval. cbn [fw_eta fw_nu]. rewrite Ed. cbn [bind]. rewrite Ee. eexists. split; [reflexivity|]. split; [|reflexivity].
    pose proof (entropy_upper_cap 1 d ltac:(lra) C) as U. rewrite ln_1 in U. unfold entropy_from_uni_distribution. rewrite L. change (length line_y) with 3%nat. replace (INR 3) with 3 by (simpl; ring). pose proof leta_pos. pose proof eta_ht.
    assert ((entropy d + ln 3) / eta <= ht) by (apply Rdiv_le_iff; lra). lra.
  Qed.
  Lemma capA : capped 1 line_y (lA eta).
  Proof. destruct (parts eta leta_ge) as [P1 [P2 P3]]. split; [reflexivity|]. split; [intros x Hx; unfold lA in Hx; simpl in Hx; intuition lra|unfold lA; simpl; lra]. Qed.
  Lemma capB : capped 1 line_y (lB eta).
  Proof. destruct (parts eta leta_ge) as [P1 [P2 P3]]. split; [reflexivity|]. split; [intros x Hx; unfold lB in Hx; simpl in Hx; intuition lra|unfold lB; simpl; lra]. Qed.
  Definition lq : R := 2 * (exp (- eta) / lS eta) - exp eta / lS eta.
  Definition lv : R := lq + entropy_from_uni_distribution (lA eta) / eta.
  Lemma lq_low : lq <= -7 / 11. Proof. destruct (parts eta leta_ge) as [P1 [P2 P3]]. unfold lq. lra. Qed.
  Lemma ent_AB : entropy_from_uni_distribution (lB eta) = entropy_from_uni_distribution (lA eta).
  Proof. unfold entropy_from_uni_distribution, entropy, lA, lB. cbn [map rsum length]. ring. Qed.
  Lemma obj_1 : objval line_conf line_y cfw [true] [1] = Ok lv.
  Proof.
    destruct (obj_low (lA eta) lq [1] [true] (dist_1 eta) capA ltac:(unfold lA, lq; rewrite old_1; ring) lq_low) as [v [-> [_ ->]]]. reflexivity.
  Qed.
  Lemma obj_A : objval line_conf line_y cfw [true; false] [1; 0] = Ok lv.
  Proof.
    destruct (obj_low (lA eta) lq [1; 0] [true; false] (dist_A eta) capA ltac:(unfold lA, lq; rewrite old_2; ring) lq_low) as [v [-> [_ ->]]]. reflexivity.
  Qed.
  Lemma obj_B : objval line_conf line_y cfw [true; false] [0; 1] = Ok lv.
  Proof.
    destruct (obj_low (lB eta) lq [0; 1] [true; false] (dist_B eta) capB ltac:(unfold lB, lq; rewrite old_2; ring) lq_low) as [v [-> [_ ->]]]. unfold lv. rewrite ent_AB. reflexivity.
  Qed.
  Lemma lv_low : lv <= -7 / 11 + ht.
  Proof. destruct (obj_low (lA eta) lq [1] [true] (dist_1 eta) capA ltac:(unfold lA, lq; rewrite old_1; ring) lq_low) as [v [_ [H ->]]]. exact H. Qed.
  Lemma check_w w : is_dist w -> w <> [] -> check_capped_simplex_condition w 1 = Ok tt.
  Proof. apply check_dist. Qed.

  Notation mboost := (mlp_boost line_conf Bool.eqb solve noise line_best line_y).
  Lemma asked t m ws hs g d h p : reach b ms0 t (mst m ws hs g) -> (t <= M)%nat -> exp_distribution line_conf eta 1 line_y ws hs = Ok d -> line_best t d = h ->
    (forall f, In f hs -> Bool.eqb f h = false) -> plp_program noise (plp_push line_conf line_y m h) = Ok p -> solves p (solve p).
  Proof. intros R Ht Ed Eh Hn Ep. apply (Hex (hs ++ [h])). exists t, (mst m ws hs g), m, d. rewrite Eh. repeat split; auto. Qed.

  Lemma mstep_0 : (1 <= M)%nat -> reach b ms0 1 minit -> mboost 1 minit = ([lU], Ok (mst lm1 [1] [true] (1 / 3), Continue)).
  Proof.
    intros HM R. unfold mlp_boost, mst. cbv zeta. cbn [ml_max_iter ml_fw fw_eta fw_nu ml_weights ml_hyps ml_half_tol ml_gamma ml_secondary]. rewrite (proj2 (Nat.ltb_ge _ _) HM), dist_0, best_U. cbn [Nat.eqb].
    assert (E : edge_of_hypothesis line_conf line_y lU true = 1 / 3) by (unfold lU; rewrite edge_t; lra). rewrite E, Rmin_right by lra.
    pose proof (plp_init_ok line_conf line_y eta 1) as O. change (length line_y) with 3%nat in O.
    assert (S : solves (gamma_conic line_conf line_y (1 / 1) (1 / 1) (gumbel noise line_y eta 0) [true]) (solve (gamma_conic line_conf line_y (1 / 1) (1 / 1) (gumbel noise line_y eta 0) [true]))).
    { eapply (asked 1 _ [] [] 1 lU true); [exact R|exact HM|apply dist_0|apply best_U|intros f []|]. apply (plp_program_ok line_conf noise line_y eta 1 leta_pos noise_01 [true]). apply (plp_push_ok line_conf line_y eta 1 [] _ true O). }
    unfold secondary_update. cbn [ml_secondary]. rewrite (upd (plp_init eta 3 (1 / 1)) [] true [1] O); [reflexivity|]. split; [exact S|].
    destruct (exact_usable line_conf noise line_y eta 1 _ _ _ S) as [_ [Lz Dw]]. cbn [app pl_drawn plp_init]. change (length line_y) with 3%nat in *. change (2 * 3 + 1)%nat with 7%nat in *. change (length [true]) with 1%nat in Lz.
    match goal with |- ?l = [1] => assert (L : length l = 1%nat) by (rewrite skipn_length, Lz; reflexivity); destruct l as [|w [|]]; try discriminate L end. destruct Dw as [_ Dw]. simpl in Dw. f_equal. lra.
  Qed.

  Lemma mstep_1 : (2 <= M)%nat -> reach b ms0 2 (mst lm1 [1] [true] (1 / 3)) -> mboost 2 (mst lm1 [1] [true] (1 / 3)) = ([lA eta], Ok (mst lm2 [0; 1] [true; false] (1 / 3), Continue)).
  Proof.
    intros HM R. unfold mlp_boost, mst. cbv zeta. cbn [ml_max_iter ml_fw fw_eta fw_nu ml_weights ml_hyps ml_half_tol ml_gamma ml_secondary]. rewrite (proj2 (Nat.ltb_ge _ _) HM), dist_1, (best_A eta leta_ge). cbn [Nat.eqb].
    destruct (parts eta leta_ge) as [P1 [P2 P3]].
    assert (E : Rmin (1 / 3) (edge_of_hypothesis line_conf line_y (lA eta) false) = 1 / 3) by (apply Rmin_left; unfold lA; rewrite edge_f; lra). rewrite E.
    rewrite obj_1. cbn [bind]. pose proof lv_low. rewrite Rleb_false by lra. cbn [position Bool.eqb option_map length app].
    rewrite (next_A eta leta_ge (mkFw eta 1 ty) eq_refl eq_refl Hty). cbn [bind].
    assert (O : plm_ok line_conf line_y eta 1 [true] lm1) by (repeat split).
    assert (S : solves (gamma_conic line_conf line_y (1 / 1) (1 / 1) (gumbel noise line_y eta 3) [true; false]) (solve (gamma_conic line_conf line_y (1 / 1) (1 / 1) (gumbel noise line_y eta 3) [true; false]))).
    { eapply (asked 2 lm1 [1] [true] (1 / 3) (lA eta) false); [exact R|exact HM|apply dist_1|apply (best_A eta leta_ge)|intros f [<-|[]]; reflexivity|]. apply (plp_program_ok line_conf noise line_y eta 1 leta_pos noise_01 [true; false]). apply (plp_push_ok line_conf line_y eta 1 [true] _ false O). }
    unfold secondary_update. cbn [ml_secondary]. rewrite (upd lm1 [true] false [1; 0] O); [|split; [exact S|]]. 2:{ cbn [app pl_drawn lm1]. rewrite gumbel_3 in *. apply corner_answer, S. }
    cbn [bind fst snd]. unfold better_weight. rewrite obj_A, obj_B. cbn [bind]. rewrite Rleb_true by lra. rewrite check_w; [reflexivity|split; [intros x [<-|[<-|[]]]; lra|simpl; lra]|discriminate].
  Qed.

  Lemma mstep_A t : (3 <= t <= M)%nat -> mboost t (mst lm2 [1; 0] [true; false] (1 / 3)) = ([lA eta], Ok (mst lm2 [0; 1] [true; false] (1 / 3), Continue)).
  Proof.
    intros [Ht HM]. unfold mlp_boost, mst. cbv zeta. cbn [ml_max_iter ml_fw fw_eta fw_nu ml_weights ml_hyps ml_half_tol ml_gamma ml_secondary]. rewrite (proj2 (Nat.ltb_ge _ _) HM), dist_A, (best_A eta leta_ge). rewrite (proj2 (Nat.eqb_neq t 1)) by lia.
    destruct (parts eta leta_ge) as [P1 [P2 P3]].
    assert (E : Rmin (1 / 3) (edge_of_hypothesis line_conf line_y (lA eta) false) = 1 / 3) by (apply Rmin_left; unfold lA; rewrite edge_f; lra). rewrite E.
    rewrite obj_A. cbn [bind]. pose proof lv_low. rewrite Rleb_false by lra. cbn [position Bool.eqb option_map].
    rewrite (next_A eta leta_ge (mkFw eta 1 ty) eq_refl eq_refl Hty). cbn [bind secondary_update ml_secondary plp_update lm2 pl_weights fst snd]. unfold better_weight. rewrite obj_A, obj_B. cbn [bind]. rewrite Rleb_true by lra.
    rewrite check_w; [reflexivity|split; [intros x [<-|[<-|[]]]; lra|simpl; lra]|discriminate].
  Qed.
  Lemma mstep_B t : (3 <= t <= M)%nat -> mboost t (mst lm2 [0; 1] [true; false] (1 / 3)) = ([lB eta], Ok (mst lm2 [1; 0] [true; false] (1 / 3), Continue)).
  Proof.
    intros [Ht HM]. unfold mlp_boost, mst. cbv zeta. cbn [ml_max_iter ml_fw fw_eta fw_nu ml_weights ml_hyps ml_half_tol ml_gamma ml_secondary]. rewrite (proj2 (Nat.ltb_ge _ _) HM), dist_B, (best_B eta leta_ge). rewrite (proj2 (Nat.eqb_neq t 1)) by lia.
    destruct (parts eta leta_ge) as [P1 [P2 P3]].
    assert (E : Rmin (1 / 3) (edge_of_hypothesis line_conf line_y (lB eta) true) = 1 / 3) by (apply Rmin_left; unfold lB; rewrite edge_t; lra). rewrite E.
    rewrite obj_B. cbn [bind]. pose proof lv_low. rewrite Rleb_false by lra. cbn [position Bool.eqb option_map].
    rewrite (next_B eta leta_ge (mkFw eta 1 ty) eq_refl eq_refl Hty). cbn [bind secondary_update ml_secondary plp_update lm2 pl_weights fst snd]. unfold better_weight. rewrite obj_A. cbn [bind]. rewrite Rleb_true by lra.
    rewrite check_w; [reflexivity|split; [intros x [<-|[<-|[]]]; lra|simpl; lra]|discriminate].
  Qed.

  Lemma mpost m ws hs g : lpair ws hs -> exists h, mlp_post (mst m ws hs g) = Ok (mkWM [1] [h]).
  Proof. intros P. destruct (post_pair 1 1 ty 1 [] ws hs P) as [h E]. exists h. exact E. Qed.

  Definition mstate (t : nat) (s : @mlp bool) : Prop :=
    (t = 1%nat /\ s = minit) \/ (t = 2%nat /\ s = mst lm1 [1] [true] (1 / 3)) \/
    ((3 <= t)%nat /\ exists ws, (ws = [0; 1] \/ ws = [1; 0]) /\ s = mst lm2 ws [true; false] (1 / 3)).

  Lemma mrun fuel : (0 < M)%nat -> (M < fuel)%nat -> exists tr h, run b fuel ms0 = Finished tr (mkWM [1] [h]) /\ Forall (ldist eta) tr.
  Proof.
    intros HM Hf.
    refine (run_reach_bound b ms0 (S M) (fun t s tr => (t <= S M)%nat /\ mstate t s /\ Forall (ldist eta) tr) (fun o => exists tr h, o = Finished tr (mkWM [1] [h]) /\ Forall (ldist eta) tr) _ _ _ fuel _).
    - intros s E. change (b_pre b ms0) with (mlp_pre line_y ms0) in E. rewrite pre_ok in E. injection E as <-. split; [lia|]. split; [left; auto|constructor].
    - intros t s tr R [Ht [P F]]. change (b_boost b) with mboost. change (b_post b) with (@mlp_post bool).
      destruct (Nat.le_gt_cases t M) as [L|L].
      + assert (G : forall d, ldist eta d -> Forall (ldist eta) (tr ++ [d])) by (intros d Hd; apply Forall_app; split; [exact F|constructor; [exact Hd|constructor]]).
        destruct P as [[-> ->]|[[-> ->]|[T3 [ws [[-> | ->] ->]]]]].
        * rewrite (mstep_0 L R). split; [|lia]. split; [lia|]. split; [right; left; auto|apply G; unfold ldist; auto].
        * rewrite (mstep_1 L R). split; [|lia]. split; [lia|]. split; [right; right; split; [lia|eauto]|apply G; unfold ldist; auto].
        * rewrite mstep_B by lia. split; [|lia]. split; [lia|]. split; [right; right; split; [lia|eauto]|apply G; unfold ldist; auto].
        * rewrite mstep_A by lia. split; [|lia]. split; [lia|]. split; [right; right; split; [lia|eauto]|apply G; unfold ldist; auto].
      + assert (exists ws hs m g, lpair ws hs /\ s = mst m ws hs g) as [ws [hs [m [g [Q ->]]]]].
        { destruct P as [[-> ->]|[[-> ->]|[T3 [ws [W ->]]]]]; [lia| |]; do 4 eexists; (split; [|reflexivity]); [left; auto|right; auto]. }
        unfold mlp_boost at 1. cbn [mst ml_max_iter]. rewrite (proj2 (Nat.ltb_lt _ _) L). destruct (mpost m ws hs g Q) as [h ->]. rewrite app_nil_r. eauto.
    - intros p E. change (b_pre b ms0) with (mlp_pre line_y ms0) in E. rewrite pre_ok in E. discriminate.
    - lia.
  Qed.
End Run.

(** ** C65: for the LineSearch and BlendedPairwise rules the guarantee fails, even with an exact solver and a weak learner that always
    finds the best hypothesis: all edges are at least 1/3 and the returned vote has soft margin -1, although an even vote of the two
    hypotheses reaches 0 *)
Lemma P_C65_line_search_refuted :
  forall (tol : R) (ty : fwtype) (solve : conic -> answer) (fuel : nat) (s0 : @mlp bool),
  0 < tol < 2 / 3 -> ty = LineSearch \/ ty = BlendedPairwise ->
  (ceil_usize (8 * ln (INR 3 / 1) / (tol / 2) ^ 2) < fuel)%nat ->
  mlp_init line_y = Ok s0 ->
  let s := mlp_frank_wolfe (mlp_tolerance s0 tol) ty in
  (forall hs p, mlp_asks line_conf Bool.eqb solve (line_noise tol) line_best line_y s hs p -> solves p (solve p)) ->
  (forall k, 0 < line_noise tol k < 1) /\
  (forall t d h, length d = length line_y -> edge_of line_y d (line_conf h) <= edge_of line_y d (line_conf (line_best t d))) /\
  exists tr f, run (mlpboost line_conf Bool.eqb solve (line_noise tol) line_best line_y) fuel s = Finished tr f /\
    Forall (fun e => 1 / 3 <= e) (edges line_conf line_best line_y tr) /\
    soft_margin 1 line_y (wm_confidence line_conf f) (-1) /\
    soft_margin 1 line_y (vote line_conf (combine [1 / 2; 1 / 2] [true; false])) 0.
Proof.
  intros tol ty solve fuel s0 Ht Hty Hf E s Hex. assert (Es : s = ms0 tol ty) by (injection E as <-; reflexivity). rewrite Es in *. clear s Es.
  split; [intros k; apply noise_01; assumption|]. split; [intros t d g L; destruct d as [|x [|x1 [|x2 [|]]]]; try discriminate L; apply line_best_best|].
  destruct (mrun tol ty solve Ht Hty Hex fuel) as [tr [h [Er F]]].
  - unfold M, mlp_max_loop. apply ceil_usize_pos. replace (INR 3 / 1) with 3 by (simpl; lra). pose proof L3. apply Rdiv_lt_0_compat; [lra|]. simpl. nra.
  - exact Hf.
  - exists tr, (mkWM [1] [h]). split; [exact Er|]. split; [|split; [apply margin_single|apply margin_half]].
    apply Forall_forall. intros e He. unfold edges in He. apply in_map_iff in He. destruct He as [[t d] [<- Hp]]. cbn [fst snd]. apply in_combine_r in Hp. rewrite Forall_forall in F. apply (ldist_edge (leta tol) (leta_ge tol Ht)), F, Hp.
Qed.

(** such a solver exists *)
Lemma ex_C65_line : exists solve s0, mlp_init line_y = Ok s0 /\
  forall hs p, mlp_asks line_conf Bool.eqb solve (line_noise (1 / 10)) line_best line_y (mlp_frank_wolfe (mlp_tolerance s0 (1 / 10)) LineSearch) hs p -> solves p (solve p).
Proof.
  destruct P_C65_exact_solver_exists as [solve Hs]. exists solve, (mkMlp (5 / 1000) (mkFw (ln (INR 3 / 1) / (5 / 1000)) 1 ShortStep) None [] [] 0 1). split; [reflexivity|].
  intros hs p. apply Hs; [simpl; lra|simpl; lra|]. intros k. apply noise_01; lra.
Qed.
Example C65_line_nonvacuous : exists solve s0, mlp_init line_y = Ok s0 /\
  forall hs p, mlp_asks line_conf Bool.eqb solve (line_noise (1 / 10)) line_best line_y (mlp_frank_wolfe (mlp_tolerance s0 (1 / 10)) LineSearch) hs p -> solves p (solve p).
Proof. exact ex_C65_line. Qed.
