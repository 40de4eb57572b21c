(** The line-search rules of CERLPBoost never leave the corners: the guarantee of C62 fails *)
From Verif Require Import Base Spec RegSpec SortLib Utils UtilsProofs WMajority WMajorityProofs Booster AdaBoost Num FrankWolfe FrankWolfeProofs CERLP NNFacts ValidProofs CERLPFacts LineRunSpec.
Open Scope R_scope.

Lemma line_valid : is_valid_binary_instance line_y = Ok tt.
Proof. apply ValidProofs.valid_pm1; [|simpl; auto|simpl; auto]. intros v Hv. simpl in Hv. intuition lra. Qed.

Section Run.
  Variables (eta : R).
  Hypothesis Heta : ln 3 <= eta.
  Notation E := (exp eta). Notation e := (exp (- eta)).
  Definition lS : R := 2 * exp (- eta) + exp eta.
  Definition lU : list R := [1/3; 1/3; 1/3].
  Definition lA : list R := [exp (- eta) / lS; exp (- eta) / lS; exp eta / lS].
  Definition lB : list R := [exp eta / lS; exp (- eta) / lS; exp (- eta) / lS].

  Lemma big : 3 <= E /\ 0 < e <= 1 / 3.
  Proof.
    assert (3 <= E) by (rewrite <- (exp_ln 3) by lra; destruct Heta as [L|L]; [left; apply exp_increasing, L|right; f_equal; exact L]). split; [assumption|]. split; [apply exp_pos|]. rewrite exp_Ropp. unfold Rdiv. rewrite Rmult_1_l. apply Rinv_le_contravar; lra.
  Qed.
  Lemma lS_pos : 0 < lS. Proof. pose proof big. unfold lS. lra. Qed.

  Lemma line_softmax a b c : exp_distribution_from_margins eta 1 [a; b; c] = Ok [exp (- eta * a) / (exp (- eta * a) + (exp (- eta * b) + (exp (- eta * c) + 0))); exp (- eta * b) / (exp (- eta * a) + (exp (- eta * b) + (exp (- eta * c) + 0))); exp (- eta * c) / (exp (- eta * a) + (exp (- eta * b) + (exp (- eta * c) + 0)))].
  Proof. unfold exp_distribution_from_margins. rewrite project_softmax by discriminate. reflexivity. Qed.
  Lemma line_dist ws hs a b c : margins_of_weighted_hypothesis line_conf line_y ws hs = [a; b; c] -> exp_distribution line_conf eta 1 line_y ws hs = exp_distribution_from_margins eta 1 [a; b; c].
  Proof. intros H. unfold exp_distribution, log_exp_distribution, exp_distribution_from_margins. rewrite H. reflexivity. Qed.
  Ltac marg := unfold margins_of_weighted_hypothesis, line_y, line_conf; cbn; f_equal; [ring|f_equal; [ring|f_equal; ring]].
  Lemma marg_0 : margins_of_weighted_hypothesis line_conf line_y [] ([] : list bool) = [0; 0; 0]. Proof. marg. Qed.
  Lemma marg_1 w : margins_of_weighted_hypothesis line_conf line_y [w] [true] = [w; w; - w]. Proof. marg. Qed.
  Lemma marg_2 v w : margins_of_weighted_hypothesis line_conf line_y [v; w] [true; false] = [v - w; v + w; w - v]. Proof. marg. Qed.

  Lemma dist_0 : exp_distribution line_conf eta 1 line_y [] ([] : list bool) = Ok lU.
  Proof. rewrite (line_dist _ _ _ _ _ marg_0), line_softmax. rewrite !Rmult_0_r, exp_0. unfold lU. repeat f_equal; lra. Qed.
  Lemma norm_A : [exp (- eta * 1) / (exp (- eta * 1) + (exp (- eta * 1) + (exp (- eta * -1) + 0))); exp (- eta * 1) / (exp (- eta * 1) + (exp (- eta * 1) + (exp (- eta * -1) + 0))); exp (- eta * -1) / (exp (- eta * 1) + (exp (- eta * 1) + (exp (- eta * -1) + 0)))] = lA.
  Proof. replace (- eta * 1) with (- eta) by ring. replace (- eta * -1) with eta by ring. replace (e + (e + (E + 0))) with lS by (unfold lS; ring). reflexivity. Qed.
  Lemma dist_1 : exp_distribution line_conf eta 1 line_y [1] [true] = Ok lA.
  Proof. rewrite (line_dist _ _ _ _ _ (marg_1 1)), line_softmax. f_equal. replace (- (1)) with (-1) by ring. apply norm_A. Qed.
  Lemma dist_A : exp_distribution line_conf eta 1 line_y [1; 0] [true; false] = Ok lA.
  Proof. rewrite (line_dist _ _ _ _ _ (marg_2 1 0)), line_softmax. f_equal. replace (1 - 0) with 1 by ring. replace (1 + 0) with 1 by ring. replace (0 - 1) with (-1) by ring. apply norm_A. Qed.
  Lemma dist_B : exp_distribution line_conf eta 1 line_y [0; 1] [true; false] = Ok lB.
  Proof.
    rewrite (line_dist _ _ _ _ _ (marg_2 0 1)), line_softmax. f_equal. replace (0 + 1) with 1 by ring. replace (0 - 1) with (-1) by ring. replace (1 - 0) with 1 by ring.
    replace (- eta * 1) with (- eta) by ring. replace (- eta * -1) with eta by ring. replace (E + (e + (e + 0))) with lS by (unfold lS; ring). reflexivity.
  Qed.

  (** the edges *)
  Lemma edge_t a b c : edge_of_hypothesis line_conf line_y [a; b; c] true = a + b - c.
  Proof. unfold edge_of_hypothesis, margins_of_hypothesis, inner_product, line_y, line_conf. cbn. ring. Qed.
  Lemma edge_f a b c : edge_of_hypothesis line_conf line_y [a; b; c] false = - a + b + c.
  Proof. unfold edge_of_hypothesis, margins_of_hypothesis, inner_product, line_y, line_conf. cbn. ring. Qed.
  Lemma old_0 a b c : edge_of_weighted_hypothesis line_conf line_y [a; b; c] [] ([] : list bool) = 0.
  Proof. unfold edge_of_weighted_hypothesis. rewrite marg_0. cbn. ring. Qed.
  Lemma old_1 a b c w : edge_of_weighted_hypothesis line_conf line_y [a; b; c] [w] [true] = w * (a + b - c).
  Proof. unfold edge_of_weighted_hypothesis. rewrite marg_1. cbn. ring. Qed.
  Lemma old_2 a b c v w : edge_of_weighted_hypothesis line_conf line_y [a; b; c] [v; w] [true; false] = v * (a + b - c) + w * (- a + b + c).
  Proof. unfold edge_of_weighted_hypothesis. rewrite marg_2. cbn. ring. Qed.

  Lemma parts : 0 < e / lS <= 1 / 11 /\ 9 / 11 <= E / lS /\ 2 * (e / lS) + E / lS = 1.
  Proof.
    pose proof big as [B [C D]]. pose proof lS_pos as P. assert (S11 : 11 * e <= lS) by (unfold lS; lra). split; [split; [apply Rdiv_lt_0_compat; assumption|]|split].
    - apply (Rmult_le_reg_r lS); [exact P|]. unfold Rdiv. rewrite Rmult_assoc, Rinv_l by lra. lra.
    - apply (Rmult_le_reg_r lS); [exact P|]. unfold Rdiv. rewrite (Rmult_assoc E), Rinv_l by lra. unfold lS. lra.
    - unfold lS in *. field. lra.
  Qed.

  Section Rule.
    Variable c : fw.
    Hypothesis Ce : fw_eta c = eta.
    Hypothesis Cn : fw_nu c = 1.
    Hypothesis Ct : fw_type c = LineSearch \/ fw_type c = BlendedPairwise.

    Lemma ls_first : fw_line_search line_conf line_y c [true] 0 [0] = Ok [1].
    Proof.
      unfold fw_line_search. rewrite Ce, Cn. cbn [seq length combine map fst snd Nat.eqb]. replace (1 - 0) with 1 by ring. rewrite dist_1. cbn [bind]. rewrite (marg_1 1). destruct parts as [P1 [P2 P3]].
      rewrite Rleb_true; [reflexivity|]. unfold lA, inner_product. cbn. lra.
    Qed.
    Lemma ls_A : fw_line_search line_conf line_y c [true; false] 1 [1; 0] = Ok [0; 1].
    Proof.
      unfold fw_line_search. rewrite Ce, Cn. cbn [seq length combine map fst snd Nat.eqb]. rewrite (line_dist _ _ _ _ _ (marg_2 _ _)), line_softmax, (marg_2 (- (1))). cbn [bind].
      rewrite Rleb_true; [reflexivity|]. unfold inner_product. cbn. replace (- (1) - (1 - 0)) with (-2) by ring. replace (- (1) + (1 - 0)) with 0 by ring. replace (1 - 0 - - (1)) with 2 by ring. replace (- eta * -2) with (2 * eta) by ring. replace (- eta * 2) with (- (2 * eta)) by ring.
      set (S := exp (2 * eta) + (exp (- eta * 0) + (exp (- (2 * eta)) + 0))). assert (PS : 0 < S) by (unfold S; pose proof (exp_pos (2 * eta)); pose proof (exp_pos (- eta * 0)); pose proof (exp_pos (- (2 * eta))); lra).
      assert (Q : exp (- (2 * eta)) / S <= exp (2 * eta) / S). { apply Rmult_le_compat_r; [left; apply Rinv_0_lt_compat, PS|]. left. apply exp_increasing. assert (0 < eta) by (apply Rlt_le_trans with (ln 3); [rewrite <- ln_1; apply ln_increasing; lra|exact Heta]). lra. }
      lra.
    Qed.
    Lemma ls_B : fw_line_search line_conf line_y c [true; false] 0 [0; 1] = Ok [1; 0].
    Proof.
      unfold fw_line_search. rewrite Ce, Cn. cbn [seq length combine map fst snd Nat.eqb]. rewrite (line_dist _ _ _ _ _ (marg_2 _ _)), line_softmax, (marg_2 (1 - 0)). cbn [bind].
      rewrite Rleb_true; [reflexivity|]. unfold inner_product. cbn. replace (1 - 0 - - (1)) with 2 by ring. replace (1 - 0 + - (1)) with 0 by ring. replace (- (1) - (1 - 0)) with (-2) by ring. replace (- eta * -2) with (2 * eta) by ring. replace (- eta * 2) with (- (2 * eta)) by ring.
      set (S := exp (- (2 * eta)) + (exp (- eta * 0) + (exp (2 * eta) + 0))). assert (PS : 0 < S) by (unfold S; pose proof (exp_pos (2 * eta)); pose proof (exp_pos (- eta * 0)); pose proof (exp_pos (- (2 * eta))); lra).
      assert (Q : exp (- (2 * eta)) / S <= exp (2 * eta) / S). { apply Rmult_le_compat_r; [left; apply Rinv_0_lt_compat, PS|]. left. apply exp_increasing. assert (0 < eta) by (apply Rlt_le_trans with (ln 3); [rewrite <- ln_1; apply ln_increasing; lra|exact Heta]). lra. }
      lra.
    Qed.

    Lemma some_dist ws hs : exists d, exp_distribution line_conf eta 1 line_y ws hs = Ok d.
    Proof.
      assert (M : exists p q r, margins_of_weighted_hypothesis line_conf line_y ws hs = [p; q; r]) by (unfold margins_of_weighted_hypothesis, line_y; cbn [seq length combine map]; eauto). destruct M as [p [q [r M]]]. rewrite (line_dist _ _ _ _ _ M), line_softmax. eauto.
    Qed.
    Lemma dot_zero d : inner_product d [0; 0; 0] = 0.
    Proof. unfold inner_product. destruct d as [|x [|x1 [|x2 [|x3 d]]]]; cbn; ring. Qed.

    Lemma bp_first d : fw_blended_pairwise line_conf line_y c d [true] 0 [0] = Ok [1].
    Proof.
      unfold fw_blended_pairwise. assert (B : bp_edges line_conf line_y d [true] [0] = []) by (unfold bp_edges; cbn [combine length seq filter fst snd map Nat.min]; rewrite Rleb_true by lra; reflexivity). rewrite B. cbn [fold_left fst snd length Nat.add Nat.eqb negb].
      assert (C0 : edge_of_weighted_hypothesis line_conf line_y d [0] [true] = 0). { unfold edge_of_weighted_hypothesis. rewrite marg_1. destruct d as [|x [|x1 [|x2 [|x3 d]]]]; cbn; ring. } rewrite C0, Rleb_false by lra. apply ls_first.
    Qed.
    Lemma bp_A a b e' : -2 < a + b - e' < 2 -> fw_blended_pairwise line_conf line_y c [a; b; e'] [true; false] 1 [1; 0] = Ok [0; 1].
    Proof.
      intros Hx. unfold fw_blended_pairwise. assert (B : bp_edges line_conf line_y [a; b; e'] [true; false] [1; 0] = [(0%nat, a + b - e')]).
      { unfold bp_edges. cbn [combine length seq filter fst snd map]. rewrite Rleb_false by lra. rewrite Rleb_true by lra. cbn [negb map fst snd]. rewrite edge_t. reflexivity. }
      rewrite B. cbn [fold_left bp_step fst snd length Nat.add Nat.eqb negb andb]. rewrite !Rltb_true by lra. cbn [fst snd length Nat.add Nat.eqb negb]. rewrite old_2, Rleb_true by lra. cbn [Nat.ltb Nat.leb negb length nth nth_error].
      assert (DM : map (fun p => fst p - snd p) (combine (margins_of_hypothesis line_conf line_y true) (margins_of_hypothesis line_conf line_y true)) = [0; 0; 0]) by (unfold margins_of_hypothesis, line_y, line_conf; cbn; f_equal; [ring|f_equal; [ring|f_equal; ring]]). rewrite DM, Ce, Cn.
      match goal with |- context [exp_distribution line_conf eta 1 line_y ?m ?h] => destruct (some_dist m h) as [d ->] end. cbn [bind]. rewrite dot_zero, Rleb_true by lra. reflexivity.
    Qed.
    Lemma bp_B a b e' : -2 < - a + b + e' < 2 -> fw_blended_pairwise line_conf line_y c [a; b; e'] [true; false] 0 [0; 1] = Ok [1; 0].
    Proof.
      intros Hx. unfold fw_blended_pairwise. assert (B : bp_edges line_conf line_y [a; b; e'] [true; false] [0; 1] = [(1%nat, - a + b + e')]).
      { unfold bp_edges. cbn [combine length seq filter fst snd map]. rewrite Rleb_true by lra. rewrite Rleb_false by lra. cbn [negb map fst snd]. rewrite edge_f. reflexivity. }
      rewrite B. cbn [fold_left bp_step fst snd length Nat.add Nat.eqb negb andb]. rewrite !Rltb_true by lra. cbn [fst snd length Nat.add Nat.eqb negb]. rewrite old_2, Rleb_true by lra. cbn [Nat.ltb Nat.leb negb length nth nth_error].
      assert (DM : map (fun p => fst p - snd p) (combine (margins_of_hypothesis line_conf line_y false) (margins_of_hypothesis line_conf line_y false)) = [0; 0; 0]) by (unfold margins_of_hypothesis, line_y, line_conf; cbn; f_equal; [ring|f_equal; [ring|f_equal; ring]]). rewrite DM, Ce, Cn.
      match goal with |- context [exp_distribution line_conf eta 1 line_y ?m ?h] => destruct (some_dist m h) as [d ->] end. cbn [bind]. rewrite dot_zero, Rleb_true by lra. reflexivity.
    Qed.

    Lemma next_first it d : next_iterate line_conf line_y c it d [true] 0 [0] = Ok [1].
    Proof. unfold next_iterate. cbn [Nat.ltb Nat.leb length negb]. destruct Ct as [-> | ->]; [apply ls_first|apply bp_first]. Qed.
    Lemma next_A it : next_iterate line_conf line_y c it lA [true; false] 1 [1; 0] = Ok [0; 1].
    Proof. unfold next_iterate. cbn [Nat.ltb Nat.leb length negb]. destruct parts as [P1 [P2 P3]]. destruct Ct as [-> | ->]; [apply ls_A|apply bp_A; lra]. Qed.
    Lemma next_B it : next_iterate line_conf line_y c it lB [true; false] 0 [0; 1] = Ok [1; 0].
    Proof. unfold next_iterate. cbn [Nat.ltb Nat.leb length negb]. destruct parts as [P1 [P2 P3]]. destruct Ct as [-> | ->]; [apply ls_B|apply bp_B; lra]. Qed.
  End Rule.

  (** one round *)
  Lemma best_U t : line_best t lU = true.
  Proof. unfold line_best, lU. cbn [nth]. destruct (Rle_dec _ _); [reflexivity|lra]. Qed.
  Lemma best_A t : line_best t lA = false.
  Proof. unfold line_best, lA. cbn [nth]. destruct parts as [P1 [P2 P3]]. destruct (Rle_dec _ _); [lra|reflexivity]. Qed.
  Lemma best_B t : line_best t lB = true.
  Proof. unfold line_best, lB. cbn [nth]. destruct parts as [P1 [P2 P3]]. destruct (Rle_dec _ _); [reflexivity|lra]. Qed.

  Section Boost.
    Variable ht : R.
    Variable ty : fwtype.
    Variable M : nat.
    Hypothesis Hht : 0 < ht < 1 / 3.
    Hypothesis Hty : ty = LineSearch \/ ty = BlendedPairwise.
    Definition lst (d : list R) (ws : list R) (hs : list bool) : cerlp := mkCerlp d ht (mkFw eta 1 ty) ws hs M.
    Notation lboost := (cerlp_boost line_conf Bool.eqb line_best line_y).

    Lemma step_0 t d : (t <= M)%nat -> lboost t (lst d [] []) = ([lU], Ok (lst lU [1] [true], Continue)).
    Proof.
      intros Ht. unfold cerlp_boost, lst. cbv zeta. cbn [ce_max_iter ce_fw fw_eta fw_nu ce_weights ce_hyps ce_half_tol]. rewrite (proj2 (Nat.ltb_ge _ _) Ht), dist_0, best_U.  destruct parts as [P1 [P2 P3]]. assert (E1 : exists z, edge_of_hypothesis line_conf line_y lU true - edge_of_weighted_hypothesis line_conf line_y lU ([] : list R) ([] : list bool) = z /\ 1 / 3 <= z) by (eexists; split; [reflexivity|]; unfold lU; rewrite edge_t, old_0; lra). destruct E1 as [z [Ez Bz]]. rewrite Ez.
      rewrite Rleb_false by lra. cbn [position length app]. rewrite (next_first (mkFw eta 1 ty) eq_refl eq_refl Hty). reflexivity.
    Qed.
    Lemma step_1 t d : (t <= M)%nat -> lboost t (lst d [1] [true]) = ([lA], Ok (lst lA [0; 1] [true; false], Continue)).
    Proof.
      intros Ht. unfold cerlp_boost, lst. cbv zeta. cbn [ce_max_iter ce_fw fw_eta fw_nu ce_weights ce_hyps ce_half_tol]. rewrite (proj2 (Nat.ltb_ge _ _) Ht), dist_1, best_A. destruct parts as [P1 [P2 P3]]. assert (E1 : exists z, edge_of_hypothesis line_conf line_y lA false - edge_of_weighted_hypothesis line_conf line_y lA [1] [true] = z /\ 1 / 3 <= z) by (eexists; split; [reflexivity|]; unfold lA; rewrite edge_f, old_1; lra). destruct E1 as [z [Ez Bz]]. rewrite Ez.
      rewrite Rleb_false by lra. cbn [position length app Bool.eqb option_map]. rewrite (next_A (mkFw eta 1 ty) eq_refl eq_refl Hty). reflexivity.
    Qed.
    Lemma step_A t d : (t <= M)%nat -> lboost t (lst d [1; 0] [true; false]) = ([lA], Ok (lst lA [0; 1] [true; false], Continue)).
    Proof.
      intros Ht. unfold cerlp_boost, lst. cbv zeta. cbn [ce_max_iter ce_fw fw_eta fw_nu ce_weights ce_hyps ce_half_tol]. rewrite (proj2 (Nat.ltb_ge _ _) Ht), dist_A, best_A. destruct parts as [P1 [P2 P3]]. assert (E1 : exists z, edge_of_hypothesis line_conf line_y lA false - edge_of_weighted_hypothesis line_conf line_y lA [1; 0] [true; false] = z /\ 1 / 3 <= z) by (eexists; split; [reflexivity|]; unfold lA; rewrite edge_f, old_2; lra). destruct E1 as [z [Ez Bz]]. rewrite Ez.
      rewrite Rleb_false by lra. cbn [position length app Bool.eqb option_map]. rewrite (next_A (mkFw eta 1 ty) eq_refl eq_refl Hty). reflexivity.
    Qed.
    Lemma step_B t d : (t <= M)%nat -> lboost t (lst d [0; 1] [true; false]) = ([lB], Ok (lst lB [1; 0] [true; false], Continue)).
    Proof.
      intros Ht. unfold cerlp_boost, lst. cbv zeta. cbn [ce_max_iter ce_fw fw_eta fw_nu ce_weights ce_hyps ce_half_tol]. rewrite (proj2 (Nat.ltb_ge _ _) Ht), dist_B, best_B. destruct parts as [P1 [P2 P3]]. assert (E1 : exists z, edge_of_hypothesis line_conf line_y lB true - edge_of_weighted_hypothesis line_conf line_y lB [0; 1] [true; false] = z /\ 1 / 3 <= z) by (eexists; split; [reflexivity|]; unfold lB; rewrite edge_t, old_2; lra). destruct E1 as [z [Ez Bz]]. rewrite Ez.
      rewrite Rleb_false by lra. cbn [position length app Bool.eqb option_map]. rewrite (next_B (mkFw eta 1 ty) eq_refl eq_refl Hty). reflexivity.
    Qed.
    Definition ldist (d : list R) : Prop := d = lU \/ d = lA \/ d = lB.
    Definition lpair (ws : list R) (hs : list bool) : Prop := ws = [1] /\ hs = [true] \/ (ws = [0; 1] \/ ws = [1; 0]) /\ hs = [true; false].

    Lemma norm1 : normalize [1] = Ok [1].
    Proof. unfold normalize. cbn [map rsum]. rewrite Rabs_R1. rewrite Reqb_false || rewrite Rltb_true by lra; repeat f_equal; lra. Qed.
    Lemma post_pair d ws hs : lpair ws hs -> exists h, cerlp_post (lst d ws hs) = Ok (mkWM [1] [h]).
    Proof.
      intros [[-> ->]|[[-> | ->] ->]]; unfold cerlp_post, lst, from_slices, kept; cbn [ce_weights ce_hyps combine filter fst]; rewrite ?(Rltb_true 0 1) by lra; rewrite ?(Rltb_false 0 0) by lra; cbn [map fst snd]; rewrite norm1; cbn [bind]; eauto.
    Qed.
    Lemma run_pair fuel : forall t tr d ws hs, lpair ws hs -> (t <= S M)%nat -> (S M < fuel + t)%nat -> Forall ldist tr ->
      exists tr' h, run_from (cerlpboost line_conf Bool.eqb line_best line_y) fuel t tr (lst d ws hs) = Finished tr' (mkWM [1] [h]) /\ Forall ldist tr'.
    Proof.
      induction fuel as [|fuel IH]; intros t tr d ws hs P Ht Hf F; [lia|].
      cbn [run_from]. change (b_boost (cerlpboost line_conf Bool.eqb line_best line_y)) with lboost. change (b_post (cerlpboost line_conf Bool.eqb line_best line_y)) with (@cerlp_post bool).
      destruct (Nat.le_gt_cases t M) as [L|L].
      - assert (FA : Forall ldist (tr ++ [lA])) by (apply Forall_app; split; [exact F|constructor; [unfold ldist; auto|constructor]]).
        assert (FB : Forall ldist (tr ++ [lB])) by (apply Forall_app; split; [exact F|constructor; [unfold ldist; auto|constructor]]).
        destruct P as [[-> ->]|[[-> | ->] ->]].
        + rewrite (step_1 _ _ L). apply IH; [right; auto|lia|lia|exact FA].
        + rewrite (step_B _ _ L). apply IH; [right; auto|lia|lia|exact FB].
        + rewrite (step_A _ _ L). apply IH; [right; auto|lia|lia|exact FA].
      - unfold cerlp_boost at 1. cbn [lst ce_max_iter]. rewrite (proj2 (Nat.ltb_lt _ _) L). destruct (post_pair d ws hs P) as [h ->]. rewrite app_nil_r. eauto.
    Qed.
    Lemma run_line fuel d : (0 < M)%nat -> (M < fuel)%nat ->
      exists tr h, run_from (cerlpboost line_conf Bool.eqb line_best line_y) fuel 1 [] (lst d [] []) = Finished tr (mkWM [1] [h]) /\ Forall ldist tr.
    Proof.
      intros HM Hf. destruct fuel as [|fuel]; [lia|]. cbn [run_from]. change (b_boost (cerlpboost line_conf Bool.eqb line_best line_y)) with lboost. rewrite step_0 by lia.
      apply run_pair; [left; auto|lia|lia|]. constructor; [unfold ldist; auto|constructor].
    Qed.
  End Boost.

  Lemma ldist_edge t d : ldist d -> 1 / 3 <= edge_of line_y d (line_conf (line_best t d)).
  Proof.
    destruct parts as [P1 [P2 P3]]. intros [-> |[-> | ->]]; [rewrite best_U|rewrite best_A|rewrite best_B]; unfold edge_of, line_y, line_conf, lU, lA, lB; cbn; lra.
  Qed.
End Run.

Lemma margin_single h : soft_margin 1 line_y (wm_confidence line_conf (mkWM [1] [h])) (-1).
Proof.
  split.
  - exists (if h then [0; 0; 1] else [1; 0; 0]). split.
    + split; [destruct h; reflexivity|]. split; [intros x Hx; destruct h; simpl in Hx; intuition lra|destruct h; simpl; lra].
    + destruct h; unfold edge_of, wm_confidence, line_y, line_conf; cbn; lra.
  - intros d [L [Hb Hs]]. destruct d as [|a [|b [|c [|]]]]; try discriminate L. simpl in Hb, Hs. pose proof (Hb a ltac:(auto)). pose proof (Hb b ltac:(auto)). pose proof (Hb c ltac:(auto)).
    destruct h; unfold edge_of, wm_confidence, line_y, line_conf; cbn; lra.
Qed.
Lemma margin_half : soft_margin 1 line_y (vote line_conf (combine [1 / 2; 1 / 2] [true; false])) 0.
Proof.
  split.
  - exists [1; 0; 0]. split.
    + split; [reflexivity|]. split; [intros x Hx; simpl in Hx; intuition lra|simpl; lra].
    + unfold edge_of, vote, line_y, line_conf; cbn; lra.
  - intros d [L [Hb Hs]]. destruct d as [|a [|b [|c [|]]]]; try discriminate L. simpl in Hb, Hs. pose proof (Hb a ltac:(auto)). pose proof (Hb b ltac:(auto)). pose proof (Hb c ltac:(auto)).
    unfold edge_of, vote, line_y, line_conf; cbn; lra.
Qed.
Lemma line_best_best t a b c h : edge_of line_y [a; b; c] (line_conf h) <= edge_of line_y [a; b; c] (line_conf (line_best t [a; b; c])).
Proof. unfold line_best. cbn [nth]. destruct (Rle_dec c a), h; unfold edge_of, line_y, line_conf; cbn; lra. Qed.

(** ** C62: for the LineSearch and BlendedPairwise rules the guarantee fails: with a weak learner that always finds the best
    hypothesis, all edges at least 1/3, the returned vote has soft margin -1, although an even vote of the two hypotheses reaches 0 *)
Lemma P_C62_line_search_refuted :
  forall (tol : R) (ty : fwtype) (fuel : nat),
  0 < tol < 2 / 3 -> ty = LineSearch \/ ty = BlendedPairwise ->
  (ceil_usize (8 * ln (3 / 1) / (tol / 2) ^ 2) < fuel)%nat ->
  let s := cerlp_fw_type (cerlp_tolerance (cerlp_init line_y) tol) ty in
  exists tr f, run (cerlpboost line_conf Bool.eqb line_best line_y) fuel s = Finished tr f /\
    (forall t d h, length d = length line_y -> edge_of line_y d (line_conf h) <= edge_of line_y d (line_conf (line_best t d))) /\
    Forall (fun e => 1 / 3 <= e) (edges line_conf line_best line_y tr) /\
    soft_margin 1 line_y (wm_confidence line_conf f) (-1) /\
    soft_margin 1 line_y (vote line_conf (combine [1 / 2; 1 / 2] [true; false])) 0.
Proof.
  intros tol ty fuel Ht Hty Hf s.
  assert (L3 : 0 < ln 3) by (rewrite <- ln_1; apply ln_increasing; lra).
  assert (N3 : INR (length line_y) = 3) by (simpl; ring).
  set (ht := tol / 2) in *. assert (Hht : 0 < ht < 1 / 3) by (unfold ht; lra).
  set (eta := ln (3 / 1) / ht).
  assert (Heta : ln 3 <= eta).
  { unfold eta. rewrite (Rdiv_1 3) || replace (3 / 1) with 3 by lra. apply (Rmult_le_reg_r ht); [lra|]. unfold Rdiv. rewrite Rmult_assoc, Rinv_l by lra. nra. }
  set (M := ceil_usize (8 * ln (3 / 1) / ht ^ 2)) in *.
  assert (HM : (0 < M)%nat).
  { apply ceil_usize_pos. replace (3 / 1) with 3 by lra. apply Rdiv_lt_0_compat; [lra|]. simpl. nra. }
  destruct (run_line eta Heta ht ty M Hht Hty fuel (repeat (1 / INR (length line_y)) (length line_y)) HM Hf) as [tr [h [E F]]].
  exists tr, (mkWM [1] [h]). split; [|split; [|split; [|split]]].
  - unfold run. change (b_pre (cerlpboost line_conf Bool.eqb line_best line_y)) with (@cerlp_pre bool line_y). rewrite cerlp_pre_ok; [|exact line_valid|unfold s; cbn [cerlp_fw_type cerlp_tolerance ce_half_tol]; fold ht; lra].
    unfold s. cbn [cerlp_fw_type cerlp_tolerance cerlp_init ce_half_tol ce_fw fw_nu fw_type]. fold ht. unfold cerlp_max_loop. rewrite N3 in E |- *. fold eta. fold M. exact E.
  - intros t d g L. destruct d as [|a [|b [|c [|]]]]; try discriminate L. apply line_best_best.
  - apply Forall_forall. intros e He. unfold edges in He. apply in_map_iff in He. destruct He as [[t d] [<- Hp]]. cbn [fst snd]. apply in_combine_r in Hp. rewrite Forall_forall in F. apply (ldist_edge eta Heta), F, Hp.
  - apply margin_single.
  - apply margin_half.
Qed.
