(** Properties C38, C65 and the MLPBoost part of C33. *)
From Verif Require Import Base Spec RegSpec LPSpec SortLib Utils UtilsProofs WMajority WMajorityProofs Booster AdaBoost
  AdaBoostProofs AdaBoostMain AdaBoostMore Num Hoeffding FrankWolfe FrankWolfeProofs FrankWolfeFacts CERLP CERLPProofs CERLPFacts
  Csc ConicSpec CscProofs Reach LPBoost LPBoostProofs LPBoostFacts EdgeLP EdgeProofs ERLP ERLPProofs ERLPFacts SoftBoost SoftProofs MLP MLPSolveSpec MLPProofs.
Open Scope R_scope.

Lemma phi_reg {H} (conf : H -> nat -> R) y eta ws hs d : length d = length y -> phi (length y) eta d (mvote conf y ws hs) = reg_edge eta y d (vote conf (combine ws hs)).
Proof.
  intros L. unfold phi, reg_edge. f_equal.
  - unfold edge_of, mvote. apply rsum_map_ext. intros i Hi. apply in_seq in Hi. rewrite margins_nth by lia. reflexivity.
  - do 2 f_equal. assert (E : map xlnx d = map (fun i => xlnx (nth i d 0)) (seq 0 (length y))); [|rewrite E; reflexivity]. rewrite <- (map_nth_seq 0 d) at 1. rewrite map_map, L. reflexivity.
Qed.

Lemma best_soft_objective {H} (conf : H -> nat -> R) y eta nu ws hs d v : (0 < length y)%nat -> 1 <= nu <= INR (length y) -> 0 < eta ->
  best (length y) eta nu d (mvote conf y ws hs) ->
  soft_objective eta nu y (vote conf (combine ws hs)) v <-> v = phi (length y) eta d (mvote conf y ws hs).
Proof.
  intros Hn Hnu He Hb.
  assert (M : is_min_of (capped nu y) (fun d => reg_edge eta y d (vote conf (combine ws hs))) (phi (length y) eta d (mvote conf y ws hs))).
  { split.
    - exists d. split; [split; [apply Hb|apply (best_facts _ eta nu Hn Hnu d _ Hb)]|]. symmetry. apply phi_reg, Hb.
    - intros c [Lc Cc]. rewrite <- phi_reg by exact Lc. apply (phi_min _ eta nu Hn He Hnu d _ c Hb Lc Cc). }
  split; [|intros ->; exact M]. destruct M as [[a [Ca Ea]] Ma]. intros [[c [Cc Ec]] Mc]. specialize (Ma c Cc). specialize (Mc a Ca). cbn beta in *. lra.
Qed.

Lemma objval_gen {H} (conf : H -> nat -> R) y (c : fw) ws (hs : list H) : (0 < length y)%nat -> 1 <= fw_nu c <= INR (length y) ->
  exists d, exp_distribution conf (fw_eta c) (fw_nu c) y ws hs = Ok d /\ best (length y) (fw_eta c) (fw_nu c) d (mvote conf y ws hs) /\
    objval conf y c hs ws = Ok (phi (length y) (fw_eta c) d (mvote conf y ws hs)).
Proof.
  intros Hn Hnu. destruct (best_project (length y) (fw_eta c) (fw_nu c) Hn Hnu (mvote conf y ws hs) (margins_length y _)) as [d [E Hb]].
  assert (Ed : exp_distribution conf (fw_eta c) (fw_nu c) y ws hs = Ok d) by (rewrite exp_distribution_spec; exact E).
  exists d. split; [exact Ed|]. split; [exact Hb|]. unfold objval. rewrite Ed. cbn [bind]. rewrite edge_of_weighted_spec by apply Hb. rewrite phi_reg by apply Hb. rewrite reg_edge_entropy by apply Hb. reflexivity.
Qed.

(** ** C38: what MLPBoost computes for a weighting is the entropy-regularised soft margin of its vote *)
Lemma P_C38_objval : forall (H : Type) (conf : H -> nat -> R) y (c : fw) ws (hs : list H),
  (0 < length y)%nat -> 1 <= fw_nu c <= INR (length y) -> 0 < fw_eta c ->
  exists v, objval conf y c hs ws = Ok v /\ soft_objective (fw_eta c) (fw_nu c) y (vote conf (combine ws hs)) v.
Proof.
  intros H conf y c ws hs Hn Hnu He. destruct (objval_gen conf y c ws hs Hn Hnu) as [d [_ [Hb E]]]. eexists. split; [exact E|]. apply (best_soft_objective conf y _ _ ws hs d _ Hn Hnu He Hb). reflexivity.
Qed.

(** ** C38: of two weightings the better one is kept, whatever they are *)
Lemma P_C38_better_weight : forall (H : Type) (conf : H -> nat -> R) y (c : fw) (hs : list H) w1 w2,
  (0 < length y)%nat -> 1 <= fw_nu c <= INR (length y) -> 0 < fw_eta c ->
  exists w, better_weight conf y c hs w1 w2 = Ok w /\ (w = w1 \/ w = w2) /\
  forall v1 v2 v, soft_objective (fw_eta c) (fw_nu c) y (vote conf (combine w1 hs)) v1 ->
    soft_objective (fw_eta c) (fw_nu c) y (vote conf (combine w2 hs)) v2 ->
    soft_objective (fw_eta c) (fw_nu c) y (vote conf (combine w hs)) v -> v = Rmax v1 v2.
Proof.
  intros H conf y c hs w1 w2 Hn Hnu He. destruct (objval_gen conf y c w1 hs Hn Hnu) as [d1 [_ [B1 E1]]]. destruct (objval_gen conf y c w2 hs Hn Hnu) as [d2 [_ [B2 E2]]].
  unfold better_weight. rewrite E1, E2. cbn [bind]. eexists. split; [reflexivity|]. split; [destruct (Rleb _ _); auto|]. intros v1 v2 v S1 S2 S.
  apply (best_soft_objective conf y _ _ w1 hs d1 _ Hn Hnu He B1) in S1. apply (best_soft_objective conf y _ _ w2 hs d2 _ Hn Hnu He B2) in S2. subst v1 v2.
  destruct (Rleb_spec (phi (length y) (fw_eta c) d2 (mvote conf y w2 hs)) (phi (length y) (fw_eta c) d1 (mvote conf y w1 hs))) as [L|L].
  - apply (best_soft_objective conf y _ _ w1 hs d1 _ Hn Hnu He B1) in S. subst v. rewrite Rmax_left by exact L. reflexivity.
  - apply (best_soft_objective conf y _ _ w2 hs d2 _ Hn Hnu He B2) in S. subst v. rewrite Rmax_right by lra. reflexivity.
Qed.

(** ** C38: in every round after the first, the new weights are the better ones of the Frank-Wolfe step and of the answer of
    the linear program, for every solver, rule and weak learner *)
Lemma P_C38_round : forall (H : Type) (conf : H -> nat -> R) eqH solve noise produce y (s0 : @mlp H) t s q s',
  1 <= fw_nu (ml_fw s0) <= INR (length y) -> 0 < ml_half_tol s0 -> fw_nu (ml_fw s0) < INR (length y) ->
  reach (mlpboost conf eqH solve noise produce y) s0 t s -> (2 <= t)%nat ->
  b_boost (mlpboost conf eqH solve noise produce y) t s = (q, Ok (s', Continue)) ->
  let eta := ln (INR (length y) / fw_nu (ml_fw s0)) / ml_half_tol s0 in let nu := fw_nu (ml_fw s0) in let hs := ml_hyps s' in
  exists d pos prim m seco, q = [d] /\
    next_iterate conf y (mkFw eta nu (fw_type (ml_fw s0))) t d hs pos (ml_weights s ++ repeat 0 (length hs - length (ml_hyps s))) = Ok prim /\
    ml_secondary s' = Some m /\
    (exists m0, ml_secondary s = Some m0 /\ plp_update conf solve noise y m0 (if Nat.eqb (length hs) (length (ml_hyps s)) then None else Some (produce t d)) = Ok (m, seco)) /\
    (ml_weights s' = prim \/ ml_weights s' = seco) /\
    forall v1 v2 v, soft_objective eta nu y (vote conf (combine prim hs)) v1 -> soft_objective eta nu y (vote conf (combine seco hs)) v2 ->
      soft_objective eta nu y (vote conf (combine (ml_weights s') hs)) v -> v = Rmax v1 v2.
Proof.
  intros H conf eqH solve noise produce y s0 t s q s' Hnu Hht Hnu' Hr Ht Eb eta nu hs. destruct (reach_minv conf eqH solve noise produce y s0 Hnu t s Hr) as [tr [Hn [Hh [_ [_ [_ [_ [E1 [E2 [E3 _]]]]]]]]]].
  change (b_boost (mlpboost conf eqH solve noise produce y) t s) with (mlp_boost conf eqH solve noise produce y t s) in Eb. unfold mlp_boost in Eb. destruct (Nat.ltb _ _); [discriminate|].
  destruct (exp_distribution _ _ _ _ _ _) as [d|]; [|discriminate]. injection Eb as <- Eb. rewrite (proj2 (Nat.eqb_neq t 1)) in Eb by lia. destruct (objval _ _ _ _ _) as [v|]; [|discriminate]. cbn [bind] in Eb. destruct (Rleb _ _); [discriminate|].
  pose proof (eta_pos y _ _ Hnu Hht Hnu') as He. fold eta in He. unfold secondary_update in Eb. rewrite E2 in Eb. fold eta in Eb. fold nu in Eb.
  destruct (position _ _) as [pos|].
  - destruct (next_iterate _ _ _ _ _ _ _ _) as [prim|] eqn:En; [|discriminate]. cbn [bind] in Eb. destruct (ml_secondary s) as [m0|] eqn:Em; [|discriminate]. cbn [plp_update bind fst snd] in Eb.
    destruct (P_C38_better_weight H conf y (mkFw eta nu (fw_type (ml_fw s0))) (ml_hyps s) prim (pl_weights m0) Hn Hnu He) as [w [Ew [Hor Hv]]]. rewrite Ew in Eb. cbn [bind] in Eb.
    destruct (check_capped_simplex_condition _ _) as [u|]; [|discriminate]. cbn [bind] in Eb. injection Eb as <-. unfold hs. cbn [ml_hyps ml_weights ml_secondary].
    exists d, pos, prim, m0, (pl_weights m0). split; [reflexivity|]. rewrite Nat.sub_diag. cbn [repeat]. rewrite app_nil_r. split; [exact En|]. split; [reflexivity|]. split; [exists m0; rewrite Nat.eqb_refl; split; reflexivity|]. split; [exact Hor|exact Hv].
  - destruct (next_iterate _ _ _ _ _ _ _ _) as [prim|] eqn:En; [|discriminate]. cbn [bind] in Eb. destruct (ml_secondary s) as [m0|] eqn:Em; [|discriminate]. destruct (plp_update _ _ _ _ _ _) as [[m seco]|] eqn:Eu; [|discriminate]. cbn [bind fst snd] in Eb.
    destruct (P_C38_better_weight H conf y (mkFw eta nu (fw_type (ml_fw s0))) (ml_hyps s ++ [produce t d]) prim seco Hn Hnu He) as [w [Ew [Hor Hv]]]. rewrite Ew in Eb. cbn [bind] in Eb.
    destruct (check_capped_simplex_condition _ _) as [u|]; [|discriminate]. cbn [bind] in Eb. injection Eb as <-. unfold hs. cbn [ml_hyps ml_weights ml_secondary].
    exists d, (length (ml_hyps s)), prim, m, seco. split; [reflexivity|]. rewrite app_length. cbn [length]. replace (length (ml_hyps s) + 1 - length (ml_hyps s))%nat with 1%nat by lia. split; [exact En|]. split; [reflexivity|]. split; [exists m0; split; [reflexivity|]; rewrite (proj2 (Nat.eqb_neq _ _)) by lia; exact Eu|]. split; [exact Hor|exact Hv].
Qed.

(** ** C38: with the (default) short-step rule no round makes the objective worse, whatever the solver answers as long as
    the weights it answers form a distribution (an exact solver does: C65_exact_answers_are_usable) *)
Lemma P_C38_monotone : forall (H : Type) (conf : H -> nat -> R) eqH solve noise produce y (s0 : @mlp H) t s q s',
  fw_type (ml_fw s0) = ShortStep -> 1 <= fw_nu (ml_fw s0) < INR (length y) -> 0 < ml_half_tol s0 ->
  (forall h i, (i < length y)%nat -> -1 <= nth i y 0 * conf h i <= 1) ->
  (forall f h, eqH f h = true -> forall i, (i < length y)%nat -> conf f i = conf h i) ->
  (forall k, 0 < noise k < 1) ->
  (forall hs p, mlp_asks conf eqH solve noise produce y s0 hs p -> usable_answer (length y) (length hs) (solve p)) ->
  reach (mlpboost conf eqH solve noise produce y) s0 t s -> (2 <= t)%nat ->
  b_boost (mlpboost conf eqH solve noise produce y) t s = (q, Ok (s', Continue)) ->
  let eta := ln (INR (length y) / fw_nu (ml_fw s0)) / ml_half_tol s0 in let nu := fw_nu (ml_fw s0) in
  forall v v', soft_objective eta nu y (vote conf (combine (ml_weights s) (ml_hyps s))) v ->
    soft_objective eta nu y (vote conf (combine (ml_weights s') (ml_hyps s'))) v' -> v <= v'.
Proof.
  intros H conf eqH solve noise produce y s0 t s q s' Hty Hnu Hht Hm Heq Hno Hex Hr Ht Eb eta nu v v' S S'.
  assert (Hnu1 : 1 <= fw_nu (ml_fw s0) <= INR (length y)) by lra. assert (Hnu2 : fw_nu (ml_fw s0) < INR (length y)) by lra.
  destruct (reach_ginv conf eqH solve noise produce y s0 Hnu1 (or_intror Hty) Hht Hnu2 Hm Heq Hno Hex t s Hr) as [tr HI].
  pose proof (ginv_step conf eqH solve noise produce y s0 Hnu1 (or_intror Hty) Hht Hnu2 Hm Heq Hno Hex t s tr Hr HI) as St. rewrite Eb in St. destruct St as [_ [_ St]].
  assert (Hn : (0 < length y)%nat) by apply HI. pose proof (eta_pos y _ _ Hnu1 Hht Hnu2) as He.
  destruct (query_capped conf y (ml_half_tol s0) nu Hn Hnu1 (ml_weights s) (ml_hyps s)) as [d [_ [Hb _]]]. destruct (query_capped conf y (ml_half_tol s0) nu Hn Hnu1 (ml_weights s') (ml_hyps s')) as [d' [_ [Hb' _]]].
  apply (best_soft_objective conf y eta nu _ _ d _ Hn Hnu1 He Hb) in S. apply (best_soft_objective conf y eta nu _ _ d' _ Hn Hnu1 He Hb') in S'. subst v v'. apply St; assumption.
Qed.

(** ** C33, MLPBoost: every linear program handed to the solver is well formed; its objective is the documented one, with
    Gumbel noise -ln(-ln r); its feasible points are all distributions, capped or not, with every edge at most gamma *)
Lemma mlp_asks_program {H} (conf : H -> nat -> R) eqH solve noise produce y (s0 : @mlp H) hs p :
  1 <= fw_nu (ml_fw s0) < INR (length y) -> 0 < ml_half_tol s0 -> (forall k, 0 < noise k < 1) ->
  mlp_asks conf eqH solve noise produce y s0 hs p ->
  exists k, p = gamma_conic conf y (1 / fw_nu (ml_fw s0)) (1 / fw_nu (ml_fw s0)) (gumbel noise y (ln (INR (length y) / fw_nu (ml_fw s0)) / ml_half_tol s0) k) hs.
Proof.
  intros Hnu Hht Hno [t [s [m [d [Hr [_ [Em [_ [_ [Ehs Ep]]]]]]]]]]. assert (Hnu1 : 1 <= fw_nu (ml_fw s0) <= INR (length y)) by lra.
  set (nu := fw_nu (ml_fw s0)) in *. set (eta := ln (INR (length y) / nu) / ml_half_tol s0) in *. assert (He : 0 < eta) by (apply (eta_pos y _ _ Hnu1 Hht); apply Hnu).
  assert (K : exists m', ml_secondary s = Some m' /\ plm_ok conf y eta nu (ml_hyps s) m').
  { clear - Hr He Hno Hnu1 Hht. induction Hr as [s E|t s q s' Hr IH E].
    - change (b_pre (mlpboost conf eqH solve noise produce y) s0) with (mlp_pre y s0) in E. apply (minv_first conf produce y s0) in E. destruct E as [_ [_ [_ [_ [_ [_ [_ [_ [_ [_ [_ G]]]]]]]]]]]. destruct (G eq_refl) as [_ [-> S]]. rewrite S. eexists. split; [reflexivity|]. apply plp_init_ok.
    - destruct IH as [m [Em Om]].
      assert (Up : forall h m' w, plp_update conf solve noise y m (Some h) = Ok (m', w) -> plm_ok conf y eta nu (ml_hyps s ++ [h]) m').
      { intros h m' w Eu. unfold plp_update in Eu. pose proof (plp_push_ok conf y eta nu _ m h Om) as O'. destruct (plp_program _ _) as [p|]; [|discriminate]. cbn [bind] in Eu.
        destruct (slice_from _ (a_z _)) as [w'|]; [|discriminate]. cbn [bind] in Eu. destruct (slice_from 1 _); [|discriminate]. cbn [bind] in Eu. injection Eu as <- _. destruct O' as [E1 [E2 [E3 [E4 E5]]]]. unfold plm_ok. cbn [pl_n pl_T pl_margins pl_cap pl_eta]. repeat split; assumption. }
      change (b_boost (mlpboost conf eqH solve noise produce y) t s) with (mlp_boost conf eqH solve noise produce y t s) in E. unfold mlp_boost in E. destruct (Nat.ltb _ _); [discriminate|].
      destruct (exp_distribution _ _ _ _ _ _) as [d|]; [|discriminate]. injection E as _ E. unfold secondary_update in E. rewrite Em in E. destruct (Nat.eqb t 1).
      + destruct (plp_update _ _ _ _ _ _) as [[m' w]|] eqn:Eu; [|discriminate]. cbn [bind fst snd] in E. injection E as <-. exists m'. split; [reflexivity|]. apply (Up _ _ _ Eu).
      + destruct (objval _ _ _ _ _) as [v|]; [|discriminate]. cbn [bind] in E. destruct (Rleb _ _); [discriminate|]. destruct (position _ _) as [pos|].
        * destruct (next_iterate _ _ _ _ _ _ _ _) as [prim|]; [|discriminate]. cbn [bind plp_update fst snd] in E. destruct (better_weight _ _ _ _ _ _) as [w|]; [|discriminate]. cbn [bind] in E.
          destruct (check_capped_simplex_condition _ _) as [u|]; [|discriminate]. cbn [bind] in E. injection E as <-. exists m. split; [reflexivity|exact Om].
        * destruct (next_iterate _ _ _ _ _ _ _ _) as [prim|]; [|discriminate]. cbn [bind] in E. destruct (plp_update _ _ _ _ _ _) as [[m' w']|] eqn:Eu; [|discriminate]. cbn [bind fst snd] in E. destruct (better_weight _ _ _ _ _ _) as [w|]; [|discriminate]. cbn [bind] in E.
          destruct (check_capped_simplex_condition _ _) as [u|]; [|discriminate]. cbn [bind] in E. injection E as <-. exists m'. split; [reflexivity|]. apply (Up _ _ _ Eu). }
  destruct K as [m' [Em' Om]]. rewrite Em in Em'. injection Em' as <-. rewrite (plp_program_ok conf noise y eta nu He Hno _ _ (plp_push_ok conf y eta nu _ m (produce t d) Om)) in Ep. injection Ep as <-. rewrite Ehs. eexists. reflexivity.
Qed.

Lemma P_C33_mlpboost_program : forall (H : Type) (conf : H -> nat -> R) eqH solve noise produce y (s0 : @mlp H) hs p,
  1 <= fw_nu (ml_fw s0) < INR (length y) -> 0 < ml_half_tol s0 -> (forall k, 0 < noise k < 1) ->
  mlp_asks conf eqH solve noise produce y s0 hs p ->
  csc_ok (k_A p) /\
  (forall x, feasible p x <-> exists g d, x = g :: d /\ length d = length y /\ is_dist d /\ (forall h, In h hs -> edge_of y d (conf h) <= g)) /\
  exists k, forall g d, objective p (g :: d) =
    g - ml_half_tol s0 / ln (INR (length y) / fw_nu (ml_fw s0)) * rsum (map (fun i => - ln (- ln (noise (k + i)%nat)) * nth i d 0) (seq 0 (length y))).
Proof.
  intros H conf eqH solve noise produce y s0 hs p Hnu Hht Hno Ha. destruct (mlp_asks_program conf eqH solve noise produce y s0 hs p Hnu Hht Hno Ha) as [k ->].
  set (nu := fw_nu (ml_fw s0)) in *. set (eta := ln (INR (length y) / nu) / ml_half_tol s0). assert (Hnu1 : 1 <= nu <= INR (length y)) by lra. assert (0 < 1 / nu) by (apply Rdiv_lt_0_compat; lra).
  pose proof (ratio_pos y nu Hnu1 (proj2 Hnu)) as Hrt.
  split; [apply edge_matrix_ok|]. split.
  - intros x. rewrite gamma_feasible by apply gumbel_length. split; intros [g [d [-> [L [D E]]]]]; exists g, d; (split; [reflexivity|]; split; [exact L|]; split; [exact D|]); [apply E|].
    split; [|exact E]. intros v Hv. pose proof (dist_le1 d D v Hv). nra.
  - exists k. intros g d. rewrite gamma_objective by apply gumbel_length. cbn [nth skipn]. unfold Rminus. f_equal. rewrite Ropp_mult_distr_l, <- rsum_map_mult. apply rsum_map_ext. intros i Hi. apply in_seq in Hi.
    unfold gumbel. rewrite nth_map_seq by lia. replace (1 / noise (k + i)%nat) with (/ noise (k + i)%nat) by (unfold Rdiv; ring). rewrite ln_Rinv by apply Hno. unfold eta. field. split; lra.
Qed.

(** ** C33 refuted for MLPBoost: the documented caps 1/nu are missing from every program of every run with nu > 1 *)
Lemma P_C33_mlpboost_caps_refuted : forall (H : Type) (conf : H -> nat -> R) eqH solve noise produce y (s0 : @mlp H) hs p,
  1 < fw_nu (ml_fw s0) < INR (length y) -> 0 < ml_half_tol s0 -> (forall k, 0 < noise k < 1) ->
  mlp_asks conf eqH solve noise produce y s0 hs p ->
  exists g d, feasible p (g :: d) /\ ~ edge_constraints conf (fw_nu (ml_fw s0)) y hs g d.
Proof.
  intros H conf eqH solve noise produce y s0 hs p Hnu Hht Hno Ha. destruct (P_C33_mlpboost_program H conf eqH solve noise produce y s0 hs p ltac:(lra) Hht Hno Ha) as [_ [F _]].
  set (nu := fw_nu (ml_fw s0)) in *. assert (Hn : (0 < length y)%nat) by (apply INR_lt; simpl; lra).
  assert (Hd : exists d, length d = length y /\ is_dist d /\ In 1 d).
  { destruct y as [|a y']; [simpl in Hn; lia|]. exists (1 :: repeat 0 (length y')). split; [cbn [length]; rewrite repeat_length; reflexivity|]. split; [split|left; reflexivity].
    - intros x [<-|Hx]; [lra|]. apply repeat_spec in Hx. lra.
    - cbn [rsum fold_right]. change (1 + rsum (repeat 0 (length y')) = 1). rewrite rsum_repeat. lra. }
  destruct Hd as [d [Ld [Dd I1]]].
  assert (Hg : exists g, forall h, In h hs -> edge_of y d (conf h) <= g).
  { clear. induction hs as [|h hs [g Hg]]; [exists 0; intros ? []|]. exists (Rmax g (edge_of y d (conf h))). intros h' [<-|Hh]; [apply Rmax_r|]. eapply Rle_trans; [apply Hg, Hh|apply Rmax_l]. }
  destruct Hg as [g Hg]. exists g, d. split; [apply F; exists g, d; auto|]. intros [[_ [C _]] _]. specialize (C 1 I1). assert (1 / nu < 1) by (apply Rdiv_lt_iff; lra). lra.
Qed.

Section Uncond.
  Context {H : Type}.
  Variable conf : H -> nat -> R.
  Variable eqH : H -> H -> bool.
  Variable solve : conic -> answer.
  Variable noise : nat -> R.
  Variable produce : nat -> list R -> H.
  Variable y : list R.
  Variable s0 : @mlp H.
  Hypothesis Hnu : 1 <= fw_nu (ml_fw s0) <= INR (length y).

  Lemma mlp_shown fuel : let tr := trace_of (run (mlpboost conf eqH solve noise produce y) fuel s0) in
    Forall (capped (fw_nu (ml_fw s0)) y) tr /\ (length tr <= mlp_max_loop (ml_half_tol s0) (fw_nu (ml_fw s0)) (length y))%nat.
  Proof.
    cbn zeta. apply (run_inv (mlpboost conf eqH solve noise produce y) (MInv conf produce y s0)
      (fun tr => Forall (capped (fw_nu (ml_fw s0)) y) tr /\ (length tr <= mlp_max_loop (ml_half_tol s0) (fw_nu (ml_fw s0)) (length y))%nat) (fun _ _ => True)).
    - split; [constructor|simpl; lia].
    - intros s E. apply (minv_first conf produce y s0). exact E.
    - intros t s tr [_ [_ [_ [_ [A [B _]]]]]]. split; assumption.
    - intros t s tr HI. pose proof (minv_step conf eqH solve noise produce y s0 Hnu t s tr HI) as St. destruct (b_boost _ t s) as [q [[s' [|it]]|p]]; [apply St|split; [exact St|destruct (b_post _ s'); exact Logic.I]|exact St].
  Qed.
End Uncond.

(** ** C65: MLPBoost asks the weak learner at most max_loop() times, and only with distributions capped by 1/nu; for every
    rule, solver and weak learner *)
Lemma P_C65_rounds : forall (H : Type) (conf : H -> nat -> R) eqH solve noise produce y (s : @mlp H) fuel,
  1 <= fw_nu (ml_fw s) <= INR (length y) ->
  let tr := trace_of (run (mlpboost conf eqH solve noise produce y) fuel s) in
  (length tr <= mlp_max_loop (ml_half_tol s) (fw_nu (ml_fw s)) (length y))%nat /\ forall d, In d tr -> capped (fw_nu (ml_fw s)) y d.
Proof.
  intros H conf eqH solve noise produce y s fuel Hnu tr. destruct (mlp_shown conf eqH solve noise produce y s Hnu fuel) as [A B]. split; [exact B|]. rewrite Forall_forall in A. exact A.
Qed.

(** ** C65: whatever the LP solver answers, as long as the hypothesis weights in its answers form a distribution, with the
    classic or the (default) short-step rule the run ends within max_loop() rounds
    without a panic, and if every hypothesis received had edge at least [g], the soft margin of the returned vote is at
    least g - tolerance *)
Lemma P_C65_guarantee_any_answers : forall (H : Type) (conf : H -> nat -> R) eqH solve noise produce y (s : @mlp H) fuel,
  fw_type (ml_fw s) = Classic \/ fw_type (ml_fw s) = ShortStep ->
  is_valid_binary_instance y = Ok tt -> 1 <= fw_nu (ml_fw s) < INR (length y) -> 0 < ml_half_tol s ->
  (forall h i, (i < length y)%nat -> -1 <= nth i y 0 * conf h i <= 1) ->
  (forall f h, eqH f h = true -> forall i, (i < length y)%nat -> conf f i = conf h i) ->
  (forall k, 0 < noise k < 1) ->
  (forall hs p, mlp_asks conf eqH solve noise produce y s hs p -> usable_answer (length y) (length hs) (solve p)) ->
  (mlp_max_loop (ml_half_tol s) (fw_nu (ml_fw s)) (length y) < fuel)%nat ->
  exists tr f, run (mlpboost conf eqH solve noise produce y) fuel s = Finished tr f /\
    forall g v, Forall (fun e => g <= e) (edges conf produce y tr) -> soft_margin (fw_nu (ml_fw s)) y (wm_confidence conf f) v -> g - 2 * ml_half_tol s <= v.
Proof.
  intros H conf eqH solve noise produce y s fuel Hty Hval Hnu Hht Hm Heq Hno Hex Hf. assert (Hnu1 : 1 <= fw_nu (ml_fw s) <= INR (length y)) by lra. assert (Hnu2 : fw_nu (ml_fw s) < INR (length y)) by lra.
  refine (run_reach_bound (mlpboost conf eqH solve noise produce y) s (S (mlp_max_loop (ml_half_tol s) (fw_nu (ml_fw s)) (length y))) (GInv conf produce y s)
    (fun o => exists tr f, o = Finished tr f /\ _) _ _ _ fuel _).
  - intros s1 E. split; [apply (minv_first conf produce y s), E|lia].
  - intros t s1 tr Hr HI. pose proof (ginv_step conf eqH solve noise produce y s Hnu1 Hty Hht Hnu2 Hm Heq Hno Hex t s1 tr Hr HI) as St.
    destruct (b_boost _ t s1) as [q [[s' [|it]]|p]]; [split; [apply St|]; lia| |destruct St].
    destruct St as [f [-> G]]. exists (tr ++ q), f. split; [reflexivity|]. intros g v Hg [[c [Cc Ec]] _]. rewrite <- Ec. apply G; assumption.
  - change (b_pre (mlpboost conf eqH solve noise produce y) s) with (mlp_pre y s). intros p. unfold mlp_pre. rewrite Hval. cbn [bind]. rewrite Reqb_false by lra. discriminate.
  - lia.
Qed.

(** an exact solver answers like that *)
Lemma P_C65_exact_answers_are_usable : forall (H : Type) (conf : H -> nat -> R) eqH solve noise produce y (s : @mlp H) hs p,
  1 <= fw_nu (ml_fw s) < INR (length y) -> 0 < ml_half_tol s -> (forall k, 0 < noise k < 1) ->
  mlp_asks conf eqH solve noise produce y s hs p -> solves p (solve p) -> usable_answer (length y) (length hs) (solve p).
Proof.
  intros H conf eqH solve noise produce y s hs p Hnu Hht Hno Ha Hs. destruct (mlp_asks_program conf eqH solve noise produce y s hs p Hnu Hht Hno Ha) as [k Ep].
  rewrite Ep in Hs |- *. apply (exact_usable conf noise y _ _ k hs _ Hs).
Qed.

(** ** C65: in particular with an exact solver *)
Lemma P_C65_guarantee : forall (H : Type) (conf : H -> nat -> R) eqH solve noise produce y (s : @mlp H) fuel,
  fw_type (ml_fw s) = Classic \/ fw_type (ml_fw s) = ShortStep ->
  is_valid_binary_instance y = Ok tt -> 1 <= fw_nu (ml_fw s) < INR (length y) -> 0 < ml_half_tol s ->
  (forall h i, (i < length y)%nat -> -1 <= nth i y 0 * conf h i <= 1) ->
  (forall f h, eqH f h = true -> forall i, (i < length y)%nat -> conf f i = conf h i) ->
  (forall k, 0 < noise k < 1) ->
  (forall hs p, mlp_asks conf eqH solve noise produce y s hs p -> solves p (solve p)) ->
  (mlp_max_loop (ml_half_tol s) (fw_nu (ml_fw s)) (length y) < fuel)%nat ->
  exists tr f, run (mlpboost conf eqH solve noise produce y) fuel s = Finished tr f /\
    forall g v, Forall (fun e => g <= e) (edges conf produce y tr) -> soft_margin (fw_nu (ml_fw s)) y (wm_confidence conf f) v -> g - 2 * ml_half_tol s <= v.
Proof.
  intros H conf eqH solve noise produce y s fuel Hty Hval Hnu Hht Hm Heq Hno Hex Hf.
  apply P_C65_guarantee_any_answers; try assumption. intros hs p Ha. apply (P_C65_exact_answers_are_usable H conf eqH solve noise produce y s hs p Hnu Hht Hno Ha), Hex with hs, Ha.
Qed.

(** ** C65: with an edge-maximising weak learner, and again for every solver, the returned vote maximises the soft margin over the convex hull of the
    class, up to the tolerance *)
Lemma P_C65_optimal_any_answers : forall (H : Type) (conf : H -> nat -> R) eqH solve noise produce y (s : @mlp H) fuel (C : H -> Prop),
  fw_type (ml_fw s) = Classic \/ fw_type (ml_fw s) = ShortStep ->
  is_valid_binary_instance y = Ok tt -> 1 <= fw_nu (ml_fw s) < INR (length y) -> 0 < ml_half_tol s ->
  (forall h i, (i < length y)%nat -> -1 <= nth i y 0 * conf h i <= 1) ->
  (forall f h, eqH f h = true -> forall i, (i < length y)%nat -> conf f i = conf h i) ->
  (forall k, 0 < noise k < 1) ->
  (forall hs p, mlp_asks conf eqH solve noise produce y s hs p -> usable_answer (length y) (length hs) (solve p)) ->
  (forall t d h, C h -> edge_of y d (conf h) <= edge_of y d (conf (produce t d))) ->
  (mlp_max_loop (ml_half_tol s) (fw_nu (ml_fw s)) (length y) < fuel)%nat ->
  exists tr f, run (mlpboost conf eqH solve noise produce y) fuel s = Finished tr f /\
  forall ws hs v v', length ws = length hs -> is_dist ws -> (forall h, In h hs -> C h) ->
  soft_margin (fw_nu (ml_fw s)) y (vote conf (combine ws hs)) v' -> soft_margin (fw_nu (ml_fw s)) y (wm_confidence conf f) v ->
  v' - 2 * ml_half_tol s <= v.
Proof.
  intros H conf eqH solve noise produce y s fuel C Hty Hval Hnu Hht Hm Heq Hno Hex Hwl Hf.
  destruct (P_C65_guarantee_any_answers H conf eqH solve noise produce y s fuel Hty Hval Hnu Hht Hm Heq Hno Hex Hf) as [tr [f [Er G]]]. exists tr, f. split; [exact Er|].
  intros ws hs v v' L D HC [_ Hv'] Hv. apply (G v' v); [|exact Hv].
  apply Forall_forall. intros e He. unfold edges in He. apply in_map_iff in He. destruct He as [[t d] [<- Hp]]. cbn [fst snd]. apply in_combine_r in Hp.
  assert (Cd : capped (fw_nu (ml_fw s)) y d) by (apply (P_C65_rounds H conf eqH solve noise produce y s fuel); [lra|rewrite Er; exact Hp]).
  eapply Rle_trans; [apply (Hv' d Cd)|]. apply vote_edge_le; [exact L|exact D|]. intros h Hh. apply Hwl, HC, Hh.
Qed.

Lemma P_C65_optimal : forall (H : Type) (conf : H -> nat -> R) eqH solve noise produce y (s : @mlp H) fuel (C : H -> Prop),
  fw_type (ml_fw s) = Classic \/ fw_type (ml_fw s) = ShortStep ->
  is_valid_binary_instance y = Ok tt -> 1 <= fw_nu (ml_fw s) < INR (length y) -> 0 < ml_half_tol s ->
  (forall h i, (i < length y)%nat -> -1 <= nth i y 0 * conf h i <= 1) ->
  (forall f h, eqH f h = true -> forall i, (i < length y)%nat -> conf f i = conf h i) ->
  (forall k, 0 < noise k < 1) ->
  (forall hs p, mlp_asks conf eqH solve noise produce y s hs p -> solves p (solve p)) ->
  (forall t d h, C h -> edge_of y d (conf h) <= edge_of y d (conf (produce t d))) ->
  (mlp_max_loop (ml_half_tol s) (fw_nu (ml_fw s)) (length y) < fuel)%nat ->
  exists tr f, run (mlpboost conf eqH solve noise produce y) fuel s = Finished tr f /\
  forall ws hs v v', length ws = length hs -> is_dist ws -> (forall h, In h hs -> C h) ->
  soft_margin (fw_nu (ml_fw s)) y (vote conf (combine ws hs)) v' -> soft_margin (fw_nu (ml_fw s)) y (wm_confidence conf f) v ->
  v' - 2 * ml_half_tol s <= v.
Proof.
  intros H conf eqH solve noise produce y s fuel C Hty Hval Hnu Hht Hm Heq Hno Hex Hwl Hf.
  apply P_C65_optimal_any_answers; try assumption. intros hs p Ha. apply (P_C65_exact_answers_are_usable H conf eqH solve noise produce y s hs p Hnu Hht Hno Ha), Hex with hs, Ha.
Qed.

(** ** C65: the same in terms of what the user configures; the default tolerance is 0.01 and the default nu is 1 *)
Lemma P_C65_configured : forall (H : Type) (conf : H -> nat -> R) eqH solve noise produce y nu tol fuel,
  is_valid_binary_instance y = Ok tt -> 1 <= nu < INR (length y) -> 0 < tol ->
  (forall h i, (i < length y)%nat -> -1 <= nth i y 0 * conf h i <= 1) ->
  (forall f h, eqH f h = true -> forall i, (i < length y)%nat -> conf f i = conf h i) ->
  (forall k, 0 < noise k < 1) ->
  exists s s' : @mlp H, mlp_init y = Ok s /\ mlp_nu y (mlp_tolerance s tol) nu = Ok s' /\
  ((forall hs p, mlp_asks conf eqH solve noise produce y s' hs p -> solves p (solve p)) ->
   32 * ln (INR (length y) / nu) / tol ^ 2 < INR fuel ->
   exists tr f, run (mlpboost conf eqH solve noise produce y) (S fuel) s' = Finished tr f /\
     forall g v, Forall (fun e => g <= e) (edges conf produce y tr) -> soft_margin nu y (wm_confidence conf f) v -> g - tol <= v) /\
  ((forall hs p, mlp_asks conf eqH solve noise produce y s hs p -> solves p (solve p)) ->
   320000 * ln (INR (length y)) < INR fuel -> (1 < length y)%nat ->
   exists tr f, run (mlpboost conf eqH solve noise produce y) (S fuel) s = Finished tr f /\
     forall g v, Forall (fun e => g <= e) (edges conf produce y tr) -> soft_margin 1 y (wm_confidence conf f) v -> g - 1 / 100 <= v).
Proof.
  intros H conf eqH solve noise produce y nu tol fuel Hval Hnu Htol Hm Heq Hno. pose proof (valid_instance_nonempty y Hval) as Hn.
  unfold mlp_init. rewrite (proj2 (Nat.eqb_neq (length y) 0)) by lia. cbn [negb assert_ bind]. eexists. eexists. split; [reflexivity|]. split.
  { unfold mlp_nu, check_nu. rewrite !Rleb_true by lra. reflexivity. }
  cbn [ml_half_tol ml_fw fw_eta fw_nu fw_type mlp_tolerance ml_secondary ml_weights ml_hyps ml_max_iter ml_gamma].
  set (s1 := mkMlp (5 / 1000) _ _ _ _ _ _). set (s2 := mkMlp (tol / 2) _ _ _ _ _ _). split.
  - intros Hex Hf. destruct (P_C65_guarantee H conf eqH solve noise produce y s2 (S fuel) ltac:(right; reflexivity) Hval Hnu) as [tr [f [Er G]]]; try assumption.
    + unfold s2. cbn [ml_half_tol]. lra.
    + unfold s2, mlp_max_loop. cbn [ml_half_tol ml_fw fw_nu]. assert (E : (ceil_usize (8 * ln (INR (length y) / nu) / (tol / 2) ^ 2) <= fuel)%nat); [|lia]. apply ceil_usize_least.
      replace (8 * ln (INR (length y) / nu) / (tol / 2) ^ 2) with (32 * ln (INR (length y) / nu) / tol ^ 2) by (field; lra). lra.
    + exists tr, f. split; [exact Er|]. intros g v Hg Hv. specialize (G g v Hg Hv). unfold s2 in G. cbn [ml_half_tol] in G. lra.
  - intros Hex Hf Hn2. destruct (P_C65_guarantee H conf eqH solve noise produce y s1 (S fuel) ltac:(right; reflexivity) Hval) as [tr [f [Er G]]]; try assumption.
    + unfold s1. cbn [ml_fw fw_nu]. apply (lt_INR 1) in Hn2. simpl in Hn2. lra.
    + unfold s1. cbn [ml_half_tol]. lra.
    + unfold s1, mlp_max_loop. cbn [ml_half_tol ml_fw fw_nu]. assert (E : (ceil_usize (8 * ln (INR (length y) / 1) / (5 / 1000) ^ 2) <= fuel)%nat); [|lia]. apply ceil_usize_least.
      replace (INR (length y) / 1) with (INR (length y)) by field. replace (8 * ln (INR (length y)) / (5 / 1000) ^ 2) with (320000 * ln (INR (length y))) by field. lra.
    + exists tr, f. split; [exact Er|]. intros g v Hg Hv. specialize (G g v Hg Hv). unfold s1 in G. cbn [ml_half_tol] in G. lra.
Qed.

(** ** C65 refuted for nu = n (allowed by [nu]): MLPBoost never asks the weak learner and panics *)
Lemma P_C65_full_cap_refuted : forall (H : Type) (conf : H -> nat -> R) eqH solve noise produce y (s : @mlp H) fuel,
  is_valid_binary_instance y = Ok tt -> 0 < ml_half_tol s -> fw_nu (ml_fw s) = INR (length y) -> (1 <= fuel)%nat ->
  run (mlpboost conf eqH solve noise produce y) fuel s = Crashed [] AssertFailed.
Proof.
  intros H conf eqH solve noise produce y s fuel Hval Hht Hnu Hf. pose proof (valid_instance_nonempty y Hval) as Hn. pose proof (lt_0_INR _ Hn) as Hn1.
  destruct fuel as [|fuel]; [lia|]. unfold run. change (b_pre (mlpboost conf eqH solve noise produce y) s) with (mlp_pre y s). unfold mlp_pre. rewrite Hval. cbn [bind]. rewrite Reqb_false by lra.
  assert (T0 : mlp_max_loop (ml_half_tol s) (fw_nu (ml_fw s)) (length y) = 0%nat).
  { unfold mlp_max_loop. rewrite Hnu. replace (INR (length y) / INR (length y)) with 1 by (field; lra). rewrite ln_1.
    assert (C : (ceil_usize (8 * 0 / ml_half_tol s ^ 2) <= 0)%nat) by (apply ceil_usize_least; simpl; unfold Rdiv; rewrite Rmult_0_r, Rmult_0_l; lra). lia. }
  rewrite T0. cbn [run_from]. change (b_boost (mlpboost conf eqH solve noise produce y)) with (mlp_boost conf eqH solve noise produce y). unfold mlp_boost. cbn [ml_max_iter Nat.ltb Nat.leb].
  change (b_post (mlpboost conf eqH solve noise produce y)) with (@mlp_post H). unfold mlp_post, from_slices, kept, normalize. cbn [ml_weights ml_hyps combine filter map]. change (rsum []) with 0. destruct (Reqb_spec 0 0); [reflexivity|contradiction].
Qed.

(** the hypotheses are met: labels (+1,-1), the perfect hypothesis, noise 1/2, and the optimal answer to the only program *)
Definition mx_c : R := ln (ln (1 / (1 / 2))) / (ln (INR 2 / 1) / (5 / 1000)).
Definition mx_answer : answer := mkAnswer [1; 1 / 2; 1 / 2] [- 1 - mx_c; 0; 0; 0; 0; 1] (1 + mx_c) Solved.
Definition mx_conf (_ : unit) (i : nat) : R := nth i y2 0.
Definition mx_state : @mlp unit := mkMlp (5 / 1000) (mkFw (ln (INR 2 / 1) / (5 / 1000)) 1 ShortStep) None [] [] 0 1.

Lemma mx_asks hs p : mlp_asks mx_conf (fun _ _ => true) (fun _ => mx_answer) (fun _ => 1 / 2) (fun _ _ => tt) y2 mx_state hs p -> solves p mx_answer.
Proof.
  intros Ha. assert (Eh : hs = [tt]).
  { destruct Ha as [t [s [m [d [_ [_ [_ [_ [Hnew [-> _]]]]]]]]]]. destruct (ml_hyps s) as [|f l]; [reflexivity|]. specialize (Hnew f (or_introl eq_refl)). discriminate. }
  subst hs. apply mlp_asks_program in Ha; [|simpl; lra|simpl; lra|intros; lra]. destruct Ha as [k ->].
  assert (Eg : gumbel (fun _ : nat => 1 / 2) y2 (ln (INR (length y2) / fw_nu (ml_fw mx_state)) / ml_half_tol mx_state) k = [mx_c; mx_c]) by reflexivity.
  rewrite Eg. set (p := gamma_conic _ _ _ _ _ _). assert (Lc : length [mx_c; mx_c] = length y2) by reflexivity.
  split; [|split; [|reflexivity]].
  - unfold p, gamma_conic. apply (edge_kkt mx_conf y2 true (1 / fw_nu (ml_fw mx_state)) [tt] (csc_zeros (length y2 + 1) (length y2 + 1)) (1 :: [mx_c; mx_c]) (1 / fw_nu (ml_fw mx_state)) 0 eq_refl). split; [|split; [reflexivity|]].
    + apply (gamma_feasible mx_conf y2 _ _ [mx_c; mx_c] [tt] Lc). exists 1, [1 / 2; 1 / 2]. split; [reflexivity|]. split; [reflexivity|]. split; [split; [intros x [<-|[<-|[]]]; lra|simpl; lra]|].
      split; [intros v [<-|[<-|[]]]; simpl; lra|]. intros h _. unfold edge_of, mx_conf, y2. simpl. lra.
    + cbn [offs length y2 a_x a_z mx_answer]. split; [intros [|[|i]] Hi; simpl; try lia; lra|]. split; [intros [|t] Hi; simpl; try lia; lra|].
      split; [intros [|[|i]] Hi; simpl; try lia; split; lra|]. split.
      { intros [|t] Hi; simpl in Hi; [|lia]. cbn [gof Nat.add nth seq map rsum Nat.mul]. unfold marg, mx_conf, y2, rsum. simpl. lra. }
      split; [intros _; rewrite row_dot_zeros; unfold rsum; simpl; lra|]. intros [|[|i]] Hi; [| |lia]; rewrite row_dot_zeros; unfold marg, mx_conf, y2, rsum; simpl; lra.
  - unfold p. rewrite gamma_objective by exact Lc. unfold rsum. simpl. lra.
Qed.

Example C65_hypotheses_met : exists fuel tr f,
  (forall hs p, mlp_asks mx_conf (fun _ _ => true) (fun _ => mx_answer) (fun _ => 1 / 2) (fun _ _ => tt) y2 mx_state hs p -> solves p mx_answer) /\
  mlp_init y2 = Ok mx_state /\
  run (mlpboost mx_conf (fun _ _ => true) (fun _ => mx_answer) (fun _ => 1 / 2) (fun _ _ => tt) y2) fuel mx_state = Finished tr f /\
  Forall (fun e => 1 <= e) (edges mx_conf (fun _ _ => tt) y2 tr).
Proof.
  set (fuel := S (mlp_max_loop (ml_half_tol mx_state) (fw_nu (ml_fw mx_state)) (length y2))).
  destruct (P_C65_guarantee unit mx_conf (fun _ _ => true) (fun _ => mx_answer) (fun _ => 1 / 2) (fun _ _ => tt) y2 mx_state fuel) as [tr [f [Er _]]].
  - right. reflexivity.
  - apply y2_valid.
  - simpl. lra.
  - simpl. lra.
  - unfold mx_conf. intros h [|[|i]] Hi; simpl in *; try lia; lra.
  - intros [] [] _ i _. reflexivity.
  - intros k. lra.
  - apply mx_asks.
  - unfold fuel. lia.
  - exists fuel, tr, f. split; [apply mx_asks|]. split; [reflexivity|]. split; [exact Er|].
    apply Forall_forall. intros e He. unfold edges in He. apply in_map_iff in He. destruct He as [[t d] [<- Hp]]. cbn [fst snd]. apply in_combine_r in Hp.
    assert (Cd : capped 1 y2 d) by (apply (P_C65_rounds unit mx_conf (fun _ _ => true) (fun _ => mx_answer) (fun _ => 1 / 2) (fun _ _ => tt) y2 mx_state fuel); [simpl; lra|rewrite Er; exact Hp]).
    destruct Cd as [L [_ S]]. destruct d as [|a [|b [|]]]; simpl in L; try lia. unfold edge_of, mx_conf, y2. simpl in *. lra.
Qed.

(** a solver that never optimises anything - it puts all the weight on the newest hypothesis - is good enough for
    C65_guarantee_any_answers, on every sample and with every weak learner *)
Definition lazy_solver (n : nat) (p : conic) : answer := mkAnswer (repeat 0 (n + 1)) (repeat 0 (length (k_b p) - 1) ++ [1]) 0 Solved.
Example C65_any_answers_met : forall (H : Type) (conf : H -> nat -> R) eqH noise produce y (s : @mlp H) hs p,
  1 <= fw_nu (ml_fw s) < INR (length y) -> 0 < ml_half_tol s -> (forall k, 0 < noise k < 1) ->
  mlp_asks conf eqH (lazy_solver (length y)) noise produce y s hs p -> usable_answer (length y) (length hs) (lazy_solver (length y) p).
Proof.
  intros H conf eqH noise produce y s hs p Hnu Hht Hno Ha. destruct (mlp_asks_program conf eqH _ noise produce y s hs p Hnu Hht Hno Ha) as [k Ep].
  assert (Hh : (0 < length hs)%nat) by (destruct Ha as [t [s1 [m [d [_ [_ [_ [_ [_ [-> _]]]]]]]]]]; rewrite app_length; simpl; lia).
  assert (Lb : length (k_b p) = (2 * length y + 1 + length hs)%nat).
  { rewrite Ep. unfold gamma_conic, edge_rhs. cbn [k_b length]. rewrite !app_length, !repeat_length. lia. }
  unfold usable_answer, lazy_solver. cbn [a_x a_z]. rewrite Lb, repeat_length, app_length, repeat_length. split; [reflexivity|]. split; [simpl; lia|].
  rewrite skipn_app, repeat_length. replace (2 * length y + 1 - (2 * length y + 1 + length hs - 1))%nat with 0%nat by lia. cbn [skipn].
  assert (Z : forall a b, skipn a (repeat 0 b) = repeat 0 (b - a)) by (induction a; intros [|b]; try reflexivity; apply IHa). rewrite Z. split.
  - intros x Hx. apply in_app_or in Hx. destruct Hx as [Hx|[<-|[]]]; [apply repeat_spec in Hx; lra|lra].
  - rewrite rsum_app, rsum_repeat. simpl. lra.
Qed.
