(** The programs and the rounds of MLPBoost. *)
From Verif Require Import Base Spec RegSpec LPSpec SortLib Utils UtilsProofs WMajority WMajorityProofs Booster AdaBoost
  AdaBoostProofs AdaBoostMain AdaBoostMore Num Hoeffding FrankWolfe FrankWolfeProofs FrankWolfeFacts CERLP CERLPProofs CERLPFacts
  Csc ConicSpec CscProofs Reach LPBoost LPBoostProofs EdgeLP EdgeProofs ERLP ERLPProofs ERLPFacts SoftBoost SoftProofs MLP MLPSolveSpec.
Open Scope R_scope.

Section Plp.
  Context {H : Type}.
  Variable conf : H -> nat -> R.
  Variable noise : nat -> R.
  Variable y : list R.
  Notation n := (length y).
  Variables eta nu : R.
  Hypothesis Heta : 0 < eta.
  Hypothesis Hnoise : forall k, 0 < noise k < 1.

  Definition plm_ok (hs : list H) (m : plp) : Prop :=
    pl_n m = n /\ pl_T m = length hs /\ pl_margins m = erows conf y hs /\ pl_cap m = 1 / nu /\ pl_eta m = eta.

  (** the coefficients of the examples in the objective after [k] draws *)
  Definition gumbel (k : nat) : list R := map (fun i => ln (ln (1 / noise (k + i)%nat)) / eta) (seq 0 n).

  Lemma plp_init_ok : plm_ok [] (plp_init eta n (1 / nu)).
  Proof. unfold plm_ok, plp_init. cbn. repeat split. apply eq_sym, erows_nil. Qed.

  Lemma plp_push_ok hs m h : plm_ok hs m -> plm_ok (hs ++ [h]) (plp_push conf y m h).
  Proof.
    intros [E1 [E2 [E3 [E4 E5]]]]. unfold plm_ok, plp_push. cbn [pl_n pl_T pl_margins pl_cap pl_eta]. rewrite E1, E2, E3, E4, E5, erows_push, app_length. cbn [length]. repeat split. lia.
  Qed.

  Lemma gumbel_length k : length (gumbel k) = n.
  Proof. unfold gumbel. rewrite map_length, seq_length. reflexivity. Qed.

  Lemma plp_program_ok hs m : plm_ok hs m -> plp_program noise m = Ok (gamma_conic conf y (1 / nu) (1 / nu) (gumbel (pl_drawn m)) hs).
  Proof.
    intros [E1 [E2 [E3 [E4 E5]]]]. unfold plp_program, plp_linear. rewrite E1, E2, E3, E4, E5, gamma_matrix_ok. cbn [bind].
    rewrite (proj2 (forallb_forall _ _)). 2:{ intros r Hr. apply in_map_iff in Hr. destruct Hr as [i [<- _]]. pose proof (Hnoise (pl_drawn m + i)). rewrite !Rltb_true by lra. reflexivity. }
    cbn [negb]. rewrite Reqb_false by lra. cbn [bind]. rewrite map_map. apply (gamma_new conf y (1 / nu) (1 / nu) (gumbel (pl_drawn m)) hs). apply gumbel_length.
  Qed.

  (** an update with a usable answer *)
  Lemma plp_update_ok solve hs m h : plm_ok hs m -> (forall p, plp_program noise (plp_push conf y m h) = Ok p -> usable_answer n (length (hs ++ [h])) (solve p)) ->
    exists m' ws, plp_update conf solve noise y m (Some h) = Ok (m', ws) /\ plm_ok (hs ++ [h]) m' /\ pl_weights m' = ws /\
      length ws = length (hs ++ [h]) /\ is_dist ws.
  Proof.
    intros O Hex. pose proof (plp_push_ok hs m h O) as O'. unfold plp_update. rewrite (plp_program_ok _ _ O') in *. specialize (Hex _ eq_refl). cbn [bind].
    set (p := gamma_conic conf y (1 / nu) (1 / nu) (gumbel (pl_drawn (plp_push conf y m h))) (hs ++ [h])) in *.
    destruct Hex as [Lx [Lz Dw]].
    destruct O' as [E1 [E2 [E3 [E4 E5]]]]. unfold slice_from. rewrite E1, Lz, Lx. rewrite (proj2 (Nat.leb_le (2 * n + 1) _)) by lia. rewrite (proj2 (Nat.leb_le 1 _)) by lia. cbn [bind].
    eexists. eexists. split; [reflexivity|]. split; [|split; [reflexivity|split; [rewrite skipn_length, Lz; lia|exact Dw]]]. unfold plm_ok. cbn [pl_n pl_T pl_margins pl_cap pl_eta]. repeat split; assumption.
  Qed.

  (** an exact answer is usable *)
  Lemma exact_usable k hs a : solves (gamma_conic conf y (1 / nu) (1 / nu) (gumbel k) hs) a -> usable_answer n (length hs) a.
  Proof.
    intros Hs. destruct (gamma_solved conf y _ _ _ _ (gumbel_length _) a Hs) as [Lx [Lz [_ [_ [_ [Lw [Dw _]]]]]]].
    split; [lia|]. split; [lia|]. replace (2 * n + 1)%nat with (1 + 2 * n)%nat by lia. exact Dw.
  Qed.
End Plp.

Section Run.
  Context {H : Type}.
  Variable conf : H -> nat -> R.
  Variable eqH : H -> H -> bool.
  Variable solve : conic -> answer.
  Variable noise : nat -> R.
  Variable produce : nat -> list R -> H.
  Variable y : list R.
  Variable s0 : @mlp H.
  Notation n := (length y).
  Notation ht := (ml_half_tol s0).
  Notation nu := (fw_nu (ml_fw s0)).
  Notation ty := (fw_type (ml_fw s0)).
  Notation eta := (ln (INR n / nu) / ht).
  Notation T := (mlp_max_loop ht nu n).
  Notation b := (mlpboost conf eqH solve noise produce y).
  Hypothesis Hnu : 1 <= nu <= INR n.

  (** what is true before every round, whatever rule and solver *)
  Definition MInv (t : nat) (s : @mlp H) (tr : trace) : Prop :=
    (0 < n)%nat /\ ht <> 0 /\ (1 <= t)%nat /\ length tr = (t - 1)%nat /\ (length tr <= T)%nat /\ Forall (capped nu y) tr /\
    ml_half_tol s = ht /\ ml_fw s = mkFw eta nu ty /\ ml_max_iter s = T /\
    Forall (fun e => ml_gamma s <= e) (edges conf produce y tr) /\
    (forall G, G <= 1 -> Forall (fun e => G <= e) (edges conf produce y tr) -> G <= ml_gamma s) /\
    (t = 1%nat -> ml_weights s = [] /\ ml_hyps s = [] /\ ml_secondary s = Some (plp_init eta n (1 / nu))).

  Lemma minv_first s : mlp_pre y s0 = Ok s -> MInv 1 s [].
  Proof.
    unfold mlp_pre. intros E. destruct (is_valid_binary_instance y) as [[]|] eqn:Ev; [|discriminate]. cbn [bind] in E. pose proof (valid_instance_nonempty y Ev) as Hn.
    destruct (Reqb_spec ht 0) as [|Hh]; [discriminate|]. injection E as <-. unfold MInv. cbn [ml_half_tol ml_fw ml_max_iter ml_gamma ml_weights ml_hyps ml_secondary].
    split; [exact Hn|]. split; [exact Hh|]. split; [lia|]. split; [reflexivity|]. split; [simpl; lia|]. split; [constructor|]. repeat (split; [reflexivity|]). split; [constructor|]. split; [intros; assumption|]. auto.
  Qed.

  Lemma minv_step t s tr : MInv t s tr ->
    match b_boost b t s with
    | (q, Panic _) => Forall (capped nu y) (tr ++ q) /\ (length (tr ++ q) <= T)%nat
    | (q, Ok (s', Continue)) => MInv (S t) s' (tr ++ q) /\ (t <= T)%nat /\ length q = 1%nat
    | (q, Ok (s', Break _)) => Forall (capped nu y) (tr ++ q) /\ (length (tr ++ q) <= T)%nat
    end.
  Proof.
    intros [Hn [Hh [Ht [Hl [HT [Hc [E1 [E2 [E3 [G1 [G2 _]]]]]]]]]]]. change (b_boost b) with (mlp_boost conf eqH solve noise produce y). unfold mlp_boost. rewrite E3.
    destruct (Nat.ltb_spec T t) as [L|L]; [rewrite app_nil_r; auto|].
    rewrite E2. cbn [fw_eta fw_nu]. destruct (query_capped conf y ht nu Hn Hnu (ml_weights s) (ml_hyps s)) as [d [Ed [_ Cd]]]. rewrite Ed.
    rewrite edge_of_hypothesis_spec by apply Cd. set (h := produce t d).
    assert (F : Forall (capped nu y) (tr ++ [d])) by (apply Forall_app; split; [exact Hc|constructor; [exact Cd|constructor]]).
    assert (Ln : (length (tr ++ [d]) <= T)%nat) by (rewrite app_length; simpl; lia).
    assert (Ee : edges conf produce y (tr ++ [d]) = edges conf produce y tr ++ [edge_of y d (conf h)]).
    { rewrite edges_app. replace (S (length tr)) with t by lia. reflexivity. }
    assert (K : forall sec ws hs, MInv (S t) (mkMlp ht (mkFw eta nu ty) sec ws hs T (Rmin (ml_gamma s) (edge_of y d (conf h)))) (tr ++ [d])).
    { intros sec ws hs. unfold MInv. cbn [ml_half_tol ml_fw ml_max_iter ml_gamma ml_weights ml_hyps ml_secondary].
      split; [exact Hn|]. split; [exact Hh|]. split; [lia|]. split; [rewrite app_length; simpl; lia|]. split; [exact Ln|]. split; [exact F|]. repeat (split; [reflexivity|]). rewrite Ee. split; [|split; [|lia]].
      - apply Forall_app. split; [|constructor; [apply Rmin_r|constructor]]. eapply Forall_impl; [|exact G1]. intros e He. cbn beta in *. eapply Rle_trans; [apply Rmin_l|exact He].
      - intros G HG HF. apply Forall_app in HF. destruct HF as [F1 F2]. apply Forall_inv in F2. apply Rmin_glb; [apply G2; assumption|exact F2]. }
    destruct (Nat.eqb t 1).
    - destruct (secondary_update _ _ _ _ _ _) as [r|p]; cbn [bind]; [|auto]. rewrite E1, ?E3. split; [apply K|split; [exact L|reflexivity]].
    - destruct (objval _ _ _ _ _) as [v|p]; cbn [bind]; [|auto]. destruct (Rleb _ _); [auto|].
      destruct (position _ _) as [pos|]; (destruct (next_iterate _ _ _ _ _ _ _ _) as [ws'|p]; cbn [bind]; [|auto]);
      (destruct (secondary_update _ _ _ _ _ _) as [r|p]; cbn [bind]; [|auto]); (destruct (better_weight _ _ _ _ _ _) as [w|p]; cbn [bind]; [|auto]);
      (destruct (check_capped_simplex_condition _ _) as [u|p]; cbn [bind]; [|auto]); rewrite E1; (split; [apply K|split; [exact L|reflexivity]]).
  Qed.

  Lemma reach_minv t s : reach b s0 t s -> exists tr, MInv t s tr.
  Proof.
    induction 1 as [s E|t s q s' Hr [tr HI] E]; [exists []; apply minv_first, E|]. pose proof (minv_step t s tr HI) as St. rewrite E in St. exists (tr ++ q). apply St.
  Qed.

  (** the smoothed objective *)
  Lemma objval_phi ws hs : (0 < n)%nat -> exists d, exp_distribution conf eta nu y ws hs = Ok d /\ best n eta nu d (mvote conf y ws hs) /\
    objval conf y (mkFw eta nu ty) hs ws = Ok (phi n eta d (mvote conf y ws hs)).
  Proof.
    intros Hn. destruct (query_capped conf y ht nu Hn Hnu ws hs) as [d [Ed [Hb Cd]]]. exists d. split; [exact Ed|]. split; [exact Hb|].
    unfold objval. cbn [fw_eta fw_nu]. rewrite Ed. cbn [bind]. rewrite edge_of_weighted_spec by apply Cd. rewrite (edge_phi conf y Hn) by apply Cd. unfold phi, entropy_from_uni_distribution. rewrite entropy_xlnx, (proj1 Cd).
    do 4 f_equal. rewrite <- (map_nth_seq 0 d), map_map, (proj1 Cd) at 1. reflexivity.
  Qed.

  (** ** usable answers, the two analysed rules *)
  Hypothesis Hty : ty = Classic \/ ty = ShortStep.
  Hypothesis Hht : 0 < ht.
  Hypothesis Hnu' : nu < INR n.
  Hypothesis Hmarg : forall h i, (i < n)%nat -> -1 <= nth i y 0 * conf h i <= 1.
  Hypothesis Heq : forall f h, eqH f h = true -> forall i, (i < n)%nat -> conf f i = conf h i.
  Hypothesis Hnoise : forall k, 0 < noise k < 1.
  Hypothesis Hex : forall hs p, mlp_asks conf eqH solve noise produce y s0 hs p -> usable_answer n (length hs) (solve p).

  Definition GInv (t : nat) (s : @mlp H) (tr : trace) : Prop :=
    MInv t s tr /\
    ((2 <= t)%nat -> length (ml_weights s) = length (ml_hyps s) /\ is_dist (ml_weights s) /\
      (exists m, ml_secondary s = Some m /\ plm_ok conf y eta nu (ml_hyps s) m /\ length (pl_weights m) = length (ml_hyps s) /\ is_dist (pl_weights m)) /\
      forall G, Forall (fun e => G <= e) (edges conf produce y tr) ->
      forall d, best n eta nu d (mvote conf y (ml_weights s) (ml_hyps s)) -> G - 8 * eta / INR t <= phi n eta d (mvote conf y (ml_weights s) (ml_hyps s))).

  Definition GEnd (tr : trace) (f : wmajority H) : Prop :=
    forall G, Forall (fun e => G <= e) (edges conf produce y tr) -> forall c, capped nu y c -> G - 2 * ht <= edge_of y c (wm_confidence conf f).

  Lemma check_dist w : is_dist w -> w <> [] -> check_capped_simplex_condition w 1 = Ok tt.
  Proof.
    intros D N. unfold check_capped_simplex_condition, check_nu. assert (1 <= INR (length w)) by (apply (le_INR 1); destruct w; [contradiction|simpl; lia]).
    rewrite !Rleb_true by lra. cbn [andb assert_ bind]. pose proof D as [D1 D2]. rewrite D2. rewrite Rltb_true by (rewrite Rminus_diag_eq, Rabs_R0 by reflexivity; unfold SIMPLEX_TOLERANCE; lra). cbn [assert_ bind].
    rewrite (proj2 (forallb_forall _ _)); [reflexivity|]. intros x Hx. pose proof (dist_le1 w D x Hx). specialize (D1 x Hx). rewrite !Rleb_true by lra. reflexivity.
  Qed.

  Lemma ginv_step t s tr : reach b s0 t s -> GInv t s tr ->
    match b_boost b t s with
    | (q, Panic _) => False
    | (q, Ok (s', Continue)) => GInv (S t) s' (tr ++ q) /\ (t < S T)%nat /\
        ((2 <= t)%nat -> ty = ShortStep -> forall d d', best n eta nu d (mvote conf y (ml_weights s) (ml_hyps s)) -> best n eta nu d' (mvote conf y (ml_weights s') (ml_hyps s')) ->
           phi n eta d (mvote conf y (ml_weights s) (ml_hyps s)) <= phi n eta d' (mvote conf y (ml_weights s') (ml_hyps s')))
    | (q, Ok (s', Break _)) => exists f, b_post b s' = Ok f /\ GEnd (tr ++ q) f
    end.
  Proof.
    intros Hr [HM HG]. pose proof (minv_step t s tr HM) as Hstep. pose proof (eta_pos y ht nu Hnu Hht Hnu') as He. pose proof (ratio_pos y nu Hnu Hnu') as Hrt.
    destruct HM as [Hn [Hh [Ht [Hl [HT [Hc [E1 [E2 [E3 [G1 [G2 G3]]]]]]]]]]]. change (b_boost b) with (mlp_boost conf eqH solve noise produce y) in *. change (b_post b) with (@mlp_post H). unfold mlp_boost in *. rewrite E3 in *.
    assert (T1 : (1 <= T)%nat).
    { unfold mlp_max_loop. apply ceil_usize_pos. apply Rdiv_lt_0_compat; [lra|apply pow_lt; exact Hht]. }
    destruct (Nat.ltb_spec T t) as [L|L].
    - clear Hstep. rewrite app_nil_r. unfold mlp_post. destruct (HG ltac:(lia)) as [Lw [Dw [_ G]]].
      destruct (from_slices_dist conf _ _ Lw Dw) as [f [Ef _]]. exists f. split; [exact Ef|]. intros g Hg c Hcc.
      rewrite (vote_final conf y ht nu Hn _ _ c f Lw Dw Ef). destruct (query_capped conf y ht nu Hn Hnu (ml_weights s) (ml_hyps s)) as [d [_ [Hb _]]].
      specialize (G g Hg d Hb). pose proof (phi_soft_margin conf y eta nu Hn He Hnu d _ _ c Hb Hcc) as P. rewrite (eta_eq y ht nu Hnu Hht Hnu') in P.
      assert (Q : 8 * eta / INR t <= ht).
      { assert (T = t - 1)%nat by lia. replace (INR t) with (INR T + 1).
        - apply (fw_end eta ht (ln (INR n / nu)) (INR T) Hht Hrt eq_refl). unfold mlp_max_loop. apply ceil_usize_ge.
        - rewrite <- S_INR. f_equal. lia. }
      lra.
    - rewrite E2 in *. cbn [fw_eta fw_nu] in *. destruct (query_capped conf y ht nu Hn Hnu (ml_weights s) (ml_hyps s)) as [d [Ed [Hb Cd]]]. rewrite Ed in *.
      rewrite E1 in *. rewrite edge_of_hypothesis_spec in * by apply Cd.
      set (h := produce t d) in *.
      assert (Eedges : edges conf produce y (tr ++ [d]) = edges conf produce y tr ++ [edge_of y d (conf h)]).
      { rewrite edges_app. replace (S (length tr)) with t by lia. reflexivity. }
      assert (Sec : forall m, ml_secondary s = Some m -> plm_ok conf y eta nu (ml_hyps s) m -> (forall f, In f (ml_hyps s) -> eqH f h = false) ->
        exists m' ws, secondary_update conf solve noise y s (Some h) = Ok (m', ws) /\ plm_ok conf y eta nu (ml_hyps s ++ [h]) m' /\ pl_weights m' = ws /\ length ws = length (ml_hyps s ++ [h]) /\ is_dist ws).
      { intros m Em Om Hnew. unfold secondary_update. rewrite Em. apply (plp_update_ok conf noise y eta nu He Hnoise solve _ m h Om). intros p Ep. apply (Hex (ml_hyps s ++ [h])).
        exists t, s, m, d. split; [exact Hr|]. split; [lia|]. split; [exact Em|]. split; [rewrite E2; exact Ed|]. split; [exact Hnew|]. split; [reflexivity|exact Ep]. }
      destruct (Nat.eqb_spec t 1) as [E|Ne].
      + destruct (G3 E) as [W0 [H0 S0]]. subst t. destruct (Sec _ S0) as [m' [ws [Es [Om [Ew [Lw Dw]]]]]]; [rewrite H0; apply plp_init_ok|rewrite H0; intros ? []|].
        rewrite Es in *. cbn [bind fst snd] in *. split; [|split; lia]. split; [apply Hstep|]. intros _. cbn [ml_weights ml_hyps ml_secondary]. rewrite W0, H0 in *. cbn [app] in *.
        split; [reflexivity|]. split; [split; [intros x [<-|[]]; lra|simpl; lra]|]. split; [exists m'; split; [reflexivity|]; split; [exact Om|]; rewrite Ew; split; [exact Lw|exact Dw]|].
        intros g Hg d' Hb'. destruct tr; [|simpl in Hl; lia]. cbn [app] in Hg, Eedges. rewrite Eedges in Hg. apply Forall_app in Hg. destruct Hg as [_ Hg]. apply Forall_inv in Hg.
        pose proof (fw_first conf y eta nu Hn He Hnu Hmarg d h d' Hb Hb') as P. simpl (INR 2). lra.
      + destruct (HG ltac:(lia)) as [Lw [Dw [[m [Em [Om [Lp Dp]]]] G]]].
        destruct (objval_phi (ml_weights s) (ml_hyps s) Hn) as [d1 [Ed1 [_ Ov]]]. assert (d1 = d) by congruence. subst d1. rewrite Ov in *. cbn [bind] in *.
        set (v := phi n eta d (mvote conf y (ml_weights s) (ml_hyps s))) in *.
        destruct (Rleb_spec (Rmin (ml_gamma s) (edge_of y d (conf h)) - v) ht) as [B|B].
        * clear Hstep. unfold mlp_post. cbn [ml_weights ml_hyps]. destruct (from_slices_dist conf _ _ Lw Dw) as [f [Ef _]]. exists f. split; [exact Ef|]. intros g Hg c Hcc.
          rewrite (vote_final conf y ht nu Hn _ _ c f Lw Dw Ef). pose proof (phi_soft_margin conf y eta nu Hn He Hnu d _ _ c Hb Hcc) as P. rewrite (eta_eq y ht nu Hnu Hht Hnu') in P. fold v in P.
          rewrite Eedges in Hg. apply Forall_app in Hg. destruct Hg as [Hg1 Hg]. apply Forall_inv in Hg.
          assert (g <= 1). { eapply Rle_trans; [exact Hg|]. apply (edge_bounded conf y nu Hmarg d h Cd). }
          assert (g <= Rmin (ml_gamma s) (edge_of y d (conf h))) by (apply Rmin_glb; [apply G2; assumption|exact Hg]). lra.
        * assert (Bh : ht < edge_of y d (conf h) - v) by (pose proof (Rmin_r (ml_gamma s) (edge_of y d (conf h))); lra).
          pose proof (edge_le_phi conf y eta nu Hn He Hnu d _ _ Hb) as P2. fold v in P2.
          (* the position of h, the new hypotheses and weights, the answer of the secondary update *)
          assert (K : exists pos hyps ws opt h' m' w2, (match position (fun f => eqH f h) (ml_hyps s) with Some pos => (pos, ml_hyps s, ml_weights s, None) | None => (length (ml_hyps s), ml_hyps s ++ [h], ml_weights s ++ [0], Some h) end) = (pos, hyps, ws, opt) /\
             nth_error hyps pos = Some h' /\ (forall i, (i < n)%nat -> conf h' i = conf h i) /\ length ws = length hyps /\ is_dist ws /\ mvote conf y ws hyps = mvote conf y (ml_weights s) (ml_hyps s) /\
             secondary_update conf solve noise y s opt = Ok (m', w2) /\ plm_ok conf y eta nu hyps m' /\ pl_weights m' = w2 /\ length w2 = length hyps /\ is_dist w2).
          { pose proof (position_spec (fun f => eqH f h) (ml_hyps s)) as P. destruct (position _ _) as [pos|].
            - destruct P as [h' [P1 Pe]]. exists pos, (ml_hyps s), (ml_weights s), None, h', m, (pl_weights m). split; [reflexivity|]. split; [exact P1|]. split; [apply Heq; exact Pe|]. split; [exact Lw|]. split; [exact Dw|]. split; [reflexivity|].
              split; [unfold secondary_update; rewrite Em; reflexivity|]. split; [exact Om|]. split; [reflexivity|]. split; [exact Lp|exact Dp].
            - destruct (Sec m Em Om P) as [m' [w2 [Es [Om' [Ew [Lw2 Dw2]]]]]]. exists (length (ml_hyps s)), (ml_hyps s ++ [h]), (ml_weights s ++ [0]), (Some h), h, m', w2. split; [reflexivity|]. split; [rewrite nth_error_app2, Nat.sub_diag by lia; reflexivity|]. split; [reflexivity|].
              split; [rewrite !app_length; simpl; lia|]. split; [|split; [apply mvote_push, Lw|split; [exact Es|split; [exact Om'|split; [exact Ew|split; [exact Lw2|exact Dw2]]]]]].
              destruct Dw as [D1 D2]. split; [|rewrite rsum_app; simpl; lra]. intros x Hx. apply in_app_or in Hx. destruct Hx as [Hx|[<-|[]]]; [apply D1, Hx|lra]. }
          destruct K as [pos [hyps [ws [opt [h' [m' [w2 [EK [K1 [K2 [K3 [K4 [K5 [K6 [K7 [K8 [K9 K10]]]]]]]]]]]]]]]]]. rewrite EK in *.
          assert (Eh : edge_of y d (conf h') = edge_of y d (conf h)) by (apply (edge_ext y ht nu Hn); exact K2).
          pose proof (edge_mvote_ext conf y ht nu Hn d _ _ _ _ K5) as Ev.
          assert (Hb2 : best n eta nu d (mvote conf y ws hyps)) by (rewrite K5; exact Hb).
          destruct (fw_progress conf y eta nu Hn He Hnu Hmarg (mkFw eta nu ty) t d ws hyps pos h' Hty eq_refl Ht K3 K4 K1 Hb2) as [prim [E' [L' [D' P']]]].
          { rewrite Eh, Ev. lra. }
          rewrite E' in *. cbn [bind] in *. rewrite K6 in *. cbn [bind fst snd] in *.
          destruct (objval_phi prim hyps Hn) as [d1 [_ [Hb1 Ov1]]]. destruct (objval_phi w2 hyps Hn) as [d2 [_ [Hb2' Ov2]]].
          unfold better_weight in *. rewrite Ov1, Ov2 in *. cbn [bind] in *.
          set (v1 := phi n eta d1 (mvote conf y prim hyps)) in *. set (v2 := phi n eta d2 (mvote conf y w2 hyps)) in *. set (w := if Rleb v2 v1 then prim else w2) in *.
          assert (Ww : length w = length hyps /\ is_dist w /\ exists dw, best n eta nu dw (mvote conf y w hyps) /\ v1 <= phi n eta dw (mvote conf y w hyps)).
          { unfold w. destruct (Rleb_spec v2 v1) as [B1|B1]; [split; [exact L'|]; split; [exact D'|]; exists d1; split; [exact Hb1|apply Rle_refl]|split; [exact K9|]; split; [exact K10|]; exists d2; split; [exact Hb2'|]]. fold v2. lra. }
          destruct Ww as [Lw' [Dw' [dw [Hbw Vw]]]].
          rewrite (check_dist w Dw') in * by (destruct w; [simpl in Lw'; assert (pos < length hyps)%nat by (apply nth_error_Some; congruence); lia|discriminate]). cbn [bind] in *.
          assert (Vd : forall d', best n eta nu d' (mvote conf y w hyps) -> v1 <= phi n eta d' (mvote conf y w hyps)).
          { intros d' Hb'. eapply Rle_trans; [exact Vw|]. apply (phi_min n eta nu Hn He Hnu dw _ d' Hbw); [apply Hb'|]. apply (best_facts n eta nu Hn Hnu d' _ Hb'). }
          split; [|split; [lia|]].
          2:{ intros _ Hss d0 d' Hb0 Hb'. cbn [ml_weights ml_hyps] in Hb' |- *. destruct (fw_progress_gen conf y eta nu Hn He Hnu Hmarg 0 (mkFw eta nu ty) t d ws hyps pos h' (or_intror Hss) ltac:(lra) eq_refl K3 K4 K1 Hb2) as [prim' [E'' [_ [_ P'']]]]; [rewrite Eh, Ev; lra|].
              rewrite E' in E''. injection E'' as <-. specialize (P'' d1 Hb1). fold v1 in P''. rewrite K5 in P''. fold v in P''. specialize (Vd d' Hb').
              assert (phi n eta d0 (mvote conf y (ml_weights s) (ml_hyps s)) <= v) by (apply (phi_min n eta nu Hn He Hnu d0 _ d Hb0); [apply Hb|]; apply (best_facts n eta nu Hn Hnu d _ Hb)). lra. }
          split; [apply Hstep|]. intros _. cbn [ml_weights ml_hyps ml_secondary]. split; [exact Lw'|]. split; [exact Dw'|]. split; [exists m'; split; [reflexivity|]; split; [exact K7|]; rewrite K8; split; assumption|].
          intros g Hg d' Hb'.
          specialize (Vd d' Hb').
          specialize (P' d1 Hb1). fold v1 in P'. rewrite Eh, Ev, K5 in P'. fold v in P'.
          rewrite Eedges in Hg. apply Forall_app in Hg. destruct Hg as [Hg1 Hg]. apply Forall_inv in Hg. specialize (G g Hg1 d Hb). fold v in G.
          set (num := edge_of y d (conf h) - edge_of y d (vote conf (combine (ml_weights s) (ml_hyps s)))) in *.
          replace (S t) with (t + 1)%nat by lia.
          assert (R := fw_recursion eta t (g - v) num (g - v1) Ht He).
          assert (R1 : g - v <= num) by (unfold num; lra). specialize (R R1 ltac:(lra) ltac:(lra)). lra.
  Qed.

  Lemma reach_ginv t s : reach b s0 t s -> exists tr, GInv t s tr.
  Proof.
    induction 1 as [s E|t s q s' Hr [tr HI] E].
    - exists []. split; [apply minv_first, E|lia].
    - pose proof (ginv_step t s tr Hr HI) as St. rewrite E in St. exists (tr ++ q). apply St.
  Qed.
End Run.
