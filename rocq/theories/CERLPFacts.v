(** Property C62: Corrective ERLPBoost. *)
From Verif Require Import Base Spec RegSpec SortLib Utils UtilsProofs WMajority WMajorityProofs Booster AdaBoost
  AdaBoostProofs AdaBoostMain AdaBoostMore Num Hoeffding FrankWolfe FrankWolfeProofs FrankWolfeFacts CERLP CERLPProofs.
Open Scope R_scope.

Lemma uniform_best n eta nu d m : (0 < n)%nat -> best n eta nu d m -> (forall i, (i < n)%nat -> nth i m 0 = 0) -> d = repeat (1 / INR n) n.
Proof.
  intros Hn [Ld [Lm [xi [Hxi [Hv Hs]]]]] Hm. pose proof (lt_0_INR n Hn). set (v := Rmin (1 / nu) (xi * exp (- eta * 0))).
  assert (Ev : forall i, (i < n)%nat -> nth i d 0 = v) by (intros i Hi; rewrite Hv, Hm by exact Hi; reflexivity).
  assert (Sv : INR n * v = 1).
  { rewrite <- Hs, <- rsum_nth, Ld. rewrite (rsum_map_ext _ (fun _ => v)) by (intros i Hi; apply in_seq in Hi; apply Ev; lia). rewrite rsum_map_const, seq_length. reflexivity. }
  apply (list_eq_nth 0); [rewrite repeat_length; exact Ld|]. rewrite Ld. intros i Hi. rewrite Ev by exact Hi. rewrite nth_repeat_lt by exact Hi.
  apply (Rmult_eq_reg_l (INR n)); [|lra]. rewrite Sv. field. lra.
Qed.

Section Run.
  Context {H : Type}.
  Variable conf : H -> nat -> R.
  Variable eqH : H -> H -> bool.
  Variable produce : nat -> list R -> H.
  Variable y : list R.
  Variables (ht nu : R) (ty : fwtype).
  Let n := length y.
  Let eta := ln (INR n / nu) / ht.
  Let T := cerlp_max_loop ht nu n.
  Hypothesis Hn : (0 < n)%nat.
  Hypothesis Hnu : 1 <= nu <= INR n.

  (** what is true before every round, whatever the rule *)
  Definition QInv (t : nat) (s : @cerlp H) (tr : trace) : Prop :=
    (1 <= t)%nat /\ length tr = (t - 1)%nat /\ (length tr <= T)%nat /\ Forall (capped nu y) tr /\
    ce_half_tol s = ht /\ ce_fw s = mkFw eta nu ty /\ ce_max_iter s = T.

  Lemma query_capped ws hs : exists d, exp_distribution conf eta nu y ws hs = Ok d /\ best n eta nu d (mvote conf y ws hs) /\ capped nu y d.
  Proof.
    rewrite exp_distribution_spec. destruct (best_project n eta nu Hn Hnu (mvote conf y ws hs) (margins_length y _)) as [d [E Hb]].
    exists d. split; [exact E|]. split; [exact Hb|]. split; [apply Hb|]. apply (best_facts n eta nu Hn Hnu d _ Hb).
  Qed.

  Lemma qinv_step t s tr : QInv t s tr ->
    match cerlp_boost conf eqH produce y t s with
    | (q, Panic _) => Forall (capped nu y) (tr ++ q) /\ (length (tr ++ q) <= T)%nat
    | (q, Ok (s', Continue)) => QInv (S t) s' (tr ++ q)
    | (q, Ok (s', Break _)) => (Forall (capped nu y) (tr ++ q) /\ (length (tr ++ q) <= T)%nat) /\ True
    end.
  Proof.
    intros [Ht [Hl [HT [Hc [E1 [E2 E3]]]]]]. unfold cerlp_boost. rewrite E3.
    destruct (Nat.ltb_spec T t) as [L|L]; [rewrite app_nil_r; auto|].
    rewrite E2. cbn [fw_eta fw_nu]. destruct (query_capped (ce_weights s) (ce_hyps s)) as [d [Ed [_ Cd]]]. rewrite Ed.
    assert (F : Forall (capped nu y) (tr ++ [d])) by (apply Forall_app; split; [exact Hc|constructor; [exact Cd|constructor]]).
    assert (Ln : (length (tr ++ [d]) <= T)%nat) by (rewrite app_length; simpl; lia).
    destruct (Rleb _ _); [auto|]. destruct (position _ _) as [pos|].
    - destruct (next_iterate _ _ _ _ _ _ _ _) as [ws'|p]; cbn [bind]; [|auto].
      split; [lia|]. split; [rewrite app_length; simpl; lia|]. split; [exact Ln|]. split; [exact F|]. repeat split; assumption || reflexivity.
    - destruct (next_iterate _ _ _ _ _ _ _ _) as [ws'|p]; cbn [bind]; [|auto].
      split; [lia|]. split; [rewrite app_length; simpl; lia|]. split; [exact Ln|]. split; [exact F|]. repeat split; assumption || reflexivity.
  Qed.

  Lemma q_run_from_terminates fuel t s tr : QInv t s tr -> (S T < fuel + t)%nat -> (t <= S T)%nat ->
    match run_from (cerlpboost conf eqH produce y) fuel t tr s with Unfinished _ => False | _ => True end.
  Proof.
    revert t s tr; induction fuel as [|fuel IH]; intros t s tr HI Hf Ht; [lia|]. cbn [run_from]. pose proof (qinv_step t s tr HI) as St.
    change (b_boost (cerlpboost conf eqH produce y)) with (cerlp_boost conf eqH produce y).
    destruct (cerlp_boost conf eqH produce y t s) as [q [[s' [|it]]|p]] eqn:E; [|destruct (b_post _ s'); exact I|exact I].
    assert (t <= T)%nat.
    { destruct HI as [_ [_ [_ [_ [_ [_ E3]]]]]]. unfold cerlp_boost in E. rewrite E3 in E. destruct (Nat.ltb_spec T t); [discriminate|lia]. }
    apply IH; [exact St|lia|lia].
  Qed.

  (** ** the two analysed rules *)
  Hypothesis Hty : ty = Classic \/ ty = ShortStep.
  Hypothesis Hht : 0 < ht.
  Hypothesis Hnu' : nu < INR n.
  Hypothesis Hmarg : forall h i, (i < n)%nat -> -1 <= nth i y 0 * conf h i <= 1.
  Hypothesis Heq : forall f h, eqH f h = true -> forall i, (i < n)%nat -> conf f i = conf h i.

  Lemma ratio_pos : 0 < ln (INR n / nu).
  Proof. rewrite <- ln_1. apply ln_increasing; [lra|]. apply Rlt_div_iff; lra. Qed.

  Lemma eta_pos : 0 < eta.
  Proof. apply Rdiv_lt_0_compat; [exact ratio_pos|exact Hht]. Qed.

  Definition GInv (t : nat) (s : @cerlp H) (tr : trace) : Prop :=
    QInv t s tr /\
    ((t = 1%nat /\ ce_weights s = [] /\ ce_hyps s = []) \/
     ((2 <= t)%nat /\ length (ce_weights s) = length (ce_hyps s) /\ is_dist (ce_weights s) /\
      forall G, Forall (fun e => G <= e) (edges conf produce y tr) ->
      forall d, best n eta nu d (mvote conf y (ce_weights s) (ce_hyps s)) -> G - 8 * eta / INR t <= phi n eta d (mvote conf y (ce_weights s) (ce_hyps s)))).

  Definition GEnd (tr : trace) (f : wmajority H) : Prop :=
    forall G, Forall (fun e => G <= e) (edges conf produce y tr) -> forall c, capped nu y c -> G - 2 * ht <= edge_of y c (wm_confidence conf f).

  Lemma mvote_push ws hs h : length ws = length hs -> mvote conf y (ws ++ [0]) (hs ++ [h]) = mvote conf y ws hs.
  Proof.
    intros L. unfold mvote, margins_of. apply map_ext_in. intros i _. f_equal. unfold vote. rewrite combine_app_eq by exact L. rewrite map_app, rsum_app. simpl. ring.
  Qed.

  Lemma edge_ext d (f g : nat -> R) : (forall i, (i < n)%nat -> f i = g i) -> edge_of y d f = edge_of y d g.
  Proof. intros E. unfold edge_of. apply rsum_map_ext. intros i Hi. apply in_seq in Hi. rewrite E by (fold n in Hi; lia). reflexivity. Qed.

  Lemma edge_mvote_ext d ws hs ws' hs' : mvote conf y ws hs = mvote conf y ws' hs' -> edge_of y d (vote conf (combine ws hs)) = edge_of y d (vote conf (combine ws' hs')).
  Proof.
    intros E. unfold edge_of. apply rsum_map_ext. intros i Hi. apply in_seq in Hi. f_equal.
    rewrite <- !(margins_nth y) by lia. unfold mvote in E. rewrite E. reflexivity.
  Qed.

  Lemma eta_eq : ln (INR n / nu) / eta = ht.
  Proof. pose proof ratio_pos. unfold eta. field. lra. Qed.

  Lemma vote_final ws hs c f : length ws = length hs -> is_dist ws -> from_slices ws hs = Ok f -> edge_of y c (wm_confidence conf f) = edge_of y c (vote conf (combine ws hs)).
  Proof. intros L D E. destruct (from_slices_dist conf ws hs L D) as [f' [E' Ef]]. rewrite E in E'. injection E' as <-. apply edge_ext. intros i _. apply Ef. Qed.

  Lemma ginv_step t s tr : GInv t s tr ->
    match cerlp_boost conf eqH produce y t s with
    | (q, Panic _) => False
    | (q, Ok (s', Continue)) => GInv (S t) s' (tr ++ q)
    | (q, Ok (s', Break _)) =>
        match cerlp_post s' with
        | Ok f => GEnd (tr ++ q) f
        | Panic p => p = AssertFailed /\ t = 1%nat /\ tr ++ q = [repeat (1 / INR n) n] /\ edge_of y (repeat (1 / INR n) n) (conf (produce 1%nat (repeat (1 / INR n) n))) <= ht
        end
    end.
  Proof.
    intros [HQ HG]. pose proof (qinv_step t s tr HQ) as Hstep. pose proof eta_pos as He. pose proof ratio_pos as Hr.
    destruct HQ as [Ht [Hl [HT [Hc [E1 [E2 E3]]]]]]. unfold cerlp_boost in *. rewrite E3 in *.
    assert (T1 : (1 <= T)%nat).
    { unfold T, cerlp_max_loop. apply ceil_usize_pos. apply Rdiv_lt_0_compat; [lra|apply pow_lt; exact Hht]. }
    destruct (Nat.ltb_spec T t) as [L|L].
    - clear Hstep. rewrite app_nil_r. unfold cerlp_post. destruct HG as [[-> _]|[Ht2 [Lw [Dw G]]]]; [lia|].
      destruct (from_slices_dist conf _ _ Lw Dw) as [f [Ef _]]. rewrite Ef. intros g Hg c Hcc.
      rewrite (vote_final _ _ c f Lw Dw Ef). destruct (query_capped (ce_weights s) (ce_hyps s)) as [d [_ [Hb _]]].
      specialize (G g Hg d Hb). pose proof (phi_soft_margin conf y eta nu Hn He Hnu d _ _ c Hb Hcc) as P. fold n in P. rewrite eta_eq in P.
      assert (Q : 8 * eta / INR t <= ht).
      { assert (T = t - 1)%nat by lia. replace (INR t) with (INR T + 1).
        - apply (fw_end eta ht (ln (INR n / nu)) (INR T) Hht Hr eq_refl). unfold T, cerlp_max_loop. apply ceil_usize_ge.
        - rewrite <- S_INR. f_equal. lia. }
      lra.
    - rewrite E2 in *. cbn [fw_eta fw_nu] in *. destruct (query_capped (ce_weights s) (ce_hyps s)) as [d [Ed [Hb Cd]]]. rewrite Ed in *.
      rewrite E1 in *. rewrite edge_of_hypothesis_spec, edge_of_weighted_spec in * by apply Cd.
      set (h := produce t d) in *.
      assert (Eedges : edges conf produce y (tr ++ [d]) = edges conf produce y tr ++ [edge_of y d (conf h)]).
      { rewrite edges_app. replace (S (length tr)) with t by lia. reflexivity. }
      destruct (Rleb_spec (edge_of y d (conf h) - edge_of y d (vote conf (combine (ce_weights s) (ce_hyps s)))) ht) as [B|B].
      + clear Hstep. unfold cerlp_post. cbn [ce_weights ce_hyps]. destruct HG as [[-> [Hw Hh]]|[Ht2 [Lw [Dw G]]]].
        * rewrite Hw, Hh in *. unfold from_slices, kept, normalize. simpl. rewrite Reqb_true by reflexivity. simpl.
          assert (Ud : d = repeat (1 / INR n) n).
          { apply (uniform_best n eta nu d (mvote conf y [] []) Hn Hb). intros i Hi. unfold mvote. rewrite margins_nth by exact Hi. unfold vote. simpl. ring. }
          destruct tr; [|simpl in Hl; lia]. unfold h in B. rewrite Ud in *. split; [reflexivity|]. split; [reflexivity|]. split; [reflexivity|].
          assert (Z : edge_of y (repeat (1 / INR n) n) (vote conf (combine [] [])) = 0).
          { unfold edge_of. rewrite (rsum_map_ext _ (fun _ => 0)); [rewrite rsum_map_const; ring|]. intros i _. unfold vote. simpl. ring. }
          rewrite Z in B. lra.
        * destruct (from_slices_dist conf _ _ Lw Dw) as [f [Ef _]]. rewrite Ef. intros g Hg c Hcc.
          rewrite (vote_final _ _ c f Lw Dw Ef). pose proof (phi_soft_margin conf y eta nu Hn He Hnu d _ _ c Hb Hcc) as P. fold n in P. rewrite eta_eq in P.
          pose proof (edge_le_phi conf y eta nu Hn He Hnu d _ _ Hb) as P2. fold n in P2.
          rewrite Eedges in Hg. apply Forall_app in Hg. destruct Hg as [_ Hg]. apply Forall_inv in Hg. lra.
      + destruct HG as [[-> [Hw Hh]]|[Ht2 [Lw [Dw G]]]].
        * rewrite Hw, Hh in *. cbn [position app length] in *.
          assert (Hn1 : next_iterate conf y (mkFw eta nu ty) 1 d [h] 0 [0] = Ok [1]) by (apply P_C36_first_round; exact Hty).
          rewrite Hn1 in *. cbn [bind] in *. split; [exact Hstep|]. right. cbn [ce_weights ce_hyps]. split; [lia|]. split; [reflexivity|].
          split; [split; [intros x [<-|[]]; lra|simpl; lra]|]. intros g Hg d' Hb'.
          destruct tr; [|simpl in Hl; lia]. rewrite Eedges in Hg. apply Forall_app in Hg. destruct Hg as [_ Hg]. apply Forall_inv in Hg.
          pose proof (fw_first conf y eta nu Hn He Hnu Hmarg d h d' Hb Hb') as P. fold n in P. simpl (INR 2). lra.
        * assert (K : exists pos hyps ws h', (match position (fun f => eqH f h) (ce_hyps s) with Some pos => (pos, ce_hyps s, ce_weights s) | None => (length (ce_hyps s), ce_hyps s ++ [h], ce_weights s ++ [0]) end) = (pos, hyps, ws) /\
             nth_error hyps pos = Some h' /\ (forall i, (i < n)%nat -> conf h' i = conf h i) /\ length ws = length hyps /\ is_dist ws /\ mvote conf y ws hyps = mvote conf y (ce_weights s) (ce_hyps s)).
          { pose proof (position_spec (fun f => eqH f h) (ce_hyps s)) as P. destruct (position _ _) as [pos|].
            - destruct P as [h' [P1 P2]]. exists pos, (ce_hyps s), (ce_weights s), h'. repeat split; try assumption; [apply Heq; exact P2|apply Dw|apply Dw].
            - exists (length (ce_hyps s)), (ce_hyps s ++ [h]), (ce_weights s ++ [0]), h. split; [reflexivity|]. split; [rewrite nth_error_app2, Nat.sub_diag by lia; reflexivity|]. split; [reflexivity|].
              split; [rewrite !app_length; simpl; lia|]. split; [|apply mvote_push, Lw]. destruct Dw as [D1 D2]. split; [|rewrite rsum_app; simpl; lra]. intros x Hx. apply in_app_or in Hx. destruct Hx as [Hx|[<-|[]]]; [apply D1, Hx|lra]. }
          destruct K as [pos [hyps [ws [h' [EK [K1 [K2 [K3 [K4 K5]]]]]]]]]. rewrite EK in *.
          assert (Eh : edge_of y d (conf h') = edge_of y d (conf h)) by (apply edge_ext; exact K2).
          pose proof (edge_mvote_ext d _ _ _ _ K5) as Ev.
          assert (Hb2 : best n eta nu d (mvote conf y ws hyps)) by (rewrite K5; exact Hb).
          destruct (fw_progress conf y eta nu Hn He Hnu Hmarg (mkFw eta nu ty) t d ws hyps pos h' Hty eq_refl Ht K3 K4 K1 Hb2) as [ws' [E' [L' [D' P']]]].
          { rewrite Eh, Ev. lra. }
          rewrite E' in *. cbn [bind] in *. split; [exact Hstep|]. right. cbn [ce_weights ce_hyps]. split; [lia|]. split; [exact L'|]. split; [exact D'|].
          intros g Hg d' Hb'. specialize (P' d' Hb'). rewrite Eh, Ev, K5 in P'. fold n in P'.
          rewrite Eedges in Hg. apply Forall_app in Hg. destruct Hg as [Hg1 Hg]. apply Forall_inv in Hg. specialize (G g Hg1 d Hb).
          pose proof (edge_le_phi conf y eta nu Hn He Hnu d _ _ Hb) as P2. fold n in P2.
          set (num := edge_of y d (conf h) - edge_of y d (vote conf (combine (ce_weights s) (ce_hyps s)))) in *.
          replace (S t) with (t + 1)%nat by lia.
          assert (R := fw_recursion eta t (g - phi n eta d (mvote conf y (ce_weights s) (ce_hyps s))) num (g - phi n eta d' (mvote conf y ws' hyps)) Ht He).
          assert (R1 : g - phi n eta d (mvote conf y (ce_weights s) (ce_hyps s)) <= num) by (unfold num; lra). specialize (R R1 ltac:(lra) ltac:(lra)). lra.
  Qed.

  Lemma g_run_from fuel t tr s : GInv t s tr ->
    match run_from (cerlpboost conf eqH produce y) fuel t tr s with
    | Finished tr' f => GEnd tr' f
    | Crashed tr' p => p = AssertFailed /\ tr' = [repeat (1 / INR n) n] /\ edge_of y (repeat (1 / INR n) n) (conf (produce 1%nat (repeat (1 / INR n) n))) <= ht
    | Unfinished _ => True
    end.
  Proof.
    revert t tr s. induction fuel as [|fuel IH]; intros t tr s HI; cbn [run_from]; [exact I|].
    pose proof (ginv_step t s tr HI) as St. change (b_boost (cerlpboost conf eqH produce y)) with (cerlp_boost conf eqH produce y). change (b_post (cerlpboost conf eqH produce y)) with (@cerlp_post H).
    destruct (cerlp_boost conf eqH produce y t s) as [q [[s' [|it]]|p]]; [apply IH; exact St| |destruct St].
    destruct (cerlp_post s') as [f|p]; [exact St|]. destruct St as [A [_ [B C]]]. auto.
  Qed.
End Run.

Lemma cerlp_pre_ok {H} y (s : @cerlp H) : is_valid_binary_instance y = Ok tt -> ce_half_tol s <> 0 ->
  cerlp_pre y s = Ok (mkCerlp (repeat (1 / INR (length y)) (length y)) (ce_half_tol s)
     (mkFw (ln (INR (length y) / fw_nu (ce_fw s)) / ce_half_tol s) (fw_nu (ce_fw s)) (fw_type (ce_fw s))) [] [] (cerlp_max_loop (ce_half_tol s) (fw_nu (ce_fw s)) (length y))).
Proof. intros Hv Hh. unfold cerlp_pre. rewrite Hv. cbn [bind]. rewrite Reqb_false by exact Hh. reflexivity. Qed.

Lemma cerlp_run_cases {H} (conf : H -> nat -> R) eqH produce y fuel (s : @cerlp H) :
  (exists p, run (cerlpboost conf eqH produce y) fuel s = Crashed [] p /\ (p = AssertFailed \/ ce_half_tol s = 0 /\ p = NonFinite) /\ (is_valid_binary_instance y = Panic AssertFailed \/ ce_half_tol s = 0)) \/
  ((0 < length y)%nat /\ ce_half_tol s <> 0 /\ exists s0, run (cerlpboost conf eqH produce y) fuel s = run_from (cerlpboost conf eqH produce y) fuel 1 [] s0 /\
   ce_weights s0 = [] /\ ce_hyps s0 = [] /\ QInv y (ce_half_tol s) (fw_nu (ce_fw s)) (fw_type (ce_fw s)) 1 s0 []).
Proof.
  unfold run. change (b_pre (cerlpboost conf eqH produce y)) with (@cerlp_pre H y).
  destruct (is_valid_binary_instance y) as [[]|p] eqn:Ev.
  - destruct (Req_EM_T (ce_half_tol s) 0) as [E|E].
    + left. unfold cerlp_pre. rewrite Ev. cbn [bind]. rewrite Reqb_true by exact E. exists NonFinite. auto.
    + right. split; [apply valid_instance_nonempty, Ev|]. split; [exact E|]. rewrite (cerlp_pre_ok y s Ev E). eexists. split; [reflexivity|].
      cbn [ce_weights ce_hyps]. split; [reflexivity|]. split; [reflexivity|]. repeat split; simpl; try lia. constructor.
  - left. unfold cerlp_pre. rewrite Ev. cbn [bind]. exists p. assert (p = AssertFailed).
    { unfold is_valid_binary_instance in Ev. destruct (negb _); [congruence|]. destruct (Nat.eqb _ _); congruence. } subst. auto.
Qed.

(** ** C62: every distribution shown to the weak learner is capped by 1/nu, for every step-size rule *)
Lemma P_C62_cerlp_queries_capped :
  forall (H : Type) (conf : H -> nat -> R) (eqH : H -> H -> bool) (produce : nat -> list R -> H) (y : list R) (s : cerlp) (fuel : nat) d,
  1 <= fw_nu (ce_fw s) <= INR (length y) ->
  In d (trace_of (run (cerlpboost conf eqH produce y) fuel s)) -> capped (fw_nu (ce_fw s)) y d.
Proof.
  intros H conf eqH produce y s fuel d Hnu Hd.
  destruct (cerlp_run_cases conf eqH produce y fuel s) as [[p [E _]]|[Hn [Hh [s0 [E [_ [_ HQ]]]]]]]; rewrite E in Hd; [destruct Hd|].
  pose proof (proj1 (run_from_inv (cerlpboost conf eqH produce y) (QInv y (ce_half_tol s) (fw_nu (ce_fw s)) (fw_type (ce_fw s))) (fun tr => Forall (capped (fw_nu (ce_fw s)) y) tr) (fun _ _ => True)
    ltac:(intros t s' tr [_ [_ [_ [F _]]]]; exact F)
    ltac:(intros t s' tr HI; pose proof (qinv_step conf eqH produce y _ _ _ Hn Hnu t s' tr HI) as St; change (b_boost (cerlpboost conf eqH produce y)) with (cerlp_boost conf eqH produce y);
          destruct (cerlp_boost conf eqH produce y t s') as [q [[s'' [|it]]|p]]; [exact St|split; [apply St|destruct (b_post _ s''); exact I]|apply St]) fuel 1%nat [] s0 HQ)) as F.
  rewrite Forall_forall in F. apply F, Hd.
Qed.

(** ** at most max_loop() rounds, for every rule *)
Lemma P_C62_cerlp_round_limit :
  forall (H : Type) (conf : H -> nat -> R) (eqH : H -> H -> bool) (produce : nat -> list R -> H) (y : list R) (s : cerlp) (fuel : nat),
  1 <= fw_nu (ce_fw s) <= INR (length y) ->
  let limit := ceil_usize (8 * ln (INR (length y) / fw_nu (ce_fw s)) / ce_half_tol s ^ 2) in
  (length (trace_of (run (cerlpboost conf eqH produce y) fuel s)) <= limit)%nat /\
  ((limit < fuel)%nat -> match run (cerlpboost conf eqH produce y) fuel s with Unfinished _ => False | _ => True end).
Proof.
  intros H conf eqH produce y s fuel Hnu limit.
  destruct (cerlp_run_cases conf eqH produce y fuel s) as [[p [E _]]|[Hn [Hh [s0 [E [_ [_ HQ]]]]]]]; rewrite E; [split; [simpl; lia|intros; exact I]|]. split.
  - apply (run_from_inv (cerlpboost conf eqH produce y) (QInv y (ce_half_tol s) (fw_nu (ce_fw s)) (fw_type (ce_fw s))) (fun tr => (length tr <= limit)%nat) (fun _ _ => True)).
    + intros t s' tr [_ [_ [L _]]]. exact L.
    + intros t s' tr HI. pose proof (qinv_step conf eqH produce y _ _ _ Hn Hnu t s' tr HI) as St. change (b_boost (cerlpboost conf eqH produce y)) with (cerlp_boost conf eqH produce y).
      destruct (cerlp_boost conf eqH produce y t s') as [q [[s'' [|it]]|p]]; [exact St|split; [apply St|destruct (b_post _ s''); exact I]|apply St].
    + exact HQ.
  - intros Hf. apply (q_run_from_terminates conf eqH produce y _ _ _ Hn Hnu fuel 1%nat s0 [] HQ); unfold cerlp_max_loop; fold limit; lia.
Qed.

(** ** the guarantee, for the classic and the (default) short-step rule: if every round's hypothesis has edge at least [g],
    the soft margin of the returned vote is at least g - tolerance *)
Lemma P_C62_cerlp_guarantee :
  forall (H : Type) (conf : H -> nat -> R) (eqH : H -> H -> bool) (produce : nat -> list R -> H) (y : list R) (s : cerlp) (fuel : nat) tr f g,
  fw_type (ce_fw s) = Classic \/ fw_type (ce_fw s) = ShortStep ->
  1 <= fw_nu (ce_fw s) <= INR (length y) -> 0 < ce_half_tol s ->
  (forall h i, (i < length y)%nat -> -1 <= nth i y 0 * conf h i <= 1) ->
  (forall f h, eqH f h = true -> forall i, (i < length y)%nat -> conf f i = conf h i) ->
  run (cerlpboost conf eqH produce y) fuel s = Finished tr f ->
  Forall (fun e => g <= e) (edges conf produce y tr) ->
  forall v, soft_margin (fw_nu (ce_fw s)) y (wm_confidence conf f) v -> g - 2 * ce_half_tol s <= v.
Proof.
  intros H conf eqH produce y s fuel tr f g Hty Hnu Hht Hm Heq Hrun Hg v [[d [Cd Ev]] _].
  destruct (cerlp_run_cases conf eqH produce y fuel s) as [[p [E _]]|[Hn [Hh [s0 [E [W0 [H0 HQ]]]]]]]; rewrite E in Hrun; [discriminate|].
  destruct (Req_EM_T (fw_nu (ce_fw s)) (INR (length y))) as [En|En].
  - exfalso. destruct fuel as [|fuel]; [discriminate|]. cbn [run_from] in Hrun. change (b_boost (cerlpboost conf eqH produce y)) with (cerlp_boost conf eqH produce y) in Hrun.
    unfold cerlp_boost in Hrun. destruct HQ as [_ [_ [_ [_ [_ [_ E3]]]]]]. rewrite E3 in Hrun.
    assert (T0 : cerlp_max_loop (ce_half_tol s) (fw_nu (ce_fw s)) (length y) = 0%nat).
    { unfold cerlp_max_loop. rewrite En. pose proof (lt_0_INR _ Hn). replace (INR (length y) / INR (length y)) with 1 by (field; lra). rewrite ln_1.
      assert (C : (ceil_usize (8 * 0 / ce_half_tol s ^ 2) <= 0)%nat) by (apply ceil_usize_least; simpl; unfold Rdiv; rewrite Rmult_0_r, Rmult_0_l; lra). lia. }
    rewrite T0 in Hrun. cbn [Nat.ltb Nat.leb] in Hrun. change (b_post (cerlpboost conf eqH produce y)) with (@cerlp_post H) in Hrun. unfold cerlp_post, from_slices, kept, normalize in Hrun. rewrite W0, H0 in Hrun. simpl in Hrun. rewrite Reqb_true in Hrun by reflexivity. simpl in Hrun. discriminate.
  - pose proof (g_run_from conf eqH produce y (ce_half_tol s) (fw_nu (ce_fw s)) (fw_type (ce_fw s)) Hn Hnu Hty Hht ltac:(lra) Hm Heq fuel 1%nat [] s0) as G.
    rewrite Hrun in G. rewrite <- Ev. apply G; [split; [exact HQ|left; auto]|exact Hg|exact Cd].
Qed.

Lemma vote_edge_le {H} (conf : H -> nat -> R) y d ws hs B : length ws = length hs -> is_dist ws -> (forall h, In h hs -> edge_of y d (conf h) <= B) ->
  edge_of y d (vote conf (combine ws hs)) <= B.
Proof.
  intros L [Hp Hs] Hb.
  assert (E : forall ws hs, length ws = length hs -> edge_of y d (vote conf (combine ws hs)) = rsum (map (fun p => fst p * edge_of y d (conf (snd p))) (combine ws hs))).
  { clear. induction ws as [|w ws IH]; intros [|h hs] L; simpl in L; try lia.
    - unfold edge_of, vote. simpl. rewrite (rsum_map_ext _ (fun _ => 0)); [rewrite rsum_map_const; ring|]. intros; ring.
    - cbn [combine map rsum fst snd]. rewrite <- IH by lia. unfold edge_of. rewrite <- rsum_map_mult, <- rsum_map_plus. apply rsum_map_ext. intros i _. unfold vote. simpl. ring. }
  rewrite E by exact L. apply Rle_trans with (rsum (map (fun p => B * fst p) (combine ws hs))).
  - apply rsum_map_le. intros [w h] Hin. cbn [fst snd]. pose proof (Hp w (in_combine_l _ _ _ _ Hin)). pose proof (Hb h (in_combine_r _ _ _ _ Hin)). nra.
  - rewrite rsum_map_mult. assert (Ef : map fst (combine ws hs) = ws). { clear -L. revert hs L; induction ws as [|w ws IH]; intros [|h hs] L; simpl in *; try lia; [reflexivity|]. f_equal. apply IH. lia. }
    rewrite Ef, Hs. lra.
Qed.

(** ** consequence: with a weak learner that is at least as good as every hypothesis of a class [C], the returned vote
    maximises the soft margin over the convex hull of [C] up to the tolerance *)
Lemma P_C62_cerlp_optimal :
  forall (H : Type) (conf : H -> nat -> R) (eqH : H -> H -> bool) (produce : nat -> list R -> H) (y : list R) (s : cerlp) (fuel : nat) tr f (C : H -> Prop),
  fw_type (ce_fw s) = Classic \/ fw_type (ce_fw s) = ShortStep ->
  1 <= fw_nu (ce_fw s) <= INR (length y) -> 0 < ce_half_tol s ->
  (forall h i, (i < length y)%nat -> -1 <= nth i y 0 * conf h i <= 1) ->
  (forall f h, eqH f h = true -> forall i, (i < length y)%nat -> conf f i = conf h i) ->
  (forall t d h, C h -> edge_of y d (conf h) <= edge_of y d (conf (produce t d))) ->
  run (cerlpboost conf eqH produce y) fuel s = Finished tr f ->
  forall ws hs v v', length ws = length hs -> is_dist ws -> (forall h, In h hs -> C h) ->
  soft_margin (fw_nu (ce_fw s)) y (vote conf (combine ws hs)) v' -> soft_margin (fw_nu (ce_fw s)) y (wm_confidence conf f) v ->
  v' - 2 * ce_half_tol s <= v.
Proof.
  intros H conf eqH produce y s fuel tr f C Hty Hnu Hht Hm Heq Hwl Hrun ws hs v v' L D HC [_ Hv'] Hv.
  apply (P_C62_cerlp_guarantee H conf eqH produce y s fuel tr f v' Hty Hnu Hht Hm Heq Hrun); [|exact Hv].
  apply Forall_forall. intros e He. unfold edges in He. apply in_map_iff in He. destruct He as [[t d] [<- Hp]]. cbn [fst snd]. apply in_combine_r in Hp.
  assert (Cd : capped (fw_nu (ce_fw s)) y d) by (apply (P_C62_cerlp_queries_capped H conf eqH produce y s fuel); [exact Hnu|rewrite Hrun; exact Hp]).
  eapply Rle_trans; [apply (Hv' d Cd)|]. apply vote_edge_le; [exact L|exact D|]. intros h Hh. apply Hwl, HC, Hh.
Qed.

(** ** when it panics *)
Lemma P_C62_cerlp_crash_only_when :
  forall (H : Type) (conf : H -> nat -> R) (eqH : H -> H -> bool) (produce : nat -> list R -> H) (y : list R) (s : cerlp) (fuel : nat) tr p,
  fw_type (ce_fw s) = Classic \/ fw_type (ce_fw s) = ShortStep ->
  is_valid_binary_instance y = Ok tt -> 1 <= fw_nu (ce_fw s) < INR (length y) -> 0 < ce_half_tol s ->
  (forall h i, (i < length y)%nat -> -1 <= nth i y 0 * conf h i <= 1) ->
  (forall f h, eqH f h = true -> forall i, (i < length y)%nat -> conf f i = conf h i) ->
  run (cerlpboost conf eqH produce y) fuel s = Crashed tr p ->
  let u := repeat (1 / INR (length y)) (length y) in
  p = AssertFailed /\ tr = [u] /\ edge_of y u (conf (produce 1%nat u)) <= ce_half_tol s.
Proof.
  intros H conf eqH produce y s fuel tr p Hty Hv Hnu Hht Hm Heq Hrun u. assert (Hnu2 : 1 <= fw_nu (ce_fw s) <= INR (length y)) by lra.
  destruct (cerlp_run_cases conf eqH produce y fuel s) as [[p' [E [_ [Hx|Hx]]]]|[Hn [Hh [s0 [E [W0 [H0 HQ]]]]]]]; [congruence|lra|]. rewrite E in Hrun.
  pose proof (g_run_from conf eqH produce y (ce_half_tol s) (fw_nu (ce_fw s)) (fw_type (ce_fw s)) Hn Hnu2 Hty Hht ltac:(lra) Hm Heq fuel 1%nat [] s0) as G.
  rewrite Hrun in G. apply G. split; [exact HQ|left; auto].
Qed.

(** a first hypothesis with edge at most half the tolerance makes the run panic, so does nu = n: nothing was learned yet
    and the empty vote cannot be normalised *)
Lemma P_C62_cerlp_always_answers_refuted :
  forall (H : Type) (conf : H -> nat -> R) (eqH : H -> H -> bool) (produce : nat -> list R -> H) (y : list R) (s : cerlp) (fuel : nat),
  is_valid_binary_instance y = Ok tt -> 0 < ce_half_tol s -> 1 <= fw_nu (ce_fw s) <= INR (length y) ->
  let u := repeat (1 / INR (length y)) (length y) in
  fw_nu (ce_fw s) = INR (length y) \/ edge_of y u (conf (produce 1%nat u)) <= ce_half_tol s ->
  exists tr, run (cerlpboost conf eqH produce y) (S fuel) s = Crashed tr AssertFailed.
Proof.
  intros H conf eqH produce y s fuel Hv Hht Hnu u Hor.
  destruct (cerlp_run_cases conf eqH produce y (S fuel) s) as [[p' [E [_ [Hx|Hx]]]]|[Hn [Hh [s0 [E [W0 [H0 HQ]]]]]]]; [congruence|lra|]. rewrite E.
  cbn [run_from]. change (b_boost (cerlpboost conf eqH produce y)) with (cerlp_boost conf eqH produce y). change (b_post (cerlpboost conf eqH produce y)) with (@cerlp_post H).
  assert (Epost : forall s1 : @cerlp H, ce_weights s1 = [] -> ce_hyps s1 = [] -> cerlp_post s1 = Panic AssertFailed).
  { intros s1 A B. unfold cerlp_post, from_slices, kept, normalize. rewrite A, B. simpl. rewrite Reqb_true by reflexivity. reflexivity. }
  unfold cerlp_boost. destruct HQ as [_ [_ [_ [_ [Q1 [Q2 Q3]]]]]].
  destruct (Nat.ltb_spec (ce_max_iter s0) 1) as [L|L]; [rewrite Epost by assumption; eexists; reflexivity|].
  destruct Hor as [En|He].
  { exfalso. rewrite Q3 in L. unfold cerlp_max_loop in L. rewrite En in L. pose proof (lt_0_INR _ Hn). replace (INR (length y) / INR (length y)) with 1 in L by (field; lra). rewrite ln_1 in L.
    assert (C : (ceil_usize (8 * 0 / ce_half_tol s ^ 2) <= 0)%nat) by (apply ceil_usize_least; simpl; unfold Rdiv; rewrite Rmult_0_r, Rmult_0_l; lra). lia. }
  rewrite Q2. cbn [fw_eta fw_nu]. destruct (query_capped conf y (ce_half_tol s) (fw_nu (ce_fw s)) Hn Hnu (ce_weights s0) (ce_hyps s0)) as [d [Ed [Hb Cd]]]. rewrite Ed.
  rewrite W0, H0 in *.
  assert (Ud : d = u).
  { apply (uniform_best (length y) _ _ d (mvote conf y [] []) Hn Hb). intros i Hi. unfold mvote. rewrite margins_nth by exact Hi. unfold vote. simpl. ring. }
  rewrite edge_of_hypothesis_spec, edge_of_weighted_spec by apply Cd. rewrite Ud.
  assert (Z : edge_of y u (vote conf (combine [] [])) = 0).
  { unfold edge_of. rewrite (rsum_map_ext _ (fun _ => 0)); [rewrite rsum_map_const; ring|]. intros i _. unfold vote. simpl. ring. }
  rewrite Z, Q1, Rminus_0_r. rewrite Rleb_true by exact He. rewrite Epost by reflexivity. eexists. reflexivity.
Qed.

(** the default setting on labels (+1,-1) with the perfect hypothesis: the run finishes, with edges 1 *)
Example C62_nonvacuous :
  let conf := fun (_ : unit) (i : nat) => nth i y2 0 in
  exists fuel tr f, run (cerlpboost conf (fun _ _ => true) (fun _ _ => tt) y2) fuel (cerlp_init y2) = Finished tr f /\
  Forall (fun e => 1 <= e) (edges conf (fun _ _ => tt) y2 tr).
Proof.
  intros conf. set (pr := fun (_ : nat) (_ : list R) => tt). set (s := @cerlp_init unit y2).
  assert (Hm : forall (h : unit) i, (i < length y2)%nat -> -1 <= nth i y2 0 * conf h i <= 1) by (unfold conf; intros h [|[|i]] Hi; simpl in *; try lia; lra).
  assert (Hd : forall d t, capped 1 y2 d -> edge_of y2 d (conf t) = 1).
  { intros d t [L [_ S]]. destruct d as [|a [|b [|]]]; simpl in L; try lia. unfold edge_of, conf, y2. simpl in *. lra. }
  pose proof (P_C62_cerlp_round_limit unit conf (fun _ _ => true) pr y2 s) as Lim.
  assert (Hnu : 1 <= fw_nu (ce_fw s) <= INR (length y2)) by (simpl; lra).
  set (limit := ceil_usize (8 * ln (INR (length y2) / fw_nu (ce_fw s)) / ce_half_tol s ^ 2)) in *.
  destruct (Lim (S limit) Hnu) as [_ T]. specialize (T ltac:(lia)). clear Lim.
  assert (HE : forall tr, trace_of (run (cerlpboost conf (fun _ _ => true) pr y2) (S limit) s) = tr -> Forall (fun e => 1 <= e) (edges conf pr y2 tr)).
  { intros tr Etr. apply Forall_forall. intros e He. unfold edges in He. apply in_map_iff in He. destruct He as [[t d] [<- Hp]]. cbn [fst snd]. apply in_combine_r in Hp. rewrite <- Etr in Hp.
    apply P_C62_cerlp_queries_capped in Hp; [|exact Hnu]. rewrite (Hd d _ Hp). lra. }
  exists (S limit). destruct (run (cerlpboost conf (fun _ _ => true) pr y2) (S limit) s) as [tr f|tr p|tr] eqn:E.
  - exists tr, f. split; [reflexivity|]. apply HE. reflexivity.
  - exfalso. apply P_C62_cerlp_crash_only_when in E; [|right; reflexivity|apply y2_valid|simpl; lra|simpl; lra|exact Hm|intros; reflexivity].
    destruct E as [_ [_ E]]. rewrite Hd in E; [simpl in E; lra|]. apply (capped_uniform 1 y2); [simpl; lia|exact Hnu].
  - contradiction.
Qed.
