(** Properties C33 (ERLPBoost part), C35: the quadratic programs of ERLPBoost, its regularisation, its termination. *)
From Verif Require Import Base Spec RegSpec LPSpec Utils UtilsProofs UtilsFacts WMajority WMajorityProofs Booster Reach AdaBoost AdaBoostProofs
  AdaBoostMain AdaBoostMore Num BinsProofs FrankWolfeProofs CERLPProofs Csc ConicSpec CscProofs LPBoost LPBoostProofs LPBoostFacts EdgeLP EdgeProofs ERLP ERLPProofs.
Open Scope R_scope.

Lemma map_repeat_R (f : R -> R) a k : map f (repeat a k) = repeat (f a) k.
Proof. induction k; simpl; [reflexivity|]. rewrite IHk. reflexivity. Qed.

Lemma capped_in {nu y d} : capped nu y d -> in_capped_simplex nu d.
Proof. intros C. apply C. Qed.

Lemma reg_edge_entropy eta y d f : length d = length y -> edge_of y d f + entropy_from_uni_distribution d / eta = reg_edge eta y d f.
Proof. intros L. unfold reg_edge, entropy_from_uni_distribution. rewrite entropy_xlnx, L. reflexivity. Qed.

Lemma erlp_eta_half ht nu n : 1 / 2 <= erlp_eta ht nu n.
Proof. apply Rmax_l. Qed.

(** ** C35: the regularisation weight keeps the entropy term between 0 and half the tolerance on every capped
    distribution *)
Lemma P_C35_regularisation : forall ht nu y d, 0 < ht -> 1 <= nu <= INR (length y) -> capped nu y d ->
  0 <= entropy_from_uni_distribution d / erlp_eta ht nu (length y) <= ht.
Proof.
  intros ht nu y d Hht Hnu C. pose proof (erlp_eta_half ht nu (length y)) as He. set (eta := erlp_eta ht nu (length y)) in *.
  pose proof (capped_is_dist y nu d C) as D. destruct C as [L Cc]. assert (Hi : 0 < / eta) by (apply Rinv_0_lt_compat; lra).
  destruct (P_C43_entropy_bounds d D) as [_ [E0 _]]. split; [apply Rmult_le_pos; lra|].
  pose proof (entropy_upper_cap nu d (proj1 Hnu) Cc) as E1. unfold entropy_from_uni_distribution in *. rewrite L in *.
  assert (E : entropy d + ln (INR (length y)) <= ln (INR (length y) / nu)). { unfold Rdiv. rewrite ln_mult, ln_Rinv by (try apply Rinv_0_lt_compat; lra). lra. }
  apply Rdiv_le_iff; [lra|]. assert (M : ln (INR (length y) / nu) / ht <= eta) by apply Rmax_r. apply (proj1 (Rdiv_le_iff _ _ _ Hht)) in M. lra.
Qed.

Section Run.
  Context {H : Type}.
  Variable conf : H -> nat -> R.
  Variable solve : conic -> answer.
  Variable produce : nat -> list R -> H.
  Variable y : list R.
  Variable inner : nat.
  Variable s0 : @erlp H.
  Notation n := (length y).
  Notation b := (erlpboost conf solve produce y inner).
  Notation eta := (erlp_eta (er_half_tol s0) (er_nu s0) (length y)).
  Notation nu := (er_nu s0).
  Notation ht := (er_half_tol s0).
  Notation N := (erlp_max_loop (er_half_tol s0) (er_nu s0) (length y)).

  Lemma erlp_pre_ok s : erlp_pre y s0 = Ok s -> is_valid_binary_instance y = Ok tt /\ (0 < n)%nat /\ 0 < ht < 1 /\ 1 <= nu <= INR n /\
    s = mkErlp (repeat (1 / INR n) n) 1 (-1) eta ht (Some (qm_init eta n (1 / nu))) [] nu N.
  Proof.
    unfold erlp_pre. destruct (is_valid_binary_instance y) as [[]|p] eqn:E; cbn [bind]; [|discriminate]. pose proof (valid_instance_nonempty y E) as Hn.
    destruct (Rleb_spec 0 ht) as [H1|H1], (Rltb_spec ht 1) as [H2|H2]; cbn [andb assert_ bind]; try discriminate.
    destruct (Reqb_spec ht 0) as [H3|H3]; [discriminate|]. unfold check_nu.
    destruct (Rleb_spec 1 nu) as [H4|H4], (Rleb_spec nu (INR n)) as [H5|H5]; cbn [andb assert_ bind]; try discriminate.
    injection 1 as <-. repeat split; auto; lra.
  Qed.

  (** the number of rounds never exceeds max_loop, whatever the solver and the weak learner do *)
  Definition RInv (t : nat) (s : @erlp H) (tr : trace) : Prop := er_max_iter s = N /\ (length tr <= N)%nat /\ length tr = (t - 1)%nat /\ (1 <= t)%nat.

  Lemma rinv_step t s tr : RInv t s tr ->
       match b_boost b t s with
       | (q, Panic _) => (length (tr ++ q) <= N)%nat
       | (q, Ok (s', Continue)) => RInv (S t) s' (tr ++ q)
       | (q, Ok (s', Break _)) => (length (tr ++ q) <= N)%nat /\ match b_post b s' with Ok o => True | Panic _ => True end
       end.
  Proof.
    intros [E [L1 [L2 L3]]]. change (b_boost b t s) with (erlp_boost conf solve produce y inner t s). unfold erlp_boost. rewrite E.
    destruct (Nat.ltb_spec N t) as [Hl|Hl].
    - rewrite app_nil_r. split; [exact L1|]. destruct (b_post b s); exact Logic.I.
    - assert (L4 : (length (tr ++ [er_dist s]) <= N)%nat) by (rewrite app_length; cbn [length]; lia).
      destruct (er_stops _ _ _ _); [split; [exact L4|]; destruct (b_post b _); exact Logic.I|].
      destruct (er_model s) as [m|]; [|exact L4]. destruct (qm_update _ _ _ _ _ _) as [m'|]; cbn [bind]; [|exact L4].
      destruct (er_new_gamma_star _ _ _ _ _) as [gs|]; cbn [bind]; [|exact L4].
      unfold RInv. cbn [er_max_iter]. split; [reflexivity|]. split; [exact L4|]. split; [rewrite app_length; cbn [length]; lia|lia].
  Qed.

  (** ** the programs *)
  Hypothesis Hlen : forall p, length (a_x (solve p)) = length (k_q p).

  Lemma turns_ok hs m0 old0 m old : (0 < n)%nat -> 1 <= nu <= INR n -> qpm_ok conf y nu eta hs m0 -> qm_turns solve m0 old0 m old -> qpm_ok conf y nu eta hs m.
  Proof.
    intros Hn Hnu O0 Tu. induction Tu as [|m old p m' Tu IH Ep Es Et Ea]; [exact O0|]. assert (O := IH).
    destruct IH as [E1 [E2 [E3 [E4 [E5 [E6 E7]]]]]]. rewrite (program_ok conf y nu eta Hn hs m O) in Ep. injection Ep as <-.
    unfold qm_accept, slice_from in Ea. destruct (Nat.leb 1 _) eqn:L1; cbn [bind] in Ea; [|discriminate]. destruct (Nat.leb _ _) eqn:L2 in Ea; cbn [bind] in Ea; [|discriminate]. assert (X : forall a b : qpmodel, Ok a = Ok b -> a = b) by congruence. apply X in Ea. subst m'.
    unfold qpm_ok. cbn [qm_n qm_T qm_margins qm_cap qm_eta qm_dist]. repeat split; try assumption.
    - rewrite map_length, skipn_length, Hlen. cbn [er_conic k_q]. rewrite (er_q_length y eta _ E6). cbn [offs]. lia.
    - intros d Hd. apply in_map_iff in Hd. destruct Hd as [v [<- _]]. apply Rmax_r.
  Qed.

  Lemma loop_turns m0 old0 : forall fuel m old m', qm_turns solve m0 old0 m old -> qm_loop solve fuel m old = Ok m' -> exists old', qm_turns solve m0 old0 m' old'.
  Proof.
    induction fuel as [|fuel IH]; intros m old m' Tu E; cbn [qm_loop] in E; [discriminate|].
    destruct (qm_program m) as [p|] eqn:Ep; cbn [bind] in E; [|discriminate]. destruct (status_accepted (a_status (solve p))) eqn:Es; cbn [assert_ bind] in E; [|discriminate].
    destruct (Rltb _ _ || _) eqn:Et; [injection E as <-; exists old; exact Tu|]. destruct (qm_accept m (solve p)) as [m1|] eqn:Ea; cbn [bind] in E; [|discriminate].
    apply (IH m1 (a_obj (solve p)) m'); [|exact E]. econstructor; eassumption.
  Qed.

  Lemma reach_ok t s : reach b s0 t s -> (0 < n)%nat /\ 1 <= nu <= INR n /\ er_eta s = eta /\ (exists m, er_model s = Some m /\ qpm_ok conf y nu eta (er_hyps s) m).
  Proof.
    induction 1 as [s E|t s q s' _ IH E].
    - apply erlp_pre_ok in E. destruct E as [_ [Hn [Hh [Hnu ->]]]]. cbn [er_eta er_model er_hyps]. repeat split; try lra; [exact Hn|].
      eexists. split; [reflexivity|]. unfold qm_init, qpm_ok. cbn [qm_n qm_T qm_margins qm_cap qm_eta qm_dist]. repeat split; [apply eq_sym, erows_nil|apply repeat_length|].
      intros d Hd. apply repeat_spec in Hd. subst d. left. apply Rdiv_lt_0_compat; lra.
    - destruct IH as [Hn [Hnu [Ee [m [Em Om]]]]]. change (b_boost b t s) with (erlp_boost conf solve produce y inner t s) in E. unfold erlp_boost in E.
      destruct (Nat.ltb _ _); [discriminate|]. destruct (er_stops _ _ _ _); [discriminate|]. rewrite Em in E.
      destruct (qm_update _ _ _ _ _ _) as [m'|] eqn:Eu; cbn [bind] in E; [|discriminate]. destruct (er_new_gamma_star _ _ _ _ _) as [gs|]; cbn [bind] in E; [|discriminate].
      injection E as _ <-. cbn [er_eta er_model er_hyps]. repeat split; try assumption; try lra. exists m'. split; [reflexivity|].
      unfold qm_update in Eu. apply (loop_turns (qm_start conf y m (produce t (er_dist s))) 1000) in Eu; [|constructor]. destruct Eu as [old' Tu].
      apply (turns_ok _ _ _ _ _ Hn Hnu (proj1 (start_ok conf y nu eta Hn Hnu _ _ _ Om)) Tu).
  Qed.
End Run.

(** ** C35: ERLPBoost asks the weak learner at most max_loop times, whatever solver and weak learner do *)
Lemma P_C35_rounds : forall (H : Type) (conf : H -> nat -> R) solve produce y inner (s : @erlp H) fuel,
  (length (trace_of (run (erlpboost conf solve produce y inner) fuel s)) <= erlp_max_loop (er_half_tol s) (er_nu s) (length y))%nat.
Proof.
  intros H conf solve produce y inner s fuel.
  apply (run_inv (erlpboost conf solve produce y inner) (RInv y s) (fun tr => (length tr <= erlp_max_loop (er_half_tol s) (er_nu s) (length y))%nat) (fun _ _ => True)).
  - simpl. lia.
  - intros s1 E. apply (erlp_pre_ok y) in E. destruct E as [_ [_ [_ [_ ->]]]]. split; [reflexivity|]. simpl. lia.
  - intros t s1 tr HI. apply HI.
  - apply rinv_step.
Qed.

(** ** C33, ERLPBoost: every quadratic program handed to the solver is well formed, its feasible points are exactly the
    documented ones (the distribution capped by 1/nu, the edge of every received hypothesis at most gamma), and its
    objective is the documented second-order approximation at a positive point *)
Lemma P_C33_erlpboost_program : forall (H : Type) (conf : H -> nat -> R) solve produce y inner (s0 : @erlp H) t s m m1 old p,
  (forall p, length (a_x (solve p)) = length (k_q p)) ->
  reach (erlpboost conf solve produce y inner) s0 t s -> er_model s = Some m ->
  qm_turns solve (qm_start conf y m (produce t (er_dist s))) 1000 m1 old -> qm_program m1 = Ok p ->
  let hs := er_hyps s ++ [produce t (er_dist s)] in
  csc_ok (k_A p) /\ csc_ok (k_P p) /\
  (forall x, feasible p x <-> exists g d, x = g :: d /\ edge_constraints conf (er_nu s0) y hs g d) /\
  exists q, length q = length y /\ (forall v, In v q -> 0 < v) /\
    forall g d, objective p (g :: d) = sqp_objective (erlp_eta (er_half_tol s0) (er_nu s0) (length y)) q g d.
Proof.
  intros H conf solve produce y inner s0 t s m m1 old p Hlen Hr Em Tu Ep hs.
  destruct (reach_ok conf solve produce y inner s0 Hlen t s Hr) as [Hn [Hnu [Ee [m' [Em' Om]]]]]. rewrite Em in Em'. injection Em' as <-.
  set (nu := er_nu s0) in *. set (eta := erlp_eta (er_half_tol s0) nu (length y)) in *.
  assert (Om1 : qpm_ok conf y nu eta hs m1) by (eapply turns_ok; try eassumption; apply (start_ok conf y nu eta Hn Hnu _ _ _ Om)).
  rewrite (program_ok conf y nu eta Hn hs m1 Om1) in Ep. injection Ep as <-. destruct Om1 as [_ [_ [_ [_ [_ [Lq Hq]]]]]].
  pose proof (er_q_length y eta _ Lq) as Ll.
  split; [apply edge_matrix_ok|]. split; [apply (diag_ok 1)|]. split.
  - intros x. unfold er_conic. rewrite (edge_feasible conf y true 1 hs _ _ (1 / nu) 0 Ll). cbn [offs gof]. split.
    + intros [L [F0 [F1 [F2 F3]]]]. destruct x as [|g d]; [simpl in L; lia|]. cbn [nth Nat.add] in *. exists g, d. split; [reflexivity|].
      assert (Ld : length d = length y) by (simpl in L; lia). split; [split; [exact Ld|]; split|].
      * intros v Hv. apply (In_nth _ _ 0) in Hv. destruct Hv as [i [Hi <-]]. rewrite Ld in Hi. specialize (F1 i Hi). specialize (F2 i Hi). lra.
      * etransitivity; [|exact F0]. rewrite <- Ld. f_equal. symmetry. apply map_nth_seq.
      * intros h Hh. apply In_nth_error in Hh. destruct Hh as [k Ek]. assert (Hk : (k < length hs)%nat) by (apply nth_error_Some; congruence). rewrite (edge_marg conf y hs d k h Ld Ek). specialize (F3 k Hk). lra.
    + intros [g [d [-> [[Ld [C1 C2]] C3]]]]. cbn [length nth Nat.add]. split; [lia|]. split; [etransitivity; [|exact C2]; rewrite <- Ld; f_equal; apply map_nth_seq|].
      split; [intros i Hi; apply C1, nth_In; lia|]. split; [intros i Hi; rewrite Rmult_1_l; apply C1, nth_In; lia|].
      intros k Hk. destruct (nth_error hs k) as [h|] eqn:Ek; [|apply nth_error_None in Ek; lia]. rewrite <- (edge_marg conf y hs d k h Ld Ek), Rplus_0_l. apply C3. eapply nth_error_In; exact Ek.
  - exists (map (fun v => v + QP_EPS) (qm_dist m1)). split; [rewrite map_length; exact Lq|]. split.
    + intros v Hv. apply in_map_iff in Hv. destruct Hv as [u [<- Hu]]. specialize (Hq u Hu). pose proof QP_EPS_pos. lra.
    + intros g d. rewrite (er_objective conf y nu eta Hn (erlp_eta_half _ _ _) hs _ (g :: d) Lq Hq). reflexivity.
Qed.

(** ** the run with an exact solver *)
Section Exact.
  Context {H : Type}.
  Variable conf : H -> nat -> R.
  Variable solve : conic -> answer.
  Variable produce : nat -> list R -> H.
  Variable y : list R.
  Variable inner : nat.
  Variable s0 : @erlp H.
  Notation n := (length y).
  Notation b := (erlpboost conf solve produce y inner).
  Notation eta := (erlp_eta (er_half_tol s0) (er_nu s0) (length y)).
  Notation nu := (er_nu s0).
  Notation ht := (er_half_tol s0).
  Notation N := (erlp_max_loop (er_half_tol s0) (er_nu s0) (length y)).
  Hypothesis Hex : forall p, erlp_asks conf solve produce y inner s0 p -> solves p (solve p).
  Hypothesis Hmarg : forall h i, (i < n)%nat -> -1 <= nth i y 0 * conf h i <= 1.
  Hypothesis Hinner : (1001 + ln (INR n) / eta) * 1000000000 + 1 < INR inner.

  Definition reg_edges (tr : trace) : list R :=
    map (fun p => reg_edge eta y (snd p) (conf (produce (fst p) (snd p)))) (combine (seq 1 (length tr)) tr).

  Lemma reg_edges_app tr d : reg_edges (tr ++ [d]) = reg_edges tr ++ [reg_edge eta y d (conf (produce (S (length tr)) d))].
  Proof. unfold reg_edges. rewrite app_length. simpl length. rewrite seq_app. rewrite combine_app_eq by apply seq_length. rewrite map_app. reflexivity. Qed.

  Definition EInv (t : nat) (s : @erlp H) (tr : trace) : Prop :=
    (0 < n)%nat /\ 1 <= nu <= INR n /\ 0 < ht < 1 /\ (1 <= t)%nat /\ length tr = (t - 1)%nat /\ (length tr <= N)%nat /\ Forall (capped nu y) tr /\
    er_hyps s = answers produce tr /\ er_eta s = eta /\ er_half_tol s = ht /\ er_nu s = nu /\ er_max_iter s = N /\ capped nu y (er_dist s) /\
    (er_gamma_hat s = 1 \/ In (er_gamma_hat s) (reg_edges tr)) /\
    (exists m, er_model s = Some m /\ qpm_ok conf y nu eta (er_hyps s) m /\
      ((t = 1%nat /\ er_gamma_star s = -1 /\ er_dist s = repeat (1 / INR n) n) \/
       (solved_ok conf y nu eta (er_hyps s) m /\ qm_dist m = er_dist s /\
        er_gamma_star s = reg_edge eta y (er_dist s) (vote conf (combine (qm_weights m) (er_hyps s)))))).

  Lemma einv_first s : b_pre b s0 = Ok s -> EInv 1 s [].
  Proof.
    intros E. apply (erlp_pre_ok y) in E. destruct E as [_ [Hn [Hh [Hnu ->]]]]. unfold EInv. cbn [er_hyps er_eta er_half_tol er_nu er_max_iter er_dist er_gamma_hat er_model er_gamma_star].
    split; [exact Hn|]. split; [exact Hnu|]. split; [exact Hh|]. split; [lia|]. split; [reflexivity|]. split; [simpl; lia|]. split; [constructor|]. split; [reflexivity|]. do 4 (split; [reflexivity|]).
    split; [apply (uniform_capped y nu Hnu)|]. split; [left; reflexivity|].
    eexists. split; [reflexivity|]. split; [|left; repeat split; reflexivity]. unfold qm_init, qpm_ok. cbn [qm_n qm_T qm_margins qm_cap qm_eta qm_dist]. repeat split; [apply eq_sym, erows_nil|apply repeat_length|].
      intros d Hd. apply repeat_spec in Hd. subst d. left. apply Rdiv_lt_0_compat; lra.
  Qed.

  Lemma gamma_star_ok hs m : solved_ok conf y nu eta hs m ->
    er_new_gamma_star conf y (qm_dist m) eta hs = Ok (reg_edge eta y (qm_dist m) (vote conf (combine (qm_weights m) hs))).
  Proof.
    intros [_ [C [_ [_ [h [Hh [Hmax Ev]]]]]]]. unfold er_new_gamma_star. destruct C as [Ld _].
    rewrite (map_ext _ (fun h => edge_of y (qm_dist m) (conf h))) by (intros; apply edge_of_hypothesis_spec; exact Ld).
    destruct hs as [|h0 hs]; [destruct Hh|]. cbn [reduce_max map].
    destruct (fold_max (map (fun h => edge_of y (qm_dist m) (conf h)) hs) (edge_of y (qm_dist m) (conf h0))) as [F1 [F2 F3]].
    f_equal. rewrite <- (reg_edge_entropy eta y _ _ Ld). f_equal. rewrite Ev. apply Rle_antisym.
    - destruct F3 as [-> | F3]; [apply Hmax; left; reflexivity|]. apply in_map_iff in F3. destruct F3 as [h' [<- Hh']]. apply Hmax. right. exact Hh'.
    - destruct Hh as [<- | Hh]; [exact F1|]. apply F2. apply in_map_iff. exists h. split; [reflexivity|exact Hh].
  Qed.

  Definition stops_well (tr : trace) (f : wmajority H) : Prop :=
    forall g, g <= 1 -> (forall e, In e (reg_edges tr) -> g <= e) ->
    exists d, last tr d = d /\ In d tr /\ g - ht <= reg_edge eta y d (wm_confidence conf f).

  Lemma einv_step t s tr : reach b s0 t s -> EInv t s tr ->
    match b_boost b t s with
    | (q, Panic p) => False
    | (q, Ok (s', Continue)) => EInv (S t) s' (tr ++ q) /\ (t <= N)%nat
    | (q, Ok (s', Break _)) => Forall (capped nu y) (tr ++ q) /\ (length (tr ++ q) <= N)%nat /\ match b_post b s' with
        | Panic p => t = 1%nat /\ tr ++ q = [repeat (1 / INR n) n] /\ edge_of y (repeat (1 / INR n) n) (conf (produce 1%nat (repeat (1 / INR n) n))) <= ht - 1 /\ p = AssertFailed
        | Ok f => (2 <= length (tr ++ q) \/ length (tr ++ q) = N)%nat /\ ((length (tr ++ q) < N)%nat -> stops_well (tr ++ q) f)
        end
    end.
  Proof.
    intros Hr [Hn [Hnu [Hht [Ht [Hl [HlN [Hq [Hh [Eeta [Eht [Enu [Emax [Cd [Gh [m [Em [Om Hm]]]]]]]]]]]]]]]]].
    assert (HN : (1 <= N)%nat). { apply ceil_usize_pos. eapply Rlt_le_trans; [|apply Rmax_l]. apply Rdiv_lt_0_compat; lra. }
    change (b_boost b t s) with (erlp_boost conf solve produce y inner t s). unfold erlp_boost. rewrite Emax.
    destruct (Nat.ltb_spec N t) as [Hlt|Hlt].
    - rewrite app_nil_r. split; [exact Hq|]. split; [exact HlN|]. change (b_post b s) with (erlp_post s). unfold erlp_post. rewrite Em.
      destruct Hm as [[-> _]|[[_ [_ [Lw [Dw _]]]] _]]; [lia|]. destruct (from_slices_dist conf _ _ Lw Dw) as [f [Ef Cf]]. rewrite Ef. split; [right; lia|lia].
    - set (d := er_dist s) in *. set (h := produce t d) in *. assert (Ld : length d = n) by apply Cd.
      assert (Hstop : er_stops conf y s h = Rleb (er_new_gamma_hat conf y s h - er_gamma_star s) ht) by (unfold er_stops; rewrite Eht; reflexivity).
      set (gh := er_new_gamma_hat conf y s h) in *.
      assert (Egh : gh = Rmin (er_gamma_hat s) (reg_edge eta y d (conf h))).
      { unfold gh, er_new_gamma_hat. fold d. rewrite edge_of_hypothesis_spec by exact Ld. rewrite Eeta, reg_edge_entropy by exact Ld. reflexivity. }
      assert (Q : Forall (capped nu y) (tr ++ [d])) by (apply Forall_app; split; [exact Hq|constructor; [exact Cd|constructor]]).
      assert (LN : (length (tr ++ [d]) <= N)%nat) by (rewrite app_length; cbn [length]; lia).
      assert (Er : reg_edges (tr ++ [d]) = reg_edges tr ++ [reg_edge eta y d (conf h)]) by (rewrite reg_edges_app; replace (S (length tr)) with t by lia; reflexivity).
      assert (Gi : gh = 1 \/ In gh (reg_edges (tr ++ [d]))).
      { rewrite Egh, Er. unfold Rmin. destruct (Rle_dec _ _); [destruct Gh as [-> | Gh]; [left; reflexivity|right; apply in_or_app; left; exact Gh]|right; apply in_or_app; right; left; reflexivity]. }
      assert (Ea : answers produce (tr ++ [d]) = er_hyps s ++ [h]) by (rewrite answers_app, Hh; replace (S (length tr)) with t by lia; reflexivity).
      rewrite Hstop. destruct (Rleb_spec (gh - er_gamma_star s) ht) as [B|B].
      + split; [exact Q|]. split; [exact LN|]. match goal with |- context [b_post b ?s1] => change (b_post b s1) with (erlp_post s1) end. unfold erlp_post. cbn [er_model er_hyps]. rewrite Em.
        destruct Hm as [[-> [Egs Ed]]|[[_ [Cm [Lw [Dw _]]]] [Ed Egs]]].
        * destruct tr; [|simpl in Hl; lia]. rewrite Hh in *. cbn [answers seq combine map length] in *. unfold answers in *. cbn [seq combine map length] in *.
          assert (E0 : reg_edge eta y d (conf h) = edge_of y d (conf h)).
          { unfold reg_edge. rewrite Ed. assert (X : rsum (map xlnx (repeat (1 / INR n) n)) + ln (INR n) = 0); [|rewrite X; field; pose proof (erlp_eta_half ht nu n); lra].
            rewrite map_repeat_R, rsum_repeat. unfold xlnx. destruct (Req_EM_T _ _) as [E|_]; [exfalso; assert (0 < 1 / INR n) by (apply Rdiv_lt_0_compat; lra); lra|].
            unfold Rdiv at 2. rewrite Rmult_1_l, ln_Rinv by lra. field. lra. }
          rewrite Egs in B. rewrite E0 in Egh. assert (B' : edge_of y d (conf h) <= ht - 1).
          { destruct Gh as [G|[]]. rewrite G in Egh. unfold Rmin in Egh. destruct (Rle_dec 1 _); lra. }
          assert (P : exists pz, from_slices (qm_weights m) (@nil H) = Panic pz /\ pz = AssertFailed).
          { exists AssertFailed. split; [|reflexivity]. unfold from_slices, kept. replace (combine (qm_weights m) (@nil H)) with (@nil (R * H)) by (destruct (qm_weights m); reflexivity). cbn [filter map bind]. unfold normalize. cbn. destruct (Reqb_spec 0 0); [reflexivity|lra]. }
          destruct P as [pz [-> ->]]. split; [reflexivity|]. rewrite <- Ed. split; [reflexivity|]. split; [exact B'|reflexivity].
        * destruct (from_slices_dist conf _ _ Lw Dw) as [f [Ef Cf]]. rewrite Ef. split.
          { assert (er_hyps s <> []) by (intros E; rewrite E in Lw; destruct (qm_weights m); [destruct Dw as [_ Dw]; simpl in Dw; lra|discriminate]).
            destruct tr; [rewrite Hh in H0; exfalso; apply H0; reflexivity|]. left. rewrite app_length. simpl. lia. }
          intros _ g Hg1 Hg. exists d. split; [apply last_last|]. split; [apply in_or_app; right; left; reflexivity|].
          assert (g <= gh) by (destruct Gi as [-> | Gi]; [exact Hg1|apply Hg, Gi]).
          replace (reg_edge eta y d (wm_confidence conf f)) with (er_gamma_star s); [lra|]. rewrite Egs. fold d. unfold reg_edge. f_equal. unfold edge_of. apply rsum_map_ext. intros i _. rewrite Cf. reflexivity.
      + rewrite Em.
        assert (U : exists m', qm_update conf solve y inner m h = Ok m' /\ solved_ok conf y nu eta (er_hyps s ++ [h]) m').
        { apply update_ok; try assumption; [apply erlp_eta_half|]. intros m1 old p Tu Ep. apply Hex. exists t, s, m, m1, old. fold d. fold h. rewrite Hstop, Emax.
          repeat split; assumption. }
        destruct U as [m' [Eu So]]. rewrite Eu. cbn [bind]. rewrite Eeta, (gamma_star_ok _ _ So). cbn [bind].
        split; [|exact Hlt]. unfold EInv. cbn [er_hyps er_eta er_half_tol er_nu er_max_iter er_dist er_gamma_hat er_model er_gamma_star].
        split; [exact Hn|]. split; [exact Hnu|]. split; [exact Hht|]. split; [lia|]. split; [rewrite app_length; cbn [length]; lia|]. split; [exact LN|]. split; [exact Q|]. split; [symmetry; exact Ea|].
        split; [reflexivity|]. split; [exact Eht|]. split; [exact Enu|]. split; [reflexivity|]. split; [apply So|]. split; [exact Gi|].
        exists m'. split; [reflexivity|]. split; [apply So|]. right. split; [exact So|]. split; reflexivity.
  Qed.
End Exact.

(** ** C35: with a solver that answers exactly, ERLPBoost stops: it returns a vote after at most max_loop rounds, all
    distributions shown to the weak learner are capped by 1/nu; the one exception is a first hypothesis whose edge is
    below half the tolerance minus one, on which the run panics.  [inner] stands for the patience with the inner loop:
    the bound shows that this loop ends too. *)
Lemma P_C35_terminates : forall (H : Type) (conf : H -> nat -> R) solve produce y inner (s : @erlp H),
  (forall p, erlp_asks conf solve produce y inner s p -> solves p (solve p)) ->
  (forall h i, (i < length y)%nat -> -1 <= nth i y 0 * conf h i <= 1) ->
  is_valid_binary_instance y = Ok tt -> 1 <= er_nu s <= INR (length y) -> 0 < er_half_tol s < 1 ->
  (1001 + ln (INR (length y)) / erlp_eta (er_half_tol s) (er_nu s) (length y)) * 1000000000 + 1 < INR inner ->
  let u := repeat (1 / INR (length y)) (length y) in
  forall fuel, (erlp_max_loop (er_half_tol s) (er_nu s) (length y) < fuel)%nat ->
  (exists tr f, run (erlpboost conf solve produce y inner) fuel s = Finished tr f /\ Forall (capped (er_nu s) y) tr /\
     (length tr <= erlp_max_loop (er_half_tol s) (er_nu s) (length y))%nat) \/
  (run (erlpboost conf solve produce y inner) fuel s = Crashed [u] AssertFailed /\ edge_of y u (conf (produce 1%nat u)) <= er_half_tol s - 1).
Proof.
  intros H conf solve produce y inner s Hex Hm Hval Hnu Hht Hin u fuel Hf. set (N := erlp_max_loop (er_half_tol s) (er_nu s) (length y)) in *.
  refine (run_reach_bound (erlpboost conf solve produce y inner) s (S N) (EInv conf produce y s)
    (fun o => (exists tr f, o = Finished tr f /\ Forall (capped (er_nu s) y) tr /\ (length tr <= N)%nat) \/ (o = Crashed [u] AssertFailed /\ edge_of y u (conf (produce 1%nat u)) <= er_half_tol s - 1)) _ _ _ fuel _).
  - apply einv_first.
  - intros t s1 tr Hr HI. pose proof (einv_step conf solve produce y inner s Hex Hm Hin t s1 tr Hr HI) as St.
    destruct (b_boost _ t s1) as [q [[s' [|it]]|p]]; [| |destruct St].
    + destruct St as [S1 S2]. split; [exact S1|]. fold N in S2. lia.
    + destruct St as [S1 [S2 S3]]. destruct (b_post _ s') as [f|p].
      * left. exists (tr ++ q), f. auto.
      * destruct S3 as [_ [E1 [E2 ->]]]. right. rewrite E1. split; [reflexivity|exact E2].
  - change (b_pre (erlpboost conf solve produce y inner) s) with (erlp_pre y s). intros p. unfold erlp_pre. rewrite Hval. cbn [bind]. rewrite Rleb_true, Rltb_true by lra. cbn [andb assert_ bind].
    destruct (Reqb_spec (er_half_tol s) 0); [lra|]. unfold check_nu. rewrite !Rleb_true by lra. cbn [andb assert_ bind]. discriminate.
  - lia.
Qed.

Lemma criterion_capped : forall (H : Type) (conf : H -> nat -> R) solve produce y inner (s : @erlp H) fuel tr f g,
  (forall p, erlp_asks conf solve produce y inner s p -> solves p (solve p)) ->
  (forall h i, (i < length y)%nat -> -1 <= nth i y 0 * conf h i <= 1) ->
  (1001 + ln (INR (length y)) / erlp_eta (er_half_tol s) (er_nu s) (length y)) * 1000000000 + 1 < INR inner ->
  run (erlpboost conf solve produce y inner) fuel s = Finished tr f ->
  (length tr < erlp_max_loop (er_half_tol s) (er_nu s) (length y))%nat ->
  (forall e, In e (edges conf produce y tr) -> g <= e) ->
  exists tr' d, tr = tr' ++ [d] /\ capped (er_nu s) y d /\ 1 <= er_nu s <= INR (length y) /\ g - 2 * er_half_tol s <= edge_of y d (wm_confidence conf f).
Proof.
  intros H conf solve produce y inner s fuel tr f g Hex Hm Hin Er Hlen Hg. set (N := erlp_max_loop (er_half_tol s) (er_nu s) (length y)) in *.
  assert (P : match run (erlpboost conf solve produce y inner) fuel s with Finished tr f => Forall (capped (er_nu s) y) tr /\ (0 < er_half_tol s < 1 /\ 1 <= er_nu s <= INR (length y)) /\ ((length tr < N)%nat -> stops_well conf produce y s tr f) | _ => True end).
  { refine (run_reach (erlpboost conf solve produce y inner) s (EInv conf produce y s)
      (fun o => match o with Finished tr f => Forall (capped (er_nu s) y) tr /\ (0 < er_half_tol s < 1 /\ 1 <= er_nu s <= INR (length y)) /\ ((length tr < N)%nat -> stops_well conf produce y s tr f) | _ => True end) _ _ _ _ fuel); [| |intros; exact Logic.I|intros; exact Logic.I].
    - apply einv_first.
    - intros t s1 tr1 Hr HI. pose proof (einv_step conf solve produce y inner s Hex Hm Hin t s1 tr1 Hr HI) as St.
      destruct (b_boost _ t s1) as [q [[s' [|it]]|p]]; [apply St| |exact Logic.I].
      destruct St as [S1 [S2 S3]]. destruct (b_post _ s') as [f1|p]; [|exact Logic.I]. split; [exact S1|]. split; [|apply S3]. destruct HI as [_ [I1 [I2 _]]]. auto. }
  rewrite Er in P. destruct P as [Q [[Hht Hnu] P]]. specialize (P Hlen).
  assert (Nz : tr <> []). { intros ->. destruct (P (-1000)) as [d [_ [[] _]]]; [lra|intros e []]. }
  destruct (exists_last Nz) as [tr' [d Ed]]. exists tr', d. split; [exact Ed|].
  assert (Cd : capped (er_nu s) y d) by (rewrite Ed in Q; apply Forall_app in Q; destruct Q as [_ Q]; inversion Q; assumption).
  split; [exact Cd|]. split; [exact Hnu|].
  (* the edges are below the regularised edges *)
  assert (Hr : forall e, In e (reg_edges conf produce y s tr) -> g <= e).
  { intros e He. unfold reg_edges in He. apply in_map_iff in He. destruct He as [[t d'] [<- Hin']]. cbn [fst snd].
    assert (Cd' : capped (er_nu s) y d') by (apply in_combine_r in Hin'; rewrite Forall_forall in Q; apply Q; exact Hin').
    assert (g <= edge_of y d' (conf (produce t d'))) by (apply Hg; unfold edges; apply in_map_iff; exists (t, d'); auto).
    pose proof (P_C35_regularisation (er_half_tol s) (er_nu s) y d' (proj1 Hht) Hnu Cd') as [E _]. rewrite <- reg_edge_entropy by apply Cd'. lra. }
  assert (Hg1 : g <= 1).
  { eapply Rle_trans; [apply Hg|]; [unfold edges; apply in_map_iff; exists (length tr, d); split; [reflexivity|]|apply (edge_bounded conf y (er_nu s) Hm d _ Cd)].
    rewrite Ed, app_length, seq_app, combine_app_eq by apply seq_length. apply in_or_app. right. cbn [length seq combine]. left. f_equal. lia. }
  destruct (P g Hg1 Hr) as [d' [El [Hd' E]]]. rewrite Ed, last_last in El. subst d'.
  rewrite <- reg_edge_entropy in E by apply Cd. pose proof (P_C35_regularisation (er_half_tol s) (er_nu s) y d (proj1 Hht) Hnu Cd) as [_ E1]. lra.
Qed.

(** ** C35: a run that ends before max_loop ended by its criterion: if every round's edge was at least g then the
    returned vote has edge at least g minus the tolerance on the last distribution that was shown *)
Lemma P_C35_criterion : forall (H : Type) (conf : H -> nat -> R) solve produce y inner (s : @erlp H) fuel tr f g,
  (forall p, erlp_asks conf solve produce y inner s p -> solves p (solve p)) ->
  (forall h i, (i < length y)%nat -> -1 <= nth i y 0 * conf h i <= 1) ->
  (1001 + ln (INR (length y)) / erlp_eta (er_half_tol s) (er_nu s) (length y)) * 1000000000 + 1 < INR inner ->
  run (erlpboost conf solve produce y inner) fuel s = Finished tr f ->
  (length tr < erlp_max_loop (er_half_tol s) (er_nu s) (length y))%nat ->
  (forall e, In e (edges conf produce y tr) -> g <= e) ->
  exists tr' d, tr = tr' ++ [d] /\ g - 2 * er_half_tol s <= edge_of y d (wm_confidence conf f).
Proof.
  intros H conf solve produce y inner s fuel tr f g Hex Hm Hin Er Hlen Hg.
  destruct (criterion_capped H conf solve produce y inner s fuel tr f g Hex Hm Hin Er Hlen Hg) as [tr' [d [E [_ [_ G]]]]]. exists tr', d. auto.
Qed.

(** ** the hypotheses of C35 are met: two examples, nu = 2, half tolerance 1/10, one hypothesis with margins (1, 0) *)
Definition erx_conf (_ : unit) (i : nat) : R := match i with O => 1 | _ => 0 end.
Definition erx_produce (t : nat) (d : list R) : unit := tt.
Definition erx_u : list R := [1 / 2; 1 / 2].
Definition erx_lin : R := ln (1 / 2 + QP_EPS) / (1 / 2).
Definition erx_quad : R := 1 / ((1 / 2 + QP_EPS) * (1 / 2)).
Definition erx_conic : conic := er_conic erx_conf y2 2 (1 / 2) [tt] erx_u.
Definition erx_x : list R := [1 / 2; 1 / 2; 1 / 2].
Definition erx_z : list R := [- (erx_quad / 2 + erx_lin + 1); 0; 0; 0; 1; 1].
Definition erx_solve (p : conic) : answer := mkAnswer erx_x erx_z (objective erx_conic erx_x) Solved.
Definition erx_state : @erlp unit := mkErlp [] 1 0 1 (1 / 10) None [] 2 0.

Lemma erx_exact : solves erx_conic (erx_solve erx_conic).
Proof.
  unfold solves. cbn [erx_solve a_x a_z a_obj a_status]. split; [|split; reflexivity].
  apply (edge_kkt erx_conf y2 true 1 [tt] _ _ (1 / 2) 0); [reflexivity|]. split.
  - apply (edge_feasible erx_conf y2 true 1 [tt] _ _ (1 / 2) 0); [reflexivity|]. cbn [offs gof]. split; [reflexivity|]. split; [cbn; lra|].
    split; [intros i Hi; small_nat i Hi; cbn; lra|]. split; [intros i Hi; small_nat i Hi; cbn; lra|]. intros [|t] Ht; [|cbn in Ht; lia]. cbn. lra.
  - split; [reflexivity|]. split; [intros i Hi; small_nat i Hi; cbn; lra|]. split; [intros [|t] Ht; [|cbn in Ht; lia]; cbn; lra|].
    split; [intros i Hi; small_nat i Hi; cbn; lra|]. split; [intros [|t] Ht; [|cbn in Ht; lia]; cbn; lra|].
    split.
    + intros _. cbn [y2 length]. rewrite (diag_row0 1 2) by lia. cbn. lra.
    + intros i Hi. cbn [y2 length] in *. cbn [offs]. rewrite (diag_row 1 2) by lia. small_nat i Hi; cbn -[ln Rinv QP_EPS]; unfold er_diag; cbn [nth erx_u]; fold erx_quad; fold erx_lin; lra.
Qed.

Lemma erx_eta : erlp_eta (1 / 10) 2 (length y2) = 1 / 2.
Proof. unfold erlp_eta. cbn [y2 length]. simpl (INR 2). replace ((1 + 1) / 2) with 1 by lra. rewrite ln_1. apply Rmax_left. lra. Qed.

Lemma erx_marg : forall h i, (i < length y2)%nat -> -1 <= nth i y2 0 * erx_conf h i <= 1.
Proof. intros h i Hi. small_nat i Hi; cbn; lra. Qed.

Lemma erx_rep : repeat (1 / INR (length y2)) (length y2) = erx_u.
Proof. cbn [y2 length]. simpl (INR 2). cbn [repeat]. unfold erx_u. replace (1 + 1) with 2 by lra. reflexivity. Qed.

Lemma erx_turns m0 m old : qm_turns erx_solve m0 1000 m old -> qpm_ok erx_conf y2 2 (1 / 2) [tt] m0 -> qm_dist m0 = erx_u -> qpm_ok erx_conf y2 2 (1 / 2) [tt] m /\ qm_dist m = erx_u.
Proof.
  intros Tu O0 Ed. induction Tu as [|m old p m' Tu [O IH] Ep Es Et Ea]; [split; assumption|].
  destruct O as [E1 [E2 [E3 [E4 [E5 [E6 E7]]]]]]. unfold qm_accept, slice_from in Ea. rewrite E1 in Ea. cbn -[Rmax] in Ea. injection Ea as <-. unfold qpm_ok. cbn [qm_n qm_T qm_margins qm_cap qm_eta qm_dist]. rewrite Rmax_left by lra.
  repeat split; try assumption. intros d [<-|[<-|[]]]; lra.
Qed.

Section Erx.
  Variable inner : nat.
  Hypothesis Hinner : (1001 + ln (INR (length y2)) / (1 / 2)) * 1000000000 + 1 < INR inner.
  Notation b := (erlpboost erx_conf erx_solve erx_produce y2 inner).

  Lemma erx_first s : b_pre b erx_state = Ok s -> er_dist s = erx_u /\ er_gamma_hat s = 1 /\ er_gamma_star s = -1 /\ er_hyps s = [] /\ er_half_tol s = 1 / 10 /\ er_eta s = 1 / 2 /\
    er_max_iter s = erlp_max_loop (1 / 10) 2 (length y2) /\ exists m, er_model s = Some m /\ qpm_ok erx_conf y2 2 (1 / 2) [] m.
  Proof.
    intros E. pose proof (einv_first erx_conf erx_solve erx_produce y2 inner erx_state s E) as I.
    apply (erlp_pre_ok y2) in E. destruct E as [_ [_ [_ [_ ->]]]]. cbn [erx_state er_nu er_half_tol er_dist er_gamma_hat er_gamma_star er_hyps er_model er_eta er_max_iter] in *. rewrite erx_eta in *.
    rewrite erx_rep. repeat split; try reflexivity.
    destruct I as [_ [_ [_ [_ [_ [_ [_ [_ [_ [_ [_ [_ [_ [_ [m [Em [Om _]]]]]]]]]]]]]]]]]. cbn [er_model er_hyps er_nu er_half_tol erx_state] in *. rewrite erx_eta in Om. exists m. auto.
  Qed.

  Lemma erx_edge : edge_of y2 erx_u (erx_conf tt) = 1 / 2.
  Proof. unfold edge_of. cbn. lra. Qed.

  Lemma erx_entropy : entropy_from_uni_distribution erx_u = 0.
  Proof.
    unfold entropy_from_uni_distribution, entropy, erx_u. cbn [map rsum length]. destruct (Reqb_spec (1 / 2) 0); [lra|]. simpl (INR 2). replace (1 / 2) with (/ 2) by lra. rewrite ln_Rinv by lra. replace (1 + 1) with 2 by lra. unfold rsum. simpl. lra.
  Qed.

  Lemma erx_asked s m m1 old : qpm_ok erx_conf y2 2 (1 / 2) [] m -> qm_turns erx_solve (qm_start erx_conf y2 m s) 1000 m1 old -> qpm_ok erx_conf y2 2 (1 / 2) [tt] m1 /\ qm_dist m1 = erx_u.
  Proof.
    intros Om Tu. destruct s. destruct (start_ok erx_conf y2 2 (1 / 2) ltac:(cbn; lia) ltac:(simpl; lra) [] m tt Om) as [O1 E1]. rewrite erx_rep in E1. eapply erx_turns; eassumption.
  Qed.

  Lemma erx_prog m1 p : qpm_ok erx_conf y2 2 (1 / 2) [tt] m1 -> qm_dist m1 = erx_u -> qm_program m1 = Ok p -> p = erx_conic.
  Proof. intros O E Ep. rewrite (program_ok erx_conf y2 2 (1 / 2) ltac:(cbn; lia) [tt] m1 O) in Ep. injection Ep as <-. unfold erx_conic. rewrite E. reflexivity. Qed.

  Lemma erx_reach t s : reach b erx_state t s -> (t = 1%nat /\ b_pre b erx_state = Ok s) \/ er_stops erx_conf y2 s (erx_produce t (er_dist s)) = true.
  Proof.
    induction 1 as [s E|t s q s' _ IH E]; [left; split; [reflexivity|exact E]|]. right. change (b_boost b t s) with (erlp_boost erx_conf erx_solve erx_produce y2 inner t s) in E. unfold erlp_boost in E.
    destruct (Nat.ltb _ _); [discriminate|]. destruct IH as [[-> E0]|St]; [|rewrite St in E; discriminate].
    destruct (erx_first s E0) as [Ed [Egh [Egs [Ehs [Eht [Eeta [_ [m [Em Om]]]]]]]]]. destruct (er_stops _ _ _ _); [discriminate|]. rewrite Em in E.
    destruct (update_ok erx_conf erx_solve y2 2 (1 / 2) ltac:(cbn; lia) ltac:(simpl; lra) ltac:(lra) erx_marg inner [] m (erx_produce 1 (er_dist s)) Om) as [m' [Eu So]]; [|exact Hinner|].
    { intros m1 old p Tu Ep. destruct (erx_asked _ _ _ _ Om Tu) as [O1 E1]. rewrite (erx_prog m1 p O1 E1 Ep). apply erx_exact. }
    rewrite Eu in E. cbn [bind] in E. cbn [app] in So.
    assert (Dm : qm_dist m' = erx_u) by (apply capped2; apply So).
    rewrite Ehs, Eeta, Dm in E. cbn [app] in E.
    assert (Gs : er_new_gamma_star erx_conf y2 erx_u (1 / 2) [erx_produce 1 (er_dist s)] = Ok (1 / 2)).
    { unfold er_new_gamma_star. cbn [map reduce_max fold_left]. rewrite edge_of_hypothesis_spec by reflexivity. unfold erx_produce. rewrite erx_edge, erx_entropy. f_equal. lra. }
    rewrite Gs in E. cbn [bind] in E. injection E as _ <-. unfold er_stops, er_new_gamma_hat. cbn [er_dist er_gamma_hat er_gamma_star er_half_tol er_eta].
    rewrite Ed, Eht, Egh, Eeta, !edge_of_hypothesis_spec by reflexivity. unfold erx_produce. rewrite erx_edge, erx_entropy. apply Rleb_true. rewrite (Rmin_right 1) by lra. rewrite Rmin_left by lra. lra.
  Qed.

  Lemma erx_asks p : erlp_asks erx_conf erx_solve erx_produce y2 inner erx_state p -> solves p (erx_solve p).
  Proof.
    intros [t [s [m [m1 [old [Hr [Em [_ [St [Tu Ep]]]]]]]]]]. apply erx_reach in Hr. destruct Hr as [[-> E0]|St']; [|rewrite St in St'; discriminate].
    destruct (erx_first s E0) as [_ [_ [_ [_ [_ [_ [_ [m' [Em' Om]]]]]]]]]. rewrite Em in Em'. injection Em' as <-. destruct (erx_asked _ _ _ _ Om Tu) as [O1 E1]. rewrite (erx_prog m1 p O1 E1 Ep). apply erx_exact.
  Qed.
End Erx.

(** ** the hypotheses of C33 and C35 are met *)
Example C35_hypotheses_met : exists inner, let y := y2 in let s := erx_state in
  (forall p, erlp_asks erx_conf erx_solve erx_produce y inner s p -> solves p (erx_solve p)) /\
  (forall h i, (i < length y)%nat -> -1 <= nth i y 0 * erx_conf h i <= 1) /\
  is_valid_binary_instance y = Ok tt /\ 1 <= er_nu s <= INR (length y) /\ 0 < er_half_tol s < 1 /\
  (1001 + ln (INR (length y)) / erlp_eta (er_half_tol s) (er_nu s) (length y)) * 1000000000 + 1 < INR inner /\
  exists fuel tr f, run (erlpboost erx_conf erx_solve erx_produce y inner) fuel s = Finished tr f /\ (length tr <= erlp_max_loop (1 / 10) 2 2)%nat.
Proof.
  assert (X : exists k, (1001 + ln (INR (length y2)) / (1 / 2)) * 1000000000 + 1 < INR k) by (exists (ceil_usize ((1001 + ln (INR (length y2)) / (1 / 2)) * 1000000000 + 1 + 1)); pose proof (ceil_usize_ge ((1001 + ln (INR (length y2)) / (1 / 2)) * 1000000000 + 1 + 1)); lra). destruct X as [inner Hi]. exists inner. cbn zeta. cbn [erx_state er_half_tol er_nu]. rewrite erx_eta.
  split; [apply erx_asks; exact Hi|]. split; [apply erx_marg|]. split; [exact y2_valid|]. split; [simpl; lra|]. split; [lra|]. split; [exact Hi|].
  exists (S (erlp_max_loop (1 / 10) 2 2)).
  destruct (P_C35_terminates unit erx_conf erx_solve erx_produce y2 inner erx_state) with (fuel := S (erlp_max_loop (1 / 10) 2 2)) as [[tr [f [E [_ L]]]]|[_ E]].
  - apply erx_asks. exact Hi.
  - apply erx_marg.
  - apply y2_valid.
  - simpl. lra.
  - simpl. lra.
  - cbn [erx_state er_half_tol er_nu]. rewrite erx_eta. exact Hi.
  - apply Nat.lt_succ_diag_r.
  - exists tr, f. split; [exact E|exact L].
  - exfalso. rewrite erx_rep in E. unfold erx_produce in E. rewrite erx_edge in E. cbn [erx_state er_half_tol] in E. lra.
Qed.
