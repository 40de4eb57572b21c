(** Properties C33 (SoftBoost and TotalBoost part), C64: the programs of SoftBoost, its termination and what it returns. *)
From Verif Require Import Base Spec RoundSpec RegSpec LPSpec Utils UtilsProofs UtilsFacts WMajority WMajorityProofs Booster Reach AdaBoost AdaBoostProofs
  AdaBoostMain AdaBoostMore Num FrankWolfeProofs CERLPProofs Csc ConicSpec CscProofs LPBoost LPBoostProofs LPBoostFacts EdgeLP EdgeProofs ERLP ERLPProofs
  ERLPFacts ConfigFacts SoftBoost SoftProofs.
Open Scope R_scope.

Lemma loop_pos (solve : conic -> answer) n m g : forall fuel d old d' r, length d = n -> (forall v, In v d -> 0 < v) -> sq_loop solve fuel m g d old = Ok (d', r) ->
  length d' = n /\ (forall v, In v d' -> 0 < v).
Proof.
  induction fuel as [|fuel IH]; intros d old d' r L P E; cbn [sq_loop] in E; [discriminate|].
  destruct (sq_program m g d) as [p|]; cbn [bind] in E; [|discriminate]. destruct (all_positive (a_x (solve p))) eqn:Ap; cbn [negb] in E; [|injection E as <- _; auto].
  assert (L1 : length (zip_assign d (a_x (solve p))) = n) by (rewrite zip_assign_length; exact L).
  assert (P1 : forall v, In v (zip_assign d (a_x (solve p))) -> 0 < v).
  { intros v Hv. apply zip_assign_in in Hv. destruct Hv as [Hv|Hv]; [apply P, Hv|]. apply (proj1 (all_positive_spec _) Ap). exact Hv. }
  destruct (Rltb _ _); [injection E as <- _; auto|]. eapply IH; eassumption.
Qed.

Lemma soft_ghat_min {H} (conf : H -> nat -> R) produce y t (s : @soft H) : length (so_dist s) = length y ->
  soft_ghat conf produce y t s = Rmin (so_gamma s) (edge_of y (so_dist s) (conf (produce t (so_dist s)))).
Proof.
  intros L. unfold soft_ghat. rewrite edge_of_hypothesis_spec by exact L. destruct (Rltb_spec (edge_of y (so_dist s) (conf (produce t (so_dist s)))) (so_gamma s)); [rewrite Rmin_right by lra|rewrite Rmin_left by lra]; reflexivity.
Qed.

Section Run.
  Context {H : Type}.
  Variable conf : H -> nat -> R.
  Variable solve : conic -> answer.
  Variable produce : nat -> list R -> H.
  Variable y : list R.
  Variable inner : nat.
  Variable s0 : @soft H.
  Notation n := (length y).
  Notation b := (softboost conf solve produce y inner).
  Notation nu := (so_nu s0).
  Notation N := (soft_max_loop (so_tol s0) (so_nu s0) (length y)).

  Lemma soft_pre_ok s : soft_pre y s0 = Ok s -> is_valid_binary_instance y = Ok tt /\ (0 < n)%nat /\ so_tol s0 <> 0 /\ 1 <= nu <= INR n /\
    s = mkSoft (repeat (1 / INR n) n) 1 (so_tol s0) nu (Some (sq_init n (1 / nu))) [] N.
  Proof.
    unfold soft_pre. destruct (is_valid_binary_instance y) as [[]|p] eqn:E; cbn [bind]; [|discriminate]. pose proof (valid_instance_nonempty y E) as Hn.
    destruct (Reqb_spec (so_tol s0) 0) as [H3|H3]; [discriminate|]. unfold check_nu.
    destruct (Rleb_spec 1 nu) as [H4|H4], (Rleb_spec nu (INR n)) as [H5|H5]; cbn [andb assert_ bind]; try discriminate.
    injection 1 as <-. repeat split; auto; lra.
  Qed.

  (** what holds whatever solver and weak learner do *)
  Definition SInv (t : nat) (s : @soft H) (tr : trace) : Prop :=
    (0 < n)%nat /\ 1 <= nu <= INR n /\ (1 <= t)%nat /\ length tr = (t - 1)%nat /\ (length tr <= N)%nat /\
    so_max_iter s = N /\ so_nu s = nu /\ so_hyps s = answers produce tr /\
    length (so_dist s) = n /\ (forall v, In v (so_dist s) -> 0 < v) /\
    (exists m, so_model s = Some m /\ sqm_ok conf y nu (so_hyps s) m) /\
    (forall e, In e (edges conf produce y tr) -> so_gamma s <= e) /\ (so_gamma s = 1 \/ In (so_gamma s) (edges conf produce y tr)).

  Lemma sinv_first s : b_pre b s0 = Ok s -> SInv 1 s [].
  Proof.
    intros E. apply soft_pre_ok in E. destruct E as [_ [Hn [_ [Hnu ->]]]]. unfold SInv. cbn [so_max_iter so_nu so_hyps so_dist so_model so_gamma].
    split; [exact Hn|]. split; [exact Hnu|]. split; [lia|]. split; [reflexivity|]. split; [simpl; lia|]. do 3 (split; [reflexivity|]). split; [apply repeat_length|].
    split; [intros v Hv; apply repeat_spec in Hv; subst v; apply Rdiv_lt_0_compat; lra|]. split; [eexists; split; [reflexivity|apply sq_init_ok]|]. split; [intros e []|left; reflexivity].
  Qed.

  Definition sinv_after (t : nat) (s : @soft H) (tr : trace) (s' : @soft H) : Prop :=
    so_max_iter s' = N /\ so_nu s' = nu /\ so_hyps s' = answers produce tr /\ length (so_dist s') = n /\ (forall v, In v (so_dist s') -> 0 < v) /\
    (exists m, so_model s' = Some m /\ sqm_ok conf y nu (so_hyps s') m) /\
    (forall e, In e (edges conf produce y tr) -> so_gamma s' <= e) /\ (so_gamma s' = 1 \/ In (so_gamma s') (edges conf produce y tr)).

  Lemma sinv_step t s tr : SInv t s tr ->
    match b_boost b t s with
    | (q, Panic _) => (length (tr ++ q) <= N)%nat
    | (q, Ok (s', Continue)) => SInv (S t) s' (tr ++ q)
    | (q, Ok (s', Break _)) => (length (tr ++ q) <= N)%nat /\ sinv_after t s (tr ++ q) s' /\ (q = [] -> s' = s /\ (N < t)%nat)
    end.
  Proof.
    intros [Hn [Hnu [Ht [Hl [HN [Em [En [Eh [Ld [Pd [[m [Emo Om]] [G1 G2]]]]]]]]]]]]. change (b_boost b t s) with (soft_boost conf solve produce y inner t s). unfold soft_boost. rewrite Em.
    destruct (Nat.ltb_spec N t) as [Hlt|Hlt].
    - rewrite app_nil_r. split; [exact HN|]. split; [|intros _; split; [reflexivity|exact Hlt]]. unfold sinv_after. repeat (split; [assumption|]). split; [exists m; auto|]. split; assumption.
    - assert (HN' : (length (tr ++ [so_dist s]) <= N)%nat) by (rewrite app_length; cbn [length]; lia). rewrite Emo.
      pose proof (soft_ghat_min conf produce y t s Ld) as Eg. unfold soft_ghat in Eg. cbn zeta in Eg. rewrite Eg. set (h := produce t (so_dist s)) in *. set (g := Rmin (so_gamma s) (edge_of y (so_dist s) (conf h))) in *.
      destruct (sq_loop solve inner (sq_push conf y m h) g (so_dist s) 1000000000) as [[d' r]|p] eqn:El; cbn [bind]; [|exact HN']. cbn [fst snd].
      destruct (loop_pos solve n _ _ _ _ _ _ _ Ld Pd El) as [Ld' Pd'].
      assert (Ea : answers produce (tr ++ [so_dist s]) = so_hyps s ++ [h]) by (rewrite answers_app, Eh; replace (S (length tr)) with t by lia; reflexivity).
      assert (Ee : edges conf produce y (tr ++ [so_dist s]) = edges conf produce y tr ++ [edge_of y (so_dist s) (conf h)]) by (rewrite edges_app; replace (S (length tr)) with t by lia; reflexivity).
      assert (Gl : forall e, In e (edges conf produce y (tr ++ [so_dist s])) -> g <= e).
      { intros e He. rewrite Ee in He. apply in_app_or in He. unfold g. destruct He as [He|[<-|[]]]; [specialize (G1 e He); pose proof (Rmin_l (so_gamma s) (edge_of y (so_dist s) (conf h))); lra|apply Rmin_r]. }
      assert (Gi : g = 1 \/ In g (edges conf produce y (tr ++ [so_dist s]))).
      { rewrite Ee. unfold g, Rmin. destruct (Rle_dec _ _); [|right; apply in_or_app; right; left; reflexivity]. destruct G2 as [->|G2]; [left; reflexivity|right; apply in_or_app; left; exact G2]. }
      assert (A : sinv_after t s (tr ++ [so_dist s]) (mkSoft d' g (so_tol s) (so_nu s) (Some (sq_push conf y m h)) (so_hyps s ++ [h]) N)).
      { unfold sinv_after. cbn [so_max_iter so_nu so_hyps so_dist so_model so_gamma]. split; [reflexivity|]. split; [exact En|]. split; [symmetry; exact Ea|]. split; [exact Ld'|]. split; [exact Pd'|].
        split; [eexists; split; [reflexivity|apply sq_push_ok; exact Om]|]. split; assumption. }
      destruct r.
      + unfold sinv_after in A. unfold SInv. split; [exact Hn|]. split; [exact Hnu|]. split; [lia|]. split; [rewrite app_length; cbn [length]; lia|]. split; [exact HN'|]. exact A.
      + split; [exact HN'|]. split; [exact A|]. discriminate.
  Qed.

  Lemma reach_sinv t s : reach b s0 t s -> exists tr, SInv t s tr.
  Proof.
    induction 1 as [s E|t s q s' _ [tr IH] E]; [exists []; apply sinv_first, E|]. exists (tr ++ q). pose proof (sinv_step t s tr IH) as St. rewrite E in St. exact St.
  Qed.

  (** ** with an exact solver *)
  Hypothesis Hex : forall p, soft_asks conf solve produce y inner s0 p -> solves p (solve p).
  Hypothesis Hinner : (1000000000 + ln (INR n)) * 1000000000 + 1 < INR inner.

  Definition XInv (t : nat) (s : @soft H) (tr : trace) : Prop :=
    SInv t s tr /\ Forall is_pos_dist tr /\ is_pos_dist (so_dist s) /\ (forall h, In h (so_hyps s) -> edge_of y (so_dist s) (conf h) <= so_gamma s).

  Lemma xinv_first s : b_pre b s0 = Ok s -> XInv 1 s [].
  Proof.
    intros E. pose proof (sinv_first s E) as I. split; [exact I|]. split; [constructor|]. apply soft_pre_ok in E. destruct E as [_ [Hn [_ [Hnu ->]]]]. cbn [so_dist so_hyps so_gamma].
    split; [split|intros h []]; [intros v Hv; apply repeat_spec in Hv; subst v; apply Rdiv_lt_0_compat; lra|]. rewrite rsum_repeat. field. lra.
  Qed.

  Lemma xinv_step t s tr : reach b s0 t s -> XInv t s tr ->
    match b_boost b t s with
    | (q, Panic _) => False
    | (q, Ok (s', Continue)) => XInv (S t) s' (tr ++ q) /\ (t <= N)%nat
    | (q, Ok (s', Break _)) => Forall is_pos_dist (tr ++ q)
    end.
  Proof.
    intros Hr [HI [Q [Ps Es]]]. pose proof (sinv_step t s tr HI) as St. destruct HI as [Hn [Hnu [Ht [Hl [HN [Em [En [Eh [Ld [Pd [[m [Emo Om]] [G1 G2]]]]]]]]]]]].
    assert (Q' : Forall is_pos_dist (tr ++ [so_dist s])) by (apply Forall_app; split; [exact Q|constructor; [exact Ps|constructor]]).
    change (b_boost b t s) with (soft_boost conf solve produce y inner t s) in *. unfold soft_boost in *. rewrite Em in *. destruct (Nat.ltb_spec N t) as [Hlt|Hlt]; [rewrite app_nil_r; exact Q|]. rewrite Emo in *.
    pose proof (soft_ghat_min conf produce y t s Ld) as Eg. assert (Eg' := Eg). unfold soft_ghat in Eg. cbn zeta in Eg. rewrite Eg in *. set (h := produce t (so_dist s)) in *. set (g := Rmin (so_gamma s) (edge_of y (so_dist s) (conf h))) in *.
    destruct (so_loop_ok conf solve y nu ltac:(lra) Hn (so_hyps s ++ [h]) (sq_push conf y m h) g (so_dist s) (sq_push_ok conf y nu (so_hyps s) m h Om) Ld Pd) with (fuel := inner) (d := so_dist s) (old := 1000000000) as [d' [r [El Sh]]].
    - intros d old p Tu Ep. apply Hex. exists t, s, m, d, old. cbn zeta. split; [exact Hr|]. split; [exact Emo|]. split; [rewrite Em; exact Hlt|]. rewrite Eg'. split; [exact Tu|exact Ep].
    - constructor.
    - exact Hinner.
    - assert (0 <= ln (INR n)) by (rewrite <- ln_1; apply ln_le; lra). lra.
    - rewrite El in *. cbn [bind fst snd] in *. destruct r; [|exact Q']. split; [|exact Hlt]. split; [exact St|]. split; [exact Q'|]. cbn [so_dist so_hyps so_gamma]. destruct (Sh eq_refl) as [_ [P E]]. split; assumption.
  Qed.
End Run.

(** ** C64: SoftBoost asks the weak learner at most max_loop times, whatever solver and weak learner do *)
Lemma P_C64_rounds : forall (H : Type) (conf : H -> nat -> R) solve produce y inner (s : @soft H) fuel,
  (length (trace_of (run (softboost conf solve produce y inner) fuel s)) <= soft_max_loop (so_tol s) (so_nu s) (length y))%nat.
Proof.
  intros H conf solve produce y inner s fuel.
  apply (run_inv (softboost conf solve produce y inner) (SInv conf produce y s) (fun tr => (length tr <= soft_max_loop (so_tol s) (so_nu s) (length y))%nat) (fun _ _ => True)).
  - simpl. lia.
  - apply sinv_first.
  - intros t s1 tr HI. apply HI.
  - intros t s1 tr HI. pose proof (sinv_step conf solve produce y inner s t s1 tr HI) as St.
    destruct (b_boost _ t s1) as [q [[s' [|it]]|p]]; try exact St. split; [apply St|]. destruct (b_post _ s'); exact Logic.I.
Qed.

(** ** C64: the same in terms of what the user configures *)
Lemma P_C64_configured_rounds : forall (H : Type) (conf : H -> nat -> R) solve produce y inner fuel,
  is_valid_binary_instance y = Ok tt ->
  exists s : @soft H, soft_init y = Ok s /\
  (exists k, ceil_of (2 * ln (INR (length y)) * INR (length y) ^ 2) k /\
     (length (trace_of (run (softboost conf solve produce y inner) fuel s)) <= k)%nat) /\
  (forall nu tol, tol <> 0 -> 1 <= nu <= INR (length y) -> exists s' k, soft_nu y (soft_tolerance s tol) nu = Ok s' /\
     ceil_of (2 * ln (INR (length y) / nu) / tol ^ 2) k /\
     (length (trace_of (run (softboost conf solve produce y inner) fuel s')) <= k)%nat).
Proof.
  intros H conf solve produce y inner fuel Hv. pose proof (valid_instance_nonempty y Hv) as Hn. assert (Hn1 : 1 <= INR (length y)) by (apply (le_INR 1) in Hn; exact Hn).
  unfold soft_init. rewrite (proj2 (Nat.eqb_neq (length y) 0)) by lia. cbn [negb assert_ bind]. eexists. split; [reflexivity|]. split.
  - exists (soft_max_loop (1 / INR (length y)) 1 (length y)). split.
    + unfold soft_max_loop. replace (2 * ln (INR (length y)) * INR (length y) ^ 2) with (2 * ln (INR (length y) / 1) / (1 / INR (length y)) ^ 2).
      2:{ replace (INR (length y) / 1) with (INR (length y)) by field. field. lra. }
      apply ceil_usize_ceil. unfold Rdiv at 1. apply Rmult_le_pos.
      * apply Rmult_le_pos; [lra|]. rewrite <- ln_1. apply ln_le; [lra|]. unfold Rdiv. rewrite Rinv_1. lra.
      * left. apply Rinv_0_lt_compat. apply pow_lt. apply Rdiv_lt_0_compat; lra.
    + apply (P_C64_rounds H conf solve produce y inner (mkSoft (repeat (1 / INR (length y)) (length y)) 1 (1 / INR (length y)) 1 None [] 0) fuel).
  - intros nu tol Htol Hnu. exists (mkSoft (repeat (1 / INR (length y)) (length y)) 1 tol nu None [] 0), (soft_max_loop tol nu (length y)). unfold soft_nu, check_nu. rewrite !Rleb_true by lra. cbn [andb assert_ bind soft_tolerance so_dist so_gamma so_tol so_model so_hyps so_max_iter].
    split; [reflexivity|]. split.
    + unfold soft_max_loop. apply ceil_usize_ceil. unfold Rdiv at 1. apply Rmult_le_pos.
      * apply Rmult_le_pos; [lra|]. rewrite <- ln_1. apply ln_le; [lra|]. apply Rle_div_iff; lra.
      * left. apply Rinv_0_lt_compat. replace (tol ^ 2) with (Rsqr tol) by (unfold Rsqr; ring). apply Rsqr_pos_lt. exact Htol.
    + apply (P_C64_rounds H conf solve produce y inner (mkSoft (repeat (1 / INR (length y)) (length y)) 1 tol nu None [] 0) fuel).
Qed.

(** ** C33, SoftBoost: every quadratic program handed to the solver is well formed, its objective is the documented
    second-order approximation at a positive point; its feasible points are the distributions (capped or not) under which
    the edge of every received hypothesis is at most the smallest edge seen *)
Lemma P_C33_softboost_program : forall (H : Type) (conf : H -> nat -> R) solve produce y inner (s0 : @soft H) t s m d old p,
  reach (softboost conf solve produce y inner) s0 t s -> so_model s = Some m ->
  let h := produce t (so_dist s) in let g := Rmin (so_gamma s) (edge_of y (so_dist s) (conf h)) in let hs := so_hyps s ++ [h] in
  sq_turns solve (sq_push conf y m h) g (so_dist s) d old -> sq_program (sq_push conf y m h) g d = Ok p ->
  csc_ok (k_A p) /\ csc_ok (k_P p) /\
  (forall x, feasible p x <-> length x = length y /\ is_dist x /\ (forall h', In h' hs -> edge_of y x (conf h') <= g)) /\
  length d = length y /\ (forall v, In v d -> 0 < v) /\
  forall x, objective p x = rsum (map (fun i => 1 / (2 * nth i d 0) * nth i x 0 ^ 2 + ln (nth i d 0) * nth i x 0) (seq 0 (length y))).
Proof.
  intros H conf solve produce y inner s0 t s m d old p Hr Em h g hs Tu Ep. destruct (reach_sinv conf solve produce y inner s0 t s Hr) as [tr [Hn [Hnu [_ [_ [_ [_ [_ [_ [Ld [Pd [[m' [Em' Om]] _]]]]]]]]]]]].
  rewrite Em in Em'. injection Em' as <-. destruct (turns_pos solve y (sq_push conf y m h) g (so_dist s) d old Ld Pd Tu) as [Lq Pq].
  rewrite (so_program_ok conf y (so_nu s0) hs (sq_push conf y m h) g d (sq_push_ok conf y (so_nu s0) _ _ h Om) Lq) in Ep. injection Ep as <-.
  split; [apply edge_matrix_ok|]. split; [apply (diag_ok 0)|]. split; [intros x; apply so_feasible; [lra|exact Lq]|]. split; [exact Lq|]. split; [exact Pq|]. intros x. apply so_objective; assumption.
Qed.

(** ** C33, TotalBoost (SoftBoost with nu = 1, as [TotalBoost::init] sets it): the feasible points are the documented
    ones *)
Lemma P_C33_totalboost_program : forall (H : Type) (conf : H -> nat -> R) solve produce y inner (s1 : @soft H) tol t s m d old p,
  totalboost_init y = Ok s1 ->
  reach (softboost conf solve produce y inner) (totalboost_tolerance s1 tol) t s -> so_model s = Some m ->
  let h := produce t (so_dist s) in let g := Rmin (so_gamma s) (edge_of y (so_dist s) (conf h)) in let hs := so_hyps s ++ [h] in
  sq_turns solve (sq_push conf y m h) g (so_dist s) d old -> sq_program (sq_push conf y m h) g d = Ok p ->
  forall x, feasible p x <-> edge_constraints conf 1 y hs g x.
Proof.
  intros H conf solve produce y inner s1 tol t s m d old p _ Hr Em h g hs Tu Ep x.
  destruct (P_C33_softboost_program H conf solve produce y inner _ t s m d old p Hr Em Tu Ep) as [_ [_ [F _]]]. rewrite F. unfold edge_constraints, capped, in_capped_simplex. fold h g hs.
  split.
  - intros [L [D E]]. split; [split; [exact L|]|exact E]. split; [|apply D]. intros v Hv. pose proof (dist_le1 x D v Hv). lra.
  - intros [[L [D1 D2]] E]. split; [exact L|]. split; [|exact E]. split; [intros v Hv; apply D1, Hv|exact D2].
Qed.

(** ** C33, the linear program that gives the weights in the end: the documented edge minimisation over the capped
    distributions *)
Lemma P_C33_softboost_final_program : forall (H : Type) (conf : H -> nat -> R) solve produce y inner (s0 : @soft H) hs p,
  soft_asks_final conf solve produce y inner s0 hs p ->
  csc_ok (k_A p) /\
  (forall x, feasible p x <-> exists g d, x = g :: d /\ edge_constraints conf (so_nu s0) y hs g d) /\
  (forall g d, objective p (g :: d) = g).
Proof.
  intros H conf solve produce y inner s0 hs p [t [s [q [s' [it [m [Hr [Eb [Eh [Em Ep]]]]]]]]]]. destruct (reach_sinv conf solve produce y inner s0 t s Hr) as [tr HI].
  pose proof (sinv_step conf solve produce y inner s0 t s tr HI) as St. rewrite Eb in St. destruct St as [_ [[_ [_ [_ [_ [_ [[m' [Em' Om]] _]]]]]] _]]. rewrite Em in Em'. injection Em' as <-. rewrite Eh in Om.
  rewrite (so_final_ok conf y (so_nu s0) hs m Om) in Ep. injection Ep as <-. split; [apply edge_matrix_ok|]. split.
  - intros x. rewrite gamma_feasible by apply repeat_length. unfold edge_constraints, capped, in_capped_simplex, is_dist. split.
    + intros [g [d [-> [L [[D1 D2] [C E]]]]]]. exists g, d. split; [reflexivity|]. split; [|exact E]. split; [exact L|]. split; [|exact D2]. intros v Hv. specialize (D1 v Hv). specialize (C v Hv). lra.
    + intros [g [d [-> [[L [D1 D2]] E]]]]. exists g, d. split; [reflexivity|]. split; [exact L|]. split; [split; [intros v Hv; apply D1, Hv|exact D2]|]. split; [|exact E]. intros v Hv. specialize (D1 v Hv). lra.
  - intros g d. rewrite gamma_objective by apply repeat_length. cbn [nth skipn]. rewrite (rsum_zero (fun i => nth i (repeat 0 (length y)) 0 * nth i d 0)); [ring|]. intros i Hi. rewrite nth_repeat_lt by exact Hi. ring.
Qed.

(** ** C64: if the final linear program is solved exactly, the returned vote maximises the soft margin over all convex
    combinations of the hypotheses that were received (and is one of them) *)
Lemma P_C64_best_vote : forall (H : Type) (conf : H -> nat -> R) solve produce y inner (s : @soft H) fuel tr f,
  (forall hs p, soft_asks_final conf solve produce y inner s hs p -> solves p (solve p)) ->
  run (softboost conf solve produce y inner) fuel s = Finished tr f ->
  let hs := answers produce tr in
  (exists ws, length ws = length hs /\ is_dist ws /\ forall i, wm_confidence conf f i = vote conf (combine ws hs) i) /\
  exists v, soft_margin (so_nu s) y (wm_confidence conf f) v /\
    forall ws v', length ws = length hs -> is_dist ws -> soft_margin (so_nu s) y (vote conf (combine ws hs)) v' -> v' <= v.
Proof.
  intros H conf solve produce y inner s fuel tr f Hex Er hs. revert Er. unfold hs. clear hs.
  assert (P : match run (softboost conf solve produce y inner) fuel s with Finished tr f => (exists ws, length ws = length (answers produce tr) /\ is_dist ws /\ forall i, wm_confidence conf f i = vote conf (combine ws (answers produce tr)) i) /\
    exists v, soft_margin (so_nu s) y (wm_confidence conf f) v /\
    forall ws v', length ws = length (answers produce tr) -> is_dist ws -> soft_margin (so_nu s) y (vote conf (combine ws (answers produce tr))) v' -> v' <= v | _ => True end).
  2:{ intros Er. rewrite Er in P. exact P. }
  refine (run_reach (softboost conf solve produce y inner) s (SInv conf produce y s) (fun o => match o with Finished tr f => _ | _ => True end) _ _ _ _ fuel); [| |intros; exact Logic.I|intros; exact Logic.I].
  - apply sinv_first.
  - intros t s1 tr1 Hr HI. pose proof (sinv_step conf solve produce y inner s t s1 tr1 HI) as St. destruct (b_boost _ t s1) as [q [[s' [|it]]|p]] eqn:Eb; [exact St| |exact Logic.I].
    destruct (b_post _ s') as [f1|p] eqn:Ef; [|exact Logic.I]. destruct St as [_ [[_ [En [Eh [_ [_ [[m [Em Om]] _]]]]]] _]]. destruct HI as [Hn [Hnu _]].
    change (b_post (softboost conf solve produce y inner) s') with (soft_post solve s') in Ef. unfold soft_post, sq_weights in Ef. rewrite Em, (so_final_ok conf y (so_nu s) _ m Om) in Ef. cbn [bind] in Ef.
    set (p := gamma_conic conf y 1 (1 / so_nu s) (repeat 0 (length y)) (so_hyps s')) in *.
    assert (Sp : solves p (solve p)). { apply (Hex (so_hyps s')). exists t, s1, q, s', it, m. split; [exact Hr|]. split; [exact Eb|]. split; [reflexivity|]. split; [exact Em|]. apply so_final_ok, Om. }
    destruct (gamma_solved conf y 1 (1 / so_nu s) (repeat 0 (length y)) (so_hyps s') (repeat_length _ _) (solve p) Sp) as [_ [Lz [Ld [Dd [Cd [Lw [Dw [Eg [Ev Hopt]]]]]]]]].
    set (d := skipn 1 (a_x (solve p))) in *. set (g := nth 0 (a_x (solve p)) 0) in *. destruct Om as [E1 _]. rewrite E1 in Ef. unfold slice_from in Ef. rewrite Lz in Ef. rewrite (proj2 (Nat.leb_le _ _)) in Ef by lia. cbn [bind] in Ef.
    set (ws := skipn (1 + 2 * length y) (a_z (solve p))) in *. destruct (from_slices_dist conf ws (so_hyps s') Lw Dw) as [f' [Ef' Cf]]. rewrite Ef in Ef'. injection Ef' as <-.
    assert (Z : forall q : list R, rsum (map (fun i => nth i (repeat 0 (length y)) 0 * nth i q 0) (seq 0 (length y))) = 0) by (intros q'; apply rsum_zero; intros i Hi; rewrite nth_repeat_lt by exact Hi; ring).
    assert (Cap : capped (so_nu s) y d). { split; [exact Ld|]. split; [|apply Dd]. intros v Hv. split; [apply Dd, Hv|]. specialize (Cd v Hv). lra. }
    split; [exists ws; rewrite <- Eh; split; [exact Lw|]; split; [exact Dw|exact Cf]|].
    exists g. split; [split|].
    + exists d. split; [exact Cap|]. rewrite <- Ev. unfold edge_of. apply rsum_map_ext. intros i _. rewrite Cf. reflexivity.
    + intros d' [Ld' [C1 C2]]. specialize (Hopt d' Ld'). rewrite !Z in Hopt. assert (E : edge_of y d' (wm_confidence conf f1) = edge_of y d' (vote conf (combine ws (so_hyps s')))) by (unfold edge_of; apply rsum_map_ext; intros i _; rewrite Cf; reflexivity).
      rewrite E. assert (g + 0 <= edge_of y d' (vote conf (combine ws (so_hyps s'))) + 0); [|lra]. apply Hopt; [split; [intros v Hv; apply C1, Hv|exact C2]|]. intros v Hv. specialize (C1 v Hv). lra.
    + intros ws' v' Lw' Dw' [_ Hm]. eapply Rle_trans; [apply (Hm d Cap)|]. rewrite <- Eh in *. apply vote_edge_ub; assumption.
Qed.

(** ** C64: with an exact solver the run ends within max_loop rounds (its loops included) without a panic, and shows only
    distributions without zero weights to the weak learner; the only exception is max_loop = 0, see C64_full_cap_refuted *)
Lemma P_C64_terminates : forall (H : Type) (conf : H -> nat -> R) solve produce y inner (s : @soft H),
  (forall p, soft_asks conf solve produce y inner s p -> solves p (solve p)) ->
  (forall hs p, soft_asks_final conf solve produce y inner s hs p -> solves p (solve p)) ->
  is_valid_binary_instance y = Ok tt -> so_tol s <> 0 -> 1 <= so_nu s < INR (length y) ->
  (1000000000 + ln (INR (length y))) * 1000000000 + 1 < INR inner ->
  forall fuel, (soft_max_loop (so_tol s) (so_nu s) (length y) < fuel)%nat ->
  exists tr f, run (softboost conf solve produce y inner) fuel s = Finished tr f /\
    (1 <= length tr <= soft_max_loop (so_tol s) (so_nu s) (length y))%nat /\ Forall (fun d => length d = length y /\ is_pos_dist d) tr.
Proof.
  intros H conf solve produce y inner s Hex Hexf Hval Htol Hnu Hin fuel Hf. set (N := soft_max_loop (so_tol s) (so_nu s) (length y)) in *.
  assert (HN1 : (1 <= N)%nat).
  { unfold N, soft_max_loop. apply ceil_usize_pos. apply Rdiv_lt_0_compat.
    - apply Rmult_lt_0_compat; [lra|]. rewrite <- ln_1. apply ln_increasing; [lra|]. apply Rlt_div_iff; lra.
    - replace (so_tol s ^ 2) with (Rsqr (so_tol s)) by (unfold Rsqr; ring). apply Rsqr_pos_lt. exact Htol. }
  refine (run_reach_bound (softboost conf solve produce y inner) s (S N) (fun t s1 tr => XInv conf produce y s t s1 tr /\ Forall (fun d => length d = length y) tr)
    (fun o => exists tr f, o = Finished tr f /\ (1 <= length tr <= N)%nat /\ Forall (fun d => length d = length y /\ is_pos_dist d) tr) _ _ _ fuel _).
  - intros s1 E. split; [eapply xinv_first; exact E|constructor].
  - intros t s1 tr Hr [HI HL]. pose proof (xinv_step conf solve produce y inner s Hex Hin t s1 tr Hr HI) as Xt. destruct HI as [HI _]. pose proof (sinv_step conf solve produce y inner s t s1 tr HI) as St.
    assert (HL' : forall q r, b_boost (softboost conf solve produce y inner) t s1 = (q, r) -> Forall (fun d => length d = length y) (tr ++ q)).
    { intros q r E. change (b_boost (softboost conf solve produce y inner) t s1) with (soft_boost conf solve produce y inner t s1) in E. unfold soft_boost in E. apply Forall_app. split; [exact HL|].
      destruct (Nat.ltb _ _); injection E as <- _; constructor; [apply HI|constructor]. }
    destruct (b_boost _ t s1) as [q [[s' [|it]]|p]] eqn:Eb; [| |destruct Xt].
    + split; [split; [apply Xt|apply (HL' _ _ eq_refl)]|]. fold N in Xt. lia.
    + destruct St as [S1 [[_ [_ [Eh [_ [_ [[m [Em Om]] _]]]]]] S3]]. fold N in S1, S3.
      assert (L1 : (1 <= length (tr ++ q))%nat).
      { destruct q as [|d0 q0]; [|rewrite app_length; simpl; lia]. destruct (S3 eq_refl) as [_ Ht]. destruct HI as [_ [_ [_ [Hl _]]]]. rewrite app_nil_r. lia. }
      change (b_post (softboost conf solve produce y inner) s') with (soft_post solve s'). unfold soft_post, sq_weights. rewrite Em, (so_final_ok conf y (so_nu s) _ m Om). cbn [bind].
      set (p := gamma_conic conf y 1 (1 / so_nu s) (repeat 0 (length y)) (so_hyps s')) in *.
      assert (Sp : solves p (solve p)). { apply (Hexf (so_hyps s')). exists t, s1, q, s', it, m. split; [exact Hr|]. split; [exact Eb|]. split; [reflexivity|]. split; [exact Em|]. apply so_final_ok, Om. }
      destruct (gamma_solved conf y 1 (1 / so_nu s) (repeat 0 (length y)) (so_hyps s') (repeat_length _ _) (solve p) Sp) as [_ [Lz [_ [_ [_ [Lw [Dw _]]]]]]].
      destruct Om as [E1 _]. rewrite E1. unfold slice_from. rewrite Lz. rewrite (proj2 (Nat.leb_le _ _)) by lia. cbn [bind].
      destruct (from_slices_dist conf _ (so_hyps s') Lw Dw) as [f' [Ef' Cf]]. rewrite Ef'. exists (tr ++ q), f'. split; [reflexivity|]. split; [lia|].
      specialize (HL' _ _ eq_refl). rewrite Forall_forall in *. intros d Hd. split; [apply HL', Hd|apply Xt, Hd].
  - change (b_pre (softboost conf solve produce y inner) s) with (soft_pre y s). intros p. unfold soft_pre. rewrite Hval. cbn [bind].
    destruct (Reqb_spec (so_tol s) 0); [contradiction|]. unfold check_nu. rewrite !Rleb_true by lra. cbn [andb assert_ bind]. discriminate.
  - lia.
Qed.

(** ** C64 refuted for nu = n (allowed by [nu]): SoftBoost never asks the weak learner and panics *)
Lemma P_C64_full_cap_refuted : forall (H : Type) (conf : H -> nat -> R) solve produce y inner (s : @soft H) fuel,
  is_valid_binary_instance y = Ok tt -> so_tol s <> 0 -> so_nu s = INR (length y) ->
  (forall p, length (a_z (solve p)) = length (k_b p)) -> (1 <= fuel)%nat ->
  run (softboost conf solve produce y inner) fuel s = Crashed [] AssertFailed.
Proof.
  intros H conf solve produce y inner s fuel Hval Htol Hnu Hz Hf. pose proof (valid_instance_nonempty y Hval) as Hn. assert (Hn1 : 1 <= INR (length y)) by (apply (le_INR 1) in Hn; exact Hn).
  destruct fuel as [|fuel]; [lia|]. unfold run. change (b_pre (softboost conf solve produce y inner) s) with (soft_pre y s). unfold soft_pre. rewrite Hval. cbn [bind]. destruct (Reqb_spec (so_tol s) 0); [contradiction|].
  unfold check_nu. rewrite Hnu, !Rleb_true by lra. cbn [andb assert_ bind].
  assert (N0 : soft_max_loop (so_tol s) (INR (length y)) (length y) = 0%nat).
  { unfold soft_max_loop. replace (INR (length y) / INR (length y)) with 1 by (field; lra). rewrite ln_1. unfold Rdiv. rewrite Rmult_0_r, Rmult_0_l.
    destruct (ceil_usize 0) as [|k] eqn:E; [reflexivity|]. exfalso. pose proof (ceil_usize_lt 0 ltac:(lra)) as L. rewrite E, S_INR in L. pose proof (pos_INR k). lra. }
  rewrite N0. cbn [run_from]. change (b_boost (softboost conf solve produce y inner)) with (soft_boost conf solve produce y inner). unfold soft_boost. cbn [so_max_iter Nat.ltb Nat.leb].
  change (b_post (softboost conf solve produce y inner)) with (soft_post (H := H) solve). unfold soft_post, sq_weights. cbn [so_model so_hyps].
  rewrite (so_final_ok conf y (INR (length y)) [] (sq_init (length y) (1 / INR (length y))) (sq_init_ok conf y _)). cbn [bind]. unfold slice_from. cbn [sq_n sq_init]. rewrite Hz.
  assert (Lb : length (k_b (gamma_conic conf y 1 (1 / INR (length y)) (repeat 0 (length y)) [])) = (1 + 2 * length y)%nat) by (cbn [gamma_conic k_b]; unfold edge_rhs; cbn [length]; rewrite !app_length, !repeat_length; cbn [length]; lia).
  rewrite Lb, (proj2 (Nat.leb_le _ _)) by lia. cbn [bind]. rewrite skipn_all2 by (rewrite Hz, Lb; lia). unfold from_slices, kept, normalize. cbn [combine filter map]. change (rsum []) with 0. destruct (Reqb_spec 0 0); [reflexivity|contradiction].
Qed.

(** ** C64 refuted: the distributions do not follow the answers.  Whatever the sample and the class of hypotheses, if the
    weak learner always returns a hypothesis of the class with the largest edge and the solver is exact, SoftBoost shows
    it the uniform distribution in every round. *)
Section Stuck.
  Context {H : Type}.
  Variable conf : H -> nat -> R.
  Variable solve : conic -> answer.
  Variable produce : nat -> list R -> H.
  Variable y : list R.
  Variable inner : nat.
  Variable s0 : @soft H.
  Notation n := (length y).
  Notation b := (softboost conf solve produce y inner).
  Notation nu := (so_nu s0).
  Notation u := (repeat (1 / INR (length y)) (length y)).
  Hypothesis Hex : forall p, soft_asks conf solve produce y inner s0 p -> (exists x, feasible p x) -> solves p (solve p).
  Hypothesis Hbest : forall t d h, edge_of y d (conf h) <= edge_of y d (conf (produce t d)).
  Hypothesis Hsub : forall h, edge_of y u (conf h) <= 1.

  Lemma uniform_only hs g a : (0 < n)%nat -> 0 < nu -> (forall h, In h hs -> edge_of y u (conf h) <= g) -> solves (so_conic conf y nu hs g u) a -> a_x a = u.
  Proof.
    intros Hn Hnu He Ha. assert (Hn1 : 0 < INR n) by (apply lt_0_INR; exact Hn). assert (Lu : length u = n) by apply repeat_length.
    assert (Pu : forall v, In v u -> 0 < v) by (intros v Hv; apply repeat_spec in Hv; subst v; apply Rdiv_lt_0_compat; lra).
    destruct (so_solved conf y nu hs g u a Hnu Hn Lu Pu Ha) as [Lx [Dx [Ex _]]]. destruct Ha as [K [Eo _]].
    assert (Du : is_dist u) by (split; [intros v Hv; left; apply Pu, Hv|rewrite rsum_repeat; field; lra]).
    assert (Op : objective (so_conic conf y nu hs g u) (a_x a) <= objective (so_conic conf y nu hs g u) u).
    { apply (kkt_optimal _ _ (a_z a)); [| | |exact K|].
      - cbn [so_conic k_A k_b csc_of c_rows]. unfold edge_rhs. cbn [length]. rewrite !app_length, !repeat_length. lia.
      - cbn [so_conic k_A k_q csc_of c_cols]. rewrite edge_cols_length, map_length, Lu. reflexivity.
      - apply (convex_diag 0 n); [rewrite map_length; exact Lu|]. intros i Hi. unfold so_diag. left. apply Rdiv_lt_0_compat; [lra|]. apply Pu, nth_In. lia.
      - apply so_feasible; [exact Hnu|exact Lu|]. auto. }
    rewrite !so_objective in Op by assumption. apply nth_is_dist in Dx. rewrite Lx in Dx. destruct Dx as [_ Dx].
    assert (F : forall x, rsum (map (fun i => 1 / (2 * nth i u 0) * nth i x 0 ^ 2 + ln (nth i u 0) * nth i x 0) (seq 0 n)) =
      INR n / 2 * rsum (map (fun i => (nth i x 0 - 1 / INR n) ^ 2) (seq 0 n)) + (1 + ln (1 / INR n)) * rsum (map (fun i => nth i x 0) (seq 0 n)) - 1 / 2).
    { intros x. replace (1 / 2) with (rsum (map (fun _ : nat => 1 / 2 * (1 / INR n)) (seq 0 n))).
      - rewrite <- !rsum_map_mult, <- rsum_map_plus, <- rsum_map_minus. apply rsum_map_ext. intros i Hi. apply in_seq in Hi. rewrite (nth_repeat_lt (1 / INR n)) by lia. field. lra.
      - assert (C : forall (l : list nat) (k : R), rsum (map (fun _ => k) l) = INR (length l) * k) by (intros l k; induction l as [|z l IH]; [simpl; ring|]; cbn [map rsum]; change (rsum (k :: map (fun _ => k) l)) with (k + rsum (map (fun _ => k) l)); rewrite IH; cbn [length]; rewrite S_INR; ring).
        rewrite C, seq_length. field. lra. }
    rewrite !F in Op. pose proof (proj2 (nth_is_dist u Du)) as Su. rewrite Lu in Su. rewrite Dx, Su in Op.
    rewrite (rsum_zero (fun i => (nth i u 0 - 1 / INR n) ^ 2)) in Op by (intros i Hi; rewrite nth_repeat_lt by exact Hi; ring).
    assert (Z : rsum (map (fun i => (nth i (a_x a) 0 - 1 / INR n) ^ 2) (seq 0 n)) = 0).
    { apply Rle_antisym; [|apply rsum_nonneg_seq; intros; apply pow2_ge_0]. assert (0 < INR n / 2) by lra. nra. }
    apply (nth_ext _ _ 0 0); [rewrite Lx, Lu; reflexivity|]. intros i Hi. rewrite Lx in Hi. rewrite nth_repeat_lt by exact Hi.
    assert (Q : (nth i (a_x a) 0 - 1 / INR n) ^ 2 = 0).
    { apply (rsum_nonneg_zero (map (fun i => (nth i (a_x a) 0 - 1 / INR n) ^ 2) (seq 0 n))); [|exact Z|apply in_map_iff; exists i; split; [reflexivity|apply in_seq; lia]].
      intros x Hx. apply in_map_iff in Hx. destruct Hx as [j [<- _]]. apply pow2_ge_0. }
    nra.
  Qed.

  Definition UInv (t : nat) (s : @soft H) (tr : trace) : Prop := SInv conf produce y s0 t s tr /\ Forall (eq u) tr /\ so_dist s = u /\ (so_hyps s = [] \/ so_gamma s = edge_of y u (conf (produce t u))) /\
    (forall h, In h (so_hyps s) -> edge_of y u (conf h) <= so_gamma s) /\ so_gamma s <= 1.

  Lemma best_eq t t' : edge_of y u (conf (produce t u)) = edge_of y u (conf (produce t' u)).
  Proof. apply Rle_antisym; apply Hbest. Qed.

  Lemma uinv_step t s tr : reach b s0 t s -> UInv t s tr ->
    match b_boost b t s with
    | (q, Panic _) => Forall (eq u) (tr ++ q)
    | (q, Ok (s', Continue)) => UInv (S t) s' (tr ++ q)
    | (q, Ok (s', Break _)) => Forall (eq u) (tr ++ q)
    end.
  Proof.
    intros Hr [HI [Q [Es [Eg0 [Hh Hg1]]]]]. pose proof (sinv_step conf solve produce y inner s0 t s tr HI) as St. destruct HI as [Hn [Hnu [Ht [Hl [HN [Em [En [Eh [Ld [Pd [[m [Emo Om]] [G1 G2]]]]]]]]]]]].
    assert (Q' : Forall (eq u) (tr ++ [so_dist s])) by (apply Forall_app; split; [exact Q|constructor; [symmetry; exact Es|constructor]]).
    change (b_boost b t s) with (soft_boost conf solve produce y inner t s) in *. unfold soft_boost in *. rewrite Em in *. destruct (Nat.ltb_spec (soft_max_loop (so_tol s0) (so_nu s0) n) t) as [Hlt|Hlt]; [rewrite app_nil_r; exact Q|]. rewrite Emo in *.
    pose proof (soft_ghat_min conf produce y t s Ld) as Eg. assert (Eg' := Eg). unfold soft_ghat in Eg. cbn zeta in Eg. rewrite Eg in *. set (h := produce t (so_dist s)) in *. set (g := Rmin (so_gamma s) (edge_of y (so_dist s) (conf h))) in *.
    assert (Eh' : h = produce t u) by (unfold h; rewrite Es; reflexivity).
    assert (Gg : g = edge_of y u (conf h)).
    { unfold g. rewrite Es. destruct Eg0 as [E0|E0].
      - apply Rmin_right. destruct G2 as [->|G2]; [apply Hsub|]. rewrite E0 in Eh. destruct tr as [|d0 tr0]; [destruct G2|]. symmetry in Eh. apply map_eq_nil in Eh. discriminate.
      - rewrite E0, <- Eh'. apply Rmin_left. lra. }
    assert (Hle : forall h', In h' (so_hyps s ++ [h]) -> edge_of y u (conf h') <= g) by (intros h' _; rewrite Gg, Eh'; apply Hbest).
    assert (Fe : forall p, sq_program (sq_push conf y m h) g u = Ok p -> exists x, feasible p x).
    { intros p Ep. rewrite (so_program_ok conf y nu (so_hyps s ++ [h]) _ g u (sq_push_ok conf y nu _ _ h Om) (repeat_length _ _)) in Ep. injection Ep as <-. exists u. apply so_feasible; [lra|apply repeat_length|]. split; [apply repeat_length|]. split; [|exact Hle].
      assert (0 < INR n) by (apply lt_0_INR; exact Hn). split; [intros v Hv; apply repeat_spec in Hv; subst v; left; apply Rdiv_lt_0_compat; lra|rewrite rsum_repeat; field; lra]. }
    assert (U : forall d old, sq_turns solve (sq_push conf y m h) g (so_dist s) d old -> d = u).
    { intros d old Tu. induction Tu as [|d old p Tu IH Ep Ap Et]; [exact Es|]. subst d.
      assert (A : solves p (solve p)) by (apply Hex; [exists t, s, m, u, old; cbn zeta; split; [exact Hr|]; split; [exact Emo|]; split; [rewrite Em; exact Hlt|]; rewrite Eg'; split; [exact Tu|exact Ep]|apply Fe; first [exact Ep|reflexivity]]).
      rewrite (so_program_ok conf y nu (so_hyps s ++ [h]) _ g u (sq_push_ok conf y nu _ _ h Om) (repeat_length _ _)) in Ep. injection Ep as <-.
      apply (uniform_only _ _ _ Hn ltac:(lra) Hle) in A. rewrite A. apply zip_assign_all. reflexivity. }
    assert (X : forall fuel d old d' r, sq_turns solve (sq_push conf y m h) g (so_dist s) d old -> sq_loop solve fuel (sq_push conf y m h) g d old = Ok (d', r) -> d' = u).
    { induction fuel as [|fuel IH]; intros d old d' r Tu E; cbn [sq_loop] in E; [discriminate|]. assert (Ed := U d old Tu). subst d.
      destruct (sq_program _ g u) as [p|] eqn:Ep; cbn [bind] in E; [|discriminate]. destruct (all_positive (a_x (solve p))) eqn:Ap; cbn [negb] in E; [|injection E as <- _; reflexivity].
      destruct (Rltb (old - a_obj (solve p)) QP_TOLERANCE) eqn:Et.
      - injection E as <- _.
        assert (A : solves p (solve p)) by (apply Hex; [exists t, s, m, u, old; cbn zeta; split; [exact Hr|]; split; [exact Emo|]; split; [rewrite Em; exact Hlt|]; rewrite Eg'; split; [exact Tu|exact Ep]|apply Fe; first [exact Ep|reflexivity]]).
        rewrite (so_program_ok conf y nu (so_hyps s ++ [h]) _ g u (sq_push_ok conf y nu _ _ h Om) (repeat_length _ _)) in Ep. injection Ep as <-.
        apply (uniform_only _ _ _ Hn ltac:(lra) Hle) in A. rewrite A. apply zip_assign_all. reflexivity.
      - eapply IH; [|exact E]. econstructor; eassumption. }
    destruct (sq_loop solve inner (sq_push conf y m h) g (so_dist s) 1000000000) as [[d' r]|p] eqn:El; cbn [bind fst snd] in *; [|exact Q'].
    destruct r; [|exact Q']. split; [exact St|]. split; [exact Q'|]. cbn [so_dist so_hyps so_gamma]. split; [eapply X; [constructor|exact El]|]. split; [right; rewrite Gg, Eh'; apply best_eq|]. split; [exact Hle|]. rewrite Gg. apply Hsub.
  Qed.

  Lemma uinv_first s : b_pre b s0 = Ok s -> UInv 1 s [].
  Proof.
    intros E. pose proof (sinv_first conf solve produce y inner s0 s E) as I. apply soft_pre_ok in E. destruct E as [_ [_ [_ [_ ->]]]]. split; [exact I|]. split; [constructor|]. cbn [so_dist so_hyps so_gamma]. split; [reflexivity|]. split; [left; reflexivity|]. split; [intros h []|lra].
  Qed.

  Lemma reach_uinv t s : reach b s0 t s -> exists tr, UInv t s tr.
  Proof.
    induction 1 as [s E|t s q s' Hr [tr IH] E]; [exists []; apply uinv_first, E|]. exists (tr ++ q). pose proof (uinv_step t s tr Hr IH) as St. rewrite E in St. exact St.
  Qed.

  (** every program of such a run can be met: by the uniform distribution *)
  Lemma stuck_feasible p : soft_asks conf solve produce y inner s0 p -> exists x, feasible p x.
  Proof.
    intros [t [s [m [d [old [Hr [Emo [Hlt [Tu Ep]]]]]]]]]. cbv zeta in Tu, Ep. destruct (reach_uinv t s Hr) as [tr [HI [Q [Es [Eg0 [Hh Hg1]]]]]].
    destruct HI as [Hn [Hnu [Ht [Hl [HN [Em [En [Eh [Ld [Pd [[m' [Emo' Om]] [G1 G2]]]]]]]]]]]]. rewrite Emo in Emo'. injection Emo' as <-.
    pose proof (soft_ghat_min conf produce y t s Ld) as Eg. set (h := produce t (so_dist s)) in *. rewrite Eg in Tu, Ep. set (g := Rmin (so_gamma s) (edge_of y (so_dist s) (conf h))) in *.
    assert (Eh' : h = produce t u) by (unfold h; rewrite Es; reflexivity).
    assert (Gg : g = edge_of y u (conf h)).
    { unfold g. rewrite Es. destruct Eg0 as [E0|E0].
      - apply Rmin_right. destruct G2 as [->|G2]; [apply Hsub|]. rewrite E0 in Eh. destruct tr as [|d0 tr0]; [destruct G2|]. symmetry in Eh. apply map_eq_nil in Eh. discriminate.
      - rewrite E0, <- Eh'. apply Rmin_left. lra. }
    assert (Hle : forall h', In h' (so_hyps s ++ [h]) -> edge_of y u (conf h') <= g) by (intros h' _; rewrite Gg, Eh'; apply Hbest).
    assert (Fe : forall q, length q = n -> exists x, feasible (so_conic conf y nu (so_hyps s ++ [h]) g q) x).
    { intros q Lq. exists u. apply so_feasible; [lra|exact Lq|]. split; [apply repeat_length|]. split; [|exact Hle].
      assert (0 < INR n) by (apply lt_0_INR; exact Hn). split; [intros v Hv; apply repeat_spec in Hv; subst v; left; apply Rdiv_lt_0_compat; lra|rewrite rsum_repeat; field; lra]. }
    destruct (turns_pos solve y (sq_push conf y m h) g (so_dist s) d old Ld Pd Tu) as [Lq _].
    rewrite (so_program_ok conf y nu (so_hyps s ++ [h]) _ g d (sq_push_ok conf y nu _ _ h Om) Lq) in Ep. injection Ep as <-. apply Fe, Lq.
  Qed.
End Stuck.

Lemma P_C64_stuck_refuted : forall (H : Type) (conf : H -> nat -> R) solve produce y inner (s : @soft H) fuel,
  (forall p, soft_asks conf solve produce y inner s p -> (exists x, feasible p x) -> solves p (solve p)) ->
  (forall t d h, edge_of y d (conf h) <= edge_of y d (conf (produce t d))) ->
  (forall h i, (i < length y)%nat -> nth i y 0 * conf h i <= 1) ->
  forall d, In d (trace_of (run (softboost conf solve produce y inner) fuel s)) -> d = repeat (1 / INR (length y)) (length y).
Proof.
  intros H conf solve produce y inner s fuel Hex Hbest Hm.
  assert (P : Forall (eq (repeat (1 / INR (length y)) (length y))) (trace_of (run (softboost conf solve produce y inner) fuel s))).
  2:{ intros d Hd. rewrite Forall_forall in P. symmetry. apply P, Hd. }
  destruct (length y) as [|k] eqn:Hn0.
  { unfold run. change (b_pre (softboost conf solve produce y inner) s) with (soft_pre y s). destruct (soft_pre y s) as [s1|p] eqn:E; [|constructor]. apply soft_pre_ok in E. destruct E as [_ [E _]]. lia. }
  assert (Hn : (0 < length y)%nat) by lia. rewrite <- Hn0 in *. clear k Hn0.
  assert (Hsub : forall h, edge_of y (repeat (1 / INR (length y)) (length y)) (conf h) <= 1).
  { intros h. pose proof (lt_0_INR _ Hn) as Hp. unfold edge_of.
    assert (E1 : rsum (map (fun i => nth i (repeat (1 / INR (length y)) (length y)) 0) (seq 0 (length y))) = 1).
    { pose proof (map_nth_seq 0 (repeat (1 / INR (length y)) (length y))) as E. rewrite repeat_length in E. rewrite E, rsum_repeat. field. lra. }
    eapply Rle_trans; [|right; exact E1]. apply rsum_le_seq. intros i Hi. rewrite nth_repeat_lt by exact Hi. specialize (Hm h i Hi). assert (0 < 1 / INR (length y)) by (apply Rdiv_lt_0_compat; lra). nra. }
  refine (run_reach (softboost conf solve produce y inner) s (UInv conf produce y s) (fun o => Forall (eq _) (trace_of o)) _ _ _ _ fuel).
  - apply uinv_first.
  - intros t s1 tr Hr HI. pose proof (uinv_step conf solve produce y inner s Hex Hbest Hsub t s1 tr Hr HI) as St. destruct (b_boost _ t s1) as [q [[s' [|it]]|p]]; [exact St| |exact St].
    destruct (b_post _ s'); exact St.
  - intros t s1 tr _ HI. apply HI.
  - intros p _. constructor.
Qed.

(** ** an example: two examples, nu = 1, tolerance 1/10, two hypotheses with margins (1, 0) and (0, 1) *)
Definition sx_conf (h : bool) (i : nat) : R := match i with O => if h then 1 else 0 | _ => if h then 0 else -1 end.
Definition sx_produce (t : nat) (d : list R) : bool := Rleb (edge_of y2 d (sx_conf false)) (edge_of y2 d (sx_conf true)).
Definition sx_u : list R := [1 / 2; 1 / 2].
Definition sx_solve (p : conic) : answer :=
  if Nat.eqb (length (k_q p)) 2 then mkAnswer sx_u ((-1 - ln (1 / 2)) :: repeat 0 (length (k_b p) - 1)) (objective p sx_u) Solved
  else mkAnswer [0; 0; 1] ([0; 1; 0; 0; 0; 1] ++ repeat 0 (length (k_b p) - 6)) (objective p [0; 0; 1]) Solved.
Definition sx_state : @soft bool := mkSoft [] 1 (1 / 10) 1 None [] 0.

Lemma sx_rep : repeat (1 / INR (length y2)) (length y2) = sx_u.
Proof. cbn [y2 length]. simpl (INR 2). cbn [repeat]. unfold sx_u. replace (1 + 1) with 2 by lra. reflexivity. Qed.

Lemma sx_first t : sx_produce t sx_u = true.
Proof. unfold sx_produce. apply Rleb_true. unfold edge_of. cbn. lra. Qed.

Lemma sx_marg k t i : (t < S k)%nat -> (i < 2)%nat -> marg sx_conf y2 (repeat true (S k)) t i = if Nat.eqb i 0 then 1 else 0.
Proof.
  intros Ht Hi. rewrite (marg_nth sx_conf y2 (repeat true (S k)) t true i); [|rewrite (nth_error_nth' _ true) by (rewrite repeat_length; exact Ht); rewrite nth_repeat_lt by exact Ht; reflexivity|exact Hi].
  small_nat i Hi; cbn; lra.
Qed.

Lemma sx_edge_sum x k t : (t < S k)%nat -> rsum (map (fun i => nth i x 0 * marg sx_conf y2 (repeat true (S k)) t i) (seq 0 2)) = nth 0 x 0.
Proof. intros Ht. cbn [seq map]. rewrite !sx_marg by lia. cbn [Nat.eqb]. unfold rsum. simpl. ring. Qed.

Lemma sx_blen {A} cap g (hs : list A) : length (edge_rhs cap g 2 (length hs)) = (5 + length hs)%nat.
Proof. unfold edge_rhs. cbn [length]. rewrite !app_length, !repeat_length. lia. Qed.

Lemma sx_qp k : solves (so_conic sx_conf y2 1 (repeat true (S k)) (1 / 2) sx_u) (sx_solve (so_conic sx_conf y2 1 (repeat true (S k)) (1 / 2) sx_u)).
Proof.
  set (hs := repeat true (S k)). assert (Lh : length hs = S k) by apply repeat_length.
  unfold solves, sx_solve. change (k_q (so_conic sx_conf y2 1 hs (1 / 2) sx_u)) with (map ln sx_u). change (length (map ln sx_u)) with 2%nat. cbn [Nat.eqb a_x a_z a_obj a_status]. split; [|split; reflexivity].
  assert (L2 : length (k_b (so_conic sx_conf y2 1 hs (1 / 2) sx_u)) = (6 + k)%nat) by (cbn [so_conic k_b y2 length]; rewrite sx_blen, Lh; lia). rewrite L2.
  assert (Z : forall j, nth (S j) ((-1 - ln (1 / 2)) :: repeat 0 (6 + k - 1)) 0 = 0) by (intros j; cbn [nth]; apply nth_repeat).
  apply (edge_kkt sx_conf y2 false (1 / 1) hs _ _ (1 / 1) (1 / 2)); [reflexivity|]. split.
  - apply so_feasible; [lra|reflexivity|]. split; [reflexivity|]. split; [split; [intros v [<-|[<-|[]]]; lra|cbn; lra]|]. intros h Hh. apply repeat_spec in Hh. subst h. unfold edge_of. cbn. lra.
  - split; [cbn [length y2]; rewrite repeat_length, Lh; lia|]. cbn [y2 length Nat.add Nat.mul]. split; [intros i Hi; rewrite !Z; lra|]. split; [intros t Ht; rewrite Z; lra|]. split; [intros i Hi; rewrite !Z; lra|].
    split; [intros t Ht; rewrite Z; ring|]. split; [discriminate|]. intros i Hi. cbn [offs]. rewrite (diag_row 0 2) by lia. rewrite !Z.
    rewrite (rsum_zero (fun t => nth (S (4 + t)) _ 0 * _)) by (intros t Ht; rewrite Z; ring). unfold so_diag. small_nat i Hi; cbn [Nat.add nth sx_u map]; field.
Qed.

Lemma sx_lp k : solves (gamma_conic sx_conf y2 1 (1 / 1) (repeat 0 (length y2)) (repeat true (S k))) (sx_solve (gamma_conic sx_conf y2 1 (1 / 1) (repeat 0 (length y2)) (repeat true (S k)))).
Proof.
  set (hs := repeat true (S k)). assert (Lh : length hs = S k) by apply repeat_length.
  unfold solves, sx_solve. change (k_q (gamma_conic sx_conf y2 1 (1 / 1) (repeat 0 (length y2)) hs)) with [1; 0; 0]. cbn [length Nat.eqb a_x a_z a_obj a_status]. split; [|split; reflexivity].
  assert (L2 : length (k_b (gamma_conic sx_conf y2 1 (1 / 1) (repeat 0 (length y2)) hs)) = (6 + k)%nat) by (cbn [gamma_conic k_b y2 length]; rewrite sx_blen, Lh; lia). rewrite L2.
  replace (6 + k - 6)%nat with k by lia. set (z := [0; 1; 0; 0; 0; 1] ++ repeat 0 k).
  assert (Z : forall t, nth (5 + S t) z 0 = 0) by (intros t; unfold z; cbn [app nth Nat.add]; apply nth_repeat).
  apply (edge_kkt sx_conf y2 true 1 hs _ _ (1 / 1) 0); [reflexivity|]. split.
  - apply gamma_feasible; [reflexivity|]. exists 0, [0; 1]. split; [reflexivity|]. split; [reflexivity|]. split; [split; [intros v [<-|[<-|[]]]; lra|cbn; lra]|]. split; [intros v [<-|[<-|[]]]; lra|].
    intros h Hh. apply repeat_spec in Hh. subst h. unfold edge_of. cbn. lra.
  - split; [unfold z; rewrite app_length, repeat_length, Lh; cbn [length y2]; lia|].
    change (length y2) with 2%nat. rewrite Lh.
    assert (Zs : forall f, rsum (map (fun t => nth (1 + 2 * 2 + t) z 0 * f t) (seq 0 (S k))) = f 0%nat).
    { intros f. cbn [seq map]. change (rsum (?a :: ?l)) with (a + rsum l). rewrite <- seq_shift, map_map. rewrite (rsum_zero (fun t => nth (1 + 2 * 2 + S t) z 0 * f (S t))) by (intros t Ht; change (1 + 2 * 2 + S t)%nat with (5 + S t)%nat; rewrite Z; ring). unfold z. cbn. ring. }
    split; [intros i Hi; small_nat i Hi; cbn; lra|]. split; [intros [|t] Ht; [cbn; lra|change (1 + 2 * 2 + S t)%nat with (5 + S t)%nat; rewrite Z; lra]|].
    split; [intros i Hi; small_nat i Hi; cbn; lra|]. split.
    + intros t Ht. cbn [offs gof]. rewrite (rsum_map_ext _ (fun i => nth i [0; 1] 0 * marg sx_conf y2 hs t i)) by (intros; reflexivity). unfold hs. rewrite sx_edge_sum by exact Ht. cbn [nth]. ring.
    + split.
      * intros _. rewrite row_dot_zeros. rewrite (rsum_map_ext _ (fun t => nth (1 + 2 * 2 + t) z 0 * 1)) by (intros; ring). rewrite Zs. cbn [nth]. ring.
      * intros i Hi. rewrite row_dot_zeros, Zs. unfold hs. rewrite sx_marg by lia. small_nat i Hi; cbn; lra.
Qed.

Section Sx.
  Variable inner : nat.
  Notation b := (softboost sx_conf sx_solve sx_produce y2 inner).

  Definition sx_ok (t : nat) (s : @soft bool) : Prop :=
    (1 <= t)%nat /\ so_dist s = sx_u /\ so_hyps s = repeat true (t - 1) /\ soft_ghat sx_conf sx_produce y2 t s = 1 / 2 /\
    so_max_iter s = soft_max_loop (1 / 10) 1 2 /\ exists m, so_model s = Some m /\ sqm_ok sx_conf y2 1 (so_hyps s) m.

  Lemma sx_edge : edge_of y2 sx_u (sx_conf true) = 1 / 2.
  Proof. unfold edge_of. cbn. lra. Qed.

  Lemma sx_turn m hs d old : sqm_ok sx_conf y2 1 hs m -> sq_turns sx_solve m (1 / 2) sx_u d old -> d = sx_u.
  Proof.
    intros O Tu. induction Tu as [|d old p Tu IH Ep Ap Et]; [reflexivity|]. subst d. rewrite (so_program_ok sx_conf y2 1 hs m (1 / 2) sx_u O eq_refl) in Ep. injection Ep as <-. reflexivity.
  Qed.

  Lemma sx_loop m k : sqm_ok sx_conf y2 1 (repeat true (S k)) m -> forall fuel old d r, sq_loop sx_solve fuel m (1 / 2) sx_u old = Ok (d, r) -> d = sx_u /\ r = true.
  Proof.
    intros O. induction fuel as [|fuel IH]; intros old d r E; cbn [sq_loop] in E; [discriminate|].
    rewrite (so_program_ok sx_conf y2 1 _ m (1 / 2) sx_u O eq_refl) in E. cbn [bind] in E. set (p := so_conic sx_conf y2 1 (repeat true (S k)) (1 / 2) sx_u) in *.
    assert (Ex : a_x (sx_solve p) = sx_u) by reflexivity. rewrite Ex in E. assert (Ap : all_positive sx_u = true) by (apply all_positive_spec; intros v [<-|[<-|[]]]; lra). rewrite Ap in E. cbn [negb] in E.
    rewrite zip_assign_all in E by reflexivity. destruct (Rltb _ _); [injection E as <- <-; auto|]. apply (IH _ _ _ E).
  Qed.

  Lemma sx_reach t s : reach b sx_state t s -> sx_ok t s.
  Proof.
    induction 1 as [s E|t s q s' _ IH E].
    - apply (soft_pre_ok y2 sx_state) in E. destruct E as [_ [_ [_ [_ ->]]]]. cbn [sx_state so_nu so_tol]. rewrite sx_rep. unfold sx_ok. cbn [so_dist so_hyps so_model so_max_iter]. split; [lia|]. split; [reflexivity|]. split; [reflexivity|]. split.
      + rewrite soft_ghat_min by reflexivity. cbn [so_dist so_gamma]. rewrite sx_first, sx_edge. apply Rmin_right. lra.
      + split; [reflexivity|]. eexists. split; [reflexivity|apply sq_init_ok].
    - destruct IH as [Ht [Ed [Eh [Eg [Em [m [Emo Om]]]]]]]. change (b_boost b t s) with (soft_boost sx_conf sx_solve sx_produce y2 inner t s) in E. unfold soft_boost in E. destruct (Nat.ltb _ _); [discriminate|]. rewrite Emo in E.
      unfold soft_ghat in Eg. cbn zeta in Eg. rewrite Eg in E. rewrite Ed, sx_first in E. pose proof (sq_push_ok sx_conf y2 1 (so_hyps s) m true Om) as O'. rewrite Eh in O'.
      assert (Er : repeat true (t - 1) ++ [true] = repeat true (S (t - 1))) by (rewrite <- repeat_cons; reflexivity). rewrite Er in O'.
      destruct (sq_loop _ _ _ _ _ _) as [[d r]|] eqn:El; cbn [bind fst snd] in E; [|discriminate]. destruct (sx_loop _ _ O' _ _ _ _ El) as [-> ->]. injection E as _ <-.
      unfold sx_ok. cbn [so_dist so_hyps so_model so_max_iter]. split; [lia|]. split; [reflexivity|]. split; [rewrite Eh, Er; f_equal; lia|]. split.
      + rewrite soft_ghat_min by reflexivity. cbn [so_dist so_gamma]. rewrite sx_first, sx_edge. apply Rmin_left. lra.
      + split; [exact Em|]. eexists. split; [reflexivity|]. rewrite Eh, Er. exact O'.
  Qed.

  Lemma sx_asks p : soft_asks sx_conf sx_solve sx_produce y2 inner sx_state p -> solves p (sx_solve p).
  Proof.
    intros [t [s [m [d [old [Hr [Em [_ [Tu Ep]]]]]]]]]. apply sx_reach in Hr. destruct Hr as [Ht [Ed [Eh [Eg [_ [m' [Em' Om]]]]]]]. rewrite Em in Em'. injection Em' as <-. rewrite Eg, Ed, sx_first in *.
    pose proof (sq_push_ok sx_conf y2 1 (so_hyps s) m true Om) as O'. rewrite Eh in O'. assert (Er : repeat true (t - 1) ++ [true] = repeat true (S (t - 1))) by (rewrite <- repeat_cons; reflexivity). rewrite Er in O'.
    apply (sx_turn _ _ _ _ O') in Tu. subst d. rewrite (so_program_ok sx_conf y2 1 _ _ (1 / 2) sx_u O' eq_refl) in Ep. injection Ep as <-. apply sx_qp.
  Qed.

  Lemma sx_rounds : (1 <= soft_max_loop (1 / 10) 1 2)%nat.
  Proof. unfold soft_max_loop. apply ceil_usize_pos. apply Rdiv_lt_0_compat; [|lra]. apply Rmult_lt_0_compat; [lra|]. rewrite <- ln_1. apply ln_increasing; [lra|]. simpl (INR 2). lra. Qed.

  Lemma sx_asks_final hs p : soft_asks_final sx_conf sx_solve sx_produce y2 inner sx_state hs p -> solves p (sx_solve p).
  Proof.
    intros [t [s [q [s' [it [m [Hr [Eb [Eh' [Em' Ep]]]]]]]]]]. apply sx_reach in Hr. destruct Hr as [Ht [Ed [Eh [Eg [Emx [m0 [Em0 Om]]]]]]].
    change (b_boost b t s) with (soft_boost sx_conf sx_solve sx_produce y2 inner t s) in Eb. unfold soft_boost in Eb. rewrite Emx in Eb. destruct (Nat.ltb_spec (soft_max_loop (1 / 10) 1 2) t) as [Hlt|Hlt].
    - assert (Es : s' = s) by congruence. subst s'. rewrite Em0 in Em'. injection Em' as <-. rewrite (so_final_ok sx_conf y2 1 _ m0 Om) in Ep. injection Ep as <-. rewrite Eh. pose proof sx_rounds. replace (t - 1)%nat with (S (t - 2)) by lia. apply sx_lp.
    - exfalso. rewrite Em0 in Eb. unfold soft_ghat in Eg. cbn zeta in Eg. rewrite Eg in Eb. rewrite Ed, sx_first in Eb. pose proof (sq_push_ok sx_conf y2 1 (so_hyps s) m0 true Om) as O'. rewrite Eh in O'.
      assert (Er : repeat true (t - 1) ++ [true] = repeat true (S (t - 1))) by (rewrite <- repeat_cons; reflexivity). rewrite Er in O'.
      destruct (sq_loop _ _ _ _ _ _) as [[d r]|] eqn:El; cbn [bind fst snd] in Eb; [|discriminate]. destruct (sx_loop _ _ O' _ _ _ _ El) as [-> ->]. discriminate.
  Qed.
End Sx.

Lemma sx_best : forall t d h, edge_of y2 d (sx_conf h) <= edge_of y2 d (sx_conf (sx_produce t d)).
Proof. intros t d h. unfold sx_produce. destruct (Rleb_spec (edge_of y2 d (sx_conf false)) (edge_of y2 d (sx_conf true))), h; lra. Qed.

Lemma sx_inner : exists inner, (1000000000 + ln (INR (length y2))) * 1000000000 + 1 < INR inner.
Proof. exists (ceil_usize ((1000000000 + ln (INR (length y2))) * 1000000000 + 1 + 1)). pose proof (ceil_usize_ge ((1000000000 + ln (INR (length y2))) * 1000000000 + 1 + 1)). lra. Qed.

(** ** C64 refuted: the documented guarantee.  The solver is exact and the weak learner returns a hypothesis with the
    largest edge, the tolerance is 1/10; the returned vote has soft margin 0 while the vote that gives both hypotheses
    of the class weight 1/2 has soft margin 1/2 *)
Lemma P_C64_tolerance_refuted :
  exists (conf : bool -> nat -> R) solve produce y inner (s : @soft bool) fuel tr f,
    is_valid_binary_instance y = Ok tt /\ 1 <= so_nu s < INR (length y) /\ so_tol s = 1 / 10 /\
    (forall p, soft_asks conf solve produce y inner s p -> solves p (solve p)) /\
    (forall hs p, soft_asks_final conf solve produce y inner s hs p -> solves p (solve p)) /\
    (forall t d h, edge_of y d (conf h) <= edge_of y d (conf (produce t d))) /\
    run (softboost conf solve produce y inner) fuel s = Finished tr f /\
    soft_margin (so_nu s) y (wm_confidence conf f) 0 /\
    soft_margin (so_nu s) y (vote conf (combine [1 / 2; 1 / 2] [true; false])) (1 / 2).
Proof.
  destruct sx_inner as [inner Hi]. set (N := soft_max_loop (1 / 10) 1 2).
  destruct (P_C64_terminates bool sx_conf sx_solve sx_produce y2 inner sx_state (sx_asks inner) (sx_asks_final inner) y2_valid ltac:(simpl; lra) ltac:(simpl; lra) Hi (S N) ltac:(simpl; unfold N; lia)) as [tr [f [Er [Ln _]]]].
  exists sx_conf, sx_solve, sx_produce, y2, inner, sx_state, (S N), tr, f. split; [exact y2_valid|]. split; [simpl; lra|]. split; [reflexivity|]. split; [apply sx_asks|]. split; [apply sx_asks_final|]. split; [apply sx_best|]. split; [exact Er|].
  destruct (P_C64_best_vote bool sx_conf sx_solve sx_produce y2 inner sx_state (S N) tr f (sx_asks_final inner) Er) as [[ws [Lw [Dw Cw]]] _].
  assert (U : forall d, In d tr -> d = sx_u).
  { intros d Hd. rewrite <- sx_rep. apply (P_C64_stuck_refuted bool sx_conf sx_solve sx_produce y2 inner sx_state (S N) (fun p Ha _ => sx_asks inner p Ha) sx_best); [|rewrite Er; exact Hd]. intros h i Hi'. small_nat i Hi'; destruct h; cbn; lra. }
  assert (Ha : forall h, In h (answers sx_produce tr) -> h = true).
  { intros h Hh. apply in_map_iff in Hh. destruct Hh as [[t d] [<- Hp]]. cbn [fst snd]. apply in_combine_r in Hp. rewrite (U d Hp). apply sx_first. }
  assert (Cf : forall i, wm_confidence sx_conf f i = sx_conf true i).
  { intros i. rewrite Cw. unfold vote. destruct Dw as [_ Dw]. revert Lw Ha Dw. generalize (answers sx_produce tr) as hs. intros hs Lw Ha Dw.
    assert (G : forall l ws, length ws = length l -> (forall h, In h l -> h = true) -> rsum (map (fun p => fst p * sx_conf (snd p) i) (combine ws l)) = rsum ws * sx_conf true i).
    { induction l as [|h l IH]; intros [|w ws'] L Hl; try discriminate L; [cbn; ring|]. cbn [combine map]. change (rsum (?a :: ?t)) with (a + rsum t). rewrite IH by (try (simpl in L; lia); intros h' Hh'; apply Hl; right; exact Hh'). cbn [fst snd]. rewrite (Hl h (or_introl eq_refl)). change (rsum (w :: ws')) with (w + rsum ws'). ring. }
    rewrite (G hs ws Lw Ha), Dw. ring. }
  split.
  - split.
    + exists [0; 1]. split; [split; [reflexivity|]; split; [intros v [<-|[<-|[]]]; simpl; lra|cbn; lra]|]. unfold edge_of. cbn. rewrite !Cf. cbn. lra.
    + intros d [Ld [D1 _]]. destruct d as [|d1 [|d2 [|? ?]]]; try discriminate Ld. pose proof (D1 d1 (or_introl eq_refl)) as [P _]. unfold edge_of. cbn. rewrite !Cf. cbn. lra.
  - split.
    + exists sx_u. split; [split; [reflexivity|]; split; [intros v [<-|[<-|[]]]; simpl; lra|cbn; lra]|]. unfold edge_of, vote. cbn. lra.
    + intros d [Ld [D1 D2]]. destruct d as [|d1 [|d2 [|? ?]]]; try discriminate Ld. cbn in D2. unfold edge_of, vote. cbn. lra.
Qed.

(** ** C33 refuted for SoftBoost: nu = 3/2.  A program handed to the solver (whatever solver) accepts a distribution that
    is not capped by 1/nu = 2/3 *)
Lemma P_C33_softboost_caps_refuted :
  exists (conf : bool -> nat -> R) produce y (s : @soft bool), is_valid_binary_instance y = Ok tt /\ 1 <= so_nu s < INR (length y) /\ so_tol s = 1 / 10 /\
  forall solve inner, exists p x, soft_asks conf solve produce y inner s p /\ feasible p x /\ ~ capped (so_nu s) y x.
Proof.
  exists sx_conf, sx_produce, y2, (mkSoft [] 1 (1 / 10) (3 / 2) None [] 0). cbn [so_nu so_tol]. split; [exact y2_valid|]. split; [simpl; lra|]. split; [reflexivity|]. intros solve inner.
  set (s0 := mkSoft [] 1 (1 / 10) (3 / 2) None [] 0 : @soft bool).
  assert (E : exists s, b_pre (softboost sx_conf solve sx_produce y2 inner) s0 = Ok s).
  { change (b_pre (softboost sx_conf solve sx_produce y2 inner) s0) with (soft_pre y2 s0). unfold soft_pre. rewrite y2_valid. cbn [bind s0 so_tol so_nu]. destruct (Reqb_spec (1 / 10) 0); [lra|]. unfold check_nu. simpl (INR (length y2)). rewrite !Rleb_true by lra. cbn [andb assert_ bind]. eexists. reflexivity. }
  destruct E as [s E]. assert (E' := E). apply (soft_pre_ok y2 s0) in E'. destruct E' as [_ [_ [_ [_ Es]]]]. cbn [s0 so_nu so_tol] in Es. rewrite sx_rep in Es.
  assert (Eg : soft_ghat sx_conf sx_produce y2 1 s = 1 / 2) by (rewrite soft_ghat_min by (rewrite Es; reflexivity); rewrite Es; cbn [so_dist so_gamma]; rewrite sx_first, sx_edge; apply Rmin_right; lra).
  exists (so_conic sx_conf y2 (3 / 2) [true] (1 / 2) sx_u), [1 / 4; 3 / 4]. split; [|split].
  - exists 1%nat, s, (sq_init 2 (1 / (3 / 2))), sx_u, 1000000000. split; [constructor; exact E|]. rewrite Eg. rewrite Es. cbn [so_model so_max_iter so_dist]. split; [reflexivity|]. split.
    + unfold soft_max_loop. apply ceil_usize_pos. apply Rdiv_lt_0_compat; [|lra]. apply Rmult_lt_0_compat; [lra|]. rewrite <- ln_1. apply ln_increasing; [lra|]. simpl (INR (length y2)). lra.
    + rewrite sx_first. split; [constructor|]. apply so_program_ok; [|reflexivity]. apply (sq_push_ok sx_conf y2 (3 / 2) []). apply sq_init_ok.
  - apply so_feasible; [lra|reflexivity|]. split; [reflexivity|]. split; [split; [intros v [<-|[<-|[]]]; lra|cbn; lra]|]. intros h [<-|[]]. unfold edge_of. cbn. lra.
  - intros [_ [C _]]. specialize (C (3 / 4) ltac:(right; left; reflexivity)). lra.
Qed.

(** ** the hypotheses of C64 are met *)
Example C64_hypotheses_met : exists inner fuel tr f,
  (forall p, soft_asks sx_conf sx_solve sx_produce y2 inner sx_state p -> solves p (sx_solve p)) /\
  (forall hs p, soft_asks_final sx_conf sx_solve sx_produce y2 inner sx_state hs p -> solves p (sx_solve p)) /\
  (1000000000 + ln (INR (length y2))) * 1000000000 + 1 < INR inner /\
  run (softboost sx_conf sx_solve sx_produce y2 inner) fuel sx_state = Finished tr f /\ (1 <= length tr)%nat.
Proof.
  destruct sx_inner as [inner Hi]. set (N := soft_max_loop (1 / 10) 1 2).
  destruct (P_C64_terminates bool sx_conf sx_solve sx_produce y2 inner sx_state (sx_asks inner) (sx_asks_final inner) y2_valid ltac:(simpl; lra) ltac:(simpl; lra) Hi (S N) ltac:(simpl; unfold N; lia)) as [tr [f [Er [Ln _]]]].
  exists inner, (S N), tr, f. split; [apply sx_asks|]. split; [apply sx_asks_final|]. split; [exact Hi|]. split; [exact Er|lia].
Qed.
