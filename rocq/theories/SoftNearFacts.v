(** Property C94: SoftBoost and TotalBoost with a solver of finite accuracy. *)
From Verif Require Import Base Spec RegSpec LPSpec NearSpec Utils UtilsProofs UtilsFacts WMajority WMajorityProofs Booster Reach AdaBoost AdaBoostProofs
  AdaBoostMain AdaBoostMore Num FrankWolfeProofs CERLPProofs Csc ConicSpec CscProofs LPBoost LPBoostProofs LPBoostFacts EdgeLP EdgeProofs ERLP ERLPProofs
  ERLPFacts ConfigFacts SoftBoost SoftProofs SoftBoostFacts Solvable SolverFacts SolverQPFacts NearFacts SoftNearProofs.
Open Scope R_scope.

Lemma near_sum_vec (f : nat -> R) x n eps : length x = n -> 1 - eps <= rsum (map (fun i => nth i x 0) (seq 0 n)) <= 1 + eps -> near_vec eps x.
Proof. intros L Hs. unfold near_vec. rewrite <- (rsum_nth x), L. exact Hs. Qed.

Section Run.
  Context {H : Type}.
  Variable conf : H -> nat -> R.
  Variable solve : conic -> answer.
  Variable produce : nat -> list R -> H.
  Variable y : list R.
  Variable inner : nat.
  Variable s0 : @soft H.
  Local Notation n := (length y).
  Local Notation b := (softboost conf solve produce y inner).
  Local Notation nu := (so_nu s0).
  Local Notation N := (soft_max_loop (so_tol s0) (so_nu s0) (length y)).
  Variable eps : R.
  Hypothesis Heps : 0 <= eps < 1.

  (** what a near answer to one of the quadratic programs says *)
  Lemma so_near hs g q a : 0 < nu -> length q = n -> (forall v, In v q -> 0 < v) -> nearly_solves eps (so_conic conf y nu hs g q) a ->
    length (a_x a) = n /\ near_vec eps (a_x a) /\ (forall h, In h hs -> edge_of y (a_x a) (conf h) <= g + eps) /\
    ((forall v, In v (a_x a) -> 0 < v) -> - INR n - 1 <= a_obj a).
  Proof.
    intros Hnu Lq Hq [Lx [_ [F [_ [_ Ob]]]]].
    pose proof (so_q_length y q Lq) as L1. pose proof (edge_b_length conf y false (1 / nu) hs (csc_of (0 + n) (diag_cols 0 n (so_diag q))) (map ln q) (1 / nu) g L1) as Lb.
    unfold so_conic in Lx, F. rewrite Lb in F. cbn [k_q] in Lx. rewrite L1 in Lx. cbn [offs Nat.add] in Lx. set (x := a_x a) in *. split; [exact Lx|]. split; [|split].
    - apply (near_sum_vec (fun _ => 0) x n eps Lx). pose proof (F 0%nat ltac:(lia)) as F0. rewrite (edge_senses conf y false (1 / nu) hs) in F0 by (exact L1 || lia). cbn [Nat.eqb] in F0. unfold slack in F0.
      rewrite (edge_b0 conf y false (1 / nu) hs) in F0 by exact L1. cbn [k_A] in F0. rewrite row_total in F0. cbn [offs Nat.add] in F0. apply rabs_le in F0. lra.
    - intros h Hh. apply In_nth_error in Hh. destruct Hh as [t Et]. assert (Ht : (t < length hs)%nat) by (apply nth_error_Some; congruence). rewrite (edge_marg conf y hs x t h Lx Et).
      pose proof (F (1 + 2 * n + t)%nat ltac:(lia)) as F3. rewrite (edge_senses conf y false (1 / nu) hs) in F3 by (exact L1 || lia). rewrite (proj2 (Nat.eqb_neq (1 + 2 * n + t) 0)) in F3 by lia. unfold slack in F3.
      rewrite (edge_b3 conf y false (1 / nu) hs) in F3 by (exact L1 || exact Ht). cbn [k_A] in F3. rewrite row_edge in F3 by exact Ht. cbn [offs gof Nat.add] in F3. cbn [Nat.add]. lra.
    - intros Px. apply rabs_le in Ob. fold x in Ob. rewrite (so_objective conf y nu hs g q x Lq Hq) in Ob.
      assert (- INR n <= rsum (map (fun i => 1 / (2 * nth i q 0) * nth i x 0 ^ 2 + ln (nth i q 0) * nth i x 0) (seq 0 n))); [|lra].
      replace (- INR n) with (rsum (map (fun _ : nat => -1) (seq 0 n))) by (rewrite rsum_map_const, seq_length; ring). apply rsum_le_seq. intros i Hi.
      assert (Xp : 0 < nth i x 0) by (apply Px, nth_In; lia). assert (Qp : 0 < nth i q 0) by (apply Hq, nth_In; lia).
      eapply Rle_trans; [|apply sqp_term; lra]. unfold xlnx. destruct (Req_EM_T _ 0) as [E|E]; [lra|].
      pose proof (ln_le_sub (/ nth i x 0) ltac:(apply Rinv_0_lt_compat; lra)) as Hl. rewrite ln_Rinv in Hl by lra.
      assert (nth i x 0 * - ln (nth i x 0) <= nth i x 0 * (/ nth i x 0 - 1)) by (apply Rmult_le_compat_l; lra). assert (nth i x 0 * (/ nth i x 0 - 1) = 1 - nth i x 0) by (field; lra). lra.
  Qed.

  Definition near_pos (d : list R) : Prop := (forall v, In v d -> 0 < v) /\ near_vec eps d.

  Lemma near_loop hs m g d0 : 0 < nu -> sqm_ok conf y nu hs m -> length d0 = n -> (forall v, In v d0 -> 0 < v) ->
    (forall d old p, sq_turns solve m g d0 d old -> sq_program m g d = Ok p -> nearly_solves eps p (solve p)) ->
    forall fuel d old, sq_turns solve m g d0 d old -> (old + INR n + 1) * 1000000000 + 1 < INR fuel -> 0 < INR fuel ->
      exists d' r, sq_loop solve fuel m g d old = Ok (d', r) /\ (r = true -> near_pos d' /\ forall h, In h hs -> edge_of y d' (conf h) <= g + eps).
  Proof.
    intros Hnu O L0 P0 Hex. induction fuel as [|fuel IH]; intros d old Tu En Fp; [simpl in Fp; lra|].
    destruct (turns_pos solve y m g d0 d old L0 P0 Tu) as [Ld Pd]. cbn [sq_loop]. pose proof (so_program_ok conf y nu hs m g d O Ld) as Ep. rewrite Ep. cbn [bind].
    pose proof (Hex d old _ Tu Ep) as Ha. set (a := solve (so_conic conf y nu hs g d)) in *. destruct (so_near hs g d a Hnu Ld Pd Ha) as [Lx [Nx [Ex Ox]]].
    destruct (all_positive (a_x a)) eqn:Ap; cbn [negb]; [|exists d, false; split; [reflexivity|discriminate]].
    specialize (Ox (proj1 (all_positive_spec _) Ap)).
    rewrite zip_assign_all by (rewrite Lx, Ld; reflexivity).
    destruct (Rltb_spec (old - a_obj a) QP_TOLERANCE) as [Lt|Lt]; [exists (a_x a), true; split; [reflexivity|]; intros _; split; [split; [apply all_positive_spec, Ap|exact Nx]|exact Ex]|].
    assert (T1 : sq_turns solve m g d0 (a_x a) (a_obj a)).
    { rewrite <- (zip_assign_all d (a_x a)) by (rewrite Lx, Ld; reflexivity). apply (sq_next solve m g d0 d old (so_conic conf y nu hs g d)); try assumption. apply Rltb_false. fold a. lra. }
    rewrite S_INR in En. unfold QP_TOLERANCE in Lt. assert (1 <= (old - a_obj a) * 1000000000) by lra.
    apply IH; [exact T1|lra|]. assert (0 <= (a_obj a + INR n + 1) * 1000000000) by (apply Rmult_le_pos; lra). lra.
  Qed.

  Hypothesis Hex : forall p, soft_asks conf solve produce y inner s0 p -> nearly_solves eps p (solve p).
  Hypothesis Hinner : (1000000001 + INR n) * 1000000000 + 1 < INR inner.

  Definition YInv (t : nat) (s : @soft H) (tr : trace) : Prop :=
    SInv conf produce y s0 t s tr /\ Forall near_pos tr /\ near_pos (so_dist s) /\ (forall h, In h (so_hyps s) -> edge_of y (so_dist s) (conf h) <= so_gamma s + eps).

  Lemma yinv_first s : b_pre b s0 = Ok s -> YInv 1 s [].
  Proof.
    intros E. pose proof (sinv_first conf solve produce y inner s0 s E) as I. split; [exact I|]. split; [constructor|]. apply soft_pre_ok in E. destruct E as [_ [Hn [_ [Hnu ->]]]]. cbn [so_dist so_hyps so_gamma].
    split; [split|intros h []]; [intros v Hv; apply repeat_spec in Hv; subst v; apply Rdiv_lt_0_compat; lra|]. unfold near_vec. rewrite rsum_repeat. replace (INR n * (1 / INR n)) with 1 by (field; lra). lra.
  Qed.

  Lemma yinv_step t s tr : reach b s0 t s -> YInv t s tr ->
    match b_boost b t s with
    | (q, Panic _) => False
    | (q, Ok (s', Continue)) => YInv (S t) s' (tr ++ q) /\ (t <= N)%nat
    | (q, Ok (s', Break _)) => Forall near_pos (tr ++ q)
    end.
  Proof.
    intros Hr [HI [Q [Ps Es]]]. pose proof (sinv_step conf solve produce y inner s0 t s tr HI) as St. destruct HI as [Hn [Hnu [Ht [Hl [HN [Em [En [Eh [Ld [Pd [[m [Emo Om]] [G1 G2]]]]]]]]]]]].
    assert (Q' : Forall near_pos (tr ++ [so_dist s])) by (apply Forall_app; split; [exact Q|constructor; [exact Ps|constructor]]).
    change (b_boost b t s) with (soft_boost conf solve produce y inner t s) in *. unfold soft_boost in *. rewrite Em in *. destruct (Nat.ltb_spec N t) as [Hlt|Hlt]; [rewrite app_nil_r; exact Q|]. rewrite Emo in *.
    pose proof (soft_ghat_min conf produce y t s Ld) as Eg. assert (Eg' := Eg). unfold soft_ghat in Eg. cbn zeta in Eg. rewrite Eg in *. set (h := produce t (so_dist s)) in *. set (g := Rmin (so_gamma s) (edge_of y (so_dist s) (conf h))) in *.
    destruct (near_loop (so_hyps s ++ [h]) (sq_push conf y m h) g (so_dist s) ltac:(lra) (sq_push_ok conf y nu (so_hyps s) m h Om) Ld Pd) with (fuel := inner) (d := so_dist s) (old := 1000000000) as [d' [r [El Sh]]].
    - intros d old p Tu Ep. apply Hex. exists t, s, m, d, old. cbn zeta. split; [exact Hr|]. split; [exact Emo|]. split; [rewrite Em; exact Hlt|]. rewrite Eg'. split; [exact Tu|exact Ep].
    - constructor.
    - lra.
    - pose proof (pos_INR n). lra.
    - rewrite El in *. cbn [bind fst snd] in *. destruct r; [|exact Q']. split; [|exact Hlt]. split; [exact St|]. split; [exact Q'|]. cbn [so_dist so_hyps so_gamma]. exact (Sh eq_refl).
  Qed.
End Run.

(** ** C94: if the answer to the final linear program is right up to [eps], the returned vote is a convex combination of the
    hypotheses that were received, and its soft margin is within [eps] (2 n + 5) of the best that any convex combination of
    them has.  The answers to the quadratic programs before do not matter *)
Lemma P_C94_inexact_best_vote : forall (H : Type) (conf : H -> nat -> R) solve produce y inner (s : @soft H) fuel tr f eps,
  0 <= eps < 1 ->
  (forall hs p, soft_asks_final conf solve produce y inner s hs p -> nearly_solves eps p (solve p)) ->
  (forall h i, In h (answers produce tr) -> (i < length y)%nat -> -1 <= nth i y 0 * conf h i <= 1) ->
  run (softboost conf solve produce y inner) fuel s = Finished tr f ->
  let hs := answers produce tr in
  (exists ws, length ws = length hs /\ is_dist ws /\ forall i, wm_confidence conf f i = vote conf (combine ws hs) i) /\
  forall v, soft_margin (so_nu s) y (wm_confidence conf f) v ->
  forall ws v', length ws = length hs -> is_dist ws -> soft_margin (so_nu s) y (vote conf (combine ws hs)) v' ->
  v' - eps * (2 * INR (length y) + 5) <= v.
Proof.
  intros H conf solve produce y inner s fuel tr f eps He Hex Hb Er hs. revert Er Hb. unfold hs. clear hs.
  pose (P := fun (tr : trace) (f : wmajority H) => (forall h i, In h (answers produce tr) -> (i < length y)%nat -> -1 <= nth i y 0 * conf h i <= 1) -> (exists ws, length ws = length (answers produce tr) /\ is_dist ws /\ forall i, wm_confidence conf f i = vote conf (combine ws (answers produce tr)) i) /\
    forall v, soft_margin (so_nu s) y (wm_confidence conf f) v -> forall ws v', length ws = length (answers produce tr) -> is_dist ws -> soft_margin (so_nu s) y (vote conf (combine ws (answers produce tr))) v' -> v' - eps * (2 * INR (length y) + 5) <= v).
  assert (PP : match run (softboost conf solve produce y inner) fuel s with Finished tr f => P tr f | _ => True end).
  2:{ intros Er Hb. rewrite Er in PP. exact (PP Hb). }
  refine (run_reach (softboost conf solve produce y inner) s (SInv conf produce y s) (fun o => match o with Finished tr f => P tr f | _ => True end) _ _ _ _ fuel); [| |intros; exact Logic.I|intros; exact Logic.I].
  - apply sinv_first.
  - intros t s1 tr1 Hr HI. pose proof (sinv_step conf solve produce y inner s t s1 tr1 HI) as St. destruct (b_boost _ t s1) as [q [[s' [|it]]|p]] eqn:Eb; [exact St| |exact Logic.I].
    destruct (b_post _ s') as [f1|p] eqn:Ef; [|exact Logic.I]. destruct St as [_ [[_ [En [Eh [_ [_ [[m [Em Om]] _]]]]]] _]]. destruct HI as [Hn [Hnu _]]. intros Hb.
    change (b_post (softboost conf solve produce y inner) s') with (soft_post solve s') in Ef. unfold soft_post, sq_weights in Ef. rewrite Em, (so_final_ok conf y (so_nu s) _ m Om) in Ef. cbn [bind] in Ef.
    set (p := gamma_conic conf y 1 (1 / so_nu s) (repeat 0 (length y)) (so_hyps s')) in *.
    assert (Sp : nearly_solves eps p (solve p)). { apply (Hex (so_hyps s')). exists t, s1, q, s', it, m. split; [exact Hr|]. split; [exact Eb|]. split; [reflexivity|]. split; [exact Em|]. apply so_final_ok, Om. }
    destruct (gamma_near conf y (so_hyps s') (so_nu s) eps (solve p) Sp) as [Lz [Ld [Cd [Sd [Lw [Pw [Sw [Eg Hopt]]]]]]]].
    set (d := skipn 1 (a_x (solve p))) in *. set (g := nth 0 (a_x (solve p)) 0) in *. destruct Om as [E1 _]. rewrite E1 in Ef. unfold slice_from in Ef. rewrite Lz in Ef. rewrite (proj2 (Nat.leb_le _ _)) in Ef by lia. cbn [bind] in Ef.
    set (ws := skipn (1 + 2 * length y) (a_z (solve p))) in *. unfold near_vec in Sd, Sw.
    destruct (from_slices_nonneg conf ws (so_hyps s') Lw Pw ltac:(lra)) as [f' [Ef' Cf]]. rewrite Ef in Ef'. injection Ef' as <-.
    set (us := map (fun w => w / rsum ws) ws) in *. assert (Du : is_dist us) by (apply scaled_dist; [exact Pw|lra]). assert (Lu : length us = length (so_hyps s')) by (unfold us; rewrite map_length; exact Lw).
    split; [exists us; rewrite <- Eh; split; [exact Lu|]; split; [exact Du|exact Cf]|].
    rewrite <- Eh in Hb |- *.
    intros v [[dv [Cv Ev]] Hv] ws' v' Lw' Dw' [_ Hm].
    assert (Bv : forall i, (i < length y)%nat -> -1 <= nth i y 0 * wm_confidence conf f1 i <= 1).
    { intros i Hi. rewrite Cf, (vote_marg conf y (so_hyps s') us i Lu Hi). apply nth_is_dist in Du. rewrite Lu in Du. destruct Du as [D1 D2].
      assert (A : forall t, (t < length (so_hyps s'))%nat -> -1 <= marg conf y (so_hyps s') t i <= 1).
      { intros k Hk. destruct (nth_error (so_hyps s') k) as [h|] eqn:E; [|apply nth_error_None in E; lia]. rewrite (marg_nth conf y (so_hyps s') k h i E Hi). apply Hb; [apply (nth_error_In _ _ E)|exact Hi]. }
      split.
      - replace (-1) with (-1 * rsum (map (fun i => nth i us 0) (seq 0 (length (so_hyps s'))))) by (rewrite D2; ring). rewrite <- rsum_map_mult.
        apply rsum_le_seq. intros k Hk. specialize (A k Hk). specialize (D1 k Hk). nra.
      - rewrite <- D2. apply rsum_le_seq. intros k Hk. specialize (A k Hk). specialize (D1 k Hk). nra. }
    (* the soft margin of the returned vote from below *)
    assert (V1 : g - 3 * eps <= v).
    { specialize (Hopt dv Cv). assert (Ew : edge_of y dv (vote conf (combine ws (so_hyps s'))) = rsum ws * v).
      { rewrite <- Ev. unfold edge_of. rewrite <- rsum_map_mult. apply rsum_map_ext. intros i Hi. apply in_seq in Hi. rewrite Cf.
        assert (Es : vote conf (combine ws (so_hyps s')) i = rsum ws * vote conf (combine us (so_hyps s')) i); [|rewrite Es; ring].
        assert (K : forall z l hs, z <> 0 -> length l = length hs -> vote conf (combine l hs) i = z * @vote H conf (combine (map (fun w => w / z) l) hs) i).
        { clear. intros z l hs Hz. unfold vote. revert hs. induction l as [|w l IH]; intros [|h hs] L; cbn [combine map rsum length fst snd] in *; try lia; [ring|]. rewrite (IH hs) by lia. field. exact Hz. }
        apply K; [lra|exact Lw]. }
      rewrite Ew in Hopt. assert (Bd : -1 <= v <= 1).
      { rewrite <- Ev. destruct Cv as [Lv [Cv1 Cv2]]. assert (Pv : forall x, In x dv -> 0 <= x) by (intros x Hx; apply Cv1, Hx). pose proof (near_margin y dv (wm_confidence conf f1) (-1) Pv Lv ltac:(intros i Hi; apply Bv, Hi)). pose proof (near_edge_ub y dv (wm_confidence conf f1) 1 Pv Lv ltac:(intros i Hi; apply Bv, Hi)). rewrite Cv2 in *. lra. }
      nra. }
    (* the soft margin of the other vote from above *)
    destruct (near_capped (so_nu s) eps d) as [d' [Ld' [Cd' Md]]]; [rewrite Ld; lra|lra|exact Cd|exact Sd|]. rewrite Ld in Ld', Md.
    assert (V2 : v' <= g + eps + (2 * INR (length y) + 1) * eps); [|lra].
    eapply Rle_trans; [apply (Hm d'); split; [exact Ld'|exact Cd']|]. apply vote_edge_ub; [exact Dw'|exact Lw'| |exact Ld'].
    intros h Hh. eapply Rle_trans; [apply (edge_move y d d' (conf h) _ ltac:(intros i Hi; apply Hb; assumption) Md)|]. specialize (Eg h Hh). lra.
Qed.

(** ** C94: if the answers to the quadratic programs are right up to [eps] as well, the run ends within max_loop rounds
    without a panic, and every distribution that is shown to the weak learner is positive and adds up to 1 up to [eps] *)
Lemma P_C94_inexact_terminates : forall (H : Type) (conf : H -> nat -> R) solve produce y inner (s : @soft H) eps,
  0 <= eps < 1 ->
  (forall p, soft_asks conf solve produce y inner s p -> nearly_solves eps p (solve p)) ->
  (forall hs p, soft_asks_final conf solve produce y inner s hs p -> nearly_solves eps p (solve p)) ->
  is_valid_binary_instance y = Ok tt -> so_tol s <> 0 -> 1 <= so_nu s < INR (length y) ->
  (1000000001 + INR (length y)) * 1000000000 + 1 < INR inner ->
  forall fuel, (soft_max_loop (so_tol s) (so_nu s) (length y) < fuel)%nat ->
  exists tr f, run (softboost conf solve produce y inner) fuel s = Finished tr f /\
    (1 <= length tr <= soft_max_loop (so_tol s) (so_nu s) (length y))%nat /\
    forall d, In d tr -> length d = length y /\ (forall x, In x d -> 0 < x) /\ 1 - eps <= rsum d <= 1 + eps.
Proof.
  intros H conf solve produce y inner s eps He Hex Hexf Hval Htol Hnu Hin fuel Hf. set (N := soft_max_loop (so_tol s) (so_nu s) (length y)) in *.
  assert (HN1 : (1 <= N)%nat).
  { unfold N, soft_max_loop. apply ceil_usize_pos. apply Rdiv_lt_0_compat.
    - apply Rmult_lt_0_compat; [lra|]. rewrite <- ln_1. apply ln_increasing; [lra|]. apply Rlt_div_iff; lra.
    - replace (so_tol s ^ 2) with (Rsqr (so_tol s)) by (unfold Rsqr; ring). apply Rsqr_pos_lt. exact Htol. }
  refine (run_reach_bound (softboost conf solve produce y inner) s (S N) (fun t s1 tr => YInv conf produce y s eps t s1 tr /\ Forall (fun d => length d = length y) tr)
    (fun o => exists tr f, o = Finished tr f /\ (1 <= length tr <= N)%nat /\ forall d, In d tr -> length d = length y /\ (forall x, In x d -> 0 < x) /\ 1 - eps <= rsum d <= 1 + eps) _ _ _ fuel _).
  - intros s1 E. split; [eapply yinv_first; [exact He|exact E]|constructor].
  - intros t s1 tr Hr [HI HL]. pose proof (yinv_step conf solve produce y inner s eps He Hex Hin t s1 tr Hr HI) as Xt. destruct HI as [HI _]. pose proof (sinv_step conf solve produce y inner s t s1 tr HI) as St.
    assert (HL' : forall q r, b_boost (softboost conf solve produce y inner) t s1 = (q, r) -> Forall (fun d => length d = length y) (tr ++ q)).
    { intros q r E. change (b_boost (softboost conf solve produce y inner) t s1) with (soft_boost conf solve produce y inner t s1) in E. unfold soft_boost in E. apply Forall_app. split; [exact HL|].
      destruct (Nat.ltb _ _); injection E as <- _; constructor; [apply HI|constructor]. }
    destruct (b_boost _ t s1) as [q [[s' [|it]]|p]] eqn:Eb; [| |destruct Xt].
    + split; [split; [apply Xt|apply (HL' _ _ eq_refl)]|]. fold N in Xt. lia.
    + destruct St as [S1 [[_ [_ [Eh [_ [_ [[m [Em Om]] _]]]]]] S3]]. fold N in S1, S3.
      assert (L1 : (1 <= length (tr ++ q))%nat).
      { destruct q as [|d0 q0]; [|rewrite app_length; simpl; lia]. destruct (S3 eq_refl) as [_ Ht]. destruct HI as [_ [_ [_ [Hl _]]]]. rewrite app_nil_r. lia. }
      change (b_post (softboost conf solve produce y inner) s') with (soft_post solve s'). unfold soft_post, sq_weights. rewrite Em, (so_final_ok conf y (so_nu s) _ m Om). cbn [bind].
      set (p := gamma_conic conf y 1 (1 / so_nu s) (repeat 0 (length y)) (so_hyps s')) in *.
      assert (Sp : nearly_solves eps p (solve p)). { apply (Hexf (so_hyps s')). exists t, s1, q, s', it, m. split; [exact Hr|]. split; [exact Eb|]. split; [reflexivity|]. split; [exact Em|]. apply so_final_ok, Om. }
      destruct (gamma_near conf y (so_hyps s') (so_nu s) eps (solve p) Sp) as [Lz [_ [_ [_ [Lw [Pw [Sw _]]]]]]]. unfold near_vec in Sw.
      destruct Om as [E1 _]. rewrite E1. unfold slice_from. rewrite Lz. rewrite (proj2 (Nat.leb_le _ _)) by lia. cbn [bind].
      destruct (from_slices_nonneg conf _ (so_hyps s') Lw Pw ltac:(lra)) as [f' [Ef' Cf]]. rewrite Ef'. exists (tr ++ q), f'. split; [reflexivity|]. split; [lia|].
      specialize (HL' _ _ eq_refl). rewrite Forall_forall in *. intros d Hd. split; [apply HL', Hd|]. destruct (Xt d Hd) as [A B]. split; [exact A|exact B].
  - change (b_pre (softboost conf solve produce y inner) s) with (soft_pre y s). intros p. unfold soft_pre. rewrite Hval. cbn [bind].
    destruct (Reqb_spec (so_tol s) 0); [contradiction|]. unfold check_nu. rewrite !Rleb_true by lra. cbn [andb assert_ bind]. discriminate.
  - lia.
Qed.

(** ** the hypotheses of C94 are met, by a solver that is not exact: it reports every objective [e] too large *)
Definition nx_solve (e : R) (p : conic) : answer := let a := sx_solve p in mkAnswer (a_x a) (a_z a) (a_obj a + e) (a_status a).

Lemma nx_near e p : 0 <= e -> dims p -> solves p (sx_solve p) -> nearly_solves e p (nx_solve e p).
Proof.
  intros He Dp Hq. destruct (exact_is_near e p (sx_solve p) He Dp Hq) as [A [B [C [D [E _]]]]]. unfold nearly_solves, nx_solve. cbn [a_x a_z a_obj].
  split; [exact A|]. split; [exact B|]. split; [exact C|]. split; [exact D|]. split; [exact E|]. destruct Hq as [_ [Eo _]]. rewrite Eo. apply le_rabs. lra.
Qed.

Lemma so_dims {H} (conf : H -> nat -> R) y nu hs g q : length q = length y -> dims (so_conic conf y nu hs g q).
Proof.
  intros L. split; unfold so_conic; cbn [k_A k_q k_b c_rows c_cols csc_of]; [rewrite edge_cols_length, map_length, L; reflexivity|]. unfold edge_rhs. cbn [length]. rewrite !app_length, !repeat_length. lia.
Qed.
Lemma gamma_dims {H} (conf : H -> nat -> R) y coef cap hs : dims (gamma_conic conf y coef cap (repeat 0 (length y)) hs).
Proof.
  split; unfold gamma_conic; cbn [k_A k_q k_b c_rows c_cols csc_of]; [rewrite edge_cols_length; cbn [length offs]; rewrite repeat_length; lia|]. unfold edge_rhs. cbn [length]. rewrite !app_length, !repeat_length. lia.
Qed.

Section Nx.
  Variable e : R.
  Hypothesis He : 0 <= e.
  Variable inner : nat.
  Notation b := (softboost sx_conf (nx_solve e) sx_produce y2 inner).

  Lemma nx_turn m hs d old : sqm_ok sx_conf y2 1 hs m -> sq_turns (nx_solve e) m (1 / 2) sx_u d old -> d = sx_u.
  Proof.
    intros O Tu. induction Tu as [|d old p Tu IH Ep Ap Et]; [reflexivity|]. subst d. rewrite (so_program_ok sx_conf y2 1 hs m (1 / 2) sx_u O eq_refl) in Ep. injection Ep as <-. reflexivity.
  Qed.

  Lemma nx_loop m k : sqm_ok sx_conf y2 1 (repeat true (S k)) m -> forall fuel old d r, sq_loop (nx_solve e) fuel m (1 / 2) sx_u old = Ok (d, r) -> d = sx_u /\ r = true.
  Proof.
    intros O. induction fuel as [|fuel IH]; intros old d r E; cbn [sq_loop] in E; [discriminate|].
    rewrite (so_program_ok sx_conf y2 1 _ m (1 / 2) sx_u O eq_refl) in E. cbn [bind] in E. set (p := so_conic sx_conf y2 1 (repeat true (S k)) (1 / 2) sx_u) in *.
    assert (Ex : a_x ((nx_solve e) p) = sx_u) by reflexivity. rewrite Ex in E. assert (Ap : all_positive sx_u = true) by (apply all_positive_spec; intros v [<-|[<-|[]]]; lra). rewrite Ap in E. cbn [negb] in E.
    rewrite zip_assign_all in E by reflexivity. destruct (Rltb _ _); [injection E as <- <-; auto|]. apply (IH _ _ _ E).
  Qed.

  Lemma nx_reach t s : reach b sx_state t s -> sx_ok t s.
  Proof.
    induction 1 as [s E|t s q s' _ IH E].
    - apply (soft_pre_ok y2 sx_state) in E. destruct E as [_ [_ [_ [_ ->]]]]. cbn [sx_state so_nu so_tol]. rewrite sx_rep. unfold sx_ok. cbn [so_dist so_hyps so_model so_max_iter]. split; [lia|]. split; [reflexivity|]. split; [reflexivity|]. split.
      + rewrite soft_ghat_min by reflexivity. cbn [so_dist so_gamma]. rewrite sx_first, sx_edge. apply Rmin_right. lra.
      + split; [reflexivity|]. eexists. split; [reflexivity|apply sq_init_ok].
    - destruct IH as [Ht [Ed [Eh [Eg [Em [m [Emo Om]]]]]]]. change (b_boost b t s) with (soft_boost sx_conf (nx_solve e) sx_produce y2 inner t s) in E. unfold soft_boost in E. destruct (Nat.ltb _ _); [discriminate|]. rewrite Emo in E.
      unfold soft_ghat in Eg. cbn zeta in Eg. rewrite Eg in E. rewrite Ed, sx_first in E. pose proof (sq_push_ok sx_conf y2 1 (so_hyps s) m true Om) as O'. rewrite Eh in O'.
      assert (Er : repeat true (t - 1) ++ [true] = repeat true (S (t - 1))) by (rewrite <- repeat_cons; reflexivity). rewrite Er in O'.
      destruct (sq_loop _ _ _ _ _ _) as [[d r]|] eqn:El; cbn [bind fst snd] in E; [|discriminate]. destruct (nx_loop _ _ O' _ _ _ _ El) as [-> ->]. injection E as _ <-.
      unfold sx_ok. cbn [so_dist so_hyps so_model so_max_iter]. split; [lia|]. split; [reflexivity|]. split; [rewrite Eh, Er; f_equal; lia|]. split.
      + rewrite soft_ghat_min by reflexivity. cbn [so_dist so_gamma]. rewrite sx_first, sx_edge. apply Rmin_left. lra.
      + split; [exact Em|]. eexists. split; [reflexivity|]. rewrite Eh, Er. exact O'.
  Qed.

  Lemma nx_asks p : soft_asks sx_conf (nx_solve e) sx_produce y2 inner sx_state p -> nearly_solves e p (nx_solve e p).
  Proof.
    intros [t [s [m [d [old [Hr [Em [_ [Tu Ep]]]]]]]]]. apply nx_reach in Hr. destruct Hr as [Ht [Ed [Eh [Eg [_ [m' [Em' Om]]]]]]]. rewrite Em in Em'. injection Em' as <-. rewrite Eg, Ed, sx_first in *.
    pose proof (sq_push_ok sx_conf y2 1 (so_hyps s) m true Om) as O'. rewrite Eh in O'. assert (Er : repeat true (t - 1) ++ [true] = repeat true (S (t - 1))) by (rewrite <- repeat_cons; reflexivity). rewrite Er in O'.
    apply (nx_turn _ _ _ _ O') in Tu. subst d. rewrite (so_program_ok sx_conf y2 1 _ _ (1 / 2) sx_u O' eq_refl) in Ep. injection Ep as <-. apply nx_near; [exact He|apply so_dims; reflexivity|apply sx_qp].
  Qed.

  Lemma nx_asks_final hs p : soft_asks_final sx_conf (nx_solve e) sx_produce y2 inner sx_state hs p -> nearly_solves e p (nx_solve e p).
  Proof.
    intros [t [s [q [s' [it [m [Hr [Eb [Eh' [Em' Ep]]]]]]]]]]. apply nx_reach in Hr. destruct Hr as [Ht [Ed [Eh [Eg [Emx [m0 [Em0 Om]]]]]]].
    change (b_boost b t s) with (soft_boost sx_conf (nx_solve e) sx_produce y2 inner t s) in Eb. unfold soft_boost in Eb. rewrite Emx in Eb. destruct (Nat.ltb_spec (soft_max_loop (1 / 10) 1 2) t) as [Hlt|Hlt].
    - assert (Es : s' = s) by congruence. subst s'. rewrite Em0 in Em'. injection Em' as <-. rewrite (so_final_ok sx_conf y2 1 _ m0 Om) in Ep. injection Ep as <-. rewrite Eh. pose proof sx_rounds. replace (t - 1)%nat with (S (t - 2)) by lia. apply nx_near; [exact He|apply gamma_dims|apply sx_lp].
    - exfalso. rewrite Em0 in Eb. unfold soft_ghat in Eg. cbn zeta in Eg. rewrite Eg in Eb. rewrite Ed, sx_first in Eb. pose proof (sq_push_ok sx_conf y2 1 (so_hyps s) m0 true Om) as O'. rewrite Eh in O'.
      assert (Er : repeat true (t - 1) ++ [true] = repeat true (S (t - 1))) by (rewrite <- repeat_cons; reflexivity). rewrite Er in O'.
      destruct (sq_loop _ _ _ _ _ _) as [[d r]|] eqn:El; cbn [bind fst snd] in Eb; [|discriminate]. destruct (nx_loop _ _ O' _ _ _ _ El) as [-> ->]. discriminate.
  Qed.
End Nx.

Lemma ex_C94 : forall eps, 0 < eps < 1 -> exists (conf : bool -> nat -> R) solve produce y inner (s : @soft bool) fuel tr f,
  is_valid_binary_instance y = Ok tt /\ 1 <= so_nu s < INR (length y) /\
  (forall p, soft_asks conf solve produce y inner s p -> nearly_solves eps p (solve p)) /\
  (forall hs p, soft_asks_final conf solve produce y inner s hs p -> nearly_solves eps p (solve p) /\ ~ solves p (solve p)) /\
  (1000000001 + INR (length y)) * 1000000000 + 1 < INR inner /\
  (forall h i, (i < length y)%nat -> -1 <= nth i y 0 * conf h i <= 1) /\
  run (softboost conf solve produce y inner) fuel s = Finished tr f /\ (1 <= length tr)%nat.
Proof.
  intros e He. set (B := (1000000001 + INR (length y2)) * 1000000000 + 1). set (inner := ceil_usize (B + 1)). assert (Hi : B < INR inner) by (pose proof (ceil_usize_ge (B + 1)); unfold inner; lra). set (N := soft_max_loop (1 / 10) 1 2).
  destruct (P_C94_inexact_terminates bool sx_conf (nx_solve e) sx_produce y2 inner sx_state e ltac:(lra) (nx_asks e ltac:(lra) inner) (nx_asks_final e ltac:(lra) inner) y2_valid ltac:(simpl; lra) ltac:(simpl; lra) Hi (S N) ltac:(simpl; unfold N; lia)) as [tr [f [Er [Ln _]]]].
  exists sx_conf, (nx_solve e), sx_produce, y2, inner, sx_state, (S N), tr, f. split; [exact y2_valid|]. split; [simpl; lra|]. split; [apply nx_asks; lra|]. split.
  - intros hs p Ha. split; [apply (nx_asks_final e ltac:(lra) inner hs p Ha)|]. intros [_ [Eo _]]. unfold nx_solve in Eo. cbn [a_x a_obj] in Eo. assert (a_obj (sx_solve p) = objective p (a_x (sx_solve p))) by (unfold sx_solve; destruct (Nat.eqb _ _); reflexivity). lra.
  - split; [exact Hi|]. split; [intros h i Hj; small_nat i Hj; destruct h; cbn; lra|]. split; [exact Er|lia].
Qed.

Example C94_hypotheses_met : forall eps, 0 < eps < 1 -> exists (conf : bool -> nat -> R) solve produce y inner (s : @soft bool) fuel tr f,
  is_valid_binary_instance y = Ok tt /\ 1 <= so_nu s < INR (length y) /\
  (forall p, soft_asks conf solve produce y inner s p -> nearly_solves eps p (solve p)) /\
  (forall hs p, soft_asks_final conf solve produce y inner s hs p -> nearly_solves eps p (solve p) /\ ~ solves p (solve p)) /\
  (1000000001 + INR (length y)) * 1000000000 + 1 < INR inner /\
  (forall h i, (i < length y)%nat -> -1 <= nth i y 0 * conf h i <= 1) /\
  run (softboost conf solve produce y inner) fuel s = Finished tr f /\ (1 <= length tr)%nat.
Proof. exact ex_C94. Qed.
