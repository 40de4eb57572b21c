(** The inner loop of ERLPBoost. *)
From Verif Require Import Base Spec RegSpec LPSpec Utils UtilsProofs WMajority Booster AdaBoost AdaBoostProofs AdaBoostMain Num
  FrankWolfeProofs CERLPProofs Csc ConicSpec CscProofs Reach LPBoost LPBoostProofs EdgeLP EdgeProofs ERLP.
Open Scope R_scope.

Lemma QP_EPS_pos : 0 < QP_EPS <= 1.
Proof.
  unfold QP_EPS. assert (1 <= 10 ^ 100) by (apply pow_R1_Rle; lra). split; [apply Rinv_0_lt_compat; lra|]. rewrite <- Rinv_1. apply Rinv_le_contravar; lra.
Qed.

Lemma ln2_le1 : ln 2 <= 1.
Proof. pose proof (exp_ge_1x 1). rewrite <- (ln_exp 1). apply ln_le; lra. Qed.

Lemma ln_le_half u : 0 < u -> ln u <= u / 2.
Proof.
  intros Hu. pose proof (exp_ge_1x (ln (u / 2))) as E. rewrite exp_ln in E by lra. replace u with (u / 2 * 2) at 1 by field. rewrite ln_mult by lra. pose proof ln2_le1. lra.
Qed.

Lemma sqp_term d q : 0 <= d -> 0 < q -> xlnx d <= 1 / (2 * q) * d ^ 2 + ln q * d.
Proof.
  intros Hd Hq. unfold xlnx. destruct (Req_EM_T d 0) as [->|Hne]; [lra|]. assert (Hp : 0 < d) by lra.
  pose proof (ln_le_half (d / q) ltac:(apply Rdiv_lt_0_compat; lra)) as L. unfold Rdiv in L at 1. rewrite ln_mult, ln_Rinv in L by (try lra; apply Rinv_0_lt_compat; lra).
  replace (1 / (2 * q) * d ^ 2 + ln q * d) with (d * (d / q / 2 + ln q)) by (field; lra). apply Rmult_le_compat_l; lra.
Qed.

Section QP.
  Context {H : Type}.
  Variable conf : H -> nat -> R.
  Variable solve : conic -> answer.
  Variable y : list R.
  Let n := length y.
  Variables nu eta : R.
  Hypothesis Hn : (0 < n)%nat.
  Hypothesis Hnu : 1 <= nu <= INR n.
  Hypothesis Heta : 1 / 2 <= eta.
  Hypothesis Hmarg : forall h i, (i < n)%nat -> -1 <= nth i y 0 * conf h i <= 1.

  Definition qpm_ok (hs : list H) (m : qpmodel) : Prop :=
    qm_n m = n /\ qm_T m = length hs /\ qm_margins m = erows conf y hs /\ qm_cap m = 1 / nu /\ qm_eta m = eta /\
    length (qm_dist m) = n /\ (forall d, In d (qm_dist m) -> 0 <= d).

  Definition er_linear (q : list R) : list R := 1 :: map (fun d => ln (d + QP_EPS) / eta) q.
  Definition er_diag (q : list R) (i : nat) : R := 1 / ((nth i q 0 + QP_EPS) * eta).
  Definition er_conic (hs : list H) (q : list R) : conic :=
    mkConic (csc_of (1 + n) (diag_cols 1 n (er_diag q))) (er_linear q) (csc_of (1 + 2 * n + length hs) (edge_cols conf y true 1 hs))
            (edge_rhs (1 / nu) 0 n (length hs)) (edge_sense n (length hs)).

  Lemma diag_concat (f : nat -> nat * R) l : concat (map (fun i => [f i]) l) = map f l.
  Proof. induction l; simpl; [reflexivity|]. rewrite IHl. reflexivity. Qed.

  Lemma diag_starts (f : nat -> nat * R) l : forall k, starts k (map (fun i => [f i]) l) = seq k (length l).
  Proof. induction l; intros k; simpl; [reflexivity|]. rewrite IHl, Nat.add_1_r. reflexivity. Qed.

  Lemma quad_ok hs m : qpm_ok hs m -> qm_quad m = Ok (csc_of (1 + n) (diag_cols 1 n (er_diag (qm_dist m)))).
  Proof.
    intros [_ [_ [_ [_ [Ee [Ld _]]]]]]. unfold qm_quad. rewrite Ld, Ee.
    rewrite <- (csc_new_ok (1 + n) (diag_cols 1 n (er_diag (qm_dist m))) (n + 1)) by (rewrite diag_cols_length; lia).
    unfold bld_of, diag_cols. cbn [repeat app b_ptr b_row b_val starts concat length]. rewrite diag_starts, diag_concat, !map_map, seq_length. cbn [fst snd].
    rewrite !map_length, seq_length. rewrite seq_app. rewrite (Nat.add_comm n 1). f_equal.
    - rewrite <- seq_shift. reflexivity.
    - rewrite <- (map_nth_seq 0 (map (fun d => 1 / ((d + QP_EPS) * eta)) (qm_dist m))) at 1. rewrite map_length, Ld. apply map_ext_in. intros i Hi. apply in_seq in Hi. unfold er_diag.
      apply (nth_map_in (fun d => 1 / ((d + QP_EPS) * eta))). lia.
  Qed.

  Lemma program_ok hs m : qpm_ok hs m -> qm_program m = Ok (er_conic hs (qm_dist m)).
  Proof.
    intros O. pose proof (quad_ok hs m O) as Q. destruct O as [E1 [E2 [E3 [E4 [E5 [E6 E7]]]]]]. unfold qm_program.
    rewrite Q, E1, E2, E3, E4. unfold n. rewrite gamma_matrix_ok. cbn [bind].
    unfold qm_linear. rewrite E5.
    assert (F : forallb (fun d => Rltb 0 (d + QP_EPS)) (qm_dist m) = true).
    { apply forallb_forall. intros d Hd. apply Rltb_true. specialize (E7 d Hd). pose proof QP_EPS_pos. lra. }
    rewrite F. cbn [assert_ bind]. unfold solver_new. cbn [length]. rewrite map_length, E6. cbn [c_rows c_cols csc_of]. rewrite diag_cols_length, edge_cols_length.
    unfold edge_rhs. cbn [length]. rewrite !app_length, !repeat_length. fold n. cbn [offs].
    rewrite (proj2 (Nat.eqb_eq (1 + n) (S n))) by lia. rewrite (proj2 (Nat.eqb_eq (1 + 2 * n + length hs) _)) by lia. cbn [andb assert_ bind].
    rewrite (proj2 (Nat.eqb_eq (fold_right _ _ _) _)) by (cbn [edge_sense map cone_dim fold_right]; lia). reflexivity.
  Qed.

  Lemma er_q_length q : length q = n -> length (er_linear q) = (offs true + n)%nat.
  Proof. intros L. unfold er_linear. cbn [length]. rewrite map_length, L. reflexivity. Qed.

  Lemma er_linear_nth q i : length q = n -> (i < n)%nat -> nth (1 + i) (er_linear q) 0 = ln (nth i q 0 + QP_EPS) / eta.
  Proof. intros L Hi. unfold er_linear. cbn [nth Nat.add]. apply (nth_map_in (fun d => ln (d + QP_EPS) / eta)). lia. Qed.

  Lemma er_objective hs q x : length q = n -> (forall v, In v q -> 0 <= v) -> objective (er_conic hs q) x = sqp_objective eta (map (fun v => v + QP_EPS) q) (nth 0 x 0) (skipn 1 x).
  Proof.
    intros L Hq. unfold objective. change (k_q (er_conic hs q)) with (er_linear q). rewrite er_q_length by exact L. change (k_P (er_conic hs q)) with (csc_of (1 + n) (diag_cols 1 n (er_diag q))).
    cbn [offs]. rewrite diag_sum, rsum_split, rsum_one. change (nth 0 (er_linear q) 0) with 1. unfold sqp_objective. rewrite map_length, L, <- rsum_map_mult.
    replace (rsum (map (fun i => er_diag q i * nth (1 + i) x 0 * nth (1 + i) x 0) (seq 0 n)) / 2) with (/ 2 * rsum (map (fun i => er_diag q i * nth (1 + i) x 0 * nth (1 + i) x 0) (seq 0 n))) by field.
    rewrite <- rsum_map_mult. rewrite <- Rplus_assoc, (Rplus_comm _ (1 * _)), Rplus_assoc, <- rsum_map_plus. f_equal; [ring|]. apply rsum_map_ext. intros i Hi. apply in_seq in Hi.
    rewrite er_linear_nth by (try exact L; lia). rewrite nth_skipn_add. rewrite (nth_map_in (fun v => v + QP_EPS) q i 0 0) by lia. unfold er_diag.
    assert (0 <= nth i q 0) by (apply Hq, nth_In; lia). pose proof QP_EPS_pos. field. lra.
  Qed.

  (** what an exact answer says *)
  Lemma er_solved hs q a : (0 < length hs)%nat -> length q = n -> (forall v, In v q -> 0 <= v) -> solves (er_conic hs q) a ->
    let x := a_x a in let d := skipn 1 x in let ws := skipn (1 + 2 * n) (a_z a) in let g := nth 0 x 0 in
    length x = (1 + n)%nat /\ length (a_z a) = (1 + 2 * n + length hs)%nat /\
    capped nu y d /\ length ws = length hs /\ is_dist ws /\
    (forall h, In h hs -> edge_of y d (conf h) <= g) /\ edge_of y d (vote conf (combine ws hs)) = g /\
    (exists h, In h hs /\ edge_of y d (conf h) = g) /\
    a_obj a = sqp_objective eta (map (fun v => v + QP_EPS) q) g d /\
    (forall x', feasible (er_conic hs q) x' -> a_obj a <= objective (er_conic hs q) x').
  Proof.
    intros Hhs Lq Hq [K [Eo _]] x d ws g. pose proof (er_q_length q Lq) as Ll.
    assert (Op : forall x', feasible (er_conic hs q) x' -> a_obj a <= objective (er_conic hs q) x').
    { rewrite Eo. apply (kkt_optimal _ _ (a_z a)); [| | |exact K].
      - cbn [er_conic k_A k_b csc_of c_rows]. unfold edge_rhs. cbn [length]. rewrite !app_length, !repeat_length. lia.
      - cbn [er_conic k_A k_q csc_of c_cols]. rewrite edge_cols_length, Ll. reflexivity.
      - apply (convex_diag 1 n); [exact Ll|]. intros i Hi. unfold er_diag. assert (0 <= nth i q 0) by (apply Hq, nth_In; lia). pose proof QP_EPS_pos.
        left. apply Rdiv_lt_0_compat; [lra|]. apply Rmult_lt_0_compat; lra. }
    rewrite er_objective in Eo by assumption. apply (edge_kkt conf y true 1 hs _ _ (1 / nu) 0 Ll) in K. fold n in K. destruct K as [F [Lz [Z1 [Z2 [C1 [C2 [S0 S1]]]]]]].
    apply (edge_feasible conf y true 1 hs _ _ (1 / nu) 0 Ll) in F. fold n in F. cbn [offs gof] in *. destruct F as [Lx [F0 [F1 [F2 F3]]]]. fold x in Lx, F0, F1, F2, F3, C1, C2.
    assert (Nd : forall i, nth i d 0 = nth (1 + i) x 0) by (intros; apply nth_skipn_add). assert (Nw : forall t, nth t ws 0 = nth (1 + 2 * n + t) (a_z a) 0) by (intros; apply nth_skipn_add).
    assert (Ld : length d = n) by (unfold d; rewrite skipn_length, Lx; lia). assert (Lw : length ws = length hs) by (unfold ws; rewrite skipn_length, Lz; lia).
    assert (Dw : is_dist ws).
    { apply is_dist_nth; rewrite Lw; [intros t Ht; rewrite Nw; apply Z2, Ht|]. rewrite (rsum_map_ext _ (fun t => nth (1 + 2 * n + t) (a_z a) 0)) by (intros; apply Nw).
      rewrite <- (S0 eq_refl). rewrite diag_row0 by lia. cbn [er_linear nth]. ring. }
    assert (Ee : forall t h, nth_error hs t = Some h -> edge_of y d (conf h) = rsum (map (fun i => nth (1 + i) x 0 * marg conf y hs t i) (seq 0 n))).
    { intros t h Et. rewrite (edge_marg conf y hs d t h Ld Et). fold n. apply rsum_map_ext. intros i _. rewrite Nd. reflexivity. }
    assert (Ev : edge_of y d (vote conf (combine ws hs)) = g).
    { rewrite (edge_vote_sum conf y hs d ws Lw). fold n. rewrite (rsum_map_ext _ (fun t => g * nth t ws 0)).
      - rewrite rsum_map_mult. apply nth_is_dist in Dw. rewrite Lw in Dw. destruct Dw as [_ Dw]. rewrite Dw. ring.
      - intros t Ht. apply in_seq in Ht. specialize (C2 t ltac:(lia)). rewrite <- Nw in C2. rewrite (rsum_map_ext _ (fun i => nth (1 + i) x 0 * marg conf y hs t i)) by (intros; rewrite Nd; reflexivity). unfold g. nra. }
    assert (Eg : forall h, In h hs -> edge_of y d (conf h) <= g).
    { intros h Hh. apply In_nth_error in Hh. destruct Hh as [t Et]. assert (t < length hs)%nat by (apply nth_error_Some; congruence). rewrite (Ee t h Et). specialize (F3 t ltac:(assumption)). unfold g. lra. }
    split; [exact Lx|]. split; [exact Lz|]. split; [split; [exact Ld|]|].
    { split; [|rewrite <- (map_nth_seq 0 d), Ld; rewrite (map_ext _ (fun i => nth (1 + i) x 0)) by (intros; apply Nd); exact F0].
      intros v Hv. apply (In_nth _ _ 0) in Hv. destruct Hv as [i [Hi <-]]. rewrite Ld in Hi. rewrite Nd. specialize (F1 i Hi). specialize (F2 i Hi). lra. }
    split; [exact Lw|]. split; [exact Dw|]. split; [exact Eg|]. split; [exact Ev|]. split; [|split; [exact Eo|exact Op]].
    apply nth_is_dist in Dw. rewrite Lw in Dw. destruct Dw as [D1 D2].
    assert (P : exists t, (t < length hs)%nat /\ 0 < nth t ws 0).
    { destruct (list_eq_dec Req_EM_T ws (repeat 0 (length hs))) as [E|E].
      - exfalso. rewrite (rsum_zero (fun i => nth i ws 0)) in D2; [lra|]. intros t Ht. rewrite E. apply nth_repeat_lt, Ht.
      - destruct (Exists_dec (fun t => 0 < nth t ws 0) (seq 0 (length hs)) ltac:(intros; apply Rlt_dec)) as [Ex|Ne].
        + apply Exists_exists in Ex. destruct Ex as [t [Ht Hp]]. apply in_seq in Ht. exists t. split; [lia|exact Hp].
        + exfalso. apply Forall_Exists_neg in Ne. rewrite Forall_forall in Ne. rewrite (rsum_zero (fun i => nth i ws 0)) in D2; [lra|]. intros t Ht. specialize (Ne t ltac:(apply in_seq; lia)). specialize (D1 t Ht). lra. }
    destruct P as [t [Ht Hp]]. destruct (nth_error hs t) as [h|] eqn:Et; [|apply nth_error_None in Et; lia]. exists h. split; [eapply nth_error_In; exact Et|]. rewrite (Ee t h Et).
    specialize (C2 t Ht). rewrite <- Nw in C2. apply Rmult_integral in C2. unfold g. destruct C2; lra.
  Qed.

  Lemma dist_le1 d : is_dist d -> forall v, In v d -> 0 <= v <= 1.
  Proof. intros [D1 D2] v Hv. split; [apply D1, Hv|]. rewrite <- D2. apply rsum_in_le; assumption. Qed.

  Lemma capped_is_dist d : capped nu y d -> is_dist d.
  Proof. intros [_ [C1 C2]]. split; [intros v Hv; apply C1, Hv|exact C2]. Qed.

  Lemma edge_bounded d h : capped nu y d -> -1 <= edge_of y d (conf h) <= 1.
  Proof.
    intros C. pose proof (capped_is_dist d C) as D. destruct C as [L _]. apply nth_is_dist in D. rewrite L in D. destruct D as [D1 D2]. fold n in D1, D2. unfold edge_of. fold n.
    assert (M : forall i, (i < n)%nat -> - nth i d 0 <= nth i d 0 * (nth i y 0 * conf h i) <= nth i d 0) by (intros i Hi; specialize (D1 i Hi); pose proof (Hmarg h i Hi); nra).
    split.
    - replace (-1) with (rsum (map (fun i => -1 * nth i d 0) (seq 0 n))) by (rewrite rsum_map_mult, D2; ring). apply rsum_le_seq. intros i Hi. specialize (M i Hi). lra.
    - rewrite <- D2. apply rsum_le_seq. intros i Hi. apply M, Hi.
  Qed.

  (** the value of the approximation never falls below the value of the edge plus the entropy *)
  Lemma sqp_above q g d : length q = n -> (forall v, In v q -> 0 <= v) -> length d = n -> (forall v, In v d -> 0 <= v) ->
    g + entropy d / eta <= sqp_objective eta (map (fun v => v + QP_EPS) q) g d.
  Proof.
    intros Lq Hq Ld Hd. unfold sqp_objective. rewrite map_length, Lq. apply Rplus_le_compat_l. unfold Rdiv at 1. rewrite Rmult_comm. replace (1 / eta) with (/ eta) by (field; lra).
    apply Rmult_le_compat_l; [left; apply Rinv_0_lt_compat; lra|]. rewrite entropy_xlnx. rewrite <- (map_nth_seq 0 d) at 1. rewrite Ld, map_map. apply rsum_le_seq. intros i Hi.
    rewrite (nth_map_in (fun v => v + QP_EPS) q i 0 0) by lia. apply sqp_term; [apply Hd, nth_In; lia|]. assert (0 <= nth i q 0) by (apply Hq, nth_In; lia). pose proof QP_EPS_pos. lra.
  Qed.

  Lemma er_obj_lower hs q a : (0 < length hs)%nat -> length q = n -> (forall v, In v q -> 0 <= v) -> solves (er_conic hs q) a -> -1 - ln (INR n) / eta <= a_obj a.
  Proof.
    intros Hhs Lq Hq Ha. destruct (er_solved hs q a Hhs Lq Hq Ha) as [_ [_ [Cd [_ [_ [Eg [_ [[h [Hh Eh]] [Eo _]]]]]]]]]. rewrite Eo.
    set (d := skipn 1 (a_x a)) in *. pose proof (capped_is_dist d Cd) as Dd. eapply Rle_trans; [|apply sqp_above; [exact Lq|exact Hq|apply Cd|apply Dd]].
    pose proof (edge_bounded d h Cd) as B. rewrite Eh in B. pose proof (entropy_lower d Dd) as En. destruct Cd as [Ld _]. rewrite Ld in En. fold n in En.
    assert (- ln (INR n) / eta <= entropy d / eta) by (unfold Rdiv; apply Rmult_le_compat_r; [left; apply Rinv_0_lt_compat; lra|exact En]). lra.
  Qed.

  Lemma uniform_capped : capped nu y (repeat (1 / INR n) n).
  Proof.
    assert (0 < INR n) by lra. split; [apply repeat_length|]. split; [|rewrite rsum_repeat; field; lra].
    intros v Hv. apply repeat_spec in Hv. subst v. split; [left; apply Rdiv_lt_0_compat; lra|]. unfold Rdiv. rewrite !Rmult_1_l. apply Rinv_le_contravar; lra.
  Qed.

  (** the first turn is always accepted *)
  Lemma er_first hs a : (0 < length hs)%nat -> solves (er_conic hs (repeat (1 / INR n) n)) a -> a_obj a <= 4.
  Proof.
    intros Hhs Ha. set (u := repeat (1 / INR n) n) in *. pose proof uniform_capped as Cu. fold u in Cu. assert (Hu : forall v, In v u -> 0 <= v) by (apply capped_is_dist; exact Cu).
    assert (Lu : length u = n) by (apply repeat_length). destruct (er_solved hs u a Hhs Lu Hu Ha) as [_ [_ [_ [_ [_ [_ [_ [_ [_ Op]]]]]]]]].
    eapply Rle_trans; [apply (Op (1 :: u))|].
    - apply (edge_feasible conf y true 1 hs _ _ (1 / nu) 0 (er_q_length u Lu)). fold n. cbn [offs gof nth Nat.add]. destruct Cu as [_ [C1 C2]].
      split; [cbn [length]; rewrite Lu; reflexivity|]. split; [|split; [|split]].
      + etransitivity; [|exact C2]. pose proof (map_nth_seq 0 u) as E. rewrite Lu in E. f_equal. exact E.
      + intros i Hi. apply Hu, nth_In. lia.
      + intros i Hi. rewrite Rmult_1_l. apply C1, nth_In. lia.
      + intros t Ht. destruct (nth_error hs t) as [h|] eqn:Et; [|apply nth_error_None in Et; lia]. pose proof (edge_marg conf y hs u t h Lu Et) as Em. fold n in Em. rewrite <- Em. pose proof (edge_bounded u h uniform_capped). lra.
    - rewrite er_objective by assumption. cbn [nth skipn]. unfold sqp_objective. rewrite map_length, Lu.
      assert (Hn' : 1 <= INR n) by (apply (le_INR 1) in Hn; exact Hn).
      assert (Hb : rsum (map (fun i => 1 / (2 * nth i (map (fun v => v + QP_EPS) u) 0) * nth i u 0 ^ 2 + ln (nth i (map (fun v => v + QP_EPS) u) 0) * nth i u 0) (seq 0 n)) <= rsum (map (fun i => 3 / 2 * nth i u 0) (seq 0 n))).
      { apply rsum_le_seq. intros i Hi. rewrite (nth_map_in (fun v => v + QP_EPS) u i 0 0) by lia. unfold u. rewrite nth_repeat_lt by exact Hi. set (v := 1 / INR n).
        assert (Hv : 0 < v <= 1) by (unfold v; split; [apply Rdiv_lt_0_compat; lra|apply Rdiv_le_iff; lra]). pose proof QP_EPS_pos as He.
        pose proof (exp_ge_1x (ln (v + QP_EPS))) as E. rewrite exp_ln in E by lra.
        assert (1 / (2 * (v + QP_EPS)) * v ^ 2 <= v / 2). { replace (1 / (2 * (v + QP_EPS)) * v ^ 2) with (v ^ 2 / (2 * (v + QP_EPS))) by (field; lra). apply Rdiv_le_iff; [lra|]. nra. }
        nra. }
      rewrite rsum_map_mult in Hb. destruct Cu as [_ [_ C2]]. rewrite <- (map_nth_seq 0 u), Lu in C2. rewrite C2 in Hb.
      assert (0 < 1 / eta <= 2) by (split; [apply Rdiv_lt_0_compat; lra|apply Rdiv_le_iff; lra]). nra.
  Qed.

  (** ** the loop *)
  Definition solved_ok (hs : list H) (m : qpmodel) : Prop :=
    qpm_ok hs m /\ capped nu y (qm_dist m) /\ length (qm_weights m) = length hs /\ is_dist (qm_weights m) /\
    (exists h, In h hs /\ (forall h', In h' hs -> edge_of y (qm_dist m) (conf h') <= edge_of y (qm_dist m) (conf h)) /\
       edge_of y (qm_dist m) (vote conf (combine (qm_weights m) hs)) = edge_of y (qm_dist m) (conf h)).

  Lemma map_rmax0 l : (forall v, In v l -> 0 <= v) -> map (fun v => Rmax v 0) l = l.
  Proof. intros Hl. rewrite <- (map_id l) at 2. apply map_ext_in. intros v Hv. apply Rmax_left, Hl, Hv. Qed.

  Lemma accept_ok hs m a : (0 < length hs)%nat -> qpm_ok hs m -> solves (er_conic hs (qm_dist m)) a -> exists m', qm_accept m a = Ok m' /\ solved_ok hs m'.
  Proof.
    intros Hhs O Ha. assert (O' := O). destruct O as [E1 [E2 [E3 [E4 [E5 [E6 E7]]]]]]. destruct (er_solved hs (qm_dist m) a Hhs E6 E7 Ha) as [Lx [Lz [Cd [Lw [Dw [Eg [Ev [[h [Hh Eh]] _]]]]]]]].
    unfold qm_accept, slice_from. rewrite E1, Lx, Lz. rewrite (proj2 (Nat.leb_le 1 (1 + n))) by lia. cbn [bind]. rewrite (proj2 (Nat.leb_le (1 + 2 * n) (1 + 2 * n + length hs))) by lia. cbn [bind].
    rewrite (map_rmax0 (skipn 1 (a_x a))) by (apply (capped_is_dist _ Cd)). rewrite (map_rmax0 (skipn (1 + 2 * n) (a_z a))) by apply Dw.
    eexists. split; [reflexivity|]. unfold solved_ok, qpm_ok. cbn [qm_n qm_T qm_margins qm_cap qm_eta qm_dist qm_weights].
    split; [repeat split; try assumption; [apply Cd|apply (capped_is_dist _ Cd)]|]. split; [exact Cd|]. split; [exact Lw|]. split; [exact Dw|].
    exists h. split; [exact Hh|]. split; [intros h' Hh'; rewrite Eh; apply Eg, Hh'|]. rewrite Eh. exact Ev.
  Qed.

  (** enough turns for the inner loop *)
  Definition qm_low : R := -1 - ln (INR n) / eta.
  Definition qm_enough (old : R) (fuel : nat) : Prop := (old - qm_low) * 1000000000 + 1 < INR fuel.

  Lemma loop_ok hs m0 old0 : (0 < length hs)%nat ->
    (forall m old p, qm_turns solve m0 old0 m old -> qm_program m = Ok p -> solves p (solve p)) ->
    forall fuel m old, qm_turns solve m0 old0 m old -> qpm_ok hs m -> qm_enough old fuel -> 0 < INR fuel ->
      (solved_ok hs m \/ (m = m0 /\ qm_dist m = repeat (1 / INR n) n /\ old = 1000)) ->
      exists m', qm_loop solve fuel m old = Ok m' /\ solved_ok hs m'.
  Proof.
    intros Hhs Hex. induction fuel as [|fuel IH]; intros m old Tu O En Fp St; [simpl in Fp; lra|].
    cbn [qm_loop]. pose proof (program_ok hs m O) as Ep. rewrite Ep. cbn [bind]. pose proof (Hex m old _ Tu Ep) as Ha. set (a := solve (er_conic hs (qm_dist m))) in *.
    assert (Es : a_status a = Solved) by apply Ha. rewrite Es. cbn [status_accepted status_stuck assert_ bind]. rewrite orb_false_r.
    assert (Lo : qm_low <= a_obj a) by (apply (er_obj_lower hs (qm_dist m) a Hhs); [apply O|apply O|exact Ha]).
    destruct (Rltb_spec (old - a_obj a) QP_TOLERANCE) as [L|L].
    - exists m. split; [reflexivity|]. destruct St as [St|[_ [Ed Eo]]]; [exact St|]. exfalso. rewrite Ed in *. pose proof (er_first hs a Hhs Ha). unfold QP_TOLERANCE in L. lra.
    - destruct (accept_ok hs m a Hhs O Ha) as [m' [Ea S']]. rewrite Ea. cbn [bind]. apply IH.
      + apply (qm_next solve m0 old0 m old (er_conic hs (qm_dist m)) m'); try assumption; fold a; rewrite ?Es; [reflexivity|]. cbn [status_stuck]. rewrite orb_false_r. apply Rltb_false. lra.
      + apply S'.
      + unfold qm_enough in *. rewrite S_INR in En. unfold QP_TOLERANCE in L. assert (1 <= (old - a_obj a) * 1000000000) by lra. lra.
      + unfold qm_enough in En. rewrite S_INR in En. unfold QP_TOLERANCE in L. assert (1 <= (old - a_obj a) * 1000000000) by lra. assert (0 <= (a_obj a - qm_low) * 1000000000) by (apply Rmult_le_pos; lra). lra.
      + left. exact S'.
  Qed.

  Lemma start_ok hs m h : qpm_ok hs m -> qpm_ok (hs ++ [h]) (qm_start conf y m h) /\ qm_dist (qm_start conf y m h) = repeat (1 / INR n) n.
  Proof.
    intros [E1 [E2 [E3 [E4 [E5 [E6 E7]]]]]]. unfold qm_start, qpm_ok. cbn [qm_n qm_T qm_margins qm_cap qm_eta qm_dist qm_weights]. rewrite E1, E2, E3, E4, E5, E6, erows_push, app_length.
    split; [|reflexivity]. repeat split; try (cbn [length]; lia); [apply repeat_length|]. intros d Hd. apply repeat_spec in Hd. subst d. left. apply Rdiv_lt_0_compat; lra.
  Qed.

  Lemma update_ok inner hs m h : qpm_ok hs m -> 
    (forall m1 old p, qm_turns solve (qm_start conf y m h) 1000 m1 old -> qm_program m1 = Ok p -> solves p (solve p)) ->
    (1001 + ln (INR n) / eta) * 1000000000 + 1 < INR inner ->
    exists m', qm_update conf solve y inner m h = Ok m' /\ solved_ok (hs ++ [h]) m'.
  Proof.
    intros O Hex Hi. destruct (start_ok hs m h O) as [O' Ed]. unfold qm_update. apply (loop_ok (hs ++ [h]) (qm_start conf y m h) 1000); try assumption.
    - rewrite app_length. cbn [length]. lia.
    - constructor.
    - unfold qm_enough, qm_low. lra.
    - assert (0 <= ln (INR n) / eta); [|lra]. apply Rmult_le_pos; [|left; apply Rinv_0_lt_compat; lra]. rewrite <- ln_1. apply ln_le; lra.
    - right. split; [reflexivity|]. split; [exact Ed|reflexivity].
  Qed.
End QP.
