(** Proofs about AdaBoostV: exponential form, per-round potential, margins. *)
From Verif Require Import Base Spec SortLib Utils UtilsProofs WMajority WMajorityProofs Booster AdaBoost AdaBoostProofs AdaBoostMain AdaBoostMore AdaBoostV.
From Coq Require Import Ranalysis MVT.
Open Scope R_scope.

(** smallest of the first k+1 edges (and 1) *)
Definition min_edge (es : list R) : R := fold_right Rmin 1 es.

(** the coefficients computed from the edges seen, e_1 ... e_T *)
Definition adav_weights (tol : R) (es : list R) : list R :=
  map (fun k => ada_weight (nth k es 0) - ada_weight (min_edge (firstn (S k) es) - tol)) (seq 0 (length es)).

Lemma adav_weights_length tol es : length (adav_weights tol es) = length es.
Proof. unfold adav_weights. rewrite map_length, seq_length. reflexivity. Qed.

Lemma min_edge_app es e : min_edge (es ++ [e]) = Rmin e (min_edge es).
Proof.
  unfold min_edge. induction es as [|a es IH]; simpl; [reflexivity|]. rewrite IH.
  rewrite !Rmin_assoc, (Rmin_comm a e). reflexivity.
Qed.

Lemma min_edge_le es e : In e es -> min_edge es <= e.
Proof.
  induction es as [|a es IH]; [intros []|]. intros [->|Hin]; simpl.
  - apply Rmin_l.
  - eapply Rle_trans; [apply Rmin_r|apply IH, Hin].
Qed.

Lemma min_edge_ge es g : g <= 1 -> Forall (fun e => g <= e) es -> g <= min_edge es.
Proof. intros Hg. induction 1 as [|a es Ha _ IH]; simpl; [exact Hg|]. apply Rmin_glb; assumption. Qed.

Lemma adav_weights_app tol es e :
  adav_weights tol (es ++ [e]) =
  adav_weights tol es ++ [ada_weight e - ada_weight (min_edge (es ++ [e]) - tol)].
Proof.
  unfold adav_weights. rewrite app_length. simpl length. rewrite Nat.add_1_r, seq_S, map_app. f_equal.
  - apply map_ext_in. intros k Hk. apply in_seq in Hk. rewrite app_nth1 by lia.
    rewrite firstn_app_le by lia. reflexivity.
  - cbn [map]. rewrite app_nth2, Nat.sub_diag by lia. cbn [nth].
    rewrite firstn_all2 by (rewrite app_length; simpl; lia). reflexivity.
Qed.

Lemma ada_weight_lt a b : -1 < a -> a < b -> b < 1 -> ada_weight a < ada_weight b.
Proof.
  intros Ha Hab Hb. unfold ada_weight. apply Rmult_lt_compat_r; [lra|].
  apply ln_increasing; [apply Rdiv_lt_0_compat; lra|].
  apply Rdiv_lt_iff; [lra|]. unfold Rdiv. rewrite Rmult_assoc, (Rmult_comm (/ _)), <- Rmult_assoc.
  fold (((1 + b) * (1 - a)) / (1 - b)). apply Rlt_div_iff; [lra|]. nra.
Qed.

(** ** Pinsker's inequality for two-point distributions *)
Definition pinsker_gap (r g : R) : R :=
  (1 + r) / 2 * (ln (1 + r) - ln (1 + g)) + (1 - r) / 2 * (ln (1 - r) - ln (1 - g)) - (g - r) ^ 2 / 2.

Lemma pinsker_gap_deriv r g : -1 < g < 1 ->
  derivable_pt_lim (pinsker_gap r) g ((g - r) * g ^ 2 / (1 - g ^ 2)).
Proof.
  intros Hg.
  assert (L1 : derivable_pt_lim (fun g => ln (1 + g)) g (/ (1 + g) * (0 + 1))).
  { apply (derivable_pt_lim_comp (fun g => 1 + g) ln).
    - apply derivable_pt_lim_plus; [apply derivable_pt_lim_const|apply derivable_pt_lim_id].
    - apply derivable_pt_lim_ln. lra. }
  assert (L2 : derivable_pt_lim (fun g => ln (1 - g)) g (/ (1 - g) * (0 - 1))).
  { apply (derivable_pt_lim_comp (fun g => 1 - g) ln).
    - apply derivable_pt_lim_minus; [apply derivable_pt_lim_const|apply derivable_pt_lim_id].
    - apply derivable_pt_lim_ln. lra. }
  assert (L3 : derivable_pt_lim (fun g => (g - r) * (g - r)) g ((1 - 0) * (g - r) + (g - r) * (1 - 0))).
  { apply (derivable_pt_lim_mult (fun g => g - r) (fun g => g - r));
      apply derivable_pt_lim_minus; first [apply derivable_pt_lim_id|apply derivable_pt_lim_const]. }
  pose proof (derivable_pt_lim_minus _ _ _ _ _ 
    (derivable_pt_lim_plus _ _ _ _ _
      (derivable_pt_lim_scal _ ((1 + r) / 2) _ _
         (derivable_pt_lim_minus (fun _ => ln (1 + r)) _ g _ _ (derivable_pt_lim_const (ln (1 + r)) g) L1))
      (derivable_pt_lim_scal _ ((1 - r) / 2) _ _
         (derivable_pt_lim_minus (fun _ => ln (1 - r)) _ g _ _ (derivable_pt_lim_const (ln (1 - r)) g) L2)))
    (derivable_pt_lim_scal _ (1 / 2) _ _ L3)) as D.
  match type of D with derivable_pt_lim ?F ?x ?l =>
    assert (Ex : forall z, F z = pinsker_gap r z);
    [intros z; unfold pinsker_gap, minus_fct, plus_fct, mult_real_fct, fct_cte; field|];
    assert (El : l = (g - r) * g ^ 2 / (1 - g ^ 2)) end.
  { field. repeat split; try lra. intros X. assert (1 - g ^ 2 = (1 - g) * (1 + g)) by ring. nra. }
  rewrite El in D. intros eps He. destruct (D eps He) as [del Hd]. exists del. intros h Hh Hhd.
  rewrite <- !Ex. apply Hd; assumption.
Qed.

Lemma pinsker r g : -1 < r -> r <= g -> g < 1 -> 0 <= pinsker_gap r g.
Proof.
  intros Hr Hrg Hg. assert (E0 : pinsker_gap r r = 0) by (unfold pinsker_gap; field).
  destruct (Rle_lt_or_eq_dec r g Hrg) as [Hlt|<-]; [|lra].
  destruct (MVT_cor2 (pinsker_gap r) (fun g => (g - r) * g ^ 2 / (1 - g ^ 2)) r g Hlt) as [c [E Hc]].
  { intros c Hc. apply pinsker_gap_deriv. lra. }
  rewrite E0, Rminus_0_r in E. rewrite E. apply Rmult_le_pos; [|lra].
  assert (0 < 1 - c ^ 2) by (assert (1 - c ^ 2 = (1 - c) * (1 + c)) by ring; nra).
  apply Rmult_le_pos; [|left; apply Rinv_0_lt_compat; assumption].
  apply Rmult_le_pos; [lra|apply pow2_ge_0].
Qed.

Lemma ada_weight_ln e : -1 < e < 1 -> ada_weight e = (ln (1 + e) - ln (1 - e)) / 2.
Proof.
  intros He. unfold ada_weight, Rdiv at 2. rewrite ln_mult; [|lra|apply Rinv_0_lt_compat; lra].
  rewrite ln_Rinv by lra. reflexivity.
Qed.

(** value of one round: exp(rho w) ((1+g)/2 e^-w + (1-g)/2 e^w) <= exp(-(g-rho)^2/2) *)
Lemma adav_round_value r g : -1 < r -> r <= g -> g < 1 ->
  let w := ada_weight g - ada_weight r in
  exp (r * w) * ((1 + g) / 2 * exp (- w) + (1 - g) / 2 * exp w) <= exp (- (g - r) ^ 2 / 2).
Proof.
  intros Hr Hrg Hg w.
  assert (Hw : w = (ln (1 + g) - ln (1 - g)) / 2 - (ln (1 + r) - ln (1 - r)) / 2).
  { unfold w. rewrite !ada_weight_ln by lra. reflexivity. }
  assert (S : (1 + g) * (1 - r) * exp (- w) = (1 - g) * (1 + r) * exp w).
  { rewrite <- (exp_ln (1 + g)), <- (exp_ln (1 - g)), <- (exp_ln (1 + r)), <- (exp_ln (1 - r)) by lra.
    rewrite <- !exp_plus. f_equal. rewrite Hw. field. }
  assert (E1 : (1 + g) / 2 * exp (- w) + (1 - g) / 2 * exp w = (1 - g) / (1 - r) * exp w).
  { apply Rmult_eq_reg_l with (1 - r); [|lra].
    replace ((1 - r) * ((1 + g) / 2 * exp (- w) + (1 - g) / 2 * exp w))
      with ((1 + g) * (1 - r) * exp (- w) / 2 + (1 - r) * (1 - g) / 2 * exp w) by field.
    rewrite S. field. lra. }
  rewrite E1.
  assert (E2 : exp (r * w) * ((1 - g) / (1 - r) * exp w) = exp (r * w + (ln (1 - g) - ln (1 - r)) + w)).
  { unfold Rminus. rewrite !exp_plus, exp_Ropp, !exp_ln by lra. field. lra. }
  rewrite E2. apply exp_le_exp. pose proof (pinsker r g Hr Hrg Hg) as P. unfold pinsker_gap in P. rewrite Hw.
  nra.
Qed.

Section AdavMain.
  Context {H : Type}.
  Variable conf : H -> nat -> R.
  Variable produce : nat -> list R -> H.
  Variable y : list R.
  Let n := length y.
  Let edges := edges conf produce y.
  Let answers := answers produce.

  Definition adav_history (tol : R) (tr : trace) : list (R * H) :=
    combine (adav_weights tol (edges tr)) (answers tr).

  Lemma adav_history_app tol tr d :
    let h := produce (S (length tr)) d in
    let e := edge_of y d (conf h) in
    adav_history tol (tr ++ [d]) =
    adav_history tol tr ++ [(ada_weight e - ada_weight (min_edge (edges (tr ++ [d])) - tol), h)].
  Proof.
    unfold adav_history, edges, answers. rewrite edges_app, answers_app, adav_weights_app, combine_app_eq; [reflexivity|].
    rewrite adav_weights_length, edges_length, answers_length. reflexivity.
  Qed.

  Definition good_vtrace (tol : R) (tr : trace) : Prop :=
    forall k, (k < length tr)%nat -> exp_dist conf y (adav_history tol (firstn k tr)) (nth k tr []).

  Lemma good_vtrace_app tol tr d :
    good_vtrace tol tr -> exp_dist conf y (adav_history tol tr) d -> good_vtrace tol (tr ++ [d]).
  Proof.
    intros Ht Hd k Hk. rewrite app_length in Hk. simpl in Hk.
    destruct (Nat.eq_dec k (length tr)) as [->|Hne].
    - rewrite firstn_app_le by lia. rewrite firstn_all, app_nth2, Nat.sub_diag by lia. exact Hd.
    - rewrite firstn_app_le, app_nth1 by lia. apply Ht. lia.
  Qed.

  Definition adav_limit (s : @adav H) : nat :=
    match v_force_quit s with Some it => it | None => adav_max_loop y s end.

  (** edges in (-1,1) and rho in (-1,1) at every prefix *)
  Definition fine (tol : R) (es : list R) : Prop :=
    Forall small es /\ forall k, (0 < k <= length es)%nat -> -1 < min_edge (firstn k es) - tol < 1.

  Lemma fine_app tol es e : fine tol es -> small e -> -1 < min_edge (es ++ [e]) - tol < 1 -> fine tol (es ++ [e]).
  Proof.
    intros [Hs Hk] He Hm. split; [apply Forall_app; split; [exact Hs|constructor; [exact He|constructor]]|].
    intros k [Hk0 Hk1]. rewrite app_length in Hk1. simpl in Hk1.
    destruct (Nat.eq_dec k (length es + 1)) as [->|Hne].
    - rewrite firstn_all2 by (rewrite app_length; simpl; lia). exact Hm.
    - rewrite firstn_app_le by lia. apply Hk. lia.
  Qed.

  Definition VInv (tol : R) (M t : nat) (s : @adav H) (tr : trace) : Prop :=
    (0 < n)%nat /\ v_max_iter s = M /\ v_tolerance s = tol /\ t = S (length tr) /\ (length tr <= M)%nat /\
    v_gamma s = min_edge (edges tr) /\
    v_weights s = adav_weights tol (edges tr) /\ v_hyps s = answers tr /\
    fine tol (edges tr) /\ good_vtrace tol tr /\ exp_dist conf y (adav_history tol tr) (v_dist s).

  Lemma adav_pre_inv s s0 : adav_pre y s = Ok s0 -> VInv (v_tolerance s) (adav_limit s) 1 s0 [].
  Proof.
    unfold adav_pre. destruct (is_valid_binary_instance y) as [[]|p] eqn:E; simpl; [|discriminate].
    intros Hs. inversion Hs; subst; clear Hs.
    pose proof (valid_instance_nonempty y E) as Hn.
    unfold VInv; simpl. split; [exact Hn|]. do 3 (split; [reflexivity|]). split; [lia|].
    do 3 (split; [reflexivity|]). split; [split; [constructor|simpl; intros; lia]|].
    split; [intros k Hk; simpl in Hk; lia|]. apply (exp_dist_uniform conf y Hn).
  Qed.

  Lemma adav_boost_step tol M t s tr :
    VInv tol M t s tr ->
    let d := v_dist s in
    let h := produce t d in
    let e := edge_of y d (conf h) in
    (length tr = M /\ adav_boost conf produce y t s = ([], Ok (s, Break M))) \/
    ((length tr < M)%nat /\ exp_dist conf y (adav_history tol tr) d /\
     1 <= Rabs e /\ exists s',
       adav_boost conf produce y t s = ([d], Ok (s', Break t)) /\
       v_weights s' = [rsignum e] /\ v_hyps s' = [h]) \/
    ((length tr < M)%nat /\ small e /\
     ~ (-1 < min_edge (edges (tr ++ [d])) - tol < 1) /\ adav_boost conf produce y t s = ([d], Panic UnwrapNone)) \/
    ((length tr < M)%nat /\ small e /\ exists s',
       adav_boost conf produce y t s = ([d], Ok (s', Continue)) /\ VInv tol M (S t) s' (tr ++ [d])).
  Proof.
    intros [Hn [HM [Htol [Ht [Hlim [Hgam [Hw [Hh [Hfine [Hg Hd]]]]]]]]]] d h e.
    unfold adav_boost. rewrite HM. destruct (Nat.ltb_spec M t) as [L|L].
    - left. split; [lia|reflexivity].
    - right. fold d. fold h.
      assert (Hl : length d = n) by apply Hd.
      rewrite (edge_inner_product conf y h d Hl). fold e.
      destruct (Rleb_spec 1 (Rabs e)) as [B|B].
      + left. split; [lia|]. split; [exact Hd|]. split; [exact B|]. eexists. split; [reflexivity|]. split; reflexivity.
      + right.
        assert (He : small e) by (unfold small; destruct (Rabs_def2 e 1); lra).
        assert (Ee : edges (tr ++ [d]) = edges tr ++ [e]).
        { unfold edges. rewrite edges_app. replace (S (length tr)) with t by lia. reflexivity. }
        unfold adav_update. fold d. rewrite Hgam, Htol, <- min_edge_app, <- Ee.
        set (rho := min_edge (edges (tr ++ [d])) - tol).
        destruct (Rleb_spec rho (-1)) as [R1|R1]; [left|].
        { split; [lia|]. split; [exact He|]. split; [lra|reflexivity]. }
        destruct (Rleb_spec 1 rho) as [R2|R2]; [left|right]; cbn [orb].
        { split; [lia|]. split; [exact He|]. split; [lra|reflexivity]. }
        split; [lia|]. split; [exact He|].
        fold (ada_weight e). fold (ada_weight rho).
        destruct (exp_dist_update conf y (adav_history tol tr) d (ada_weight e - ada_weight rho) h Hn Hd)
          as [d' [E1 [E2 _]]].
        cbv zeta. rewrite E1. cbn [bind]. eexists. split; [reflexivity|].
        unfold VInv. cbn [v_max_iter v_tolerance v_gamma v_weights v_hyps v_dist].
        split; [exact Hn|]. split; [exact HM|]. split; [reflexivity|].
        rewrite app_length. simpl length. split; [lia|]. split; [lia|]. split; [reflexivity|].
        split. { rewrite Hw, Ee, adav_weights_app. unfold rho. rewrite Ee. reflexivity. }
        split. { rewrite Hh. unfold answers. rewrite answers_app. unfold h. replace (S (length tr)) with t by lia. reflexivity. }
        split. { rewrite Ee. apply fine_app; [exact Hfine|exact He|]. rewrite <- Ee. fold rho. lra. }
        split; [apply good_vtrace_app; assumption|].
        rewrite adav_history_app. replace (S (length tr)) with t by lia. fold h. fold e. fold rho. exact E2.
  Qed.

  (** what a finished run returned *)
  Definition adav_result (tol : R) (M : nat) (tr : trace) (f : wmajority H) : Prop :=
    (length tr = M /\ fine tol (edges tr) /\ from_slices (adav_weights tol (edges tr)) (answers tr) = Ok f) \/
    (exists tr0 d, tr = tr0 ++ [d] /\ (length tr <= M)%nat /\ fine tol (edges tr0) /\
       1 <= edge_of y d (conf (produce (length tr) d)) /\ f = mkWM [1] [produce (length tr) d]).

  Lemma adav_run_spec fuel s :
    (good_vtrace (v_tolerance s) (trace_of (run (adaboostv conf produce y) fuel s)) /\
     (length (trace_of (run (adaboostv conf produce y) fuel s)) <= adav_limit s)%nat /\
     (trace_of (run (adaboostv conf produce y) fuel s) <> [] -> (0 < n)%nat)) /\
    (forall tr f, run (adaboostv conf produce y) fuel s = Finished tr f ->
       (good_vtrace (v_tolerance s) tr /\ (0 < n)%nat) /\ adav_result (v_tolerance s) (adav_limit s) tr f).
  Proof.
    set (tol := v_tolerance s). set (M := adav_limit s).
    apply (run_inv (adaboostv conf produce y) (VInv tol M)
      (fun tr => good_vtrace tol tr /\ (length tr <= M)%nat /\ (tr <> [] -> (0 < n)%nat))
      (fun tr f => (good_vtrace tol tr /\ (0 < n)%nat) /\ adav_result tol M tr f)).
    - split; [intros k Hk; simpl in Hk; lia|]. split; [simpl; lia|]. intros X. contradiction.
    - intros s0 E. apply adav_pre_inv. exact E.
    - intros t s' tr [Hn [HM [_ [Ht [Hlim [_ [_ [_ [_ [Hg Hd]]]]]]]]]]. split; [exact Hg|]. split; [exact Hlim|]. intros _; exact Hn.
    - intros t s' tr Hinv. pose proof Hinv as [Hn [HM [Htol [Ht [Hlim [Hgam [Hw [Hh [Hfine [Hg Hd]]]]]]]]]].
      destruct (adav_boost_step _ _ _ _ _ Hinv) as
        [[HL E]|[[HL [Hed [He [s1 [E [Ew Eh]]]]]]|[[HL [He [Hr E]]]|[HL [He [s1 [E Hinv']]]]]]];
        simpl b_boost; rewrite E.
      + rewrite app_nil_r. split; [split; [exact Hg|split; [exact Hlim|intros _; exact Hn]]|].
        simpl. unfold adav_post. rewrite Hw, Hh.
        destruct (from_slices (adav_weights tol (edges tr)) (answers tr)) as [f|p] eqn:Ef; [|exact I].
        split; [split; assumption|]. left. split; [exact HL|]. split; [exact Hfine|exact Ef].
      + assert (Hg' : good_vtrace tol (tr ++ [v_dist s'])) by (apply good_vtrace_app; assumption).
        split.
        { split; [exact Hg'|]. split; [rewrite app_length; simpl; lia|]. intros _; exact Hn. }
        simpl. unfold adav_post. rewrite Ew, Eh. unfold rsignum.
        destruct (Rltb_spec (edge_of y (v_dist s') (conf (produce t (v_dist s')))) 0) as [N|N].
        * rewrite from_slices_single_neg. exact I.
        * rewrite from_slices_single. split; [split; assumption|]. right.
          exists tr, (v_dist s'). split; [reflexivity|].
          rewrite app_length. simpl. split; [lia|]. split; [exact Hfine|].
          replace (length tr + 1)%nat with t by lia.
          split; [|reflexivity]. rewrite Rabs_pos_eq in He by lra. exact He.
      + assert (Hg' : good_vtrace tol (tr ++ [v_dist s'])) by (apply good_vtrace_app; assumption).
        split; [exact Hg'|]. split; [rewrite app_length; simpl; lia|]. intros _; exact Hn.
      + exact Hinv'.
  Qed.

  Lemma adav_run_from_terminates tol M fuel t s tr :
    VInv tol M t s tr -> (M - length tr < fuel)%nat ->
    match run_from (adaboostv conf produce y) fuel t tr s with
    | Unfinished _ => False | Crashed _ p => p = AssertFailed \/ p = UnwrapNone | Finished _ _ => True end.
  Proof.
    revert t s tr. induction fuel as [|fuel IH]; intros t s tr Hinv Hf; [lia|].
    cbn [run_from]. pose proof Hinv as [Hn [HM [Htol [Ht [Hlim [Hgam [Hw [Hh [Hfine [Hg Hd]]]]]]]]]].
    destruct (adav_boost_step _ _ _ _ _ Hinv) as
        [[HL E]|[[HL [Hed [He [s1 [E [Ew Eh]]]]]]|[[HL [He [Hr E]]]|[HL [He [s1 [E Hinv']]]]]]];
        simpl b_boost; rewrite E.
    - simpl. unfold adav_post. pose proof (from_slices_spec conf (v_weights s) (v_hyps s)) as S.
      destruct (from_slices (v_weights s) (v_hyps s)); [exact I|]. left. apply S.
    - simpl. unfold adav_post. pose proof (from_slices_spec conf (v_weights s1) (v_hyps s1)) as S.
      destruct (from_slices (v_weights s1) (v_hyps s1)); [exact I|]. left. apply S.
    - right. reflexivity.
    - apply IH; [exact Hinv'|]. rewrite app_length. simpl. lia.
  Qed.

  Lemma fine_prefix tol es e : fine tol (es ++ [e]) -> fine tol es /\ small e /\ -1 < min_edge (es ++ [e]) - tol < 1.
  Proof.
    intros [Hs Hk]. apply Forall_app in Hs. destruct Hs as [Hs He]. inversion He; subst. split; [split; [exact Hs|]|].
    - intros k Hk'. specialize (Hk k). rewrite app_length in Hk. rewrite firstn_app_le in Hk by lia. apply Hk. lia.
    - split; [assumption|]. specialize (Hk (length es + 1)%nat). rewrite app_length in Hk. simpl in Hk.
      rewrite firstn_all2 in Hk by (rewrite app_length; simpl; lia). apply Hk. lia.
  Qed.

  Lemma adav_weights_pos tol es : 0 < tol -> fine tol es -> forall w, In w (adav_weights tol es) -> 0 < w.
  Proof.
    intros Ht. induction es as [|e es IH] using rev_ind; intros Hf w Hw; [destruct Hw|].
    apply fine_prefix in Hf. destruct Hf as [Hf [He Hr]]. rewrite adav_weights_app in Hw. apply in_app_or in Hw.
    destruct Hw as [Hw|[<-|[]]]; [apply IH; assumption|].
    assert (min_edge (es ++ [e]) <= e) by (apply min_edge_le, in_or_app; right; left; reflexivity).
    unfold small in He. pose proof (ada_weight_lt (min_edge (es ++ [e]) - tol) e). lra.
  Qed.

  (** sum_t rho_t w_t, with the rhos bounded below by any r *)
  Lemma adav_potential tol g tr :
    (0 < n)%nat -> 0 < tol ->
    (forall h i, (i < n)%nat -> -1 <= nth i y 0 * conf h i <= 1) ->
    good_vtrace tol tr -> fine tol (edges tr) -> g <= 1 -> Forall (fun e => g <= e) (edges tr) ->
    expZ conf y (adav_history tol tr) * exp ((g - tol) * rsum (adav_weights tol (edges tr)))
      <= INR n * exp (- (tol ^ 2 / 2 * INR (length tr))).
  Proof.
    intros Hn Htol Hm Hgt Hf Hg1 Hge. revert Hgt Hf Hge. induction tr as [|d tr IH] using rev_ind; intros Hgt Hf Hge.
    - right. unfold adav_history, adav_weights. cbn. unfold expZ.
      rewrite (rsum_map_ext _ (fun _ => 1)).
      + rewrite rsum_map_const, seq_length. fold n. rewrite !Rmult_0_r, Ropp_0, exp_0. lra.
      + intros i _. unfold expw, vote. simpl. rewrite Rmult_0_r, Ropp_0. apply exp_0.
    - assert (Hg0 : good_vtrace tol tr).
      { intros k Hk. specialize (Hgt k). rewrite app_length in Hgt. simpl in Hgt.
        rewrite firstn_app_le, app_nth1 in Hgt by lia. apply Hgt. lia. }
      assert (Hd : exp_dist conf y (adav_history tol tr) d).
      { specialize (Hgt (length tr)). rewrite app_length in Hgt. simpl in Hgt.
        rewrite firstn_app_le, firstn_all, app_nth2, Nat.sub_diag in Hgt by lia. apply Hgt. lia. }
      rewrite adav_history_app.
      set (h := produce (S (length tr)) d). set (e := edge_of y d (conf h)).
      assert (Ee : edges (tr ++ [d]) = edges tr ++ [e]) by (unfold edges; rewrite edges_app; reflexivity).
      rewrite Ee in *. destruct (fine_prefix _ _ _ Hf) as [Hf0 [He Hr]].
      assert (Hall := Hge). apply Forall_app in Hge. destruct Hge as [Hge0 _].
      set (rho := min_edge (edges tr ++ [e]) - tol) in *.
      assert (Hrho : g - tol <= rho) by (unfold rho; pose proof (min_edge_ge _ g Hg1 Hall); lra).
      assert (Hgap : tol <= e - rho).
      { unfold rho. pose proof (min_edge_le (edges tr ++ [e]) e ltac:(apply in_or_app; right; left; reflexivity)). lra. }
      set (w := ada_weight e - ada_weight rho).
      assert (Hw : 0 < w).
      { unfold w, small in *. pose proof (ada_weight_lt rho e). lra. }
      destruct (exp_dist_update conf y (adav_history tol tr) d w h Hn Hd) as [d' [_ [_ E3]]].
      rewrite E3, adav_weights_app, rsum_app. fold rho. fold w. cbn [rsum]. rewrite Rplus_0_r.
      rewrite Rmult_plus_distr_l, exp_plus, app_length. simpl length. rewrite plus_INR. simpl INR.
      replace (- (tol ^ 2 / 2 * (INR (length tr) + 1))) with (- (tol ^ 2 / 2 * INR (length tr)) + - (tol ^ 2 / 2)) by ring.
      rewrite exp_plus, <- Rmult_assoc.
      specialize (IH Hg0 Hf0 Hge0).
      set (A := expZ conf y (adav_history tol tr)) in *. set (B := exp ((g - tol) * rsum (adav_weights tol (edges tr)))) in *.
      assert (Hround : rsum (map (fun i => nth i d 0 * exp (- w * (nth i y 0 * conf h i))) (seq 0 n)) * exp ((g - tol) * w)
                       <= exp (- (tol ^ 2 / 2))).
      { destruct (exp_dist_pos conf y _ d Hn Hd) as [P1 P2].
        apply Rle_trans with (((1 + e) / 2 * exp (- w) + (1 - e) / 2 * exp w) * exp (rho * w)).
        - apply Rmult_le_compat.
          + apply rsum_nonneg. intros v Hv. apply in_map_iff in Hv. destruct Hv as [i [<- Hi]]. apply in_seq in Hi.
            apply Rmult_le_pos; [left; apply P1, nth_In; destruct Hd as [-> _]; fold n; lia|left; apply exp_pos].
          + left; apply exp_pos.
          + apply (round_bound y d (conf h) w).
            * split; [intros x Hx; left; apply P1; exact Hx|exact P2].
            * apply Hd.
            * intros i Hi. apply Hm; exact Hi.
          + apply exp_le_exp. apply Rmult_le_compat_r; lra.
        - rewrite Rmult_comm. unfold small in He.
          eapply Rle_trans; [apply (adav_round_value rho e); lra|]. apply exp_le_exp. nra. }
      fold n.
      set (Z' := rsum (map (fun i => nth i d 0 * exp (- w * (nth i y 0 * conf h i))) (seq 0 n))) in *.
      replace (A * Z' * B * exp ((g - tol) * w)) with ((A * B) * (Z' * exp ((g - tol) * w))) by ring.
      apply Rle_trans with ((A * B) * exp (- (tol ^ 2 / 2))).
      + apply Rmult_le_compat_l; [|exact Hround]. apply Rmult_le_pos; [left; apply expZ_pos; exact Hn|left; apply exp_pos].
      + rewrite <- (Rmult_assoc (INR n)). apply Rmult_le_compat_r; [left; apply exp_pos|exact IH].
  Qed.

  (** margins of the maintained vote *)
  Lemma adav_margin tol g tr i :
    (i < n)%nat -> 0 < tol ->
    (forall h i, (i < n)%nat -> -1 <= nth i y 0 * conf h i <= 1) ->
    good_vtrace tol tr -> fine tol (edges tr) -> g <= 1 -> Forall (fun e => g <= e) (edges tr) ->
    (g - tol) * rsum (adav_weights tol (edges tr)) - ln (INR n) + tol ^ 2 / 2 * INR (length tr)
      <= nth i y 0 * vote conf (adav_history tol tr) i.
  Proof.
    intros Hi Htol Hm Hgt Hf Hg1 Hge. assert (Hn : (0 < n)%nat) by lia.
    pose proof (adav_potential tol g tr Hn Htol Hm Hgt Hf Hg1 Hge) as P.
    assert (L : expw conf y (adav_history tol tr) i <= expZ conf y (adav_history tol tr)).
    { apply rsum_in_le.
      - intros v Hv. apply in_map_iff in Hv. destruct Hv as [j [<- _]]. left. apply exp_pos.
      - apply in_map, in_seq. fold n. lia. }
    set (W := (g - tol) * rsum (adav_weights tol (edges tr))) in *.
    assert (Q : expw conf y (adav_history tol tr) i * exp W <= INR n * exp (- (tol ^ 2 / 2 * INR (length tr)))).
    { eapply Rle_trans; [|exact P]. apply Rmult_le_compat_r; [left; apply exp_pos|exact L]. }
    unfold expw in Q. rewrite <- (exp_ln (INR n)) in Q by (apply INR_pos; exact Hn).
    rewrite <- !exp_plus in Q. apply exp_le_inv in Q. lra.
  Qed.
End AdavMain.
