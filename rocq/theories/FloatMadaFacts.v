(** Property C99: MadaBoost in binary64. *)
From Coq Require Import ZArith List Bool Reals Lia Lra Psatz Permutation Sorting.
From Flocq Require Import Core.Core IEEE754.BinarySingleNaN.
From Verif Require Import Base SortLib Float FloatSpec FloatProofs FloatFacts FloatCheckFacts FloatProjectProofs FloatEdge FloatEdgeSpec FloatEdgeFacts FloatMedian FloatMedianFacts FloatAda FloatAdaSpec FloatAdaProofs FloatAdaStep FloatAdaRun FloatAdaFacts FloatSmoothFacts FloatBestProofs FloatMada FloatMadaSpec FloatMadaProofs.
Import ListNotations.
Open Scope R_scope.

Lemma min1_spec (b : f64) : fin b -> fin (f_min1 b) /\ val (f_min1 b) = Rmin (val b) 1.
Proof.
  intros F. destruct f1_spec as [F1 V1]. unfold f_min1. assert (N : is_nan b = false) by (destruct b; try discriminate; reflexivity). rewrite N.
  destruct (flt_or f1 b F1 F) as [[-> Q]|[-> Q]]; rewrite V1 in Q.
  - split; [exact F1|]. rewrite V1, Rmin_right by lra. reflexivity.
  - split; [exact F|]. rewrite Rmin_left by lra. reflexivity.
Qed.
Lemma min1_abs b c : 1 <= c -> Rabs b <= c -> Rabs (Rmin b 1) <= c.
Proof. intros H Hb. apply Rabs_le_inv in Hb. apply Rabs_le. unfold Rmin. destruct (Rle_dec b 1); lra. Qed.
Lemma min1_lip a b : Rabs (Rmin a 1 - Rmin b 1) <= Rabs (a - b).
Proof. unfold Rmin, Rabs. destruct (Rle_dec a 1), (Rle_dec b 1), (Rcase_abs (a - b)); repeat match goal with |- context [Rcase_abs ?q] => destruct (Rcase_abs q) end; lra. Qed.

(** the round budget *)
Definition budget (n T : nat) : Prop := INR n * (INR T + 12) <= 2 ^ 25.
Lemma budget_facts n T : (1 <= n)%nat -> budget n T -> INR T + 12 <= 2 ^ 25 /\ INR n * 12 <= 2 ^ 25 /\ 1 <= INR n.
Proof. intros H Hb. unfold budget in Hb. assert (1 <= INR n) by (change 1 with (INR 1); apply le_INR, H). pose proof (pos_INR T). generalize dependent (2 ^ 25). intros. split; [nra|]. split; [nra|lra]. Qed.
Lemma slack_small T : INR T <= 2 ^ 25 -> 0 <= exponent_slack T <= / 2 + / 4 * INR T.
Proof.
  intros H. unfold exponent_slack. rewrite !plus_INR, !mult_INR. pose proof (pos_INR T) as P. set (t := INR T) in *. clearbody t. assert (E : INR 60 = 60) by (rewrite INR_IZR_INZ; reflexivity). assert (E2 : INR 2 = 2) by reflexivity. rewrite E, E2. pose proof uu_pos.
  assert (U : uu = / 9007199254740992) by apply uu_num. assert (C : 2 ^ 25 = 33554432) by (simpl; lra). rewrite C in H. rewrite U. split; nra.
Qed.

Section Run.
  Variables (fexp fln : f64 -> f64).
  Hypothesis Hexp : precise_exp fexp.
  Hypothesis Hln : precise_ln fln.
  Variables (y : list f64).
  Local Notation n := (length y).
  Hypothesis Ly : forall x, In x y -> f_label x.
  Hypothesis N1 : (1 <= n)%nat.

  Lemma perfect_false (e : f64) : fin e -> f_perfect e = false -> Rabs (val e) < 1.
  Proof.
    intros Fe H. destruct f1_spec as [F1 V1]. destruct (fabs_spec e Fe) as [Fa Va]. unfold f_perfect in H. destruct (Rle_or_lt 1 (Rabs (val e))) as [Q|Q]; [|exact Q].
    exfalso. assert (fle f1 (fabs e) = true) by (apply fle_true; [exact F1|exact Fa|rewrite V1, Va; exact Q]). congruence.
  Qed.

  Definition rounds_ok (hist : list (f64 * list f64)) : Prop := forall h, In h hist -> (fin (fst h) /\ Rabs (val (fst h)) < 1) /\ length (snd h) = n /\ bounded_conf (snd h).
  Definition binv (hist : list (f64 * list f64)) (betas : list f64) : Prop := length betas = n /\ rounds_ok hist /\
    forall i, (i < n)%nat -> fin (nth i betas f0) /\ Rabs (val (nth i betas f0) - exponent_of y hist i) <= exponent_slack (length hist).

  Lemma exponent_bound hist i : rounds_ok hist -> (i < n)%nat -> Rabs (exponent_of y hist i) <= 1 + 1556 / 1000 * INR (length hist).
  Proof.
    intros H Hi. unfold exponent_of. assert (I : 0 <= 1 / INR n <= 1). { assert (1 <= INR n) by (change 1 with (INR 1); apply le_INR, N1). split; [apply Rlt_le, Rdiv_lt_0_compat; lra|apply Rdiv_le_iff; lra]. }
    eapply Rle_trans; [apply Rabs_triang|]. rewrite (Rabs_pos_eq (1 / _)) by lra. apply Rplus_le_compat; [lra|].
    induction hist as [|h hist IH]; [cbn; rewrite Rabs_R0; lra|]. cbn [map rsum length]. rewrite S_INR. eapply Rle_trans; [apply Rabs_triang|]. assert (IH' := IH (fun k Hk => H k (or_intror Hk))).
    destruct (H h (or_introl eq_refl)) as [[Fh Bh] [Lc Bc]]. destruct (factor_range (fst h) Fh Bh) as [f1r f2r]. assert (P14 : 0 < / 2 ^ 14) by (apply Rinv_0_lt_compat, pow_lt; lra).
    destruct (margin_nth y Ly N1 (snd h) i Lc Bc Hi) as [_ [Vm Bm]]. rewrite Vm in Bm.
    assert (Q : Rabs (val (nth i y f0) * val (nth i (snd h) f0) * factor_of (val (fst h))) <= 1 * (1556 / 1000)).
    { eapply Rle_trans; [right; apply Rabs_mult|]. apply Rmult_le_compat; [apply Rabs_pos|apply Rabs_pos|exact Bm|]. eapply Rle_trans; [right; apply Rabs_pos_eq|exact f2r]. eapply Rle_trans; [|exact f1r]. lra. }
    eapply Rle_trans; [apply Rplus_le_compat; [exact Q|exact IH']|]. rewrite Rmult_plus_distr_l. lra.
  Qed.
  Lemma betas_bound hist betas i : binv hist betas -> INR (length hist) <= 2 ^ 25 -> (i < n)%nat -> Rabs (val (nth i betas f0)) <= 2 + 2 * INR (length hist).
  Proof.
    intros [_ [Ho Hb]] HT Hi. destruct (Hb i Hi) as [_ E]. pose proof (exponent_bound hist i Ho Hi) as X. destruct (slack_small _ HT) as [_ S]. pose proof (pos_INR (length hist)).
    apply Rabs_le_inv in E. apply Rabs_le_inv in X. apply Rabs_le. lra.
  Qed.
  Lemma start_inv : INR n <= 2 ^ 25 -> binv [] (f_uniform n).
  Proof.
    intros Hn. unfold binv, f_uniform. split; [apply repeat_length|]. split; [intros h []|]. intros i Hi.
    assert (E : nth i (repeat (fdiv f1 (f_of_usize n)) n) f0 = fdiv f1 (f_of_usize n)) by (apply (@repeat_spec f64 n); apply nth_In; rewrite repeat_length; exact Hi). rewrite E. clear E.
    assert (P53 : 2 ^ 25 < 2 ^ 53) by (apply Rlt_pow; [lra|lia]). destruct (uniform_spec n N1) as [Fu Vu]; [lra|lra|]. split; [exact Fu|].
    unfold exponent_of. cbn [map rsum]. rewrite Vu. destruct (err_mult (/ INR n)) as [e [h [He [Hh E]]]]. fold eta0 in Hh. rewrite E. pose proof uu_eta as UE. pose proof uu_pos as U0.
    replace (/ INR n * (1 + e) + h - (1 / INR n + 0)) with (/ INR n * e + h) by (unfold Rdiv; ring). eapply Rle_trans; [apply Rabs_triang|]. rewrite Rabs_mult.
    assert (I1 : 1 <= INR n) by (change 1 with (INR 1); apply le_INR, N1). assert (I2 : 0 < / INR n <= 1) by (split; [apply Rinv_0_lt_compat; lra|rewrite <- Rinv_1; apply Rinv_le_contravar; lra]). rewrite (Rabs_pos_eq (/ INR n)) by lra.
    unfold exponent_slack. cbn [length]. change (INR (0 * 0 + 60 * 0 + 2)) with 2. assert (uu * / 2 ^ 900 <= uu * 1) by (apply Rmult_le_compat_l; [lra|]; rewrite <- Rinv_1; apply Rinv_le_contravar; [lra|apply pow_R1_Rle; lra]).
    assert (/ INR n * Rabs e <= 1 * uu) by (apply Rmult_le_compat; try lra; apply Rabs_pos). lra.
  Qed.

  (** ** the query *)
  Section Query.
    Variables (hist : list (f64 * list f64)) (betas : list f64).
    Hypothesis Iv : binv hist betas.
    Hypothesis HB : budget n (length hist).
    Local Notation ws := (map f_min1 betas).
    Local Notation soft i := (exp (val (nth i ws f0)) / rsum (map (fun j => exp (val (nth j ws f0))) (seq 0 n))).

    Lemma ws_len : length ws = n. Proof. rewrite map_length. apply Iv. Qed.
    Lemma ws_nth i : (i < n)%nat -> fin (nth i ws f0) /\ val (nth i ws f0) = Rmin (val (nth i betas f0)) 1 /\ Rabs (val (nth i ws f0)) <= 2 + 2 * INR (length hist).
    Proof.
      intros Hi. destruct (budget_facts _ _ N1 HB) as [B1 _]. assert (L : length betas = n) by apply Iv. assert (E : nth i ws f0 = f_min1 (nth i betas f0)) by (apply nth_mapf; rewrite L; exact Hi). rewrite E. destruct Iv as [_ [_ Hb]]. destruct (Hb i Hi) as [Fb _]. destruct (min1_spec _ Fb) as [Fm Vm].
      split; [exact Fm|]. split; [exact Vm|]. rewrite Vm. apply min1_abs; [pose proof (pos_INR (length hist)); lra|]. apply (betas_bound hist); [exact Iv|lra|exact Hi].
    Qed.
    Lemma w_hyps : (forall i, (i < length ws)%nat -> fin (nth i ws f0) /\ Rabs (val (nth i ws f0)) <= 2 + 2 * INR (length hist)) /\ (1 <= length ws)%nat /\ INR (length ws) * (2 + 2 * INR (length hist) + 22) <= 2 ^ 26 /\ 1 <= 2 + 2 * INR (length hist).
    Proof.
      rewrite ws_len. split; [intros i Hi; destruct (ws_nth i Hi) as [A [_ B]]; split; assumption|]. split; [exact N1|]. split; [|pose proof (pos_INR (length hist)); lra].
      assert (E : 2 ^ 26 = 2 * 2 ^ 25) by (simpl; lra). rewrite E. unfold budget in HB. generalize dependent (2 ^ 25). intros. lra.
    Qed.
    Lemma query_ok ix : Permutation ix (seq 0 n) -> exists d, f_mada_query fexp fln ix betas = Ok d.
    Proof.
      intros P. destruct w_hyps as [W1 [W2 [W3 W4]]]. rewrite <- ws_len in P. destruct (norm_gen fexp fln Hexp Hln ws _ W4 W1 W2 W3 ix P) as [z [Ez _]]. unfold f_mada_query. cbv zeta. rewrite Ez. eexists. reflexivity.
    Qed.
    Lemma query_entries ix d : Permutation ix (seq 0 n) -> f_mada_query fexp fln ix betas = Ok d -> length d = n /\
      forall i, (i < n)%nat -> fin (nth i d f0) /\ 0 <= val (nth i d f0) <= 1 /\ Rabs (val (nth i d f0) - soft i) <= / 2 ^ 22 * soft i + / 2 ^ 1075.
    Proof.
      intros P E. destruct w_hyps as [W1 [W2 [W3 W4]]]. unfold f_mada_query in E. cbv zeta in E. destruct (f_ada_norm fexp fln ws ix) as [z|p] eqn:Ez; [|discriminate]. cbn [bind] in E. injection E as <-.
      split; [rewrite map_length; apply ws_len|]. intros i Hi. rewrite (nth_mapf (fun b => fexp (fsub b z)) ws i) by (rewrite ws_len; exact Hi). rewrite <- ws_len in P.
      pose proof (soft_entries fexp fln Hexp Hln ws _ W4 W1 W2 W3 ix z P Ez i) as Q. rewrite ws_len in Q. apply Q, Hi.
    Qed.
    Lemma soft_sum : rsum (map (fun i => soft i) (seq 0 n)) = 1 /\ forall i, 0 < soft i.
    Proof.
      set (S := rsum (map (fun j => exp (val (nth j ws f0))) (seq 0 n))). assert (SP : 0 < S). { unfold S. destruct n as [|k]; [lia|]. cbn [seq map rsum]. match goal with |- 0 < exp ?a + ?b => pose proof (exp_pos a); assert (0 <= b) end; [|lra]. apply rsum_nonneg. intros z Hz. apply in_map_iff in Hz. destruct Hz as [j [<- _]]. left. apply exp_pos. }
      split; [|intros i; apply Rdiv_lt_0_compat; [apply exp_pos|exact SP]]. etransitivity; [apply (rsum_map_ext _ (fun i => / S * exp (val (nth i ws f0)))); intros; unfold Rdiv; ring|]. rewrite rsum_map_mult. fold S. field. lra.
    Qed.
    Lemma query_total ix d : Permutation ix (seq 0 n) -> f_mada_query fexp fln ix betas = Ok d -> Rabs (total d - 1) <= / 2 ^ 20.
    Proof.
      intros P E. destruct (query_entries ix d P E) as [L H]. destruct soft_sum as [S1 S0]. rewrite (total_seq y d L).
      assert (A : Rabs (rsum (map (fun j => val (nth j d f0)) (seq 0 n)) - rsum (map (fun i => soft i) (seq 0 n))) <= rsum (map (fun i => / 2 ^ 22 * soft i + / 2 ^ 1075) (seq 0 n))).
      { assert (G : forall l, (forall i, In i l -> (i < n)%nat) -> Rabs (rsum (map (fun j => val (nth j d f0)) l) - rsum (map (fun i => soft i) l)) <= rsum (map (fun i => / 2 ^ 22 * soft i + / 2 ^ 1075) l)).
        { induction l as [|i l IH]; intros Hl; [cbn; rewrite Rminus_0_r, Rabs_R0; lra|]. cbn [map rsum]. destruct (H i (Hl i (or_introl eq_refl))) as [_ [_ Q]]. specialize (IH (fun k Hk => Hl k (or_intror Hk))).
          match goal with |- Rabs (?a + ?b - (?c + ?e)) <= _ => replace (a + b - (c + e)) with ((a - c) + (b - e)) by ring end. eapply Rle_trans; [apply Rabs_triang|]. apply Rplus_le_compat; assumption. }
        apply G. intros i Hi. apply in_seq in Hi. lia. }
      rewrite S1 in A. eapply Rle_trans; [exact A|]. rewrite rsum_map_plus, rsum_map_mult, rsum_map_const, seq_length, S1.
      destruct (budget_facts _ _ N1 HB) as [_ [B1 _]]. assert (T75 : / 2 ^ 1075 <= / 2 ^ 100) by (apply Rinv_le_contravar; [apply pow_lt; lra|apply Rle_pow; [lra|lia]]).
      assert (T0 : 0 < / 2 ^ 1075) by (apply Rinv_0_lt_compat, pow_lt; lra). assert (INR n * / 2 ^ 1075 <= 2 ^ 25 * / 2 ^ 100) by (apply Rmult_le_compat; [apply pos_INR|lra| |exact T75]; pose proof (pos_INR n); lra).
      assert (/ 2 ^ 22 * 1 + 2 ^ 25 * / 2 ^ 100 <= / 2 ^ 20) by (simpl; lra). lra.
    Qed.
    Lemma edge_fin ix d conf e : Permutation ix (seq 0 n) -> f_mada_query fexp fln ix betas = Ok d -> length conf = n -> bounded_conf conf -> f_edge y conf d e ->
      fin e /\ Rabs (val e - dot_exact (f_margins y conf) d) <= INR n / 2 ^ 50.
    Proof.
      intros P E Lc Bc [t [Et Ee]]. subst e. destruct (query_entries ix d P E) as [Ld H]. pose proof (query_total ix d P E) as TD. apply Rabs_le_inv in TD. assert (/ 2 ^ 20 <= / 2) by (simpl; lra).
      destruct (budget_facts _ _ N1 HB) as [_ [B1 _]].
      assert (FM : forall m, In m (f_margins y conf) -> fin m /\ Rabs (val m) <= 1). { intros m Hm. apply In_nth with (d := f0) in Hm. destruct Hm as [i [Hi <-]]. rewrite (margins_len y N1 conf Lc) in Hi. destruct (margin_nth y Ly N1 conf i Lc Bc Hi) as [F [_ B]]. split; assumption. }
      assert (FD : forall c, In c d -> fin c /\ 0 <= val c). { intros c Hc. apply In_nth with (d := f0) in Hc. destruct Hc as [i [Hi <-]]. rewrite Ld in Hi. destruct (H i Hi) as [F [B _]]. split; [exact F|apply B]. }
      rewrite <- (margins_len y N1 conf Lc). apply (P_C77_edge_error (f_margins y conf) d t Et).
      - rewrite (margins_len y N1 conf Lc), Ld. reflexivity.
      - intros m Hm. apply FM, Hm.
      - intros c Hc. apply FD, Hc.
      - rewrite (margins_len y N1 conf Lc). unfold few. apply Rle_trans with (2 ^ 25); [pose proof (pos_INR n); lra|apply Rle_pow; [lra|lia]].
      - intros m Hm. apply FM, Hm.
      - intros c Hc. apply FD, Hc.
      - lra.
    Qed.
    Lemma soft_close i : INR (length hist) <= 2 ^ 14 -> (i < n)%nat -> exists k, Rabs k <= / 2 ^ 22 /\ soft i = capped_soft n (exponent_of y hist) i * (1 + k).
    Proof.
      intros HT Hi. set (r := exponent_slack (length hist)). assert (R0 : 0 <= r <= / 2 ^ 24).
      { unfold r, exponent_slack. rewrite !plus_INR, !mult_INR. pose proof (pos_INR (length hist)) as P. set (t := INR (length hist)) in *. clearbody t. assert (E : INR 60 = 60) by (rewrite INR_IZR_INZ; reflexivity). assert (E2 : INR 2 = 2) by reflexivity. rewrite E, E2.
        rewrite uu_num. assert (C : 2 ^ 14 = 16384) by (simpl; lra). rewrite C in HT. assert (C4 : / 2 ^ 24 = / 16777216) by (simpl; lra). rewrite C4. split; nra. }
      set (v := fun j => Rmin (exponent_of y hist j) 1). set (w := fun j => val (nth j ws f0)).
      assert (D : forall j, (j < n)%nat -> Rabs (w j - v j) <= r). { intros j Hj. unfold w, v. destruct (ws_nth j Hj) as [_ [-> _]]. eapply Rle_trans; [apply min1_lip|]. destruct Iv as [_ [_ Hb]]. apply Hb, Hj. }
      assert (NE : seq 0 n <> []) by (destruct n; [lia|discriminate]).
      pose proof (sumexp_lip (seq 0 n) w v r NE (fun j Hj => D j (proj2 (proj1 (in_seq n 0 j) Hj)))) as Q.
      unfold capped_soft. change (rsum (map (fun j => exp (Rmin (exponent_of y hist j) 1)) (seq 0 n))) with (rsum (map (fun j => exp (v j)) (seq 0 n))). change (exp (Rmin (exponent_of y hist i) 1)) with (exp (v i)). change (exp (val (nth i ws f0))) with (exp (w i)). change (rsum (map (fun j => exp (val (nth j ws f0))) (seq 0 n))) with (rsum (map (fun j => exp (w j)) (seq 0 n))).
      assert (SP : forall h : nat -> R, 0 < rsum (map (fun j => exp (h j)) (seq 0 n))). { intros h. destruct (seq 0 n) as [|k l]; [congruence|]. cbn [map rsum]. match goal with |- 0 < exp ?a + ?b => pose proof (exp_pos a); assert (0 <= b) end; [|lra]. apply rsum_nonneg. intros z Hz. apply in_map_iff in Hz. destruct Hz as [j [<- _]]. left. apply exp_pos. }
      pose proof (SP w) as Pw. pose proof (SP v) as Pv. set (Sw := rsum (map (fun j => exp (w j)) (seq 0 n))) in *. set (Sv := rsum (map (fun j => exp (v j)) (seq 0 n))) in *.
      set (dl := (w i - v i) - (ln Sw - ln Sv)). exists (exp dl - 1). specialize (D i Hi).
      assert (Bd : Rabs dl <= 2 * r) by (unfold dl; apply Rabs_le_inv in D; apply Rabs_le_inv in Q; apply Rabs_le; lra).
      assert (C24 : / 2 ^ 24 = / 16777216) by (simpl; lra). assert (C22 : / 2 ^ 22 = 4 * / 16777216) by (simpl; lra). rewrite C24 in R0. rewrite C22. split.
      - pose proof (exp_bounds dl ltac:(lra)) as EB. apply Rabs_le. lra.
      - replace (1 + (exp dl - 1)) with (exp dl) by ring. assert (X : exp dl = exp (w i) * / exp (v i) * / Sw * Sv) by (unfold dl; replace (w i - v i - (ln Sw - ln Sv)) with (w i + - v i + - ln Sw + ln Sv) by ring; rewrite !exp_plus, !exp_Ropp, (exp_ln Sw), (exp_ln Sv) by assumption; reflexivity).
        rewrite X. pose proof (exp_pos (v i)). field. repeat split; lra.
    Qed.
    Lemma query_accurate ix d i : INR (length hist) <= 2 ^ 14 -> Permutation ix (seq 0 n) -> f_mada_query fexp fln ix betas = Ok d -> (i < n)%nat ->
      Rabs (val (nth i d f0) - capped_soft n (exponent_of y hist) i) <= / 2 ^ 20 * capped_soft n (exponent_of y hist) i + / 2 ^ 1075.
    Proof.
      intros HT P E Hi. destruct (query_entries ix d P E) as [_ H]. destruct (H i Hi) as [_ [_ Q]]. destruct (soft_close i HT Hi) as [k [Hk Ek]]. rewrite Ek in Q.
      assert (S0 : 0 < capped_soft n (exponent_of y hist) i * (1 + k)) by (rewrite <- Ek; apply soft_sum). set (s := capped_soft n (exponent_of y hist) i) in *. set (x := val (nth i d f0)) in *. set (t := / 2 ^ 1075) in *. clearbody s x t. clear - Hk Q S0.
      assert (C20 : / 2 ^ 20 = / 1048576) by (simpl; lra). assert (C22 : / 2 ^ 22 = / 4194304) by (simpl; lra). rewrite C22 in *. rewrite C20. apply Rabs_le_inv in Hk. apply Rabs_le_inv in Q. assert (0 < s) by nra.
      assert (- (/ 4194304) * s <= s * k <= / 4194304 * s) by (split; nra). apply Rabs_le. lra.
    Qed.
  End Query.

  (** ** the update *)
  Lemma exponent_snoc hist e conf i : exponent_of y (hist ++ [(e, conf)]) i = exponent_of y hist i + val (nth i y f0) * val (nth i conf f0) * factor_of (val e).
  Proof. unfold exponent_of. rewrite map_app, rsum_app. cbn [map rsum fst snd]. rewrite Rplus_0_r, Rplus_assoc. reflexivity. Qed.
  Lemma step_inv hist betas conf e betas' : binv hist betas -> INR (length hist) + 12 <= 2 ^ 25 -> length conf = n -> bounded_conf conf -> fin e -> Rabs (val e) < 1 ->
    f_mada_update betas (f_margins y conf) e = Ok betas' -> binv (hist ++ [(e, conf)]) betas'.
  Proof.
    intros Iv HT Lc Bc Fe Be E. unfold f_mada_update in E. destruct (assert_ (andb (fle f0 (f_mada_eps e)) (flt (f_mada_eps e) f1))) as [[]|p]; [|discriminate]. cbn [bind] in E. injection E as <-.
    assert (Lb : length betas = n) by apply Iv. assert (Lm := margins_len y N1 conf Lc). split; [rewrite map_length, combine_length, Lb, Lm; lia|]. split.
    - intros h Hh. apply in_app_or in Hh. destruct Hh as [Hh|[<- |[]]]; [apply Iv, Hh|]. cbn [fst snd]. auto.
    - intros i Hi. rewrite (nth_zip (fun b m => fadd b (fmul m (f_mada_beta e))) betas (f_margins y conf) i) by (rewrite Lb; first [symmetry; exact Lm|exact Hi]).
      pose proof (betas_bound hist betas i Iv ltac:(lra) Hi) as Bb. destruct Iv as [_ [Ho Hb]]. destruct (Hb i Hi) as [Fb Eb]. destruct (margin_nth y Ly N1 conf i Lc Bc Hi) as [Fm [Vm Bm]]. destruct (beta_rel e Fe Be) as [FB [k [Hk Ek]]]. destruct (factor_range e Fe Be) as [R1 R2].
      rewrite app_length, exponent_snoc. cbn [length]. rewrite <- Vm. set (m := nth i (f_margins y conf) f0) in *. set (b := nth i betas f0) in *.
      set (g := factor_of (val e)) in *. set (X := exponent_of y hist i) in *. assert (P14 : 0 < / 2 ^ 14) by (apply Rinv_0_lt_compat, pow_lt; lra). pose proof uu_num as UN. pose proof uu_pos as U0. pose proof uu_eta as UE.
      assert (EE : eta0 <= uu * / 100). { eapply Rle_trans; [exact UE|]. apply Rmult_le_compat_l; [lra|]. apply Rinv_le_contravar; [lra|]. apply Rle_trans with (2 ^ 7); [simpl; lra|apply Rle_pow; [lra|lia]]. }
      assert (P : val m * val (f_mada_beta e) = val m * g * (1 + k)) by (rewrite Ek; ring). set (mg := val m * g) in *. assert (Bmg : Rabs mg <= 1556 / 1000) by (unfold mg; rewrite Rabs_mult, (Rabs_pos_eq g) by lra; assert (Rabs (val m) * g <= 1 * (1556 / 1000)) by (apply Rmult_le_compat; try lra; apply Rabs_pos); lra).
      assert (Bk : Rabs (mg * k) <= 498 / 10 * uu) by (rewrite Rabs_mult; apply Rle_trans with (1556 / 1000 * (32 * uu)); [apply Rmult_le_compat; try apply Rabs_pos; assumption|lra]).
      assert (Bp : Rabs (val m * val (f_mada_beta e)) <= 157 / 100) by (rewrite P; replace (mg * (1 + k)) with (mg + mg * k) by ring; eapply Rle_trans; [apply Rabs_triang|]; rewrite UN in Bk; lra).
      destruct (fmul_rnd m (f_mada_beta e) Fm FB) as [Fq Vq]; [apply small_1000; pose proof p40; lra|]. destruct (err_mult (val m * val (f_mada_beta e))) as [e1 [h [He1 [Hh E1]]]]. fold eta0 in Hh. rewrite E1, P in Vq.
      assert (D1 : Rabs (val (fmul m (f_mada_beta e)) - mg) <= 52 * uu).
      { rewrite Vq. rewrite P in Bp. replace (mg * (1 + k) * (1 + e1) + h - mg) with (mg * k + mg * (1 + k) * e1 + h) by ring. eapply Rle_trans; [apply Rabs_triang|]. assert (Rabs (mg * k + mg * (1 + k) * e1) <= 498 / 10 * uu + 157 / 100 * uu) by (eapply Rle_trans; [apply Rabs_triang|]; apply Rplus_le_compat; [exact Bk|rewrite Rabs_mult; apply Rmult_le_compat; try apply Rabs_pos; assumption]). lra. }
      set (q := fmul m (f_mada_beta e)) in *. clearbody q. set (t := INR (length hist)) in *. assert (T0 : 0 <= t) by apply pos_INR.
      assert (Bq : Rabs (val q) <= 16 / 10) by (apply Rabs_le_inv in D1; apply Rabs_le_inv in Bmg; rewrite UN in D1; apply Rabs_le; lra).
      assert (Bs : Rabs (val b + val q) <= 4 + 2 * t) by (eapply Rle_trans; [apply Rabs_triang|]; lra).
      destruct (fadd_rnd b q Fb Fq) as [Fs [_ [e2 [He2 E2]]]]; [apply small_1000; eapply Rle_trans; [exact Bs|]; assert (2 ^ 25 * 4 <= 2 ^ 40) by (simpl; lra); lra|].
      split; [exact Fs|]. rewrite E2. unfold f64 in *. set (vb := val b) in *. set (vq := val q) in *. clearbody vb vq X mg.
      assert (D2 : Rabs ((vb + vq) * e2) <= (4 + 2 * t) * uu) by (rewrite Rabs_mult; apply Rmult_le_compat; try apply Rabs_pos; assumption).
      assert (SL : exponent_slack (length hist + 1) = exponent_slack (length hist) + (2 * t + 61) * uu).
      { unfold exponent_slack, t. rewrite !plus_INR, !mult_INR, !plus_INR. change (INR 1) with 1. assert (E60 : INR 60 = 60) by (rewrite INR_IZR_INZ; reflexivity). rewrite E60. ring. }
      rewrite SL. clear - Eb D1 D2 T0 U0. match goal with |- Rabs ?a <= _ => replace a with ((vb - X) + (vq - mg) + (vb + vq) * e2) by ring end. eapply Rle_trans; [apply Rabs_triang|]. eapply Rle_trans; [apply Rplus_le_compat; [eapply Rle_trans; [apply Rabs_triang|apply Rplus_le_compat; [exact Eb|exact D1]]|exact D2]|]. nra.
  Qed.

  Lemma run_binv hist betas : f_mada_run fexp fln bounded_conf y hist betas -> budget n (length hist) -> binv hist betas.
  Proof.
    intros H. induction H as [|hist betas ix d conf e betas' Hr IH [P _] Q Lc Bc Ed Pf U]; intros HB.
    - apply start_inv. destruct (budget_facts _ _ N1 HB) as [_ [B1 _]]. pose proof (pos_INR n). lra.
    - rewrite app_length in HB. cbn [length] in HB. assert (HB' : budget n (length hist)). { unfold budget in *. rewrite plus_INR in HB. change (INR 1) with 1 in HB. pose proof (pos_INR n). pose proof (pos_INR (length hist)). generalize dependent (2 ^ 25). intros. nra. }
      specialize (IH HB'). destruct (budget_facts _ _ N1 HB') as [B1 _]. assert (Lw := ws_len hist betas IH). rewrite Lw in P. destruct (edge_fin hist betas IH HB' ix d conf e P Q Lc Bc Ed) as [Fe _].
      apply (step_inv hist betas conf e betas' IH B1 Lc Bc Fe (perfect_false e Fe Pf) U).
  Qed.
End Run.

(** ** C99: every query is answered: whatever the earlier answers of the weak learner and the orders of summation, some sort order exists, no sort order makes the query panic, the weights are in [0, 1] and add up to 1 within 2^-20 *)
Lemma P_C99_queries :
  forall fexp fln y hist betas, precise_exp fexp -> precise_ln fln -> (forall x, In x y -> f_label x) -> (1 <= length y)%nat ->
  f_mada_run fexp fln bounded_conf y hist betas -> INR (length y) * (INR (length hist) + 12) <= 2 ^ 25 ->
  (exists ix, f_ascending (map f_min1 betas) ix) /\
  forall ix, f_ascending (map f_min1 betas) ix -> exists dist, f_mada_query fexp fln ix betas = Ok dist /\ length dist = length y /\
    (forall d, In d dist -> finite_num d /\ 0 <= val d <= 1) /\ Rabs (total dist - 1) <= / 2 ^ 20.
Proof.
  intros fexp fln y hist betas He Hl Ly N1 H HB. pose proof (run_binv fexp fln He Hl y Ly N1 hist betas H HB) as Iv. pose proof (ws_len y hist betas Iv) as Lw. split.
  - set (logs := map f_min1 betas) in *.
    assert (FL : forall i, (i < length y)%nat -> fin (nth i logs f0)) by (intros i Hi; apply (ws_nth y Ly N1 hist betas Iv HB i Hi)).
    exists (isort (fun i j => fle (nth i logs f0) (nth j logs f0)) (seq 0 (length logs))). split; [apply Permutation_sym, isort_perm|].
    assert (FA : forall i, fin (nth i logs f0)) by (intros i; destruct (Nat.lt_ge_cases i (length y)) as [Hi|Hi]; [apply FL, Hi|rewrite nth_overflow by (rewrite Lw; exact Hi); apply fin_f0]).
    apply isort_sorted.
    + intros i j. destruct (Rle_or_lt (val (nth i logs f0)) (val (nth j logs f0))) as [Q|Q]; [left|right]; (apply fle_true; [apply FA|apply FA|]); lra.
    + intros i j k. intros Q1 Q2. apply fle_true in Q1; [|apply FA|apply FA]. apply fle_true in Q2; [|apply FA|apply FA]. apply fle_true; [apply FA|apply FA|]. lra.
  - intros ix [P _]. rewrite Lw in P. destruct (query_ok fexp fln He Hl y Ly N1 hist betas Iv HB ix P) as [d E]. exists d. split; [exact E|]. destruct (query_entries fexp fln He Hl y Ly N1 hist betas Iv HB ix d P E) as [L Q]. split; [exact L|]. split.
    + intros c Hc. apply In_nth with (d := f0) in Hc. destruct Hc as [i [Hi <-]]. rewrite L in Hi. destruct (Q i Hi) as [F [B _]]. split; assumption.
    + apply (query_total fexp fln He Hl y Ly N1 hist betas Iv HB ix d P E).
Qed.

(** ** C99: every further round is completed, except in one case: the edge is finite and, unless it stops the run, the update panics exactly when the edge is the number next to -1 *)
Lemma P_C99_rounds :
  forall fexp fln y hist betas ix dist conf edge, precise_exp fexp -> precise_ln fln -> (forall x, In x y -> f_label x) -> (1 <= length y)%nat ->
  f_mada_run fexp fln bounded_conf y hist betas -> INR (length y) * (INR (length hist) + 12) <= 2 ^ 25 ->
  f_ascending (map f_min1 betas) ix -> f_mada_query fexp fln ix betas = Ok dist -> length conf = length y -> bounded_conf conf -> f_edge y conf dist edge ->
  finite_num edge /\ Rabs (val edge - dot_exact (f_margins y conf) dist) <= INR (length y) / 2 ^ 50 /\
  (f_perfect edge = false -> edge <> f_nearly_minus1 -> exists betas', f_mada_update betas (f_margins y conf) edge = Ok betas') /\
  (edge = f_nearly_minus1 -> f_perfect edge = false /\ f_mada_update betas (f_margins y conf) edge = Panic AssertFailed).
Proof.
  intros fexp fln y hist betas ix d conf e He Hl Ly N1 H HB [P _] E Lc Bc Ed. pose proof (run_binv fexp fln He Hl y Ly N1 hist betas H HB) as Iv. pose proof (ws_len y hist betas Iv) as Lw. rewrite Lw in P.
  destruct (edge_fin fexp fln He Hl y Ly N1 hist betas Iv HB ix d conf e P E Lc Bc Ed) as [Fe Ae]. split; [exact Fe|]. split; [exact Ae|]. split.
  - intros Pf Ne. pose proof (perfect_false e Fe Pf) as Be. unfold f_mada_update. assert (A : andb (fle f0 (f_mada_eps e)) (flt (f_mada_eps e) f1) = true) by (apply assert_iff; assumption). rewrite A. eexists. reflexivity.
  - intros ->. split; [vm_compute; reflexivity|]. unfold f_mada_update. assert (A : andb (fle f0 (f_mada_eps f_nearly_minus1)) (flt (f_mada_eps f_nearly_minus1) f1) = false) by (vm_compute; reflexivity). rewrite A. reflexivity.
Qed.

(** ** C99: after T rounds each stored exponent is the exact one (1/n plus the margins times the factors of the edges) up to (T^2 + 60 T + 2) 2^-53 *)
Lemma P_C99_exponents :
  forall fexp fln y hist betas, precise_exp fexp -> precise_ln fln -> (forall x, In x y -> f_label x) -> (1 <= length y)%nat ->
  f_mada_run fexp fln bounded_conf y hist betas -> INR (length y) * (INR (length hist) + 12) <= 2 ^ 25 -> length betas = length y /\
  (forall i, (i < length y)%nat -> finite_num (nth i betas f0) /\ Rabs (val (nth i betas f0) - exponent_of y hist i) <= exponent_slack (length hist)) /\
  forall h, In h hist -> finite_num (fst h) /\ Rabs (val (fst h)) < 1.
Proof. intros fexp fln y hist betas He Hl Ly N1 H HB. destruct (run_binv fexp fln He Hl y Ly N1 hist betas H HB) as [L [Ho Hb]]. split; [exact L|]. split; [exact Hb|]. intros h Hh. apply Ho, Hh. Qed.

(** ** C99: for up to 2^14 rounds every weight handed to the weak learner is the softmax of the exact exponents capped at 1, up to a relative error of 2^-20 *)
Lemma P_C99_accurate :
  forall fexp fln y hist betas ix dist i, precise_exp fexp -> precise_ln fln -> (forall x, In x y -> f_label x) -> (1 <= length y)%nat ->
  f_mada_run fexp fln bounded_conf y hist betas -> INR (length y) * (INR (length hist) + 12) <= 2 ^ 25 -> INR (length hist) <= 2 ^ 14 ->
  f_ascending (map f_min1 betas) ix -> f_mada_query fexp fln ix betas = Ok dist -> (i < length y)%nat ->
  Rabs (val (nth i dist f0) - capped_soft (length y) (exponent_of y hist) i) <= / 2 ^ 20 * capped_soft (length y) (exponent_of y hist) i + / 2 ^ 1075.
Proof.
  intros fexp fln y hist betas ix d i He Hl Ly N1 H HB HT [P _] E Hi. pose proof (run_binv fexp fln He Hl y Ly N1 hist betas H HB) as Iv. pose proof (ws_len y hist betas Iv) as Lw. rewrite Lw in P.
  apply (query_accurate fexp fln He Hl y Ly N1 hist betas Iv HB ix d i HT P E Hi).
Qed.

(** ** C99: the weight of a hypothesis in the returned vote is the logarithm of the inverse of the factor, up to 2^-46 *)
Lemma P_C99_alpha :
  forall fln edge, precise_ln fln -> finite_num edge -> Rabs (val edge) < 1 ->
  finite_num (f_mada_alpha fln edge) /\ Rabs (val (f_mada_alpha fln edge) - ln (1 / factor_of (val edge))) <= / 2 ^ 46.
Proof.
  intros fln e Hl Fe Be. destruct (beta_rel e Fe Be) as [FB RB]. destruct (factor_range e Fe Be) as [R1 R2]. destruct f1_spec as [F1 V1]. set (g := factor_of (val e)) in *. assert (P14 : 0 < / 2 ^ 14) by (apply Rinv_0_lt_compat, pow_lt; lra). unfold f_mada_alpha.
  set (b := f_mada_beta e) in *. clearbody b. destruct (rel_pos _ _ _ RB) as [B1 B2]; [split; lra|lra|].
  assert (R1b : rel (1 / val b) (1 / g) (0 + 32 + / 100)) by (apply rel_div; [split; lra|split; lra|lra|apply rel_0|exact RB]).
  assert (G1 : 642 / 1000 <= 1 / g <= 16384). { split; [apply Rle_div_iff; lra|apply Rdiv_le_iff; [lra|]]. assert (C : / 2 ^ 14 = / 16384) by (simpl; lra). rewrite C in R1. lra. }
  destruct (rel_pos _ _ _ R1b) as [Q1 Q2]; [split; lra|lra|].
  destruct (fdiv_spec f1 b F1) as [Fq Vq]; [lra|rewrite V1, Rabs_pos_eq by lra; apply Rle_lt_trans with (2 ^ 15); [simpl; lra|apply Rlt_pow; [lra|lia]]|]. rewrite V1 in Vq.
  destruct (rel_rnd (1 / val b) (1 / g) (0 + 32 + / 100)) as [k [Hk Ek]]; [split; lra| |exact R1b|].
  { rewrite Rabs_pos_eq by lra. apply Rle_trans with (/ 2 ^ 1); [apply Rinv_le_contravar; [apply pow_lt; lra|apply Rle_pow; [lra|lia]]|simpl; lra]. }
  set (q := fdiv f1 b) in *. clearbody q. rewrite Ek in Vq. pose proof uu_num as UN. assert (Hk' : Rabs k <= 34 * uu) by (eapply Rle_trans; [exact Hk|]; pose proof uu_pos; nra). assert (K2 : Rabs k <= / 2) by (rewrite UN in Hk'; lra). assert (K3 := K2). apply Rabs_le_inv in K3.
  set (G := 1 / g) in *. clearbody G. assert (PQ : 0 < val q) by (rewrite Vq; nra). destruct (Hl q Fq PQ) as [Fl [_ El]]. split; [exact Fl|].
  assert (LQ : ln (val q) = ln G + ln (1 + k)) by (rewrite Vq; apply ln_mult; lra). pose proof (ln_near k K2) as LN.
  assert (LG : Rabs (ln G) <= 10). { apply Rabs_le. pose proof ln2_upper as L2. split.
    - apply Rle_trans with (ln (/ 2)); [rewrite ln_Rinv by lra; lra|apply ln_le; lra].
    - apply Rle_trans with (ln (2 ^ 14)); [apply ln_le; [lra|simpl; lra]|]. rewrite ln_pow by lra. rewrite INR_IZR_INZ. change (Z.of_nat 14) with 14%Z. lra. }
  assert (LQ' : Rabs (ln (val q)) <= 11) by (rewrite LQ; eapply Rle_trans; [apply Rabs_triang|]; rewrite UN in Hk'; lra).
  assert (T75 : / 2 ^ 1075 <= uu). { unfold uu. apply Rinv_le_contravar; [apply pow_lt; lra|apply Rle_pow; [lra|lia]]. }
  assert (C52 : / 2 ^ 52 = 2 * uu) by (rewrite UN; simpl; lra). assert (C46 : / 2 ^ 46 = 128 * uu) by (rewrite UN; simpl; lra). rewrite C52 in El. rewrite C46. pose proof uu_pos as U0.
  replace (val (fln q) - ln G) with ((val (fln q) - ln (val q)) + ln (1 + k)) by (rewrite LQ; ring). eapply Rle_trans; [apply Rabs_triang|]. assert (2 * uu * Rabs (ln (val q)) <= 2 * uu * 11) by (apply Rmult_le_compat_l; lra). lra.
Qed.

Lemma ex_C99 : let y := [f1; f_minus1; f1; f_minus1] in let conf := [f1; f_minus1; f1; f1] in
  exists fexp fln edge betas, precise_exp fexp /\ precise_ln fln /\ (forall x, In x y -> f_label x) /\
  f_mada_run fexp fln bounded_conf y [(edge, conf)] betas /\ 4 / 10 < val edge < 6 / 10 /\ INR (length y) * (INR 1 + 12) <= 2 ^ 25.
Proof.
  cbv zeta. destruct P_C92_platform as [fexp [fln [C1 [C2 _]]]]. set (y := [f1; f_minus1; f1; f_minus1]). set (conf := [f1; f_minus1; f1; f1]).
  destruct f1_spec as [F1 V1]. destruct minus1_spec as [Fm Vm].
  assert (Ly : forall x, In x y -> f_label x) by (intros x [<- |[<- |[<- |[<- |[]]]]]; split; auto).
  assert (Bc : bounded_conf conf) by (intros c [<- |[<- |[<- |[<- |[]]]]]; (split; [assumption|]); first [rewrite V1, Rabs_R1; lra|rewrite Vm; apply Rabs_le; lra]).
  assert (N1 : (1 <= length y)%nat) by (cbn; lia). assert (S0 := fmr_start fexp fln bounded_conf y).
  assert (HB : INR (length y) * (INR (length (@nil (f64 * list f64))) + 12) <= 2 ^ 25) by (simpl; lra).
  destruct (P_C99_queries fexp fln y [] _ C1 C2 Ly N1 S0 HB) as [[ix Hix] HQ]. destruct (HQ ix Hix) as [d [Ed [Ld [Fd _]]]].
  assert (CS : forall i, (i < 4)%nat -> Rabs (val (nth i d f0) - / 4) <= / 1000).
  { intros i Hi. pose proof (P_C99_accurate fexp fln y [] _ ix d i C1 C2 Ly N1 S0 HB ltac:(simpl; lra) Hix Ed Hi) as A.
    assert (E : capped_soft (length y) (exponent_of y []) i = / 4). { unfold capped_soft, exponent_of. cbn [length y map rsum seq]. set (x := exp (Rmin (1 / INR 4 + 0) 1)). assert (0 < x) by apply exp_pos. field. lra. }
    rewrite E in A. assert (T75 : / 2 ^ 1075 <= / 2 ^ 20) by (apply Rinv_le_contravar; [apply pow_lt; lra|apply Rle_pow; [lra|lia]]). eapply Rle_trans; [exact A|]. assert (C : / 2 ^ 20 * / 4 + / 2 ^ 20 <= / 1000) by (simpl; lra). lra. }
  set (e := ftree_sum (FLeaf (f_products (f_margins y conf) d))). assert (He : f_edge y conf d e) by (exists (FLeaf (f_products (f_margins y conf) d)); split; reflexivity).
  destruct (P_C99_rounds fexp fln y [] _ ix d conf e C1 C2 Ly N1 S0 HB Hix Ed eq_refl Bc He) as [Fe [Ae [HU _]]].
  assert (Be : 4 / 10 < val e < 6 / 10).
  { rewrite (dot_nth' y N1 (f_margins y conf) d) in Ae by first [apply (margins_len y N1 conf eq_refl)|exact Ld]. cbn [length y map rsum seq] in Ae.
    assert (M : forall i, (i < 4)%nat -> val (nth i (f_margins y conf) f0) = val (nth i y f0) * val (nth i conf f0)) by (intros i Hi; apply (margin_nth y Ly N1 conf i eq_refl Bc Hi)).
    rewrite (M 0%nat), (M 1%nat), (M 2%nat), (M 3%nat) in Ae by lia. cbn [nth y conf] in Ae. rewrite V1, Vm in Ae.
    pose proof (CS 0%nat ltac:(lia)) as A0. pose proof (CS 1%nat ltac:(lia)) as A1. pose proof (CS 2%nat ltac:(lia)) as A2. pose proof (CS 3%nat ltac:(lia)) as A3. apply Rabs_le_inv in A0. apply Rabs_le_inv in A1. apply Rabs_le_inv in A2. apply Rabs_le_inv in A3. apply Rabs_le_inv in Ae.
    assert (C : INR 4 / 2 ^ 50 <= / 1000) by (simpl; lra). unfold f64 in *. lra. }
  assert (Pf : f_perfect e = false). { apply Bool.not_true_iff_false. intros Q. destruct (fabs_spec e Fe) as [Fa Va]. apply fle_true in Q; [|exact F1|exact Fa]. rewrite V1, Va, Rabs_pos_eq in Q by lra. lra. }
  destruct HU as [betas' HU]; [exact Pf| |].
  { intros E. rewrite E in Be. assert (Q : flt f_nearly_minus1 f0 = true) by (vm_compute; reflexivity). apply flt_true in Q; [|vm_compute; reflexivity|apply fin_f0]. rewrite val_f0 in Q. lra. }
  exists fexp, fln, e, betas'. split; [exact C1|]. split; [exact C2|]. split; [exact Ly|]. split; [|split; [exact Be|simpl; lra]].
  apply (fmr_round fexp fln bounded_conf y [] (f_uniform (length y)) ix d conf e betas' S0 Hix Ed eq_refl Bc He Pf HU).
Qed.

(** ** Example: a first round on four examples in which the hypothesis errs on the last one, with an exponential and a logarithm as required *)
Example C99_nonvacuous : let y := [f1; f_minus1; f1; f_minus1] in let conf := [f1; f_minus1; f1; f1] in
  exists fexp fln edge betas, precise_exp fexp /\ precise_ln fln /\ (forall x, In x y -> f_label x) /\
  f_mada_run fexp fln bounded_conf y [(edge, conf)] betas /\ 4 / 10 < val edge < 6 / 10 /\ INR (length y) * (INR 1 + 12) <= 2 ^ 25.
Proof. exact ex_C99. Qed.
