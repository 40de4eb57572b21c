(** Exact solvers exist for the quadratic programs of ERLPBoost and SoftBoost and for the linear programs of SoftBoost and
    MLPBoost, so the hypothesis "the solver is exact" of C35, C64 and C65 can be met for every sample and weak learner. *)
From Verif Require Import Base Spec RegSpec LPSpec Utils UtilsProofs WMajority WMajorityProofs Booster Reach AdaBoost AdaBoostProofs
  AdaBoostMain AdaBoostMore Num FrankWolfe FrankWolfeProofs CERLP CERLPProofs Csc ConicSpec CscProofs Duality Solvable SolverFacts QPExist LPBoost LPBoostProofs LPBoostFacts
  EdgeLP EdgeProofs ERLP ERLPProofs ERLPFacts SoftBoost SoftProofs SoftBoostFacts MLP MLPProofs MLPFacts.
Open Scope R_scope.

Section EdgeAnswer.
  Context {H : Type}.
  Variable conf : H -> nat -> R.
  Variable y : list R.
  Let n := length y.
  Variable lead : bool.
  Variable coef : R.
  Variable hs : list H.
  Variable P : csc.
  Variable q : list R.
  Variable cap g : R.
  Hypothesis Lq : length q = (offs lead + n)%nat.
  Let p := mkConic P q (csc_of (1 + 2 * n + length hs) (edge_cols conf y lead coef hs)) (edge_rhs cap g n (length hs)) (edge_sense n (length hs)).

  Lemma edge_dims : dims p.
  Proof.
    split; unfold p; cbn [k_A k_q k_b c_rows c_cols csc_of]; [rewrite edge_cols_length, Lq; reflexivity|].
    unfold edge_rhs. cbn [length]. rewrite !app_length, !repeat_length. lia.
  Qed.


  Definition edge_box : R := rsum (map (fun t => rsum (map (fun i => Rabs (marg conf y hs t i)) (seq 0 n))) (seq 0 (length hs))) + Rabs g + 1.

  Lemma edge_box_ge1 : 1 <= edge_box.
  Proof.
    unfold edge_box. pose proof (Rabs_pos g). assert (0 <= rsum (map (fun t => rsum (map (fun i => Rabs (marg conf y hs t i)) (seq 0 n))) (seq 0 (length hs)))); [|lra].
    apply rsum_nonneg_seq. intros. apply rsum_nonneg_seq. intros. apply Rabs_pos.
  Qed.

  Lemma edge_value x t : (forall i, (i < n)%nat -> 0 <= nth (offs lead + i) x 0 <= 1) -> (t < length hs)%nat ->
    Rabs (rsum (map (fun i => nth (offs lead + i) x 0 * marg conf y hs t i) (seq 0 n))) <= edge_box - Rabs g - 1.
  Proof.
    intros Hx Ht. replace (edge_box - Rabs g - 1) with (rsum (map (fun t => rsum (map (fun i => Rabs (marg conf y hs t i)) (seq 0 n))) (seq 0 (length hs)))) by (unfold edge_box; ring).
    eapply Rle_trans; [|apply (rsum_in_le (map (fun t => rsum (map (fun i => Rabs (marg conf y hs t i)) (seq 0 n))) (seq 0 (length hs))) (rsum (map (fun i => Rabs (marg conf y hs t i)) (seq 0 n))))].
    - assert (AS : forall (f k : nat -> R) l, (forall c, In c l -> Rabs (f c) <= k c) -> Rabs (rsum (map f l)) <= rsum (map k l)).
      { intros f k l. induction l as [|a l IH]; intros Hl; [cbn; rewrite Rabs_R0; lra|]. cbn [map rsum fold_right]. eapply Rle_trans; [apply Rabs_triang|]. apply Rplus_le_compat; [apply Hl; left; reflexivity|apply IH; intros; apply Hl; right; assumption]. }
      apply AS. intros i Hi. apply in_seq in Hi. rewrite Rabs_mult. specialize (Hx i ltac:(lia)). rewrite (Rabs_pos_eq (nth _ x 0)) by apply Hx. pose proof (Rabs_pos (marg conf y hs t i)). nra.
    - intros v Hv. apply in_map_iff in Hv. destruct Hv as [k [<- _]]. apply rsum_nonneg_seq. intros. apply Rabs_pos.
    - apply in_map_iff. exists t. split; [reflexivity|apply in_seq; lia].
  Qed.

End EdgeAnswer.

Lemma edge_has_answer {H} (conf : H -> nat -> R) y lead coef hs P q cap g : let n := length y in
  let p := mkConic P q (csc_of (1 + 2 * n + length hs) (edge_cols conf y lead coef hs)) (edge_rhs cap g n (length hs)) (edge_sense n (length hs)) in
  length q = (offs lead + n)%nat -> c_cols P = (offs lead + n)%nat ->
  (forall c c', (c < offs lead + n)%nat -> (c' < offs lead + n)%nat -> entry P c c' = entry P c' c) ->
  (lead = true -> forall x x', (forall i, (i < n)%nat -> nth (1 + i) x 0 = nth (1 + i) x' 0) ->
    rsum (map (fun c => row_dot P x c * nth c x 0) (seq 0 (1 + n))) = rsum (map (fun c => row_dot P x' c * nth c x' 0) (seq 0 (1 + n)))) ->
  (lead = true -> 0 <= nth 0 q 0) -> (lead = true -> (0 < length hs)%nat) ->
  (exists x, feasible p x) -> exists a, solves p a.
Proof.
  intros n p Lq HPc HPs HP0 Hq0 Hhs Hf. set (B := edge_box conf y hs g).
  apply (qp_solvable p (edge_dims conf y lead coef hs P q cap g Lq)) with (B := B); try assumption.
    - cbn [p k_P k_q]. rewrite HPc, Lq. reflexivity.
    - cbn [p k_P k_q]. rewrite Lq. exact HPs.
    - unfold B. pose proof (edge_box_ge1 conf y hs g). lra.
    - intros x Fx. pose proof Fx as Fx0. apply (edge_feasible conf y lead coef hs P q cap g Lq) in Fx. fold n in Fx. destruct Fx as [Lx [F0 [F1 [F2 F3]]]].
      assert (D01 : forall i, (i < n)%nat -> 0 <= nth (offs lead + i) x 0 <= 1).
      { intros i Hi. split; [apply F1, Hi|]. rewrite <- F0. apply rsum_in_le; [intros v Hv; apply in_map_iff in Hv; destruct Hv as [k [<- Hk]]; apply in_seq in Hk; apply F1; lia|]. apply in_map_iff. exists i. split; [reflexivity|apply in_seq; lia]. }
      pose proof (edge_box_ge1 conf y hs g) as B1. fold B in B1. destruct lead; cbn [offs] in *.
      + destruct x as [|x0 d]; [simpl in Lx; lia|]. cbn [gof] in F3. change (nth 0 (x0 :: d) 0) with x0 in F3. exists (Rmin x0 B :: d).
        assert (Ed : forall t, (t < length hs)%nat -> rsum (map (fun i => nth (1 + i) (Rmin x0 B :: d) 0 * marg conf y hs t i) (seq 0 n)) <= B + g /\ rsum (map (fun i => nth (1 + i) (x0 :: d) 0 * marg conf y hs t i) (seq 0 n)) >= - B + g).
        { intros t Ht. pose proof (edge_value conf y true hs q g Lq (x0 :: d) t D01 Ht) as Ev. fold n B in Ev.
          change (rsum (map (fun i => nth (1 + i) (Rmin x0 B :: d) 0 * marg conf y hs t i) (seq 0 n))) with (rsum (map (fun i => nth (1 + i) (x0 :: d) 0 * marg conf y hs t i) (seq 0 n))).
          set (e := rsum (map (fun i => nth (1 + i) (x0 :: d) 0 * marg conf y hs t i) (seq 0 n))) in *. change (Rabs e <= B - Rabs g - 1) in Ev. pose proof (Rle_abs e). pose proof (Rle_abs (- e)) as E2. rewrite Rabs_Ropp in E2. pose proof (Rle_abs g). pose proof (Rle_abs (- g)) as E3. rewrite Rabs_Ropp in E3. lra. }
        split; [|split].
        * apply (edge_feasible conf y true coef hs P q cap g Lq). fold n. cbn [offs gof]. change (nth 0 (Rmin x0 B :: d) 0) with (Rmin x0 B). split; [exact Lx|]. split; [exact F0|]. split; [exact F1|]. split; [exact F2|].
          intros t Ht. destruct (Ed t Ht) as [E1 _]. specialize (F3 t Ht). change (rsum (map (fun i => nth (1 + i) (Rmin x0 B :: d) 0 * marg conf y hs t i) (seq 0 n))) with (rsum (map (fun i => nth (1 + i) (x0 :: d) 0 * marg conf y hs t i) (seq 0 n))) in *.
          unfold Rmin. destruct (Rle_dec x0 B); lra.
        * intros c Hc. cbn [p k_q] in Hc. rewrite Lq in Hc. destruct c as [|c].
          -- cbn [nth]. split; [|apply Rmin_r]. apply Rmin_glb; [|lra]. destruct (Ed 0%nat (Hhs eq_refl)) as [_ E1]. specialize (F3 0%nat (Hhs eq_refl)). lra.
          -- specialize (D01 c ltac:(lia)). change (- B <= nth (1 + c) (x0 :: d) 0 <= B). lra.
        * unfold objective. cbn [p k_q k_P]. rewrite Lq. rewrite (HP0 eq_refl (Rmin x0 B :: d) (x0 :: d)) by reflexivity. apply Rplus_le_compat_l.
          rewrite !rsum_split, !rsum_one. cbn [nth]. change (fun i => nth (1 + i) q 0 * nth (1 + i) (Rmin x0 B :: d) 0) with (fun i => nth (1 + i) q 0 * nth (1 + i) (x0 :: d) 0).
          apply Rplus_le_compat_r. apply Rmult_le_compat_l; [apply Hq0; reflexivity|apply Rmin_l].
      + exists x. split; [exact Fx0|]. split; [|lra]. intros c Hc. cbn [p k_q] in Hc. rewrite Lq in Hc. specialize (D01 c Hc). cbn [Nat.add] in D01. lra.
  Qed.

Lemma diag_sym off n v c c' : (c < off + n)%nat -> (c' < off + n)%nat -> entry (csc_of (off + n) (diag_cols off n v)) c c' = entry (csc_of (off + n) (diag_cols off n v)) c' c.
Proof.
  intros Hc Hc'. rewrite !entry_csc_of by (rewrite diag_cols_length; assumption).
  assert (N : forall a b, (b < off + n)%nat -> a <> b -> colent (nth b (diag_cols off n v) []) a = 0).
  { intros a b Hb Hne. unfold diag_cols. destruct (Nat.lt_ge_cases b off) as [L|L].
    - rewrite app_nth1 by (rewrite repeat_length; exact L). rewrite nth_repeat_lt by exact L. apply colent_nil.
    - rewrite app_nth2 by (rewrite repeat_length; exact L). rewrite repeat_length. rewrite (nth_map_seq (fun i => [((off + i)%nat, v i)])) by lia. rewrite colent_cons, colent_nil. cbn [fst snd].
      rewrite (proj2 (Nat.eqb_neq (off + (b - off)) a)) by lia. ring. }
  destruct (Nat.eq_dec c c') as [->|Hne]; [reflexivity|]. rewrite !N by (congruence || assumption). reflexivity.
Qed.

Section Answers.
  Context {H : Type}.
  Variable conf : H -> nat -> R.
  Variable y : list R.
  Let n := length y.
  Hypothesis Hn : (0 < n)%nat.

  Lemma edges_bounded_above d (hs : list H) : exists g, forall h, In h hs -> edge_of y d (conf h) <= g.
  Proof. clear. induction hs as [|h hs [g Hg]]; [exists 0; intros ? []|]. exists (Rmax g (edge_of y d (conf h))). intros h' [<-|Hh]; [apply Rmax_r|]. eapply Rle_trans; [apply Hg, Hh|apply Rmax_l]. Qed.

  Lemma gamma_has_answer coef cap c (hs : list H) : length c = n -> hs <> [] -> (forall v, In v (repeat (1 / INR n) n) -> coef * v <= cap) ->
    exists a, solves (gamma_conic conf y coef cap c hs) a.
  Proof.
    intros Lc Hh Hu. unfold gamma_conic. apply edge_has_answer.
    - cbn [length offs]. fold n. lia.
    - cbn [csc_zeros c_cols offs]. fold n. lia.
    - intros. unfold entry, csc_zeros. cbn [c_ptr c_row c_val]. rewrite !nth_repeat. reflexivity.
    - intros _ x x' _. rewrite !(rsum_zero (fun c => row_dot (csc_zeros _ _) _ c * _)) by (intros; rewrite row_dot_zeros; ring). reflexivity.
    - intros _. cbn [nth]. lra.
    - intros _. destruct hs; [congruence|cbn [length]; lia].
    - destruct (edges_bounded_above (repeat (1 / INR n) n) hs) as [g Hg]. exists (g :: repeat (1 / INR n) n). apply (gamma_feasible conf y coef cap c hs Lc). exists g, (repeat (1 / INR n) n).
      split; [reflexivity|]. split; [apply repeat_length|]. split; [|split; [exact Hu|exact Hg]].
      pose proof (lt_0_INR n Hn). split; [intros v Hv; apply repeat_spec in Hv; subst v; left; apply Rdiv_lt_0_compat; lra|rewrite rsum_repeat; field; lra].
  Qed.

  Lemma er_has_answer nu eta (hs : list H) q : 1 <= nu <= INR n -> hs <> [] -> length q = n -> exists a, solves (er_conic conf y nu eta hs q) a.
  Proof.
    intros Hnu Hh Lq. unfold er_conic. apply edge_has_answer.
    - apply er_q_length. exact Lq.
    - cbn [c_cols csc_of]. rewrite diag_cols_length. reflexivity.
    - intros c c' Hc Hc'. cbn [offs] in *. apply (diag_sym 1 n); assumption.
    - intros _ x x' E. rewrite !(diag_sum 1). apply rsum_map_ext. intros i Hi. apply in_seq in Hi. rewrite E by (fold n; unfold n in Hi; lia). reflexivity.
    - intros _. cbn [er_linear nth]. lra.
    - intros _. destruct hs; [congruence|cbn [length]; lia].
    - destruct (edges_bounded_above (repeat (1 / INR n) n) hs) as [g Hg]. exists (g :: repeat (1 / INR n) n).
      apply (edge_feasible conf y true 1 hs _ _ (1 / nu) 0 (er_q_length y eta q Lq)). fold n. cbn [offs gof nth Nat.add]. destruct (uniform_capped y nu Hnu) as [Lu [C1 C2]]. fold n in Lu, C1, C2. set (u := repeat (1 / INR n) n) in *.
      split; [cbn [length]; rewrite Lu; reflexivity|]. split; [|split; [|split]].
      + etransitivity; [|exact C2]. pose proof (map_nth_seq 0 u) as E. rewrite Lu in E. f_equal. exact E.
      + intros i Hi. apply C1, nth_In. lia.
      + intros i Hi. rewrite Rmult_1_l. apply C1, nth_In. lia.
      + intros t Ht. destruct (nth_error hs t) as [h|] eqn:Et; [|apply nth_error_None in Et; lia]. pose proof (edge_marg conf y hs u t h Lu Et) as Em. fold n in Em. rewrite <- Em. rewrite Rplus_0_l. apply Hg. eapply nth_error_In, Et.
  Qed.

  Lemma so_has_answer nu (hs : list H) g q : length q = n -> (exists x, feasible (so_conic conf y nu hs g q) x) -> exists a, solves (so_conic conf y nu hs g q) a.
  Proof.
    intros Lq Hf. unfold so_conic. apply edge_has_answer; [| | | | | |exact Hf]; try discriminate.
    - rewrite map_length. exact Lq.
    - cbn [c_cols csc_of]. rewrite diag_cols_length. reflexivity.
    - intros c c' Hc Hc'. cbn [offs] in *. apply (diag_sym 0 n); assumption.
  Qed.
End Answers.

(** a solver that is exact whenever an exact answer exists, and always answers with vectors of the right lengths *)
Lemma ideal_solver_len : exists solve : conic -> answer,
  (forall p, (exists a, solves p a) -> solves p (solve p)) /\ (forall p, length (a_x (solve p)) = length (k_q p) /\ length (a_z (solve p)) = length (k_b p)).
Proof.
  destruct ideal_solver as [s Hs].
  exists (fun p => if ClassicalEpsilon.excluded_middle_informative (exists a, solves p a) then s p else mkAnswer (repeat 0 (length (k_q p))) (repeat 0 (length (k_b p))) 0 OtherStatus).
  split; intros p; destruct (ClassicalEpsilon.excluded_middle_informative _) as [E|E]; intros; try contradiction.
  - apply Hs, E.
  - destruct (Hs p E) as [[[L _] [Lz _]] _]. split; assumption.
  - cbn [a_x a_z]. rewrite !repeat_length. split; reflexivity.
Qed.

(** ** C35: one solver is exact on every program that any run of ERLPBoost poses *)
Lemma P_C35_exact_solver_exists :
  exists solve : conic -> answer, forall (H : Type) (conf : H -> nat -> R) produce y inner (s : @erlp H) p,
  erlp_asks conf solve produce y inner s p -> solves p (solve p).
Proof.
  destruct ideal_solver_len as [solve [Hs Hl]]. exists solve. intros H conf produce y inner s p [t [s1 [m [m1 [old [Hr [Em [_ [_ [Tu Ep]]]]]]]]]]. apply Hs.
  destruct (reach_ok conf solve produce y inner s (fun p => proj1 (Hl p)) t s1 Hr) as [Hn [Hnu [_ [m2 [Em2 Om]]]]]. rewrite Em in Em2. injection Em2 as <-.
  set (eta := erlp_eta (er_half_tol s) (er_nu s) (length y)) in *. set (h := produce t (er_dist s1)) in *.
  pose proof (proj1 (start_ok conf y (er_nu s) eta Hn Hnu (er_hyps s1) m h Om)) as O1.
  pose proof (turns_ok conf solve y s (fun p => proj1 (Hl p)) (er_hyps s1 ++ [h]) _ _ _ _ Hn Hnu O1 Tu) as O2.
  rewrite (program_ok conf y (er_nu s) eta Hn _ _ O2) in Ep. injection Ep as <-. apply er_has_answer; [exact Hn|exact Hnu|destruct (er_hyps s1); discriminate|apply O2].
Qed.

(** ** C35 with the hypothesis on the solver discharged: one solver serves every sample, weak learner, tolerance and nu *)
Lemma P_C35_end_to_end :
  exists solve : conic -> answer, forall (H : Type) (conf : H -> nat -> R) produce y inner (s : @erlp H),
  is_valid_binary_instance y = Ok tt -> 1 <= er_nu s <= INR (length y) -> 0 < er_half_tol s < 1 ->
  (forall h i, (i < length y)%nat -> -1 <= nth i y 0 * conf h i <= 1) ->
  (1001 + ln (INR (length y)) / erlp_eta (er_half_tol s) (er_nu s) (length y)) * 1000000000 + 1 < INR inner ->
  let u := repeat (1 / INR (length y)) (length y) in let N := erlp_max_loop (er_half_tol s) (er_nu s) (length y) in
  er_half_tol s - 1 < edge_of y u (conf (produce 1%nat u)) ->
  exists tr f, run (erlpboost conf solve produce y inner) (S N) s = Finished tr f /\ Forall (capped (er_nu s) y) tr /\ (length tr <= N)%nat /\
    ((length tr < N)%nat -> forall g, (forall e, In e (edges conf produce y tr) -> g <= e) ->
       exists tr' d, tr = tr' ++ [d] /\ g - 2 * er_half_tol s <= edge_of y d (wm_confidence conf f)).
Proof.
  destruct P_C35_exact_solver_exists as [solve Hs]. exists solve. intros H conf produce y inner s Hv Hnu Hht Hm Hin u N He.
  destruct (P_C35_terminates H conf solve produce y inner s (Hs H conf produce y inner s) Hm Hv Hnu Hht Hin (S N) (Nat.lt_succ_diag_r _)) as [[tr [f [Er [Hc Hl]]]]|[_ Hb]].
  - exists tr, f. split; [exact Er|]. split; [exact Hc|]. split; [exact Hl|]. intros Hlt g Hg.
    exact (P_C35_criterion H conf solve produce y inner s (S N) tr f g (Hs H conf produce y inner s) Hm Hin Er Hlt Hg).
  - fold u in Hb. lra.
Qed.

(** ** C65: one solver is exact on every program that any run of MLPBoost poses *)
Lemma P_C65_exact_solver_exists :
  exists solve : conic -> answer, forall (H : Type) (conf : H -> nat -> R) eqH noise produce y (s : @mlp H) hs p,
  1 <= fw_nu (ml_fw s) < INR (length y) -> 0 < ml_half_tol s -> (forall k, 0 < noise k < 1) ->
  mlp_asks conf eqH solve noise produce y s hs p -> solves p (solve p).
Proof.
  destruct ideal_solver as [solve Hs]. exists solve. intros H conf eqH noise produce y s hs p Hnu Hht Hno Ha. apply Hs.
  assert (Hh : hs <> []) by (destruct Ha as [t [s1 [m [d [_ [_ [_ [_ [_ [-> _]]]]]]]]]]; destruct (ml_hyps s1); discriminate).
  destruct (mlp_asks_program conf eqH solve noise produce y s hs p Hnu Hht Hno Ha) as [k ->].
  assert (Hn : (0 < length y)%nat) by (apply INR_lt; simpl; lra). apply gamma_has_answer; [exact Hn|apply gumbel_length|exact Hh|].
  intros v Hv. apply repeat_spec in Hv. subst v. assert (0 < 1 / fw_nu (ml_fw s)) by (apply Rdiv_lt_0_compat; lra).
  assert (1 / INR (length y) <= 1) by (apply Rdiv_le_iff; lra). nra.
Qed.

(** ** C65 with the hypothesis on the solver discharged *)
Lemma P_C65_end_to_end :
  exists solve : conic -> answer, forall (H : Type) (conf : H -> nat -> R) eqH noise produce y (s : @mlp H) (C : H -> Prop),
  fw_type (ml_fw s) = Classic \/ fw_type (ml_fw s) = ShortStep ->
  is_valid_binary_instance y = Ok tt -> 1 <= fw_nu (ml_fw s) < INR (length y) -> 0 < ml_half_tol s ->
  (forall h i, (i < length y)%nat -> -1 <= nth i y 0 * conf h i <= 1) ->
  (forall f h, eqH f h = true -> forall i, (i < length y)%nat -> conf f i = conf h i) ->
  (forall k, 0 < noise k < 1) ->
  (forall t d h, C h -> edge_of y d (conf h) <= edge_of y d (conf (produce t d))) ->
  exists tr f, run (mlpboost conf eqH solve noise produce y) (S (mlp_max_loop (ml_half_tol s) (fw_nu (ml_fw s)) (length y))) s = Finished tr f /\
  forall ws hs v v', length ws = length hs -> is_dist ws -> (forall h, In h hs -> C h) ->
  soft_margin (fw_nu (ml_fw s)) y (vote conf (combine ws hs)) v' -> soft_margin (fw_nu (ml_fw s)) y (wm_confidence conf f) v ->
  v' - 2 * ml_half_tol s <= v.
Proof.
  destruct P_C65_exact_solver_exists as [solve Hs]. exists solve. intros H conf eqH noise produce y s C Hty Hv Hnu Hht Hm Heq Hno Hwl.
  apply P_C65_optimal; try assumption; [|apply Nat.lt_succ_diag_r]. intros hs p Ha. apply (Hs H conf eqH noise produce y s hs p); assumption.
Qed.

(** ** C64: one solver is exact on every final program of SoftBoost, and on every quadratic program whose constraints can
    be met (those that the solver reports infeasible are accepted by the code like any others) *)
Lemma P_C64_exact_solver_exists :
  exists solve : conic -> answer, forall (H : Type) (conf : H -> nat -> R) produce y inner (s : @soft H),
  (forall p, soft_asks conf solve produce y inner s p -> (exists x, feasible p x) -> solves p (solve p)) /\
  (forall hs p, hs <> [] -> soft_asks_final conf solve produce y inner s hs p -> solves p (solve p)).
Proof.
  destruct ideal_solver as [solve Hs]. exists solve. intros H conf produce y inner s. split.
  - intros p [t [s1 [m [d [old [Hr [Em [_ [Tu Ep]]]]]]]]] Hf. apply Hs. cbv zeta in Tu, Ep.
    destruct (reach_sinv conf solve produce y inner s t s1 Hr) as [tr [Hn [Hnu [_ [_ [_ [_ [_ [_ [Ld [Pd [[m' [Em' Om]] _]]]]]]]]]]]]. rewrite Em in Em'. injection Em' as <-.
    destruct (turns_pos solve y (sq_push conf y m (produce t (so_dist s1))) _ (so_dist s1) d old Ld Pd Tu) as [Lq _].
    rewrite (so_program_ok conf y (so_nu s) (so_hyps s1 ++ [produce t (so_dist s1)]) _ _ d (sq_push_ok conf y (so_nu s) _ _ _ Om) Lq) in Ep. injection Ep as <-. apply so_has_answer; assumption.
  - intros hs p Hh [t [s1 [q [s' [it [m [Hr [Eb [Eh [Em Ep]]]]]]]]]]. apply Hs. destruct (reach_sinv conf solve produce y inner s t s1 Hr) as [tr HI]. pose proof HI as [Hn [Hnu _]].
    pose proof (sinv_step conf solve produce y inner s t s1 tr HI) as St. rewrite Eb in St. destruct St as [_ [[_ [_ [_ [_ [_ [[m' [Em' Om]] _]]]]]] _]]. rewrite Em in Em'. injection Em' as <-. rewrite Eh in Om.
    rewrite (so_final_ok conf y (so_nu s) hs m Om) in Ep. injection Ep as <-. apply gamma_has_answer; [exact Hn|apply repeat_length|exact Hh|].
    intros v Hv. rewrite Rmult_1_l. destruct (uniform_capped y (so_nu s) Hnu) as [_ [C _]]. apply C, Hv.
Qed.

(** ** C64 with the hypothesis on the solver discharged: for every sample, every 1 <= nu < n, every tolerance and every weak
    learner that answers with a hypothesis of largest edge, SoftBoost stops within max_loop() rounds with the best vote over
    the hypotheses it received, but it shows the weak learner the uniform distribution in every round *)
Lemma P_C64_end_to_end_refuted :
  exists solve : conic -> answer, forall (H : Type) (conf : H -> nat -> R) produce y inner (s : @soft H),
  is_valid_binary_instance y = Ok tt -> so_tol s <> 0 -> 1 <= so_nu s < INR (length y) ->
  (1000000000 + ln (INR (length y))) * 1000000000 + 1 < INR inner ->
  (forall h i, (i < length y)%nat -> nth i y 0 * conf h i <= 1) ->
  (forall t d h, edge_of y d (conf h) <= edge_of y d (conf (produce t d))) ->
  exists tr f, run (softboost conf solve produce y inner) (S (soft_max_loop (so_tol s) (so_nu s) (length y))) s = Finished tr f /\
    (1 <= length tr <= soft_max_loop (so_tol s) (so_nu s) (length y))%nat /\
    (forall d, In d tr -> d = repeat (1 / INR (length y)) (length y)) /\
    exists v, soft_margin (so_nu s) y (wm_confidence conf f) v /\
      forall ws v', length ws = length (answers produce tr) -> is_dist ws ->
      soft_margin (so_nu s) y (vote conf (combine ws (answers produce tr))) v' -> v' <= v.
Proof.
  destruct P_C64_exact_solver_exists as [solve Hs]. exists solve. intros H conf produce y inner s Hv Htol Hnu Hin Hm Hbest.
  destruct (Hs H conf produce y inner s) as [Hq Hf]. pose proof (valid_instance_nonempty y Hv) as Hn. set (N := soft_max_loop (so_tol s) (so_nu s) (length y)).
  assert (Hsub : forall h, edge_of y (repeat (1 / INR (length y)) (length y)) (conf h) <= 1).
  { intros h. pose proof (lt_0_INR _ Hn) as Hp. unfold edge_of.
    assert (E1 : rsum (map (fun i => nth i (repeat (1 / INR (length y)) (length y)) 0) (seq 0 (length y))) = 1).
    { pose proof (map_nth_seq 0 (repeat (1 / INR (length y)) (length y))) as E. rewrite repeat_length in E. rewrite E, rsum_repeat. field. lra. }
    eapply Rle_trans; [|right; exact E1]. apply rsum_le_seq. intros i Hi. rewrite nth_repeat_lt by exact Hi. specialize (Hm h i Hi). assert (0 < 1 / INR (length y)) by (apply Rdiv_lt_0_compat; lra). nra. }
  assert (HN1 : (1 <= N)%nat).
  { unfold N, soft_max_loop. apply ceil_usize_pos. apply Rdiv_lt_0_compat.
    - apply Rmult_lt_0_compat; [lra|]. rewrite <- ln_1. apply ln_increasing; [lra|]. apply Rlt_div_iff; lra.
    - replace (so_tol s ^ 2) with (Rsqr (so_tol s)) by (unfold Rsqr; ring). apply Rsqr_pos_lt. exact Htol. }
  assert (E1 : forall p, soft_asks conf solve produce y inner s p -> solves p (solve p)).
  { intros p Ha. apply Hq; [exact Ha|]. exact (stuck_feasible conf solve produce y inner s Hq Hbest Hsub p Ha). }
  assert (E2 : forall hs p, soft_asks_final conf solve produce y inner s hs p -> solves p (solve p)).
  { intros hs p Ha. apply (Hf hs); [|exact Ha]. destruct Ha as [t [s1 [q [s' [it [m [Hr [Eb [Eh _]]]]]]]]]. destruct (reach_sinv conf solve produce y inner s t s1 Hr) as [tr HI].
    pose proof (sinv_step conf solve produce y inner s t s1 tr HI) as St. rewrite Eb in St. destruct St as [_ [[_ [_ [Ea _]]] Sq]]. rewrite Eh in Ea. intros E0. rewrite E0 in Ea.
    symmetry in Ea. apply map_eq_nil in Ea. assert (L : length (tr ++ q) = 0%nat) by (destruct (tr ++ q); [reflexivity|discriminate]). rewrite app_length in L.
    destruct q; [|simpl in L; lia]. destruct (Sq eq_refl) as [_ Ht]. fold N in Ht. destruct HI as [_ [_ [_ [Hl _]]]]. simpl in L. lia. }
  destruct (P_C64_terminates H conf solve produce y inner s E1 E2 Hv Htol Hnu Hin (S N) (Nat.lt_succ_diag_r _)) as [tr [f [Er [Hl _]]]]. exists tr, f. split; [exact Er|]. split; [exact Hl|]. split.
  - intros d Hd. apply (P_C64_stuck_refuted H conf solve produce y inner s (S N) Hq Hbest Hm). rewrite Er. exact Hd.
  - destruct (P_C64_best_vote H conf solve produce y inner s (S N) tr f E2 Er) as [_ B]. exact B.
Qed.
