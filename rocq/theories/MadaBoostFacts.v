(** Properties C15, C51: MadaBoost. *)
From Verif Require Import Base Spec SortLib Utils UtilsProofs WMajority WMajorityProofs Booster AdaBoost
  AdaBoostProofs AdaBoostMain AdaBoostMore Num MadaBoost.
Open Scope R_scope.

(** ** Specification *)
(** the factor beta_t = sqrt(e2 / (1 - e2)), e2 = sqrt((1 - edge) / 4) *)
Definition mada_factor (e : R) : R := sqrt (sqrt ((1 - e) / 4) / (1 - sqrt ((1 - e) / 4))).

(** exp(min(1, b_i)) normalised *)
Definition capped_softmax (b : nat -> R) (n : nat) (d : list R) : Prop :=
  length d = n /\
  forall i, (i < n)%nat -> nth i d 0 = exp (Rmin (b i) 1) / rsum (map (fun j => exp (Rmin (b j) 1)) (seq 0 n)).

Lemma mada_factor_eq e : mada_beta e = mada_factor e.
Proof. unfold mada_beta, mada_factor. replace (1 / 2 * (1 / 2 * (1 - e))) with ((1 - e) / 4) by field. reflexivity. Qed.

Lemma capped_softmax_pos b n d : (0 < n)%nat -> capped_softmax b n d -> is_pos_dist d.
Proof.
  intros Hn [Hl Hd].
  assert (HZ : 0 < rsum (map (fun j => exp (Rmin (b j) 1)) (seq 0 n))).
  { apply rsum_pos; [destruct n; [lia|discriminate]|]. intros x Hx. apply in_map_iff in Hx. destruct Hx as [j [<- _]]. apply exp_pos. }
  split.
  - intros x Hx. apply (In_nth _ _ 0) in Hx. destruct Hx as [i [Hi <-]]. rewrite Hd by lia.
    apply Rdiv_lt_0_compat; [apply exp_pos|exact HZ].
  - rewrite <- rsum_nth, Hl. rewrite (rsum_map_ext _ (fun i => exp (Rmin (b i) 1) / rsum (map (fun j => exp (Rmin (b j) 1)) (seq 0 n)))).
    + rewrite rsum_map_div. field. lra.
    + intros i Hi. apply in_seq in Hi. apply Hd. lia.
Qed.

Lemma beta2distribution_spec y betas :
  (0 < length y)%nat -> length betas = length y ->
  exists d, beta2distribution y betas = Ok d /\ capped_softmax (fun i => nth i betas 0) (length y) d.
Proof.
  intros Hn Hl. unfold beta2distribution. set (w := map (fun b => Rmin b 1) betas).
  assert (Hlw : length w = length y) by (unfold w; rewrite map_length; exact Hl).
  destruct (log_normalizer_any w (isort (key_asc w) (seq 0 (length y)))) as [z [Ez Eexp]].
  { intros X. rewrite X in Hlw. simpl in Hlw. lia. }
  { rewrite Hlw. apply Permutation_sym, isort_perm. }
  rewrite Ez. simpl bind. eexists. split; [reflexivity|]. split; [rewrite map_length; exact Hlw|].
  intros i Hi. rewrite (nth_map_in _ w i 0) by lia.
  assert (Hw : forall j, (j < length y)%nat -> nth j w 0 = Rmin (nth j betas 0) 1).
  { intros j Hj. unfold w. rewrite (nth_map_in _ betas j 0) by lia. reflexivity. }
  unfold Rminus. rewrite exp_plus, exp_Ropp, Eexp, Hw by exact Hi. unfold Rdiv. f_equal. f_equal.
  rewrite <- (map_nth_seq 0 w), map_map, Hlw. apply rsum_map_ext. intros j Hj. apply in_seq in Hj. f_equal. apply Hw. lia.
Qed.

Section Mada.
  Context {H : Type}.
  Variable conf : H -> nat -> R.
  Variable produce : nat -> list R -> H.
  Variable y : list R.
  Let n := length y.
  Let edges := edges conf produce y.
  Let answers := answers produce.

  (** the score of example i after the rounds of [tr] *)
  Definition mada_score (tr : trace) (i : nat) : R :=
    1 / INR n + nth i y 0 * vote conf (combine (map mada_factor (edges tr)) (answers tr)) i.

  Lemma mada_score_app tr d i :
    let h := produce (S (length tr)) d in
    mada_score (tr ++ [d]) i = mada_score tr i + nth i y 0 * conf h i * mada_factor (edge_of y d (conf h)).
  Proof.
    intros h. unfold mada_score, edges, answers. rewrite edges_app, answers_app, map_app, combine_app_eq.
    - cbn [map combine]. rewrite (vote_app conf). fold h. ring.
    - rewrite map_length, edges_length, answers_length. reflexivity.
  Qed.

  Definition good_mtrace (tr : trace) : Prop :=
    forall k, (k < length tr)%nat -> capped_softmax (mada_score (firstn k tr)) n (nth k tr []).

  Lemma good_mtrace_app tr d : good_mtrace tr -> capped_softmax (mada_score tr) n d -> good_mtrace (tr ++ [d]).
  Proof.
    intros Ht Hd k Hk. rewrite app_length in Hk. simpl in Hk.
    destruct (Nat.eq_dec k (length tr)) as [->|Hne].
    - rewrite firstn_app_le by lia. rewrite firstn_all, app_nth2, Nat.sub_diag by lia. exact Hd.
    - rewrite firstn_app_le, app_nth1 by lia. apply Ht. lia.
  Qed.

  Definition mada_limit (s : @mada H) : nat :=
    match m_force_quit s with Some it => it | None => mada_max_loop y s end.

  Definition MInv (M t : nat) (s : @mada H) (tr : trace) : Prop :=
    (0 < n)%nat /\ m_max_iter s = M /\ t = S (length tr) /\ (length tr <= M)%nat /\
    length (m_betas s) = n /\ (forall i, (i < n)%nat -> nth i (m_betas s) 0 = mada_score tr i) /\
    m_alphas s = map (fun e => ln (1 / mada_factor e)) (edges tr) /\ m_hyps s = answers tr /\
    Forall small (edges tr) /\ good_mtrace tr.

  Lemma mada_pre_inv s s0 : mada_pre y s = Ok s0 -> MInv (mada_limit s) 1 s0 [].
  Proof.
    unfold mada_pre. destruct (is_valid_binary_instance y) as [[]|p] eqn:E; simpl; [|discriminate].
    intros Hs. inversion Hs; subst; clear Hs. pose proof (valid_instance_nonempty y E) as Hn.
    unfold MInv; simpl. split; [exact Hn|]. split; [reflexivity|]. split; [reflexivity|]. split; [lia|].
    split; [apply repeat_length|]. split.
    { intros i Hi. rewrite nth_repeat_lt by exact Hi. unfold mada_score, vote. simpl. fold n. lra. }
    split; [reflexivity|]. split; [reflexivity|]. split; [constructor|]. intros k Hk. simpl in Hk. lia.
  Qed.

  Lemma mada_boost_step M t s tr :
    MInv M t s tr ->
    (length tr = M /\ mada_boost conf produce y t s = ([], Ok (s, Break M))) \/
    exists d, capped_softmax (mada_score tr) n d /\ (length tr < M)%nat /\
      let h := produce t d in let e := edge_of y d (conf h) in
      ((1 <= Rabs e /\ exists s',
         mada_boost conf produce y t s = ([d], Ok (s', Break t)) /\ m_alphas s' = [rsignum e] /\ m_hyps s' = [h]) \/
       (small e /\ exists s',
         mada_boost conf produce y t s = ([d], Ok (s', Continue)) /\ MInv M (S t) s' (tr ++ [d]))).
  Proof.
    intros [Hn [HM [Ht [Hlim [Hbl [Hb [Ha [Hh [Hsm Hg]]]]]]]]].
    unfold mada_boost. rewrite HM. destruct (Nat.ltb_spec M t) as [L|L].
    - left. split; [lia|reflexivity].
    - right. destruct (beta2distribution_spec y (m_betas s) Hn Hbl) as [d [Ed Hd]]. rewrite Ed.
      assert (Hd' : capped_softmax (mada_score tr) n d).
      { destruct Hd as [Hd1 Hd2]. split; [exact Hd1|]. intros i Hi. rewrite (Hd2 i Hi), Hb by exact Hi. f_equal.
        apply rsum_map_ext. intros j Hj. apply in_seq in Hj. rewrite Hb by (unfold n in *; lia). reflexivity. }
      exists d. split; [exact Hd'|]. split; [lia|]. cbv zeta.
      set (h := produce t d). 
      rewrite (edge_inner_product conf y h d) by apply Hd'. set (e := edge_of y d (conf h)).
      destruct (Rleb_spec 1 (Rabs e)) as [B|B].
      + left. split; [exact B|]. eexists. split; [reflexivity|]. split; reflexivity.
      + right. assert (He : small e) by (unfold small; destruct (Rabs_def2 e 1); lra). split; [exact He|].
        unfold mada_update. unfold small in He. rewrite Rleb_true, Rltb_true by lra. cbn [andb negb].
        eexists. split; [reflexivity|]. unfold MInv. cbn [m_max_iter m_betas m_alphas m_hyps].
        assert (Ee : edges (tr ++ [d]) = edges tr ++ [e]).
        { unfold edges. rewrite edges_app. replace (S (length tr)) with t by lia. reflexivity. }
        rewrite Ee, app_length. simpl length. rewrite margins_of_hypothesis_spec.
        assert (Hlm : length (m_betas s) = length (margins_of y (conf h))) by (rewrite margins_length; exact Hbl).
        split; [exact Hn|]. split; [reflexivity|]. split; [lia|]. split; [lia|].
        split. { rewrite map_length, combine_length_eq by exact Hlm. exact Hbl. }
        split. { intros i Hi. rewrite (combine_nth_map _ (m_betas s) (margins_of y (conf h)) 0 0 Hlm).
          rewrite nth_map_seq by lia. cbn [fst snd]. rewrite Hb, margins_nth by exact Hi.
          rewrite mada_score_app. replace (S (length tr)) with t by lia. fold h. fold e. rewrite mada_factor_eq. reflexivity. }
        split. { rewrite Ha, map_app. cbn [map]. rewrite mada_factor_eq. reflexivity. }
        split. { rewrite Hh. unfold answers. rewrite answers_app. replace (S (length tr)) with t by lia. reflexivity. }
        split. { apply Forall_app. split; [exact Hsm|]. constructor; [exact He|constructor]. }
        apply good_mtrace_app; assumption.
  Qed.

  Lemma mada_run_spec fuel s :
    (good_mtrace (trace_of (run (madaboost conf produce y) fuel s)) /\
     (length (trace_of (run (madaboost conf produce y) fuel s)) <= mada_limit s)%nat /\
     (trace_of (run (madaboost conf produce y) fuel s) <> [] -> (0 < n)%nat)) /\
    (forall tr f, run (madaboost conf produce y) fuel s = Finished tr f ->
      (length tr = mada_limit s /\ Forall small (edges tr) /\
       from_slices (map (fun e => ln (1 / mada_factor e)) (edges tr)) (answers tr) = Ok f) \/
      (exists tr0 d, tr = tr0 ++ [d] /\ 1 <= edge_of y d (conf (produce (length tr) d)) /\
         f = mkWM [1] [produce (length tr) d])).
  Proof.
    set (M := mada_limit s).
    apply (run_inv (madaboost conf produce y) (MInv M)
      (fun tr => good_mtrace tr /\ (length tr <= M)%nat /\ (tr <> [] -> (0 < n)%nat))
      (fun tr f => (length tr = M /\ Forall small (edges tr) /\
       from_slices (map (fun e => ln (1 / mada_factor e)) (edges tr)) (answers tr) = Ok f) \/
      (exists tr0 d, tr = tr0 ++ [d] /\ 1 <= edge_of y d (conf (produce (length tr) d)) /\
         f = mkWM [1] [produce (length tr) d]))).
    - split; [intros k Hk; simpl in Hk; lia|]. split; [simpl; lia|]. intros X. contradiction.
    - intros s0 E. apply mada_pre_inv. exact E.
    - intros t s' tr [Hn [HM [Ht [Hlim [_ [_ [_ [_ [_ Hg]]]]]]]]]. split; [exact Hg|]. split; [exact Hlim|]. intros _; exact Hn.
    - intros t s' tr Hinv. pose proof Hinv as [Hn [HM [Ht [Hlim [Hbl [Hb [Ha [Hh [Hsm Hg]]]]]]]]].
      destruct (mada_boost_step _ _ _ _ Hinv) as [[HL E]|[d [Hd [HL [[He [s1 [E [Ew Eh]]]]|[He [s1 [E Hinv']]]]]]]];
        simpl b_boost; rewrite E.
      + rewrite app_nil_r. split; [split; [exact Hg|split; [exact Hlim|intros _; exact Hn]]|].
        simpl. unfold mada_post. rewrite Ha, Hh.
        destruct (from_slices _ (answers tr)) as [f|p] eqn:Ef; [|exact I].
        left. split; [exact HL|]. split; [exact Hsm|reflexivity].
      + split.
        { split; [apply good_mtrace_app; assumption|]. split; [rewrite app_length; simpl; lia|]. intros _; exact Hn. }
        simpl. unfold mada_post. rewrite Ew, Eh. unfold rsignum.
        destruct (Rltb_spec (edge_of y d (conf (produce t d))) 0) as [N|N].
        * rewrite from_slices_single_neg. exact I.
        * rewrite from_slices_single. right. exists tr, d. split; [reflexivity|].
          rewrite app_length. simpl. replace (length tr + 1)%nat with t by lia.
          split; [|reflexivity]. rewrite Rabs_pos_eq in He by lra. exact He.
      + exact Hinv'.
  Qed.

  Lemma mada_run_from_terminates M fuel t s tr :
    MInv M t s tr -> (M - length tr < fuel)%nat ->
    match run_from (madaboost conf produce y) fuel t tr s with
    | Unfinished _ => False | Crashed _ p => p = AssertFailed | Finished _ _ => True end.
  Proof.
    revert t s tr. induction fuel as [|fuel IH]; intros t s tr Hinv Hf; [lia|].
    cbn [run_from]. pose proof Hinv as [Hn [HM [Ht [Hlim _]]]].
    destruct (mada_boost_step _ _ _ _ Hinv) as [[HL E]|[d [Hd [HL [[He [s1 [E [Ew Eh]]]]|[He [s1 [E Hinv']]]]]]]];
      simpl b_boost; rewrite E.
    - simpl. unfold mada_post. pose proof (from_slices_spec conf (m_alphas s) (m_hyps s)) as S.
      destruct (from_slices (m_alphas s) (m_hyps s)); [exact I|]. apply S.
    - simpl. unfold mada_post. pose proof (from_slices_spec conf (m_alphas s1) (m_hyps s1)) as S.
      destruct (from_slices (m_alphas s1) (m_hyps s1)); [exact I|]. apply S.
    - apply IH; [exact Hinv'|]. rewrite app_length. simpl. lia.
  Qed.
End Mada.

(** ** C15: what is shown to the weak learner is always a positive distribution ... *)
Lemma P_C15_madaboost_queries_are_distributions :
  forall (H : Type) (conf : H -> nat -> R) (produce : nat -> list R -> H) (y : list R) (s : mada) (fuel : nat) d,
  In d (trace_of (run (madaboost conf produce y) fuel s)) ->
  length d = length y /\ is_pos_dist d.
Proof.
  intros H conf produce y s fuel d Hd.
  destruct (mada_run_spec conf produce y fuel s) as [[Hg [_ Hn]] _].
  apply (In_nth _ _ []) in Hd. destruct Hd as [k [Hk <-]]. pose proof (Hg k Hk) as E.
  split; [apply E|]. eapply capped_softmax_pos; [|exact E]. apply Hn. intros X. rewrite X in Hk. simpl in Hk. lia.
Qed.

(** ... namely the normalised exp(min(1, 1/n + y_i F(x_i))), F having the factors beta_t as coefficients *)
Lemma P_C15_madaboost_distribution_form :
  forall (H : Type) (conf : H -> nat -> R) (produce : nat -> list R -> H) (y : list R) (s : mada) (fuel : nat) tr k,
  trace_of (run (madaboost conf produce y) fuel s) = tr -> (k < length tr)%nat ->
  let past := firstn k tr in
  let F := vote conf (combine (map mada_factor (edges conf produce y past)) (answers produce past)) in
  capped_softmax (fun i => 1 / INR (length y) + nth i y 0 * F i) (length y) (nth k tr []).
Proof.
  intros H conf produce y s fuel tr k E Hk.
  destruct (mada_run_spec conf produce y fuel s) as [[Hg _] _]. rewrite E in Hg. apply (Hg k Hk).
Qed.

Lemma mada_factor_pos e : -1 < e < 1 -> 0 < mada_factor e.
Proof.
  intros He. unfold mada_factor. apply sqrt_lt_R0. apply Rdiv_lt_0_compat.
  - apply sqrt_lt_R0. lra.
  - assert (sqrt ((1 - e) / 4) < 1); [|lra]. apply Rlt_le_trans with (sqrt 1); [apply sqrt_lt_1; lra|rewrite sqrt_1; lra].
Qed.

(** The second half of C15 is false, in fact the opposite holds for every sample and every weak learner: in
    the second query, an example classified correctly by a +-1 valued first hypothesis has strictly MORE mass
    than a misclassified one.  (The code adds margin * beta where the documented update adds
    margin * ln beta, ln beta < 0.) *)
Lemma P_C15_madaboost_moves_weight_to_mistakes_refuted :
  forall (H : Type) (conf : H -> nat -> R) (produce : nat -> list R -> H) (y : list R) (s : mada) (fuel : nat) d1 d2 rest,
  trace_of (run (madaboost conf produce y) fuel s) = d1 :: d2 :: rest ->
  let h := produce 1%nat d1 in
  -1 < edge_of y d1 (conf h) < 1 ->
  forall i j, (i < length y)%nat -> (j < length y)%nat ->
    nth i y 0 * conf h i = 1 -> nth j y 0 * conf h j = -1 -> nth j d2 0 < nth i d2 0.
Proof.
  intros H conf produce y s fuel d1 d2 rest E h He i j Hi Hj Ci Cj.
  destruct (mada_run_spec conf produce y fuel s) as [[Hg [_ Hn]] _]. rewrite E in Hg, Hn.
  assert (Hn' : (0 < length y)%nat) by (apply Hn; discriminate).
  destruct (Hg 1%nat) as [Hl Hd]; [simpl; lia|]. cbn [nth firstn] in Hl, Hd.
  rewrite !Hd by assumption.
  change [d1] with ([] ++ [d1]).
  assert (HZ : 0 < rsum (map (fun j0 : nat => exp (Rmin (mada_score conf produce y ([] ++ [d1]) j0) 1)) (seq 0 (length y)))).
  { apply rsum_pos; [destruct (length y); [lia|discriminate]|]. intros x Hx. apply in_map_iff in Hx. destruct Hx as [q [<- _]]. apply exp_pos. }
  apply Rmult_lt_compat_r; [apply Rinv_0_lt_compat; exact HZ|]. apply exp_increasing.
  rewrite !mada_score_app. simpl length. fold h. rewrite Ci, Cj.
  pose proof (mada_factor_pos _ He) as Hb.
  assert (E0 : forall q, mada_score conf produce y [] q = 1 / INR (length y)).
  { intros q. unfold mada_score, vote. simpl. lra. }
  rewrite !E0.
  assert (1 / INR (length y) <= 1).
  { apply Rdiv_le_iff; [apply INR_pos; exact Hn'|]. assert (1 <= INR (length y)) by (apply (le_INR 1); lia). lra. }
  apply Rle_lt_trans with (1 / INR (length y) + -1 * mada_factor (edge_of y d1 (conf h))); [apply Rmin_l|].
  apply Rmin_glb_lt; lra.
Qed.

(** ** C51: number of rounds, termination, and the answer *)
Lemma P_C51_madaboost_round_limit :
  forall (H : Type) (conf : H -> nat -> R) (produce : nat -> list R -> H) (y : list R) (s : mada) (fuel : nat),
  let limit := match m_force_quit s with Some it => it | None => mada_max_loop y s end in
  (length (trace_of (run (madaboost conf produce y) fuel s)) <= limit)%nat /\
  ((limit < fuel)%nat ->
     match run (madaboost conf produce y) fuel s with
     | Unfinished _ => False
     | Crashed _ p => p = AssertFailed
     | Finished _ _ => True
     end).
Proof.
  intros H conf produce y s fuel limit. split.
  - apply (mada_run_spec conf produce y fuel s).
  - intros Hf. unfold run. simpl b_pre. destruct (mada_pre y s) as [s0|p] eqn:E.
    + eapply mada_run_from_terminates; [apply (mada_pre_inv conf produce y s s0 E)|]. unfold mada_limit. fold limit. simpl. lia.
    + unfold mada_pre in E.
      destruct (valid_cases y) as [V|V]; rewrite V in E; inversion E; reflexivity.
Qed.

Lemma mada_alpha_pos e : 0 < e < 1 -> 0 < ln (1 / mada_factor e).
Proof.
  intros He. assert (Hb : 0 < mada_factor e) by (apply mada_factor_pos; lra).
  rewrite <- ln_1. apply ln_increasing; [lra|]. apply Rlt_div_iff; [exact Hb|]. rewrite Rmult_1_l.
  unfold mada_factor. apply Rlt_le_trans with (sqrt 1); [|rewrite sqrt_1; lra].
  assert (Hs : sqrt ((1 - e) / 4) < 1 / 2).
  { apply Rlt_le_trans with (sqrt ((1 / 2) ^ 2)); [apply sqrt_lt_1; lra|]. rewrite sqrt_pow2; lra. }
  assert (Hs0 : 0 <= sqrt ((1 - e) / 4)) by apply sqrt_pos.
  apply sqrt_lt_1; [|lra|].
  - apply Rmult_le_pos; [exact Hs0|left; apply Rinv_0_lt_compat; lra].
  - apply Rdiv_lt_iff; lra.
Qed.

(** with positive edges a finished run returns every hypothesis (or a single perfect one) *)
Lemma P_C51_madaboost_result :
  forall (H : Type) (conf : H -> nat -> R) (produce : nat -> list R -> H) (y : list R) (s : mada) (fuel : nat) tr f,
  run (madaboost conf produce y) fuel s = Finished tr f ->
  Forall (fun e => 0 < e) (edges conf produce y tr) ->
  (exists tr0 d, tr = tr0 ++ [d] /\ 1 <= edge_of y d (conf (produce (length tr) d)) /\
     f = mkWM [1] [produce (length tr) d]) \/
  (forall i, wm_predict conf f i =
     sign_label (vote conf (combine (map (fun e => ln (1 / mada_factor e)) (edges conf produce y tr)) (answers produce tr)) i)).
Proof.
  intros H conf produce y s fuel tr f Hrun Hpos.
  destruct (mada_run_spec conf produce y fuel s) as [_ HF].
  destruct (HF tr f Hrun) as [[_ [Hsm Hf]]|Hp]; [right|left; exact Hp].
  intros i. pose proof (from_slices_spec conf (map (fun e => ln (1 / mada_factor e)) (edges conf produce y tr)) (answers produce tr)) as S.
  rewrite Hf in S. cbv zeta in S. destruct S as [Hz [_ [_ [_ [_ Hc]]]]].
  unfold wm_predict. rewrite predict_sign, Hc, sign_label_scale by exact Hz. rewrite kept_all; [reflexivity| |].
  - intros w Hw. apply in_map_iff in Hw. destruct Hw as [e [<- He]]. rewrite Forall_forall in Hpos, Hsm.
    apply mada_alpha_pos. specialize (Hpos e He). specialize (Hsm e He). unfold small in Hsm. lra.
  - rewrite map_length, edges_length, answers_length. reflexivity.
Qed.

(** two rounds on labels (+1,-1,-1) with the constant hypothesis +1: the hypotheses of the C15 refutation hold *)
Example C15_nonvacuous : exists d1 d2 rest,
  trace_of (run (madaboost (fun (h : nat -> R) i => h i) (fun _ _ _ => 1) y2) 3 (mada_force_quit_at (mada_init y2) 2)) = d1 :: d2 :: rest
  /\ -1 < edge_of y2 d1 (fun _ => 1) < 1.
Proof.
  set (conf := fun (h : nat -> R) (i : nat) => h i). set (pr := fun (_ : nat) (_ : list R) (_ : nat) => 1).
  set (s := mada_force_quit_at (@mada_init (nat -> R) y2) 2).
  assert (Hpre : exists s0, mada_pre y2 s = Ok s0) by (unfold mada_pre; rewrite y2_valid; eexists; reflexivity).
  destruct Hpre as [s0 Hpre]. pose proof (mada_pre_inv conf pr y2 s s0 Hpre) as I0.
  change (mada_limit y2 s) with 2%nat in I0.
  assert (Hedge : forall t d, is_pos_dist d /\ length d = 2%nat -> -1 < edge_of y2 d (conf (pr t d)) < 1).
  { intros t d [[Hp Hs] Hl]. destruct d as [|a [|b [|c d]]]; simpl in Hl; try lia. 
    assert (0 < a) by (apply Hp; left; reflexivity). assert (0 < b) by (apply Hp; right; left; reflexivity).
    simpl in Hs. unfold edge_of, conf, pr, y2. simpl. lra. }
  assert (Hsp : forall b d, capped_softmax b 2 d -> is_pos_dist d /\ length d = 2%nat).
  { intros b d Hc. split; [eapply (capped_softmax_pos b 2); [lia|exact Hc]|apply Hc]. }
  unfold run. simpl b_pre. rewrite Hpre.
  destruct (mada_boost_step conf pr y2 _ _ _ _ I0) as [[HL _]|[d1 [Hd1 [_ [[He _]|[He [s1 [E1 I1]]]]]]]].
  { simpl in HL. lia. }
  { pose proof (Hedge 1%nat d1 (Hsp _ _ Hd1)). exfalso. cbv zeta in He.
    assert (Rabs (edge_of y2 d1 (conf (pr 1%nat d1))) < 1) by (apply Rabs_def1; lra). lra. }
  cbn [run_from]. simpl b_boost. rewrite E1.
  destruct (mada_boost_step conf pr y2 _ _ _ _ I1) as [[HL _]|[d2 [Hd2 [_ [[He2 _]|[He2 [s2 [E2 I2]]]]]]]].
  { simpl in HL. lia. }
  { pose proof (Hedge 2%nat d2 (Hsp _ _ Hd2)). exfalso. cbv zeta in He2.
    assert (Rabs (edge_of y2 d2 (conf (pr 2%nat d2))) < 1) by (apply Rabs_def1; lra). lra. }
  rewrite E2. destruct (mada_boost_step conf pr y2 _ _ _ _ I2) as [[HL E3]|[d3 [_ [HL _]]]]; [|simpl in HL; lia].
  rewrite E3. exists d1, d2, []. split; [|exact He].
  destruct (b_post _ s2); reflexivity.
Qed.
