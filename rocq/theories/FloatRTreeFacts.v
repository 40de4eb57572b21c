(** Property C101: the regression tree learner in binary64. *)
From Coq Require Import ZArith List Bool Reals Lia Lra Psatz Permutation String.
From Flocq Require Import Core.Core IEEE754.BinarySingleNaN.
From Verif Require Import Base Feature FeatureFacts Sample SampleSpec SampleFacts Bins BinsSpec BinsProofs BinsFacts DTree TreeSpec TreeShape DTreeProofs DTreeOut DTreeSplit DTreeBest DTreeGrow Losses RTree RTreeSpec RTreeProofs RTreeFacts Float FloatSpec FloatProofs FloatFacts FloatCheckFacts FloatProjectProofs FloatProjectMain FloatEdgeFacts FloatMadaProofs FloatTree FloatTreeSpec FloatTreeProofs FloatTreeFacts FloatBestProofs FloatRTree FloatRTreeSpec FloatRTreeNum FloatRTreeTerm FloatRTreeScan FloatRTreeFeature FloatRTreeGrow.
Import ListNotations.
Open Scope R_scope.
Local Notation rtotal := TreeSpec.total.

Section Fit.
  Variables (s : sample) (y p : list f64) (bm : list (string * list bin)) (B lam : R).
  Local Notation n := (s_n_sample s).
  Local Notation r := (residual y p).
  Hypothesis G : good s.
  Hypothesis NN : NoDup (map feat_name (s_features s)).
  Hypothesis Hv : forall f i, In f (s_features s) -> (i < n)%nat -> F64MIN <= fval f i < F64MAX.
  Hypothesis Hb : forall f, In f (s_features s) -> exists bins, sm_get bm (feat_name f) = Ok bins /\ chain F64MIN F64MAX bins.
  Hypothesis Lp : 0 < lam.
  Hypothesis Bp : 0 < B.
  Hypothesis Hr : forall i, (i < n)%nat -> Rabs (r i) <= B.
  Local Notation inside idx := (idx <> [] /\ forall i, In i idx -> (i < n)%nat).
  Local Notation tau idx := (/ 2 ^ 24 * INR (length idx) * B ^ 2).

  Lemma answer_branch f th l q i : In f (s_features s) -> (i < n)%nat -> f_rt_predict (FBr (mkSplitter (feat_name f) th) l q) s i = if below (column f) th i then f_rt_predict l s i else f_rt_predict q s i.
  Proof.
    intros Hin Hi. unfold f_rt_predict. cbn [f_node_confidence]. rewrite (split_left_ok s G NN f th i Hin Hi). cbn [bind]. unfold below. rewrite (column_f s G f i Hin Hi). destruct (Rlt_dec (fval f i) th); reflexivity.
  Qed.
  Lemma fit_branch f th l q idx : In f (s_features s) -> (forall i, In i idx -> (i < n)%nat) ->
    fit_after y p lam (FBr (mkSplitter (feat_name f) th) l q) s idx = fit_after y p lam l s (filter (below (column f) th) idx) + fit_after y p lam q s (filter (not_below (column f) th) idx).
  Proof.
    intros Hin Hi. unfold fit_after. cbn [f_leaves]. rewrite map_app, rsum_app. assert (E : rsum (map (fun i => (r i + reg_answer (FBr (mkSplitter (feat_name f) th) l q) s i) ^ 2) idx) = rsum (map (fun i => (r i + reg_answer l s i) ^ 2) (filter (below (column f) th) idx)) + rsum (map (fun i => (r i + reg_answer q s i) ^ 2) (filter (not_below (column f) th) idx))); [|rewrite E, Rmult_plus_distr_l; match goal with |- ?a + ?b + (?c + ?d) = ?a + ?c2 + (?b + ?d2) => change c2 with c; change d2 with d; generalize a b c d end; intros; ring].
    induction idx as [|i I IH]; [simpl; ring|]. cbn [filter map rsum]. rewrite IH by (intros j Hj; apply Hi; right; exact Hj). unfold reg_answer at 1. rewrite answer_branch by (auto; apply Hi; left; reflexivity).
    assert (N : not_below (column f) th i = negb (below (column f) th i)) by (unfold below, not_below; destruct (Rlt_dec (column f i) th); reflexivity). rewrite N.
    destruct (below (column f) th i); cbn [negb map rsum]; unfold reg_answer; ring.
  Qed.
  Lemma before_two f th idx : fit_before y p idx = fit_before y p (filter (below (column f) th) idx) + fit_before y p (filter (not_below (column f) th) idx).
  Proof. symmetry. apply (total_two (fun i => r i ^ 2) (column f) th idx). Qed.
  Lemma len_two f th (idx : list nat) : INR (length idx) = INR (length (filter (below (column f) th) idx)) + INR (length (filter (not_below (column f) th) idx)).
  Proof. rewrite <- !total_one. symmetry. apply total_two. Qed.

  Lemma leaf_fit c idx : inside idx -> Rabs (val c - - rtotal r idx / (INR (length idx) + lam)) <= / 2 ^ 30 * B * (INR (length idx) / (INR (length idx) + lam)) ->
    fit_after y p lam (FLf c) s idx <= fit_before y p idx - side_score r one lam idx + tau idx.
  Proof.
    intros [Ne _] A. unfold fit_after, reg_answer. cbn [f_leaves map rsum]. change (f_rt_predict (FLf c) s) with (fun _ : nat => Ok c). cbv beta iota. rewrite side_real.
    assert (E : rsum (map (fun i => (r i + val c) ^ 2) idx) = fit_before y p idx + 2 * val c * rtotal r idx + INR (length idx) * val c ^ 2).
    { unfold fit_before, rtotal. clear. induction idx as [|i I IH]; [simpl; ring|]. change (length (i :: I)) with (S (length I)). rewrite S_INR. cbn [map rsum]. rewrite IH. ring. }
    rewrite E. set (T := rtotal r idx) in *. set (N := INR (length idx)) in *. assert (N1 : 1 <= N) by (unfold N; change 1 with (INR 1); apply le_INR; destruct idx; [congruence|simpl; lia]).
    set (v := val c) in *. clearbody v. replace (fit_before y p idx + 2 * v * T + N * v ^ 2 + lam * (v ^ 2 + 0)) with (fit_before y p idx - T ^ 2 / (N + lam) + (N + lam) * (v - - T / (N + lam)) ^ 2) by (field; lra).
    apply Rplus_le_compat_l. rewrite <- pow2_abs. apply Rle_trans with ((N + lam) * (/ 2 ^ 30 * B * (N / (N + lam))) ^ 2); [apply Rmult_le_compat_l; [lra|]; apply pow_incr; split; [apply Rabs_pos|exact A]|].
    replace ((N + lam) * (/ 2 ^ 30 * B * (N / (N + lam))) ^ 2) with ((/ 2 ^ 30) ^ 2 * (N / (N + lam)) * N * B ^ 2) by (generalize (/ 2 ^ 30); intros; field; lra).
    apply Rmult_le_compat_r; [apply pow2_ge_0|]. apply Rmult_le_compat_r; [lra|]. apply Rle_trans with ((/ 2 ^ 30) ^ 2 * 1); [apply Rmult_le_compat_l; [apply pow2_ge_0|]; apply Rdiv_le_iff; lra|]. simpl. lra.
  Qed.

  Lemma no_split_score f idx : In f (s_features s) -> (forall i, In i idx -> (i < n)%nat) -> exists t0, offered bm f t0 /\ split_score r one lam (column f) t0 idx = side_score r one lam idx.
  Proof.
    intros Hin Hi. destruct (Hb f Hin) as [bins [Eb C]]. exists F64MIN. split; [exists bins; split; [exact Eb|left; reflexivity]|].
    destruct (below_none (column f) F64MIN idx) as [A A']; [intros i H; rewrite (column_f s G f i Hin (Hi i H)); apply Hv; [exact Hin|apply Hi, H]|]. unfold split_score. rewrite A, A'. simpl side_score at 1. lra.
  Qed.

  Lemma tree_fit h : forall lev idx, inside idx -> nearly_greedy_reg B r lam (s_features s) bm h lev idx -> fit_after y p lam h s idx <= fit_before y p idx - side_score r one lam idx + (INR lev + 1) * tau idx.
  Proof.
    assert (C24 : 0 < / 2 ^ 24) by (apply Rinv_0_lt_compat, pow_lt; lra).
    induction h as [c|rule l IHl q IHr]; intros lev idx I H; cbn [nearly_greedy_reg] in H.
    - destruct H as [_ [A _]]. eapply Rle_trans; [apply leaf_fit; [exact I|exact A]|]. apply Rplus_le_compat_l. assert (0 <= tau idx) by (apply Rmult_le_pos; [apply Rmult_le_pos; [lra|apply pos_INR]|apply pow2_ge_0]). pose proof (pos_INR lev). rewrite <- (Rmult_1_l (tau idx)) at 1. apply Rmult_le_compat_r; lra.
    - destruct H as [lev' [f [-> [Er [NB [Nl [Nr [Gl Gr]]]]]]]]. destruct rule as [nm th]. cbn [sp_feature sp_threshold] in *. subst nm. destruct I as [Ne Ii]. assert (Hin : In f (s_features s)) by apply NB.
      rewrite fit_branch by assumption. assert (IL : inside (filter (below (column f) th) idx)) by (split; [exact Nl|intros i Hi; apply Ii; apply filter_In in Hi; tauto]). assert (IR : inside (filter (not_below (column f) th) idx)) by (split; [exact Nr|intros i Hi; apply Ii; apply filter_In in Hi; tauto]).
      specialize (IHl lev' _ IL Gl). specialize (IHr lev' _ IR Gr). rewrite (before_two f th idx). destruct (no_split_score f idx Hin Ii) as [t0 [T1 T2]]. destruct NB as [_ [_ NB]]. specialize (NB f t0 Hin T1). rewrite T2 in NB. unfold split_score in NB. rewrite S_INR.
      rewrite (len_two f th idx) in NB |- *. set (a := INR (length (filter (below (column f) th) idx))) in *. set (b := INR (length (filter (not_below (column f) th) idx))) in *. set (k := / 2 ^ 24 * B ^ 2) in *.
      replace (/ 2 ^ 24 * a * B ^ 2) with (a * k) in * by (unfold k; ring). replace (/ 2 ^ 24 * b * B ^ 2) with (b * k) in * by (unfold k; ring). replace (/ 2 ^ 24 * (a + b) * B ^ 2) with ((a + b) * k) in * by (unfold k; ring). lra.
  Qed.

  Lemma root_fit h lev idx : inside idx -> (2 <= lev)%nat -> / 2 ^ 30 * B * INR (length idx) < Rabs (rtotal r idx) -> nearly_greedy_reg B r lam (s_features s) bm h lev idx ->
    forall f' t', In f' (s_features s) -> offered bm f' t' -> fit_after y p lam h s idx <= fit_before y p idx - split_score r one lam (column f') t' idx + (INR lev + 1) * tau idx.
  Proof.
    assert (C24 : 0 < / 2 ^ 24) by (apply Rinv_0_lt_compat, pow_lt; lra).
    intros I Lv Tb H f' t' Hf' Ht'. destruct h as [c|rule l q]; cbn [nearly_greedy_reg] in H.
    - destruct H as [_ [A D]]. destruct D as [D|[D|[f [th [NB D]]]]]; [lia|lra|]. pose proof (leaf_fit c idx I A) as LF. destruct NB as [Hin [_ NB]]. specialize (NB f' t' Hf' Ht').
      assert (E : split_score r one lam (column f) th idx = side_score r one lam idx) by (destruct D as [D|D]; [destruct (below_all _ _ _ D) as [E1 E2]|destruct (below_none _ _ _ D) as [E1 E2]]; unfold split_score; rewrite E1, E2; simpl side_score; [rewrite Rplus_0_r|rewrite Rplus_0_l]; reflexivity).
      rewrite E in NB. assert (T0 : 0 <= tau idx) by (apply Rmult_le_pos; [apply Rmult_le_pos; [lra|apply pos_INR]|apply pow2_ge_0]). assert (2 <= INR lev) by (change 2 with (INR 2); apply le_INR, Lv). assert (3 * tau idx <= (INR lev + 1) * tau idx) by (apply Rmult_le_compat_r; lra). lra.
    - destruct H as [lev' [f [-> [Er [NB [Nl [Nr [Gl Gr]]]]]]]]. destruct rule as [nm th]. cbn [sp_feature sp_threshold] in *. subst nm. destruct I as [Ne Ii]. assert (Hin : In f (s_features s)) by apply NB.
      rewrite fit_branch by assumption. assert (IL : inside (filter (below (column f) th) idx)) by (split; [exact Nl|intros i Hi; apply Ii; apply filter_In in Hi; tauto]). assert (IR : inside (filter (not_below (column f) th) idx)) by (split; [exact Nr|intros i Hi; apply Ii; apply filter_In in Hi; tauto]).
      pose proof (tree_fit l lev' _ IL Gl) as IHl. pose proof (tree_fit q lev' _ IR Gr) as IHr. rewrite (before_two f th idx). destruct NB as [_ [_ NB]]. specialize (NB f' t' Hf' Ht'). unfold split_score in NB at 2. rewrite S_INR.
      rewrite (len_two f th idx) in NB |- *. set (a := INR (length (filter (below (column f) th) idx))) in *. set (b := INR (length (filter (not_below (column f) th) idx))) in *. set (k := / 2 ^ 24 * B ^ 2) in *.
      replace (/ 2 ^ 24 * a * B ^ 2) with (a * k) in * by (unfold k; ring). replace (/ 2 ^ 24 * b * B ^ 2) with (b * k) in * by (unfold k; ring). replace (/ 2 ^ 24 * (a + b) * B ^ 2) with ((a + b) * k) in * by (unfold k; ring). lra.
  Qed.

  Lemma answers_fine h : forall lev idx, inside idx -> nearly_greedy_reg B r lam (s_features s) bm h lev idx -> forall i, (i < n)%nat -> exists c, f_rt_predict h s i = Ok c /\ In c (f_leaves h) /\ finite_num c /\ Rabs (val c) <= (1 + / 2 ^ 30) * B.
  Proof.
    induction h as [c|rule l IHl q IHr]; intros lev idx [Ne Ii] H i Hi; cbn [nearly_greedy_reg] in H.
    - destruct H as [F [A _]]. exists c. split; [reflexivity|]. split; [left; reflexivity|]. split; [exact F|].
      assert (TB : Rabs (rtotal r idx) <= B * INR (length idx)) by (unfold rtotal; rewrite <- rsum_const; apply rsum_bound; intros j Hj; apply Hr, Ii, Hj).
      assert (N1 : 1 <= INR (length idx)) by (change 1 with (INR 1); apply le_INR; destruct idx; [congruence|simpl; lia]). set (N := INR (length idx)) in *. set (T := rtotal r idx) in *. set (v := val c) in *. clearbody v.
      assert (Q : Rabs (- T / (N + lam)) <= B). { unfold Rdiv. rewrite Rabs_mult, Rabs_Ropp, (Rabs_pos_eq (/ (N + lam))) by (left; apply Rinv_0_lt_compat; lra). apply Rdiv_le_iff; [lra|]. eapply Rle_trans; [exact TB|]. apply Rmult_le_compat_l; lra. }
      assert (Q2 : / 2 ^ 30 * B * (N / (N + lam)) <= / 2 ^ 30 * B * 1). { assert (0 < / 2 ^ 30) by (apply Rinv_0_lt_compat, pow_lt; lra). apply Rmult_le_compat_l; [apply Rmult_le_pos; lra|]. apply Rdiv_le_iff; lra. }
      apply Rabs_le_inv in Q. apply Rabs_le_inv in A. apply Rabs_le. lra.
    - destruct H as [lev' [f [_ [Er [NB [Nl [Nr [Gl Gr]]]]]]]]. destruct rule as [nm th]. cbn [sp_feature sp_threshold] in *. subst nm. assert (Hin : In f (s_features s)) by apply NB. rewrite answer_branch by assumption.
      assert (IL : inside (filter (below (column f) th) idx)) by (split; [exact Nl|intros j Hj; apply Ii; apply filter_In in Hj; tauto]). assert (IR : inside (filter (not_below (column f) th) idx)) by (split; [exact Nr|intros j Hj; apply Ii; apply filter_In in Hj; tauto]).
      destruct (below (column f) th i); [destruct (IHl lev' _ IL Gl i Hi) as [c [C1 [C2 C3]]]|destruct (IHr lev' _ IR Gr i Hi) as [c [C1 [C2 C3]]]]; exists c; (split; [exact C1|split; [cbn [f_leaves]; apply in_or_app; tauto|exact C3]]).
  Qed.
End Fit.

Lemma grad_rows y p N B : length y = N -> length p = N -> finite_all y -> finite_all p -> / 2 ^ 400 <= B <= 2 ^ 400 -> (forall i, (i < N)%nat -> Rabs (residual y p i) <= B) ->
  exists g, f_gradient L2 p y = Ok g /\ f_hessian L2 p y = Ok (repeat f1 N) /\ length g = N /\ forall i, (i < N)%nat -> near_row g (residual y p) B i.
Proof.
  intros Ly Lp Fy Fp HB HR. assert (Bp : 0 < B) by (assert (0 < / 2 ^ 400) by (apply Rinv_0_lt_compat, pow_lt; lra); lra). unfold f_gradient, f_hessian. unfold f64 in *. rewrite Ly, Lp, Nat.eqb_refl. cbn [assert_ bind].
  eexists. split; [reflexivity|]. split; [reflexivity|]. split; [rewrite map_length, combine_length, Ly, Lp; apply Nat.min_id|]. intros i Hi. unfold near_row, residual in *. specialize (HR i Hi).
  assert (E : nth i (map (fun q : binary_float 53 1024 * binary_float 53 1024 => fsub (snd q) (fst q)) (combine y p)) f0 = fsub (nth i p f0) (nth i y f0)).
  { rewrite (nth_indep _ f0 (fsub f0 f0)) by (rewrite map_length, combine_length; unfold f64 in *; rewrite Ly, Lp, Nat.min_id; exact Hi). change (fsub f0 f0) with ((fun q : f64 * f64 => fsub (snd q) (fst q)) (f0, f0)). rewrite map_nth, combine_nth by (exact (eq_trans Ly (eq_sym Lp))). reflexivity. }
  match goal with |- _ /\ Rabs (val ?a - _) <= _ /\ _ => change a with (nth i (map (fun q : binary_float 53 1024 * binary_float 53 1024 => fsub (snd q) (fst q)) (combine y p)) f0) end. rewrite E. destruct (fsub_rnd (nth i p f0) (nth i y f0)) as [F [_ [e [He V]]]]; [apply Fp, nth_In; unfold f64 in *; rewrite Lp; exact Hi|apply Fy, nth_In; unfold f64 in *; rewrite Ly; exact Hi|eapply Rle_trans; [exact HR|]; apply Rle_trans with (2 ^ 400); [lra|apply Rle_pow; [lra|lia]]|].
  split; [exact F|]. split; [|exact HR]. rewrite V. change (Rabs ((val (nth i p f0) - val (nth i y f0)) * (1 + e) - (val (nth i p f0) - val (nth i y f0))) <= uu * B). change (Rabs (val (nth i p f0) - val (nth i y f0)) <= B) in HR. revert HR. generalize (val (nth i p f0) - val (nth i y f0)). intros d HR. replace (d * (1 + e) - d) with (e * d) by ring. rewrite Rabs_mult. apply Rmult_le_compat; try apply Rabs_pos; assumption.
Qed.

(** the setting of C101 *)
Lemma produce_near sched s b t y p lambda B : summing sched -> trainable s -> rt_made s b -> rb_build b s = Ok t -> rb_loss b = Some L2 -> map val y = s_target s -> finite_all y -> finite_all p -> length p = fst (shape s) ->
  INR (fst (shape s)) <= 2 ^ 16 -> finite_num lambda -> val lambda = rb_lambda b -> / 2 ^ 20 <= rb_lambda b <= 2 ^ 100 -> / 2 ^ 400 <= B <= 2 ^ 400 -> (forall i, (i < fst (shape s))%nat -> Rabs (residual y p i) <= B) ->
  exists h, f_rt_produce sched (rt_bins t) (rt_n t) (rt_depth t) lambda (rt_loss t) s y p = Ok h /\ nearly_greedy_reg B (residual y p) (rb_lambda b) (s_features s) (rt_bins t) h (rb_depth b) (all_rows s).
Proof.
  intros Hs Tr Mb Eb EL Ey Fy Fp Lpp N16 Fl Vl L0 B0 HR. assert (Lpos : 0 < rb_lambda b) by (assert (0 < / 2 ^ 20) by (apply Rinv_0_lt_compat, pow_lt; lra); lra).
  destruct (use_hyp s b t Tr Eb ltac:(lra)) as [G [NN [Hf [Hv [Hb _]]]]]. assert (Tt := Tr). destruct Tt as [_ [N0 [_ [_ [Lt Mod]]]]].
  assert (Bt : rt_depth t = rb_depth b /\ rt_loss t = L2 /\ rt_n t = fst (shape s)).
  { unfold rb_build in Eb. destruct (cut_all (rb_nbins b) (s_features s)); [|discriminate]. cbn [bind] in Eb. rewrite EL in Eb. inversion Eb. auto. }
  destruct Bt as [-> [-> ->]]. assert (Ly : length y = fst (shape s)) by (rewrite <- Lt, <- Ey, map_length; reflexivity).
  destruct (grad_rows y p (fst (shape s)) B Ly Lpp Fy Fp B0 HR) as [g [E1 [E2 [Lg Ng]]]]. unfold f_rt_produce. rewrite E1. cbn [bind]. rewrite E2. cbn [bind]. 
  apply (tree_ok sched Hs s g (residual y p) (rt_bins t) B (rb_lambda b) lambda G NN Hf Lg Hv Hb B0 Fl Vl L0 (rb_depth b) (seq 0 (fst (shape s)))).
  split; [destruct (fst (shape s)); [lia|discriminate]|]. split; [rewrite seq_length; exact N16|]. intros i Hi. apply in_seq in Hi. split; [simpl in Hi; simpl; lia|apply Ng; lia].
Qed.

(** ** C101: every split of the tree nearly maximises the score, every leaf nearly holds the shrunk mean of its residuals *)
Lemma P_C101_tree_nearly_greedy :
  forall sched s b t y predictions lambda B, summing sched -> trainable s -> rt_made s b -> rb_build b s = Ok t -> rb_loss b = Some L2 ->
  map val y = s_target s -> finite_all y -> finite_all predictions -> length predictions = fst (shape s) -> INR (fst (shape s)) <= 2 ^ 16 ->
  finite_num lambda -> val lambda = rb_lambda b -> / 2 ^ 20 <= rb_lambda b <= 2 ^ 100 ->
  / 2 ^ 400 <= B <= 2 ^ 400 -> (forall i, (i < fst (shape s))%nat -> Rabs (residual y predictions i) <= B) ->
  exists h, f_rt_produce sched (rt_bins t) (rt_n t) (rt_depth t) lambda (rt_loss t) s y predictions = Ok h /\
    nearly_greedy_reg B (residual y predictions) (rb_lambda b) (s_features s) (rt_bins t) h (rb_depth b) (all_rows s).
Proof. exact produce_near. Qed.

(** ** C101: adding the answers to the predictions lowers the penalised squared error as it should *)
Lemma P_C101_fit :
  forall sched s b t y predictions lambda B, summing sched -> trainable s -> rt_made s b -> rb_build b s = Ok t -> rb_loss b = Some L2 ->
  map val y = s_target s -> finite_all y -> finite_all predictions -> length predictions = fst (shape s) -> INR (fst (shape s)) <= 2 ^ 16 ->
  finite_num lambda -> val lambda = rb_lambda b -> / 2 ^ 20 <= rb_lambda b <= 2 ^ 100 ->
  / 2 ^ 400 <= B <= 2 ^ 400 -> (forall i, (i < fst (shape s))%nat -> Rabs (residual y predictions i) <= B) ->
  let n := INR (fst (shape s)) in let sum := rsum (map (residual y predictions) (all_rows s)) in let loss := INR (rb_depth b + 1) * (/ 2 ^ 24 * n * B ^ 2) in
  exists h, f_rt_produce sched (rt_bins t) (rt_n t) (rt_depth t) lambda (rt_loss t) s y predictions = Ok h /\
    (forall i, (i < fst (shape s))%nat -> exists c, f_rt_predict h s i = Ok c /\ In c (f_leaves h) /\ finite_num c /\ Rabs (val c) <= (1 + / 2 ^ 30) * B) /\
    fit_after y predictions (rb_lambda b) h s (all_rows s) <= fit_before y predictions (all_rows s) - sum ^ 2 / (n + rb_lambda b) + loss /\
    ((2 <= rb_depth b)%nat -> / 2 ^ 30 * B * n < Rabs sum -> forall f t0, In f (s_features s) -> offered (rt_bins t) f t0 ->
      fit_after y predictions (rb_lambda b) h s (all_rows s) <= fit_before y predictions (all_rows s) - split_score (residual y predictions) one (rb_lambda b) (column f) t0 (all_rows s) + loss).
Proof.
  intros sched s b t y p lambda B Hs Tr Mb Eb EL Ey Fy Fp Lpp N16 Fl Vl L0 B0 HR n sum loss. destruct (produce_near sched s b t y p lambda B Hs Tr Mb Eb EL Ey Fy Fp Lpp N16 Fl Vl L0 B0 HR) as [h [E NG]]. exists h. split; [exact E|].
  assert (Lpos : 0 < rb_lambda b) by (assert (0 < / 2 ^ 20) by (apply Rinv_0_lt_compat, pow_lt; lra); lra). assert (Bp : 0 < B) by (assert (0 < / 2 ^ 400) by (apply Rinv_0_lt_compat, pow_lt; lra); lra).
  destruct (use_hyp s b t Tr Eb ltac:(lra)) as [G [NN [Hf [Hv [Hb _]]]]]. assert (Tt := Tr). destruct Tt as [_ [N0 _]].
  assert (I : all_rows s <> [] /\ forall i, In i (all_rows s) -> (i < s_n_sample s)%nat) by (unfold all_rows; split; [destruct (fst (shape s)); [lia|discriminate]|intros i Hi; apply in_seq in Hi; simpl in Hi; simpl; lia]).
  assert (Ln : INR (length (all_rows s)) = n) by (unfold all_rows; rewrite seq_length; reflexivity).
  split; [exact (answers_fine s y p (rt_bins t) B (rb_lambda b) G NN Lpos Bp HR h (rb_depth b) (all_rows s) I NG)|].
  assert (EL2 : (INR (rb_depth b) + 1) * (/ 2 ^ 24 * INR (length (all_rows s)) * B ^ 2) = loss) by (unfold loss; rewrite Ln, plus_INR; reflexivity). split.
  - pose proof (tree_fit s y p (rt_bins t) B (rb_lambda b) G NN Hv Hb Lpos h (rb_depth b) (all_rows s) I NG) as Q. rewrite side_real, Ln in Q. rewrite Ln in EL2. rewrite EL2 in Q. exact Q.
  - intros D2 Tb f t0 Hf' Ht'. pose proof (root_fit s y p (rt_bins t) B (rb_lambda b) G NN Hv Hb Lpos h (rb_depth b) (all_rows s) I D2) as Q. rewrite EL2 in Q. apply Q; try assumption. rewrite Ln. exact Tb.
Qed.

(** ** C101: a sample that meets the hypotheses, and one that shows why lambda may not be zero *)
Definition rx_sample (y : list f64) : sample := from_dataframe [("a"%string, [0; 1; 3])] 3 (map val y).
Definition rx_builder (lambda : R) : rt_builder := mkRTB [("a"%string, 3%nat)] 2 lambda (Some L2).
Definition rx_tree (lambda : R) : rtree := mkRTree [("a"%string, gx_bins)] 3 2 lambda L2.
Lemma rx_trainable y : length y = 3%nat -> trainable (rx_sample y).
Proof.
  intros Ly. pose proof F64MAX_big as B. split; [|split; [|split; [|split; [|split]]]].
  - apply made_dataframe. intros p [<-|[]]. reflexivity.
  - simpl. lia.
  - simpl. discriminate.
  - simpl. constructor; [intros []|constructor].
  - unfold rx_sample. simpl. rewrite map_length. exact Ly.
  - intros f x [<-|[]] Hx. unfold moderate. destruct Hx as [<-|[<-|[<-|[]]]]; rewrite Rabs_pos_eq; lra.
Qed.
Lemma rx_made y lambda : rt_made (rx_sample y) (rx_builder lambda).
Proof.
  assert (E : rb_new (rx_sample y) = mkRTB [("a"%string, 3%nat)] 2 (/ 100) None).
  { unfold rb_new. change (s_features (rx_sample y)) with [gx_feature]. cbn [map]. rewrite gx_distinct. reflexivity. }
  pose proof (rm_new (rx_sample y)) as M. rewrite E in M. apply (rm_loss _ _ L2) in M. apply (rm_lambda _ _ lambda) in M. exact M.
Qed.
Lemma rx_built y lambda : rb_build (rx_builder lambda) (rx_sample y) = Ok (rx_tree lambda).
Proof. unfold rb_build, rx_builder. change (s_features (rx_sample y)) with [gx_feature]. cbn [cut_all rb_nbins]. change (sm_get _ (feat_name gx_feature)) with (Ok 3%nat : res nat). cbn [bind]. rewrite gx_cut. reflexivity. Qed.
Lemma ex_C101 : forall sched, summing sched ->
  let y := [f1; f1; fopp f1] in let p := [f0; f0; f0] in
  exists h, f_rt_produce sched (rt_bins (rx_tree 1)) 3 2 f1 L2 (rx_sample y) y p = Ok h /\
    fit_after y p 1 h (rx_sample y) (all_rows (rx_sample y)) <= 7 / 6 + 1 / 1000.
Proof.
  intros sched Hs y p. unfold f64 in *. destruct f1_spec as [F1 V1].
  assert (Fo : fin (fopp f1) /\ val (fopp f1) = -1) by (split; [reflexivity|rewrite fopp_val, V1; reflexivity]). destruct Fo as [Fo Vo].
  assert (R3 : residual y p 0 = -1 /\ residual y p 1 = -1 /\ residual y p 2 = 1) by (unfold residual, y, p; cbn [nth]; rewrite V1, Vo, val_f0; repeat split; lra). destruct R3 as [R0 [R1 R2]].
  destruct (P_C101_fit sched (rx_sample y) (rx_builder 1) (rx_tree 1) y p f1 1) as [h [E [_ [_ Q]]]]; try assumption; try reflexivity.
  - apply rx_trainable. reflexivity.
  - apply rx_made.
  - apply rx_built.
  - intros x [<- |[<- |[<- |[]]]]; assumption.
  - intros x [<- |[<- |[<- |[]]]]; apply fin_f0.
  - simpl. lra.
  - cbn [rb_lambda rx_builder]. simpl. lra.
  - split; [|apply pow_R1_Rle; lra]. rewrite <- Rinv_1. apply Rinv_le_contravar; [lra|apply pow_R1_Rle; lra].
  - intros i Hi. destruct i as [|[|[|i]]]; [rewrite R0|rewrite R1|rewrite R2|simpl in Hi; lia]; [rewrite Rabs_left by lra; lra|rewrite Rabs_left by lra; lra|rewrite Rabs_pos_eq by lra; lra].
  - exists h. split; [exact E|]. specialize (Q ltac:(simpl; lia)).
    assert (ES : rsum (map (residual y p) (all_rows (rx_sample y))) = -1) by (change (all_rows (rx_sample y)) with [0; 1; 2]%nat; cbn [map rsum]; rewrite R0, R1, R2; ring).
    rewrite ES in Q. change (fst (shape (rx_sample y))) with 3%nat in Q. assert (J : / 2 ^ 30 * 1 * INR 3 < Rabs (-1)) by (rewrite (Rabs_left (-1)) by lra; simpl; lra). specialize (Q J gx_feature 2 (or_introl eq_refl)).
    assert (OF : offered (rt_bins (rx_tree 1)) gx_feature 2) by (exists gx_bins; split; [reflexivity|right; right; left; reflexivity]). specialize (Q OF). cbn [rb_lambda rx_builder rb_depth] in Q. eapply Rle_trans; [exact Q|].
    unfold fit_before, split_score. change (all_rows (rx_sample y)) with [0; 1; 2]%nat. assert (F1' : filter (below (column gx_feature) 2) [0; 1; 2]%nat = [0; 1]%nat /\ filter (not_below (column gx_feature) 2) [0; 1; 2]%nat = [2]%nat).
    { unfold below, not_below, column, gx_feature. cbn [filter feat_index nth_error]. destruct (Rlt_dec 0 2); [|lra]. destruct (Rlt_dec 1 2); [|lra]. destruct (Rlt_dec 3 2); [lra|]. split; reflexivity. }
    destruct F1' as [-> ->]. rewrite !side_real. unfold rtotal. cbn [map rsum length]. rewrite R0, R1, R2. simpl. lra.
Qed.

Lemma rx_half : exists y c, y = [f_01; f_02; f_03] /\ finite_all y /\ Rabs (val f_01 - / 10) <= / 1000 /\ Rabs (val f_02 - 2 / 10) <= / 1000 /\ Rabs (val f_03 - 3 / 10) <= / 1000 /\
  f_rt_produce fsum (rt_bins (rx_tree 0)) 3 2 f0 L2 (rx_sample y) y [f0; f0; f0] = Ok (FLf c).
Proof.
  exists [f_01; f_02; f_03], (fdiv (fopp (fsum [fsub f0 f_01; fsub f0 f_02; fsub f0 f_03])) (fadd (fsum [f1; f1; f1]) f0)). pose proof F64MAX_big as BM.
  unfold f_01, f_02, f_03. destruct (normalize_exact 3602879701896397 (-55)) as [Fa Va]; [reflexivity|lia|]. destruct (normalize_exact 3602879701896397 (-54)) as [Fb Vb]; [reflexivity|lia|]. destruct (normalize_exact 5404319552844595 (-54)) as [Fc Vc]; [reflexivity|lia|].
  fold f_01 f_02 f_03 in *. split; [reflexivity|]. split; [intros x [<- |[<- |[<- |[]]]]; assumption|]. rewrite Va, Vb, Vc. split; [apply Rabs_le; simpl; lra|]. split; [apply Rabs_le; simpl; lra|]. split; [apply Rabs_le; simpl; lra|].
  set (g := [fsub f0 f_01; fsub f0 f_02; fsub f0 f_03]). set (hh := [f1; f1; f1]).
  unfold f_rt_produce. assert (GE : f_gradient L2 [f0; f0; f0] [f_01; f_02; f_03] = Ok g) by reflexivity. assert (HE : f_hessian L2 [f0; f0; f0] [f_01; f_02; f_03] = Ok hh) by reflexivity. rewrite GE. cbn [bind]. rewrite HE. cbn [bind].
  change (f_rt_full_tree fsum [("a"%string, gx_bins)] (rx_sample [f_01; f_02; f_03]) g hh f0 2 [0; 1; 2]%nat = Ok (FLf (fdiv (fopp (fsum g)) (fadd (fsum hh) f0)))).
  cbn [f_rt_full_tree]. assert (PL : f_prediction_and_loss fsum [0; 1; 2]%nat g hh f0 = Ok (fdiv (fopp (fsum g)) (fadd (fsum hh) f0), fdiv (fmul f_mhalf (fmul (fsum g) (fsum g))) (fadd (fsum hh) f0))) by reflexivity.
  rewrite PL. cbn [bind]. assert (LZ : feq (fdiv (fmul f_mhalf (fmul (fsum g) (fsum g))) (fadd (fsum hh) f0)) f0 = false) by (vm_compute; reflexivity). rewrite LZ. cbn [orb Nat.leb].
  assert (PK : f_rt_pack gx_bins [0; 1; 2]%nat gx_feature g hh = Ok [(mkBin F64MIN 1, (fadd f0 (fsub f0 f_01), fadd f0 f1)); (mkBin 1 2, (fadd f0 (fsub f0 f_02), fadd f0 f1)); (mkBin 2 F64MAX, (fadd f0 (fsub f0 f_03), fadd f0 f1))]).
  { destruct gx_find as [F0 [F1 F2]]. unfold f_rt_pack. change (repeat (f0, f0) (length gx_bins)) with [(f0, f0); (f0, f0); (f0, f0)]. cbn [pack_loop]. unfold gx_feature. cbn [feat_index nth_error bind]. rewrite F0. unfold f_rt_add, f_get. unfold g, hh. cbn [nth_error bind nth upd fst snd]. rewrite F1. cbn [bind nth upd fst snd]. rewrite F2. cbn [bind nth upd fst snd].
    assert (Z1 : f_gh_zero (fadd f0 (fsub f0 f_01), fadd f0 f1) = false) by (vm_compute; reflexivity). assert (Z2 : f_gh_zero (fadd f0 (fsub f0 f_02), fadd f0 f1) = false) by (vm_compute; reflexivity). assert (Z3 : f_gh_zero (fadd f0 (fsub f0 f_03), fadd f0 f1) = false) by (vm_compute; reflexivity).
    unfold remove_empty, gx_bins. cbn [combine filter snd fst]. rewrite Z1, Z2, Z3. cbn [negb]. cbn [merge_loop bind map fst snd length]. try rewrite Z1. try rewrite Z2. try rewrite Z3. cbn [b_start b_end]. replace ((1 + 1) / 2) with 1 by lra. replace ((2 + 2) / 2) with 2 by lra. reflexivity. }
  assert (BS : f_rt_best_split fsum [("a"%string, gx_bins)] (rx_sample [f_01; f_02; f_03]) g hh [0; 1; 2]%nat f0 = Ok ("a"%string, F64MAX)).
  { unfold f_rt_best_split. change (s_features (rx_sample [f_01; f_02; f_03])) with [gx_feature]. cbn [f_rt_eval]. change (sm_get [("a"%string, gx_bins)] (feat_name gx_feature)) with (Ok gx_bins : res (list bin)). cbn [bind]. rewrite PK. cbn [bind is_nil negb andb].
    assert (SC : fst (f_best_split_at fsum [(mkBin F64MIN 1, (fadd f0 (fsub f0 f_01), fadd f0 f1)); (mkBin 1 2, (fadd f0 (fsub f0 f_02), fadd f0 f1)); (mkBin 2 F64MAX, (fadd f0 (fsub f0 f_03), fadd f0 f1))] f0) = F64MAX).
    { unfold f_best_split_at. cbn [map fst snd f_score_loop b_end].
      match goal with |- fst (if flt f_MIN ?a then if flt ?a ?b then if flt ?b ?c then _ else _ else _ else _) = _ => assert (C1 : flt f_MIN a = true) by (vm_compute; reflexivity); assert (C2 : flt b c = true) by (vm_compute; reflexivity); assert (C3 : flt a c = true) by (vm_compute; reflexivity); rewrite C1, C2, C3; destruct (flt a b); reflexivity end. }
    rewrite SC. cbn [f_pick_max]. reflexivity. }
  rewrite BS. cbn [bind fst snd]. destruct (use_hyp (rx_sample [f_01; f_02; f_03]) (rx_builder 0) (rx_tree 0) (rx_trainable [f_01; f_02; f_03] eq_refl) (rx_built [f_01; f_02; f_03] 0) ltac:(simpl; lra)) as [G [NN [_ [Hv _]]]].
  change "a"%string with (feat_name gx_feature). rewrite (partition_ok (rx_sample [f_01; f_02; f_03]) G NN gx_feature F64MAX [0; 1; 2]%nat); [|left; reflexivity|intros i [<- |[<- |[<- |[]]]]; simpl; lia]. cbn [bind fst snd].
  destruct (below_all (fval gx_feature) F64MAX [0; 1; 2]%nat) as [_ A2]; [intros i Hi; apply Hv; [left; reflexivity|destruct Hi as [<- |[<- |[<- |[]]]]; simpl; lia]|]. rewrite A2. cbn [is_nil]. rewrite orb_true_r. reflexivity.
Qed.

(** ** C101: with lambda = 0 rounding errors divided by zero win, and the tree may refuse to grow although a question is clearly better *)
Lemma P_C101_zero_lambda_refuted :
  exists s b t y predictions, trainable s /\ rt_made s b /\ rb_build b s = Ok t /\ rb_loss b = Some L2 /\ rb_lambda b = 0 /\ rb_depth b = 2%nat /\
  map val y = s_target s /\ finite_all y /\ finite_all predictions /\ length predictions = fst (shape s) /\ (forall i, (i < fst (shape s))%nat -> Rabs (residual y predictions i) <= 1) /\
  exists sched h f t0, summing sched /\ f_rt_produce sched (rt_bins t) (rt_n t) (rt_depth t) f0 (rt_loss t) s y predictions = Ok (FLf h) /\
    In f (s_features s) /\ offered (rt_bins t) f t0 /\
    11 / 10 * side_score (residual y predictions) one 0 (all_rows s) < split_score (residual y predictions) one 0 (column f) t0 (all_rows s).
Proof.
  destruct rx_half as [y [c [Ey [Fy [Va [Vb [Vc E]]]]]]]. exists (rx_sample y), (rx_builder 0), (rx_tree 0), y, [f0; f0; f0].
  apply Rabs_le_inv in Va. apply Rabs_le_inv in Vb. apply Rabs_le_inv in Vc.
  assert (R3 : residual y [f0; f0; f0] 0 = - val f_01 /\ residual y [f0; f0; f0] 1 = - val f_02 /\ residual y [f0; f0; f0] 2 = - val f_03) by (rewrite Ey; unfold residual; cbn [nth]; rewrite val_f0, !Rminus_0_l; repeat split; reflexivity). destruct R3 as [R0 [R1 R2]].
  split; [apply rx_trainable; rewrite Ey; reflexivity|]. split; [apply rx_made|]. split; [apply rx_built|]. split; [reflexivity|]. split; [reflexivity|]. split; [reflexivity|]. split; [reflexivity|]. split; [exact Fy|].
  split; [intros x [<- |[<- |[<- |[]]]]; apply fin_f0|]. split; [reflexivity|]. revert Va Vb Vc R0 R1 R2. generalize (val f_01) (val f_02) (val f_03). intros a b d Va Vb Vc R0 R1 R2.
  split; [intros i Hi; destruct i as [|[|[|i]]]; [rewrite R0|rewrite R1|rewrite R2|simpl in Hi; lia]; apply Rabs_le; lra|].
  exists fsum, c, gx_feature, 1. split; [intros l; exists (FLeaf l); split; [apply Permutation_refl|reflexivity]|]. split; [exact E|]. split; [left; reflexivity|]. split; [exists gx_bins; split; [reflexivity|right; left; reflexivity]|].
  unfold split_score. change (all_rows (rx_sample y)) with [0; 1; 2]%nat. assert (F1' : filter (below (column gx_feature) 1) [0; 1; 2]%nat = [0]%nat /\ filter (not_below (column gx_feature) 1) [0; 1; 2]%nat = [1; 2]%nat).
  { unfold below, not_below, column, gx_feature. cbn [filter feat_index nth_error]. destruct (Rlt_dec 0 1); [|lra]. destruct (Rlt_dec 1 1); [lra|]. destruct (Rlt_dec 3 1); [lra|]. split; reflexivity. }
  destruct F1' as [-> ->]. rewrite !side_real. unfold rtotal. cbn [map rsum length]. rewrite R0, R1, R2. clear - Va Vb Vc.
  assert (A1 : 0.0098 <= a ^ 2) by nra. assert (A2 : 0.248 <= (b + d) ^ 2) by nra. assert (A3 : (a + b + d) ^ 2 <= 0.364) by nra.
  replace ((- a + (- b + (- d + 0))) ^ 2) with ((a + b + d) ^ 2) by ring. replace ((- a + 0) ^ 2) with (a ^ 2) by ring. replace ((- b + (- d + 0)) ^ 2) with ((b + d) ^ 2) by ring.
  replace (INR 3 + 0) with 3 by (simpl; lra). replace (INR 1 + 0) with 1 by (simpl; lra). replace (INR 2 + 0) with 2 by (simpl; lra). lra.
Qed.

Example C101_applies : forall sched, summing sched ->
  let y := [f1; f1; fopp f1] in let p := [f0; f0; f0] in
  exists h, f_rt_produce sched (rt_bins (rx_tree 1)) 3 2 f1 L2 (rx_sample y) y p = Ok h /\
    fit_after y p 1 h (rx_sample y) (all_rows (rx_sample y)) <= 7 / 6 + 1 / 1000.
Proof. exact ex_C101. Qed.
