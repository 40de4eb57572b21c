(** Property C47: the Gaussian naive Bayes learner. *)
From Verif Require Import Base Spec SampleSpec NBSpec AdaBoost AdaBoostProofs AdaBoostMore SortLib Utils Feature FeatureFacts Sample MLPProofs NBayes.
Open Scope R_scope.

Lemma mapM_ok {A B} (f : A -> res B) (g : A -> B) l : (forall a, In a l -> f a = Ok (g a)) -> mapM f l = Ok (map g l).
Proof.
  induction l as [|a t IH]; intros H; [reflexivity|]. cbn [mapM map]. rewrite (H a (or_introl eq_refl)). cbn [bind]. rewrite IH by (intros x Hx; apply H; right; exact Hx). reflexivity.
Qed.

Lemma mapM_inv {A B} (f : A -> res B) : forall l r, mapM f l = Ok r -> length r = length l /\ forall i a b, nth_error l i = Some a -> nth_error r i = Some b -> f a = Ok b.
Proof.
  induction l as [|a t IH]; intros r E; cbn [mapM] in E; [injection E as <-; split; [reflexivity|intros [|i] ? ? H; discriminate H]|].
  destruct (f a) as [b|p] eqn:Ef; cbn [bind] in E; [|discriminate]. destruct (mapM f t) as [r'|p]; cbn [bind] in E; [|discriminate]. injection E as <-.
  destruct (IH r' eq_refl) as [L N]. split; [simpl; lia|]. intros [|i] a' b' Ha Hb; simpl in *; [injection Ha as <-; injection Hb as <-; exact Ef|apply (N i); assumption].
Qed.

Lemma normal_density_pos m v x : 0 < v -> 0 < normal_density m v x.
Proof. intros Hv. apply Rdiv_lt_0_compat; [apply exp_pos|apply sqrt_lt_R0]. pose proof PI_RGT_0. apply Rmult_lt_0_compat; lra. Qed.

Lemma ln_normal m v x : 0 < v -> ln (normal_density m v x) = - (1 / 2) * (ln (2 * PI) + (x - m) ^ 2 / v + ln v).
Proof.
  intros Hv. pose proof PI_RGT_0 as P. unfold normal_density. assert (0 < 2 * PI * v) by (apply Rmult_lt_0_compat; lra).
  unfold Rdiv at 1. rewrite ln_mult, ln_exp, ln_Rinv by (try apply exp_pos; try apply Rinv_0_lt_compat; apply sqrt_lt_R0; lra).
  assert (E : ln (sqrt (2 * PI * v)) = (ln (2 * PI) + ln v) / 2).
  { rewrite <- (ln_mult (2 * PI) v) by lra. assert (S : sqrt (2 * PI * v) * sqrt (2 * PI * v) = 2 * PI * v) by (apply sqrt_sqrt; lra).
    rewrite <- S at 2. rewrite ln_mult by (apply sqrt_lt_R0; lra). field. }
  rewrite E. field. lra.
Qed.

Lemma naive_pos : forall ms vs xs, (forall v, In v vs -> 0 < v) -> 0 < naive_density ms vs xs.
Proof.
  induction ms as [|m ms IH]; intros [|v vs] [|x xs] H; cbn [naive_density]; try lra. apply Rmult_lt_0_compat; [apply normal_density_pos, H; left; reflexivity|apply IH; intros u Hu; apply H; right; exact Hu].
Qed.

Lemma gauss_sum_spec : forall ms vs fs row xs k, length ms = length fs -> length vs = length fs -> (forall v, In v vs -> 0 < v) -> read_row fs row = Ok xs ->
  gauss_sum k ms vs fs row = Ok (- 2 * ln (naive_density ms vs xs) - INR (length fs) * ln (2 * PI) + (k - 1) * rsum (map ln vs)).
Proof.
  induction ms as [|m ms IH]; intros vs fs row xs k L1 L2 Hv Hr; destruct fs as [|f fs], vs as [|v vs]; try discriminate.
  - simpl in *. injection Hr as <-. rewrite ln_1. f_equal. ring.
  - cbn [read_row] in Hr. cbn [gauss_sum]. destruct (feat_index f row) as [x|p]; cbn [bind] in *; [|discriminate]. destruct (read_row fs row) as [r|p] eqn:Er; cbn [bind] in Hr; [|discriminate]. injection Hr as <-.
    assert (V : 0 < v) by (apply Hv; left; reflexivity). rewrite Rleb_false by exact V. simpl in L1, L2. rewrite (IH vs fs row r k) by (auto; intros u Hu; apply Hv; right; exact Hu).
    cbn [bind]. f_equal. cbn [naive_density map rsum]. rewrite (ln_mult (normal_density m v x) (naive_density ms vs r)) by (try apply normal_density_pos, V; apply naive_pos; intros u Hu; apply Hv; right; exact Hu).
    rewrite ln_normal by exact V. cbn [length]. rewrite S_INR. field. lra.
Qed.

(** the score of a class: the logarithm of the naive Bayes density, plus a term that is zero for one feature only *)
Lemma log_probability_spec g fs row xs : length (g_means g) = length fs -> length (g_vars g) = length fs -> (forall v, In v (g_vars g) -> 0 < v) -> read_row fs row = Ok xs ->
  log_probability g fs row = Ok (ln (naive_density (g_means g) (g_vars g) xs) - (INR (length fs) - 1) / 2 * rsum (map ln (g_vars g))).
Proof. intros L1 L2 Hv Hr. unfold log_probability. rewrite (gauss_sum_spec _ _ fs row xs) by assumption. cbn [bind]. f_equal. rewrite L1. field. Qed.

(** ** C47: what the score is, for any number of features.  For one feature it is the logarithm of the Gaussian
    density; for k features the code subtracts (k-1)/2 times the sum of the log variances *)
Lemma P_C47_score_partial :
  forall means vars g fs row xs, gauss_new means vars = Ok g -> length means = length fs -> (forall v, In v vars -> 0 < v) -> read_row fs row = Ok xs ->
  exists s, log_probability g fs row = Ok s /\ exp s = naive_density means vars xs / exp ((INR (length fs) - 1) / 2 * rsum (map ln vars)) /\
    (length fs = 1%nat -> exp s = naive_density means vars xs).
Proof.
  intros means vars g fs row xs Eg L Hv Hr. unfold gauss_new in Eg. destruct (Nat.eqb_spec (length means) (length vars)) as [Lv|]; cbn [assert_ bind] in Eg; [|discriminate]. injection Eg as <-.
  eexists. split; [apply log_probability_spec; cbn [g_means g_vars]; [exact L|congruence|exact Hv|exact Hr]|]. cbn [g_means g_vars].
  assert (E : exp (ln (naive_density means vars xs) - (INR (length fs) - 1) / 2 * rsum (map ln vars)) = naive_density means vars xs / exp ((INR (length fs) - 1) / 2 * rsum (map ln vars))).
  { unfold Rminus at 1. rewrite exp_plus, exp_Ropp, exp_ln by (apply naive_pos, Hv). reflexivity. }
  split; [exact E|]. intros L1. rewrite E, L1. simpl INR. replace ((1 - 1) / 2 * rsum (map ln vars)) with 0 by field. rewrite exp_0. field.
Qed.

(** ** C47: with one feature the answer is the label of largest prior times density *)
(** a density with k means and k positive variances *)
Definition wf_cond (k : nat) (g : gaussian) : Prop := length (g_means g) = k /\ length (g_vars g) = k /\ forall v, In v (g_vars g) -> 0 < v.

Lemma reduce_spec : forall (t : list (R * R)) a, let m := fold_left (fun a b => if Rltb (snd b) (snd a) then a else b) t a in In m (a :: t) /\ forall b, In b (a :: t) -> snd b <= snd m.
Proof.
  induction t as [|b t IH]; intros a; cbn [fold_left]; [split; [left; reflexivity|intros b [<-|[]]; simpl; lra]|]. cbv zeta in *.
  destruct (Rltb_spec (snd b) (snd a)) as [L|L].
  - destruct (IH a) as [I1 I2]. split; [destruct I1 as [I1|I1]; [left; exact I1|right; right; exact I1]|]. intros c [<-|[<-|Hc]]; [apply I2; left; reflexivity| |apply I2; right; exact Hc].
    specialize (I2 a (or_introl eq_refl)). lra.
  - destruct (IH b) as [I1 I2]. split; [right; exact I1|]. intros c [<-|[<-|Hc]]; [|apply I2; left; reflexivity|apply I2; right; exact Hc].
    specialize (I2 b (or_introl eq_refl)). lra.
Qed.

Lemma P_C47_answer_maximises_score :
  forall h fs row xs, nb_cond h <> [] -> read_row fs row = Ok xs -> wf_cond (length fs) (nb_density h) ->
  (forall y prior g, In (y, prior, g) (nb_cond h) -> wf_cond (length fs) g) ->
  exists y prior g s, nb_confidence h fs row = Ok y /\ In (y, prior, g) (nb_cond h) /\ log_probability g fs row = Ok s /\
    (forall y' prior' g' s', In (y', prior', g') (nb_cond h) -> log_probability g' fs row = Ok s' -> prior' * exp s' <= prior * exp s) /\
    (length fs = 1%nat -> forall y' prior' g', In (y', prior', g') (nb_cond h) ->
       prior' * naive_density (g_means g') (g_vars g') xs <= prior * naive_density (g_means g) (g_vars g) xs).
Proof.
  intros h fs row xs Hne Hr [D1 [D2 D3]] Hc. set (sc := fun g => ln (naive_density (g_means g) (g_vars g) xs) - (INR (length fs) - 1) / 2 * rsum (map ln (g_vars g))).
  assert (Sc : forall y prior g, In (y, prior, g) (nb_cond h) -> log_probability g fs row = Ok (sc g)).
  { intros y prior g Hin. destruct (Hc y prior g Hin) as [A [B C]]. apply log_probability_spec; assumption. }
  set (la := sc (nb_density h)). assert (La : log_probability (nb_density h) fs row = Ok la) by (apply log_probability_spec; assumption).
  assert (Ep : probabilities h fs row = Ok (map (fun c => (fst (fst c), snd (fst c) * exp (sc (snd c) - la))) (nb_cond h))).
  { unfold probabilities. rewrite La. cbn [bind]. apply mapM_ok. intros [[y prior] g] Hin. rewrite (Sc y prior g Hin). reflexivity. }
  unfold nb_confidence. rewrite Ep. cbn [bind]. destruct (nb_cond h) as [|c0 t] eqn:Ec; [congruence|]. cbn [map nb_reduce].
  set (a0 := (fst (fst c0), snd (fst c0) * exp (sc (snd c0) - la))). set (tl := map _ t). destruct (reduce_spec tl a0) as [I1 I2]. set (m := fold_left _ tl a0) in *.
  change (a0 :: tl) with (map (fun c : R * R * gaussian => (fst (fst c), snd (fst c) * exp (sc (snd c) - la))) (c0 :: t)) in I1, I2.
  apply in_map_iff in I1. destruct I1 as [[[y prior] g] [Em Hin]]. cbn [fst snd] in Em. exists y, prior, g, (sc g). rewrite <- Em. split; [reflexivity|]. split; [exact Hin|]. split; [apply (Sc y prior g Hin)|].
  assert (Best : forall y' prior' g', In (y', prior', g') (c0 :: t) -> prior' * exp (sc g') <= prior * exp (sc g)).
  { intros y' prior' g' Hin'. specialize (I2 _ (in_map (fun c : R * R * gaussian => (fst (fst c), snd (fst c) * exp (sc (snd c) - la))) _ _ Hin')). cbn [fst snd] in I2. rewrite <- Em in I2. cbn [snd] in I2.
    unfold Rminus in I2. rewrite !exp_plus, <- !Rmult_assoc in I2. apply Rmult_le_reg_r in I2; [exact I2|apply exp_pos]. }
  split.
  - intros y' prior' g' s' Hin' Es. rewrite (Sc y' prior' g' Hin') in Es. injection Es as <-. apply (Best y'), Hin'.
  - intros L1 y' prior' g' Hin'. specialize (Best y' prior' g' Hin'). unfold sc in Best. rewrite L1 in Best. simpl INR in Best.
    assert (Z : forall g, ln (naive_density (g_means g) (g_vars g) xs) - (1 - 1) / 2 * rsum (map ln (g_vars g)) = ln (naive_density (g_means g) (g_vars g) xs)) by (intros; field). rewrite !Z in Best.
    rewrite !exp_ln in Best; [exact Best| |]; apply naive_pos; [apply (Hc y prior g Hin)|apply (Hc y' prior' g' Hin')].
Qed.

(** ** the labels *)
Lemma dedup_adj_cons a t : dedup_adj (a :: t) = match t with b :: _ => if Reqb a b then dedup_adj t else a :: dedup_adj t | [] => [a] end.
Proof. reflexivity. Qed.

Lemma dedup_adj_in l x : In x (dedup_adj l) <-> In x l.
Proof.
  induction l as [|a t IH]; [reflexivity|]. rewrite dedup_adj_cons. destruct t as [|b t]; [reflexivity|]. destruct (Reqb_spec a b) as [->|N].
  - rewrite IH. simpl. intuition.
  - cbn [In] in *. rewrite IH. reflexivity.
Qed.

Lemma dedup_adj_sorted l : StronglySorted Rle l -> StronglySorted Rlt (dedup_adj l).
Proof.
  induction l as [|a t IH]; intros Hs; [constructor|]. apply StronglySorted_inv in Hs. destruct Hs as [Ht Ha]. rewrite dedup_adj_cons. destruct t as [|b t]; [repeat constructor|].
  destruct (Reqb_spec a b) as [->|N]; [apply IH, Ht|]. constructor; [apply IH, Ht|]. apply Forall_forall. intros x Hx. apply (proj1 (dedup_adj_in _ _)) in Hx.
  assert (Hab : a <= b) by (rewrite Forall_forall in Ha; apply Ha; left; reflexivity). apply StronglySorted_inv in Ht. destruct Ht as [_ Hb]. destruct Hx as [<-|Hx]; [lra|]. rewrite Forall_forall in Hb. specialize (Hb x Hx). lra.
Qed.

Lemma class_weight_total y target w : length target = length w -> total_weight_for_label y target w = class_weight y target w.
Proof. intros L. rewrite total_label_sum by exact L. unfold class_weight. rewrite L. apply rsum_map_ext. intros i _. unfold Reqb. destruct (Req_EM_T _ _); reflexivity. Qed.

Lemma dense_mean_spec col w : length col = length w -> dense_weighted_mean col w = column_mean w col.
Proof.
  intros L. unfold dense_weighted_mean, column_mean. rewrite (combine_nth_map _ col w 0 0 L), L. apply rsum_map_ext. intros i _. simpl. ring.
Qed.
Lemma dense_variance_spec col w : length col = length w -> dense_weighted_variance (column_mean w col) col w = column_variance w col.
Proof.
  intros L. unfold dense_weighted_variance, column_variance. rewrite (combine_nth_map _ col w 0 0 L), L. reflexivity.
Qed.

(** ** C47: what is learnt from dense columns: the labels in increasing order, the weight of every class as prior, and
    the weighted means and variances of the class in every column *)
Lemma P_C47_learns_class_statistics :
  forall (cols : list (string * list R)) target dist, target <> [] -> length dist = length target -> is_dist dist ->
  (forall c, In c cols -> length (snd c) = length target) -> (forall y, In y target -> class_weight y target dist <> 0) ->
  exists labels, nb_produce (map (fun c => Dense (fst c) (snd c)) cols) target dist =
      Ok (mkNB (map (fun y => (y, class_weight y target dist,
                               mkGauss (map (fun c => class_mean y target dist (snd c)) cols) (map (fun c => class_variance y target dist (snd c)) cols))) labels)
               (mkGauss (map (fun c => column_mean dist (snd c)) cols) (map (fun c => column_variance dist (snd c)) cols))) /\
    StronglySorted Rlt labels /\ (forall y, In y labels <-> In y target).
Proof.
  intros cols target dist Hne Ld Hd Hc Hw. set (fs := map (fun c => Dense (fst c) (snd c)) cols).
  assert (Hu : forall y, In y (unique_target target) <-> In y target).
  { intros y. unfold unique_target. rewrite dedup_adj_in. split; intros H; [eapply Permutation_in; [apply Permutation_sym, isort_perm|exact H]|eapply Permutation_in; [apply isort_perm|exact H]]. }
  exists (unique_target target).
  assert (Cw : forall y, 0 <= class_weight y target dist <= 1).
  { intros y. unfold class_weight. destruct Hd as [D1 D2]. split.
    - apply rsum_nonneg. intros v Hv. apply in_map_iff in Hv. destruct Hv as [i [<- Hi]]. apply in_seq in Hi. destruct (Req_EM_T _ _); [apply D1, nth_In; lia|lra].
    - rewrite <- D2, <- (rsum_nth dist), Ld. apply rsum_map_le. intros i Hi. apply in_seq in Hi. destruct (Req_EM_T _ _); [lra|apply D1, nth_In; lia]. }
  assert (Ck : check_capped_simplex_condition dist 1 = Ok tt) by (apply check_dist; [exact Hd|intros ->; destruct target; simpl in *; congruence]).
  split; [|split; [apply dedup_adj_sorted, Rle_isort_sorted|exact Hu]].
  unfold nb_produce. rewrite (mapM_ok _ (fun y => (y, class_weight y target dist, mkGauss (map (fun c => class_mean y target dist (snd c)) cols) (map (fun c => class_variance y target dist (snd c)) cols)))).
  - cbn [bind]. unfold fs. rewrite (mapM_ok _ (fun f => match f with Dense _ v => (column_mean dist v, column_variance dist v) | _ => (0, 0) end)).
    + cbn [bind]. unfold gauss_new. rewrite !map_length, Nat.eqb_refl. cbn [assert_ bind]. rewrite !map_map. reflexivity.
    + intros f Hf. apply in_map_iff in Hf. destruct Hf as [c [<- Hin]]. unfold weighted_mean_and_variance, weighted_mean. rewrite Ck. cbn [bind].
      assert (Lc : length (snd c) = length dist) by (rewrite Hc by exact Hin; congruence). rewrite dense_mean_spec, dense_variance_spec by exact Lc. reflexivity.
  - intros y Hy. apply Hu in Hy. specialize (Hw y Hy). rewrite class_weight_total by congruence. rewrite rclamp_id by apply Cw. cbv zeta.
    unfold fs. rewrite (mapM_ok _ (fun f => match f with Dense _ v => (class_mean y target dist v, class_variance y target dist v) | _ => (0, 0) end)).
    + cbn [bind]. unfold gauss_new. rewrite !map_length, Nat.eqb_refl. cbn [assert_ bind]. rewrite !map_map. reflexivity.
    + intros f Hf. apply in_map_iff in Hf. destruct Hf as [c [<- Hin]].
      destruct (P_C39_dense_label_statistics (fst c) y (snd c) target dist) as [mean [var [E [Em Ev]]]]; [rewrite Hc by exact Hin; congruence|congruence| |].
      * rewrite <- total_label_sum, class_weight_total by congruence. exact Hw.
      * rewrite E. rewrite <- total_label_sum, class_weight_total in Em, Ev by congruence.
        assert (Sel : forall F : nat -> R, rsum (map (fun i => if Reqb (nth i target 0) y then F i else 0) (seq 0 (length dist))) = rsum (map (fun i => if Req_EM_T (nth i target 0) y then F i else 0) (seq 0 (length target)))).
        { intros F. rewrite Ld. apply rsum_map_ext. intros i _. unfold Reqb. destruct (Req_EM_T _ _); reflexivity. }
        assert (Em' : mean = class_mean y target dist (snd c)) by (rewrite Em; unfold class_mean; rewrite <- Sel; reflexivity).
        assert (Ev' : var = class_variance y target dist (snd c)) by (rewrite Ev; unfold class_variance; rewrite <- Sel, Em'; reflexivity).
        rewrite Em', Ev'. reflexivity.
Qed.

(** ** C47: the learnt classifier for one feature column, on any row of any sample: it answers a label of the training
    sample for which prior times Gaussian density is largest *)
Lemma column_variance_pos target dist col y : length dist = length target -> is_dist dist -> class_weight y target dist <> 0 -> 0 < class_variance y target dist col -> 0 < column_variance dist col.
Proof.
  intros L [D1 D2] Hw Hv. destruct (Rlt_or_le 0 (column_variance dist col)) as [P|N]; [exact P|exfalso].
  assert (D : forall i, (i < length dist)%nat -> 0 <= nth i dist 0) by (intros i Hi; apply D1, nth_In, Hi).
  assert (Z : forall i, (i < length dist)%nat -> nth i dist 0 * (nth i col 0 - column_mean dist col) ^ 2 = 0).
  { intros i Hi. apply Rle_antisym.
    - eapply Rle_trans; [|exact N]. unfold column_variance. apply (rsum_in_le _ (nth i dist 0 * (nth i col 0 - column_mean dist col) ^ 2)).
      + intros v Hin. apply in_map_iff in Hin. destruct Hin as [j [<- Hj]]. apply in_seq in Hj. apply Rmult_le_pos; [apply D; lia|apply pow2_ge_0].
      + apply (in_map (fun i => nth i dist 0 * (nth i col 0 - column_mean dist col) ^ 2)). apply in_seq. lia.
    - apply Rmult_le_pos; [apply D, Hi|apply pow2_ge_0]. }
  set (m := column_mean dist col) in *.
  assert (Z1 : forall i, (i < length dist)%nat -> nth i dist 0 * nth i col 0 = nth i dist 0 * m).
  { intros i Hi. destruct (Req_dec (nth i dist 0) 0) as [-> | Ne]; [ring|]. specialize (Z i Hi). apply Rmult_integral in Z. destruct Z as [Z|Z]; [contradiction|].
    assert (nth i col 0 - m = 0) by (apply Rsqr_0_uniq; unfold Rsqr; lra). f_equal. lra. }
  assert (M : class_mean y target dist col = m).
  { unfold class_mean. apply (Rmult_eq_reg_r (class_weight y target dist)); [|exact Hw]. unfold Rdiv. rewrite Rmult_assoc, Rinv_l, Rmult_1_r by exact Hw.
    unfold class_weight. rewrite <- rsum_map_mult. apply rsum_map_ext. intros i Hi. apply in_seq in Hi. destruct (Req_EM_T _ _); [rewrite Z1 by lia|]; ring. }
  unfold class_variance in Hv. rewrite M in Hv. rewrite (rsum_map_ext _ (fun _ => 0)) in Hv.
  - rewrite rsum_map_const in Hv. unfold Rdiv in Hv. rewrite Rmult_0_r, Rmult_0_l in Hv. lra.
  - intros i Hi. apply in_seq in Hi. destruct (Req_EM_T _ _); [apply Z; lia|reflexivity].
Qed.

Lemma P_C47_one_feature_is_bayes_partial :
  forall nm col target dist, target <> [] -> length col = length target -> length dist = length target -> is_dist dist ->
  (forall y, In y target -> class_weight y target dist <> 0 /\ 0 < class_variance y target dist col) ->
  exists h, nb_produce [Dense nm col] target dist = Ok h /\
  forall f row x, feat_index f row = Ok x ->
  exists y, nb_confidence h [f] row = Ok y /\ In y target /\
    forall y', In y' target -> class_weight y' target dist * normal_density (class_mean y' target dist col) (class_variance y' target dist col) x
                            <= class_weight y target dist * normal_density (class_mean y target dist col) (class_variance y target dist col) x.
Proof.
  intros nm col target dist Hne Lc Ld Hd Hy.
  destruct (P_C47_learns_class_statistics [(nm, col)] target dist Hne Ld Hd) as [labels [E [_ Hl]]].
  { intros c [<-|[]]. exact Lc. } { intros y Hin. apply (Hy y Hin). }
  cbn [map fst snd] in E. eexists. split; [exact E|]. intros f row x Ex.
  edestruct (P_C47_answer_maximises_score (mkNB (map (fun y => (y, class_weight y target dist, mkGauss [class_mean y target dist col] [class_variance y target dist col])) labels) (mkGauss [column_mean dist col] [column_variance dist col])) [f] row [x])
    as [y [prior [g [s [Ey [Hin [_ [_ Best]]]]]]]].
  - cbn [nb_cond]. destruct target as [|y0 t]; [congruence|]. destruct labels; [|discriminate]. destruct (proj2 (Hl y0) (or_introl eq_refl)).
  - cbn [read_row]. rewrite Ex. reflexivity.
  - cbn [nb_density]. repeat split. intros v [<-|[]]. destruct target as [|y0 t]; [congruence|]. destruct (Hy y0 (or_introl eq_refl)) as [A B]. apply (column_variance_pos (y0 :: t) dist col y0); assumption.
  - intros y prior g Hin. apply in_map_iff in Hin. destruct Hin as [y0 [Eq Hin]]. injection Eq as <- <- <-. repeat split. intros v [<-|[]]. apply Hy, Hl, Hin.
  - exists y. split; [exact Ey|]. cbn [nb_cond] in *. apply in_map_iff in Hin. destruct Hin as [y0 [Eq Hin]]. injection Eq as -> <- <-. split; [apply Hl, Hin|].
    intros y' Hy'. specialize (Best eq_refl y' (class_weight y' target dist) (mkGauss [class_mean y' target dist col] [class_variance y' target dist col])).
    cbn [g_means g_vars naive_density] in Best. rewrite !Rmult_1_r in Best. apply Best. apply (in_map (fun y => (y, class_weight y target dist, mkGauss [class_mean y target dist col] [class_variance y target dist col])) labels y'). apply Hl, Hy'.
Qed.

Lemma two_labels labels : StronglySorted Rlt labels -> (forall y, In y labels <-> In y [-1; -1; 1; 1]) -> labels = [-1; 1].
Proof.
  intros Hs Hi. assert (V : forall y, In y labels -> y = -1 \/ y = 1) by (intros y H; apply Hi in H; simpl in H; intuition lra).
  assert (I1 : In (-1) labels) by (apply Hi; simpl; auto). assert (I2 : In 1 labels) by (apply Hi; simpl; auto).
  destruct labels as [|a [|b [|c t]]].
  - destruct I1.
  - destruct I1 as [I1|[]], I2 as [I2|[]]. lra.
  - apply StronglySorted_inv in Hs. destruct Hs as [_ Ha]. rewrite Forall_forall in Ha. specialize (Ha b (or_introl eq_refl)).
    destruct (V a) as [-> | ->]; [left; reflexivity| |]; (destruct (V b) as [-> | ->]; [right; left; reflexivity| |]); try lra. reflexivity.
  - apply StronglySorted_inv in Hs. destruct Hs as [Hs Ha]. rewrite Forall_forall in Ha. pose proof (Ha b (or_introl eq_refl)). apply StronglySorted_inv in Hs. destruct Hs as [_ Hb]. rewrite Forall_forall in Hb. pose proof (Hb c (or_introl eq_refl)).
    destruct (V a), (V b), (V c); simpl; auto; lra.
Qed.

(** ** C47 refuted: a sample with two features on which the learnt classifier answers -1 on a training example with
    label 1 although prior times density is larger for the label 1 *)
Lemma P_C47_bayes_label_refuted :
  exists fs target dist h row xs, is_valid_binary_instance target = Ok tt /\ is_dist dist /\ length dist = length target /\
    nb_produce fs target dist = Ok h /\ read_row fs row = Ok xs /\ nb_confidence h fs row = Ok (-1) /\ nth row target 0 = 1 /\
    exists p1 g1 p2 g2, nb_cond h = [(-1, p1, g1); (1, p2, g2)] /\
      p1 * naive_density (g_means g1) (g_vars g1) xs < p2 * naive_density (g_means g2) (g_vars g2) xs.
Proof.
  set (c := [5; -5; 7; -7]). set (target := [-1; -1; 1; 1]). set (dist := [1/4; 1/4; 1/4; 1/4]).
  set (cols := [(String.EmptyString, c); (String.EmptyString, c)]).
  assert (W1 : class_weight (-1) target dist = 1 / 2).
  { unfold class_weight, target, dist. cbn [length seq map nth rsum]. repeat (destruct (Req_EM_T _ _); try lra). }
  assert (W2 : class_weight 1 target dist = 1 / 2).
  { unfold class_weight, target, dist. cbn [length seq map nth rsum]. repeat (destruct (Req_EM_T _ _); try lra). }
  assert (M1 : class_mean (-1) target dist c = 0).
  { unfold class_mean. rewrite W1. unfold target, dist, c. cbn [length seq map nth rsum]. repeat (destruct (Req_EM_T _ _); try lra). }
  assert (M2 : class_mean 1 target dist c = 0).
  { unfold class_mean. rewrite W2. unfold target, dist, c. cbn [length seq map nth rsum]. repeat (destruct (Req_EM_T _ _); try lra). }
  assert (V1 : class_variance (-1) target dist c = 25).
  { unfold class_variance. rewrite W1, M1. unfold target, dist, c. cbn [length seq map nth rsum]. repeat (destruct (Req_EM_T _ _); try lra). }
  assert (V2 : class_variance 1 target dist c = 49).
  { unfold class_variance. rewrite W2, M2. unfold target, dist, c. cbn [length seq map nth rsum]. repeat (destruct (Req_EM_T _ _); try lra). }
  assert (M0 : column_mean dist c = 0) by (unfold column_mean, dist, c; cbn [length seq map nth rsum]; lra).
  assert (V0 : column_variance dist c = 37) by (unfold column_variance; rewrite M0; unfold dist, c; cbn [length seq map nth rsum]; lra).
  assert (Hd : is_dist dist) by (split; [intros x Hx; unfold dist in Hx; simpl in Hx; intuition lra|unfold dist; cbn [rsum]; lra]).
  destruct (P_C47_learns_class_statistics cols target dist) as [labels [E [Hs Hl]]]; [discriminate|reflexivity|exact Hd| | |].
  { intros x [<-|[<-|[]]]; reflexivity. } { intros y [<-|[<-|[<-|[<-|[]]]]]; rewrite ?W1, ?W2; lra. }
  apply two_labels in Hl; [|exact Hs]. subst labels. cbn [map fst snd cols] in E. rewrite W1, W2, M1, M2, V1, V2, M0, V0 in E.
  set (g1 := mkGauss [0; 0] [25; 25]) in E. set (g2 := mkGauss [0; 0] [49; 49]) in E. set (g0 := mkGauss [0; 0] [37; 37]) in E.
  exists [Dense String.EmptyString c; Dense String.EmptyString c], target, dist. eexists. exists 2%nat, [7; 7].
  split; [|split; [exact Hd|split; [reflexivity|split; [exact E|split; [reflexivity|]]]]].
  { apply valid_pm1; [|simpl; auto 20|simpl; auto 20]. intros v Hv. simpl in Hv. repeat (destruct Hv as [<-|Hv]; [auto|]). destruct Hv. }
  assert (P : forall v, 0 < v -> forall u, In u [v; v] -> 0 < u) by (intros v Hv u [<-|[<-|[]]]; exact Hv).
  assert (N : forall v, 0 < v -> ln (naive_density [0; 0] [v; v] [7; 7]) = - (ln (2 * PI) + 49 / v + ln v)).
  { intros v Hv. cbn [naive_density]. rewrite Rmult_1_r, ln_mult by (apply normal_density_pos, Hv). rewrite ln_normal by exact Hv. field. lra. }
  set (fs := [Dense String.EmptyString c; Dense String.EmptyString c]).
  assert (S1 : forall v, 0 < v -> log_probability (mkGauss [0; 0] [v; v]) fs 2 = Ok (- (ln (2 * PI) + 49 / v + 2 * ln v))).
  { intros v Hv. rewrite (log_probability_spec _ fs 2 [7; 7]); [|reflexivity|reflexivity|apply (P v Hv)|reflexivity]. cbn [g_means g_vars]. rewrite (N v Hv). f_equal. unfold fs. cbn [length map rsum INR]. field. lra. }
  assert (L1 : ln (49 / 25) < 49 / 25 - 1) by (apply ln_lt_sub; lra). assert (L2 : ln (25 / 49) < 25 / 49 - 1) by (apply ln_lt_sub; lra).
  assert (Q1 : ln (49 / 25) = ln 49 - ln 25) by (unfold Rdiv; rewrite ln_mult, ln_Rinv by lra; ring). assert (Q2 : ln (25 / 49) = ln 25 - ln 49) by (unfold Rdiv; rewrite ln_mult, ln_Rinv by lra; ring).
  split; [|split; [reflexivity|]].
  - edestruct (P_C47_answer_maximises_score (mkNB [(-1, 1 / 2, g1); (1, 1 / 2, g2)] g0) fs 2 [7; 7]) as [y [prior [g [s [Ey [Hin [Es [Best _]]]]]]]].
    + discriminate.
    + reflexivity.
    + repeat split. apply (P 37). lra.
    + intros y prior g [Eq|[Eq|[]]]; injection Eq as <- <- <-; repeat split; [apply (P 25)|apply (P 49)]; lra.
    + rewrite Ey. f_equal. destruct Hin as [Eq|[Eq|[]]]; injection Eq as <- <- <-; [reflexivity|exfalso].
      specialize (Best (-1) (1 / 2) g1 _ (or_introl eq_refl) (S1 25 ltac:(lra))). unfold g2 in Es. rewrite S1 in Es by lra. injection Es as <-.
      apply Rmult_le_reg_l in Best; [|lra]. assert (- (ln (2 * PI) + 49 / 49 + 2 * ln 49) < - (ln (2 * PI) + 49 / 25 + 2 * ln 25)) as LT by lra. apply exp_increasing in LT. lra.
  - exists (1 / 2), g1, (1 / 2), g2. split; [reflexivity|]. unfold g1, g2. cbn [g_means g_vars]. apply Rmult_lt_compat_l; [lra|].
    apply ln_lt_inv; try (apply naive_pos; apply P; lra). rewrite !N by lra. lra.
Qed.

(** ** the hypotheses of the one feature theorem are met by four rows with uniform weights *)
Example C47_one_feature_instance :
  exists h, nb_produce [Dense String.EmptyString [5; -5; 7; -7]] [-1; -1; 1; 1] [1/4; 1/4; 1/4; 1/4] = Ok h /\
    exists y, nb_confidence h [Dense String.EmptyString [7]] 0 = Ok y /\ In y [-1; -1; 1; 1].
Proof.
  destruct (P_C47_one_feature_is_bayes_partial String.EmptyString [5; -5; 7; -7] [-1; -1; 1; 1] [1/4; 1/4; 1/4; 1/4]) as [h [E A]]; try reflexivity; [discriminate| | |].
  - split; [intros x Hx; simpl in Hx; intuition lra|cbn [rsum]; lra].
  - intros y Hy. assert (Y : y = -1 \/ y = 1) by (simpl in Hy; intuition lra).
    assert (W : class_weight y [-1; -1; 1; 1] [1/4; 1/4; 1/4; 1/4] = 1 / 2).
    { unfold class_weight. cbn [length seq map nth rsum]. destruct Y as [-> | ->]; repeat (destruct (Req_EM_T _ _); try lra). }
    split; [rewrite W; lra|]. assert (M : class_mean y [-1; -1; 1; 1] [1/4; 1/4; 1/4; 1/4] [5; -5; 7; -7] = 0).
    { unfold class_mean. rewrite W. cbn [length seq map nth rsum]. destruct Y as [-> | ->]; repeat (destruct (Req_EM_T _ _); try lra). }
    unfold class_variance. rewrite W, M. cbn [length seq map nth rsum]. destruct Y as [-> | ->]; repeat (destruct (Req_EM_T _ _); try lra).
  - exists h. split; [exact E|]. destruct (A (Dense String.EmptyString [7]) 0%nat 7 eq_refl) as [y [Ey [Hy _]]]. exists y. split; assumption.
Qed.
