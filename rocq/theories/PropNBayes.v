(** Property C47: the Gaussian naive Bayes learner. *)
From Verif Require Import Base Spec SampleSpec NBSpec AdaBoost AdaBoostProofs AdaBoostMore SortLib Utils Feature FeatureFacts Sample MLPProofs NBayes NBayesFacts.
Open Scope R_scope.


(** ** C47: what the score is, for any number of features.  For one feature it is the logarithm of the Gaussian
    density; for k features the code subtracts (k-1)/2 times the sum of the log variances *)

Theorem C47_score_partial :
  forall means vars g fs row xs, gauss_new means vars = Ok g -> length means = length fs -> (forall v, In v vars -> 0 < v) -> read_row fs row = Ok xs ->
  exists s, log_probability g fs row = Ok s /\ exp s = naive_density means vars xs / exp ((INR (length fs) - 1) / 2 * rsum (map ln vars)) /\
    (length fs = 1%nat -> exp s = naive_density means vars xs).
Proof. exact P_C47_score_partial. Qed.
Print Assumptions C47_score_partial.

(** ** C47: with one feature the answer is the label of largest prior times density *)

Theorem C47_answer_maximises_score :
  forall h fs row xs, nb_cond h <> [] -> read_row fs row = Ok xs -> wf_cond (length fs) (nb_density h) ->
  (forall y prior g, In (y, prior, g) (nb_cond h) -> wf_cond (length fs) g) ->
  exists y prior g s, nb_confidence h fs row = Ok y /\ In (y, prior, g) (nb_cond h) /\ log_probability g fs row = Ok s /\
    (forall y' prior' g' s', In (y', prior', g') (nb_cond h) -> log_probability g' fs row = Ok s' -> prior' * exp s' <= prior * exp s) /\
    (length fs = 1%nat -> forall y' prior' g', In (y', prior', g') (nb_cond h) ->
       prior' * naive_density (g_means g') (g_vars g') xs <= prior * naive_density (g_means g) (g_vars g) xs).
Proof. exact P_C47_answer_maximises_score. Qed.
Print Assumptions C47_answer_maximises_score.

(** ** the labels *)

(** ** C47: what is learnt from dense columns: the labels in increasing order, the weight of every class as prior, and
    the weighted means and variances of the class in every column *)

Theorem C47_learns_class_statistics :
  forall (cols : list (string * list R)) target dist, target <> [] -> length dist = length target -> is_dist dist ->
  (forall c, In c cols -> length (snd c) = length target) -> (forall y, In y target -> class_weight y target dist <> 0) ->
  exists labels, nb_produce (map (fun c => Dense (fst c) (snd c)) cols) target dist =
      Ok (mkNB (map (fun y => (y, class_weight y target dist,
                               mkGauss (map (fun c => class_mean y target dist (snd c)) cols) (map (fun c => class_variance y target dist (snd c)) cols))) labels)
               (mkGauss (map (fun c => column_mean dist (snd c)) cols) (map (fun c => column_variance dist (snd c)) cols))) /\
    StronglySorted Rlt labels /\ (forall y, In y labels <-> In y target).
Proof. exact P_C47_learns_class_statistics. Qed.
Print Assumptions C47_learns_class_statistics.

(** ** C47: the learnt classifier for one feature column, on any row of any sample: it answers a label of the training
    sample for which prior times Gaussian density is largest *)

Theorem C47_one_feature_is_bayes_partial :
  forall nm col target dist, target <> [] -> length col = length target -> length dist = length target -> is_dist dist ->
  (forall y, In y target -> class_weight y target dist <> 0 /\ 0 < class_variance y target dist col) ->
  exists h, nb_produce [Dense nm col] target dist = Ok h /\
  forall f row x, feat_index f row = Ok x ->
  exists y, nb_confidence h [f] row = Ok y /\ In y target /\
    forall y', In y' target -> class_weight y' target dist * normal_density (class_mean y' target dist col) (class_variance y' target dist col) x
                            <= class_weight y target dist * normal_density (class_mean y target dist col) (class_variance y target dist col) x.
Proof. exact P_C47_one_feature_is_bayes_partial. Qed.
Print Assumptions C47_one_feature_is_bayes_partial.

(** ** C47 refuted: a sample with two features on which the learnt classifier answers -1 on a training example with
    label 1 although prior times density is larger for the label 1 *)

Theorem C47_bayes_label_refuted :
  exists fs target dist h row xs, is_valid_binary_instance target = Ok tt /\ is_dist dist /\ length dist = length target /\
    nb_produce fs target dist = Ok h /\ read_row fs row = Ok xs /\ nb_confidence h fs row = Ok (-1) /\ nth row target 0 = 1 /\
    exists p1 g1 p2 g2, nb_cond h = [(-1, p1, g1); (1, p2, g2)] /\
      p1 * naive_density (g_means g1) (g_vars g1) xs < p2 * naive_density (g_means g2) (g_vars g2) xs.
Proof. exact P_C47_bayes_label_refuted. Qed.
Print Assumptions C47_bayes_label_refuted.

(** ** the hypotheses of the one feature theorem are met by four rows with uniform weights *)

Example C47_one_feature_instance :
  exists h, nb_produce [Dense String.EmptyString [5; -5; 7; -7]] [-1; -1; 1; 1] [1/4; 1/4; 1/4; 1/4] = Ok h /\
    exists y, nb_confidence h [Dense String.EmptyString [7]] 0 = Ok y /\ In y [-1; -1; 1; 1].
Proof.
  destruct (P_C47_one_feature_is_bayes_partial String.EmptyString [5; -5; 7; -7] [-1; -1; 1; 1] [1/4; 1/4; 1/4; 1/4]) as [h [E A]]; try reflexivity; [discriminate| | |].
  - split; [intros x Hx; simpl in Hx; intuition lra|cbn [rsum]; lra].
  - intros y Hy. assert (Y : y = -1 \/ y = 1) by (simpl in Hy; intuition lra).
    assert (W : class_weight y [-1; -1; 1; 1] [1/4; 1/4; 1/4; 1/4] = 1 / 2).
    { unfold class_weight. cbn [length seq map nth rsum]. destruct Y as [-> | ->]; repeat (destruct (Req_EM_T _ _); try lra). }
    split; [rewrite W; lra|]. assert (M : class_mean y [-1; -1; 1; 1] [1/4; 1/4; 1/4; 1/4] [5; -5; 7; -7] = 0).
    { unfold class_mean. rewrite W. cbn [length seq map nth rsum]. destruct Y as [-> | ->]; repeat (destruct (Req_EM_T _ _); try lra). }
    unfold class_variance. rewrite W, M. cbn [length seq map nth rsum]. destruct Y as [-> | ->]; repeat (destruct (Req_EM_T _ _); try lra).
  - exists h. split; [exact E|]. destruct (A (Dense String.EmptyString [7]) 0%nat 7 eq_refl) as [y [Ey [Hy _]]]. exists y. split; assumption.
Qed.
