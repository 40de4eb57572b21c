(** Properties C01-C03, C43, C44: projection, entropy, parallel reductions. *)
From Verif Require Import Base Spec SortLib Utils UtilsProofs Rayon.
Open Scope R_scope.

(** ** C01 *)
Lemma capped_of_min nu xi x d :
  1 <= nu -> 0 < xi -> length d = length x ->
  (forall i, (i < length x)%nat -> nth i d 0 = Rmin (1 / nu) (xi * exp (nth i x 0))) ->
  rsum d = 1 -> in_capped_simplex nu d.
Proof.
  intros Hnu Hxi Hl Hm Hs. split; [|exact Hs]. intros v Hv. apply (In_nth _ _ 0) in Hv.
  destruct Hv as [k [Hk <-]]. rewrite Hm by congruence. split; [|apply Rmin_l].
  apply Rmin_glb; [left; apply Rdiv_lt_0_compat; lra|]. left. apply Rmult_lt_0_compat; [exact Hxi|apply exp_pos].
Qed.

Lemma P_C01_projection_in_capped_simplex : forall nu x ix,
  sorted_perm x ix -> 1 <= nu <= INR (length x) ->
  exists d, project_with ix nu x = Ok d /\ length d = length x /\ in_capped_simplex nu d.
Proof.
  intros nu x ix Hix Hnu. destruct (project_with_spec ix nu x Hix Hnu) as [xi [d [E [Hxi [Hl [Hm Hs]]]]]].
  exists d. split; [exact E|]. split; [exact Hl|]. eapply capped_of_min; eauto. lra.
Qed.

Lemma P_C01_projection_stable_sort : forall nu x,
  1 <= nu <= INR (length x) ->
  exists d, project nu x = Ok d /\ length d = length x /\ in_capped_simplex nu d.
Proof. exact (fun nu x H => P_C01_projection_in_capped_simplex nu x (sorted_indices x) (sorted_indices_ok x) H). Qed.

Lemma proj_rest_length log_xi rest dist : length (proj_rest log_xi rest dist) = length dist.
Proof.
  unfold proj_rest. revert dist; induction rest as [|it rest IH]; intros dist; cbn [fold_left]; [reflexivity|].
  rewrite IH. apply upd_length.
Qed.

Lemma proj_loop_length ub lnu items : forall i dist d,
  proj_loop ub lnu i items dist = Ok d -> length d = length dist.
Proof.
  induction items as [|[k ls] items IH]; intros i dist d E; cbn [proj_loop] in E.
  - inversion E; reflexivity.
  - destruct (Rleb (1 - ub * INR i) 0); [discriminate|].
    destruct (Rleb _ 0).
    + inversion E. rewrite proj_rest_length. apply upd_length.
    + apply IH in E. rewrite E. apply upd_length.
Qed.

(** conversely a cap parameter outside [1,n] is always rejected: never a silent wrong answer *)
Lemma P_C01_projection_rejects_bad_cap : forall nu x ix d,
  ~ (1 <= nu <= INR (length x)) -> project_with ix nu x <> Ok d.
Proof.
  intros nu x ix d Hn E. unfold project_with in E. destruct (Rleb nu 0); [discriminate|].
  destruct (proj_loop (1 / nu) (ln nu) 0 (combine ix (logsums x ix)) x) as [d'|p] eqn:EL; simpl in E; [|discriminate].
  apply proj_loop_length in EL.
  destruct (check_capped_simplex_condition d' nu) as [[]|p] eqn:C; simpl in E; [|discriminate].
  inversion E; subst d'. unfold check_capped_simplex_condition, check_nu, assert_ in C. rewrite EL in C.
  destruct (Rleb_spec 1 nu); destruct (Rleb_spec nu (INR (length x))); simpl in C; try discriminate.
  apply Hn; split; assumption.
Qed.

Example C01_nonvacuous : 1 <= 2 <= INR (length [0; 3; 1]) /\ sorted_perm [0; 3; 1] [1%nat; 2%nat; 0%nat].
Proof.
  split; [simpl; lra|]. split.
  - simpl. apply Permutation_sym. apply perm_trans with [1; 0; 2]%nat; [constructor|].
    constructor. constructor.
  - repeat constructor; unfold desc; simpl; lra.
Qed.

(** ** C02 *)
Lemma P_C02_projection_threshold_form : forall nu x ix d,
  sorted_perm x ix -> 1 <= nu <= INR (length x) -> project_with ix nu x = Ok d ->
  (exists xi, 0 < xi /\ forall i, (i < length x)%nat -> nth i d 0 = Rmin (1 / nu) (xi * exp (nth i x 0))) /\
  (forall i j, (i < length x)%nat -> (j < length x)%nat -> nth i x 0 <= nth j x 0 -> nth i d 0 <= nth j d 0) /\
  (forall i j, (i < length x)%nat -> (j < length x)%nat -> nth i x 0 = nth j x 0 -> nth i d 0 = nth j d 0) /\
  (forall i, (i < length x)%nat -> 0 < nth i d 0).
Proof.
  intros nu x ix d Hix Hnu E.
  destruct (project_with_spec ix nu x Hix Hnu) as [xi [d' [E' [Hxi [Hl [Hm Hs]]]]]].
  assert (d' = d) by congruence. subst d'.
  split; [exists xi; split; assumption|]. split; [|split].
  - intros i j Hi Hj Hle. rewrite !Hm by assumption. apply Rle_min_compat_l.
    apply Rmult_le_compat_l; [lra|]. apply exp_le_exp; exact Hle.
  - intros i j Hi Hj Heq. rewrite !Hm, Heq by assumption. reflexivity.
  - intros i Hi. rewrite Hm by exact Hi. apply Rmin_glb_lt.
    + apply Rdiv_lt_0_compat; lra.
    + apply Rmult_lt_0_compat; [exact Hxi|apply exp_pos].
Qed.

(** ** C03 *)
Lemma P_C03_projection_is_entropy_projection : forall nu x ix d,
  sorted_perm x ix -> 1 <= nu <= INR (length x) -> project_with ix nu x = Ok d ->
  forall c, length c = length x -> in_capped_simplex nu c ->
    kl_to_exp d x <= kl_to_exp c x /\ (kl_to_exp c x <= kl_to_exp d x -> c = d).
Proof.
  intros nu x ix d Hix Hnu E c Hlc Hc.
  destruct (project_with_spec ix nu x Hix Hnu) as [xi [d' [E' [Hxi [Hl [Hm Hs]]]]]].
  assert (d' = d) by congruence. subst d'.
  apply (kl_optimal nu xi); auto. lra.
Qed.

(** the result does not depend on how the sort breaks ties *)
Lemma P_C02_projection_tie_independent : forall nu x ix ix' d d',
  sorted_perm x ix -> sorted_perm x ix' -> 1 <= nu <= INR (length x) ->
  project_with ix nu x = Ok d -> project_with ix' nu x = Ok d' -> d = d'.
Proof.
  intros nu x ix ix' d d' H1 H2 Hnu E1 E2.
  destruct (P_C01_projection_in_capped_simplex nu x ix H1 Hnu) as [e [F1 [L1 C1]]].
  destruct (P_C01_projection_in_capped_simplex nu x ix' H2 Hnu) as [e' [F2 [L2 C2]]].
  assert (e = d) by congruence. assert (e' = d') by congruence. subst.
  apply (P_C03_projection_is_entropy_projection nu x ix' d' H2 Hnu E2 d L1 C1).
  apply (P_C03_projection_is_entropy_projection nu x ix d H1 Hnu E1 d' L2 C2).
Qed.

Example C03_nonvacuous : in_capped_simplex 2 [1/4; 1/2; 1/4] /\ length [1/4; 1/2; 1/4] = length [0; 3; 1].
Proof.
  split; [|reflexivity]. split; [|simpl; lra].
  intros v [<-|[<-|[<-|[]]]]; lra.
Qed.

(** ** C43 entropy *)
Lemma P_C43_entropy_bounds : forall d, is_dist d ->
  - ln (INR (length d)) <= entropy d <= 0 /\
  0 <= entropy_from_uni_distribution d <= ln (INR (length d)).
Proof.
  intros d Hd. pose proof (entropy_lower d Hd) as L.
  assert (U : entropy d <= - ln 1).
  { apply entropy_upper_cap; [lra|]. destruct Hd as [H0 H1]. split; [|exact H1].
    intros v Hv. split; [apply H0; exact Hv|]. pose proof (rsum_in_le d v H0 Hv). lra. }
  rewrite ln_1 in U. unfold entropy_from_uni_distribution. lra.
Qed.

Lemma P_C43_entropy_capped : forall nu d, 1 <= nu -> in_capped_simplex nu d ->
  entropy_from_uni_distribution d <= ln (INR (length d) / nu).
Proof.
  intros nu d Hnu Hd. pose proof (entropy_upper_cap nu d Hnu Hd) as U.
  assert (Hn : (0 < length d)%nat) by (destruct d; [destruct Hd as [_ Hs]; simpl in Hs; lra|simpl; lia]).
  apply INR_pos in Hn. unfold entropy_from_uni_distribution, Rdiv.
  rewrite ln_mult, ln_Rinv by (try apply Rinv_0_lt_compat; lra). lra.
Qed.

Example C43_nonvacuous : is_dist [1/4; 0; 3/4].
Proof. split; [|simpl; lra]. intros v [<-|[<-|[<-|[]]]]; lra. Qed.

(** ** C44 parallel reductions *)
Lemma P_C44_parallel_sum_schedule_independent : forall t1 t2,
  Permutation (ptree_items t1) (ptree_items t2) -> ptree_sum t1 = ptree_sum t2.
Proof. exact (fun t1 t2 H => eq_trans (ptree_sum_items t1) (eq_trans (rsum_perm _ _ H) (eq_sym (ptree_sum_items t2)))). Qed.

Lemma P_C44_parallel_inner_product : forall a b t,
  ptree_items t = map (fun p => fst p * snd p) (combine a b) -> ptree_sum t = inner_product a b.
Proof. exact (fun a b t H => eq_trans (ptree_sum_items t) (f_equal rsum H)). Qed.

Lemma P_C44_parallel_update_order_independent : forall f ix v,
  Permutation ix (seq 0 (length v)) -> par_update f ix v = map f v.
Proof. exact par_update_map. Qed.

Example C44_nonvacuous :
  ptree_items (PNode (PLeaf [1; 2]) (PNode (PLeaf []) (PLeaf [3])))
  = map (fun p => fst p * snd p) (combine [1; 1; 1] [1; 2; 3]).
Proof. simpl. repeat f_equal; lra. Qed.

(** ** normalize *)
Lemma P_C13_normalize_unit_norm : forall v,
  (exists w, normalize v = Ok w /\ length w = length v /\ rsum (map Rabs w) = 1 /\
     exists z, 0 < z /\ forall i, (i < length v)%nat -> nth i v 0 = z * nth i w 0) \/
  (normalize v = Panic AssertFailed /\ forall x, In x v -> x = 0).
Proof.
  intros v. pose proof (normalize_spec v) as S. destruct (normalize v) as [w|p].
  - left. exists w. destruct S as [L [S1 [z [Hz [_ Hn]]]]]. split; [reflexivity|]. split; [exact L|].
    split; [exact S1|]. exists z. split; [exact Hz|]. intros i Hi. rewrite Hn by exact Hi. field. lra.
  - right. destruct S as [-> S]. split; [reflexivity|exact S].
Qed.

