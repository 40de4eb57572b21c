(** Proofs about the decision tree learner, part 3: the chosen split in terms of the examples. *)
From Coq Require Import String.
From Verif Require Import Base Spec BinSearch Feature Sample SampleSpec SampleFacts Bins BinsSpec BinsProofs TreeSpec DTree TreeShape DTreeProofs DTreeSplit.
Open Scope R_scope.

Lemma below_filter_ext x x' t t' idx : (forall i, In i idx -> (x i < t <-> x' i < t')) ->
  filter (below x t) idx = filter (below x' t') idx /\ filter (not_below x t) idx = filter (not_below x' t') idx.
Proof.
  intros H. split; apply filter_ext_in'; intros i Hi; specialize (H i Hi); unfold below, not_below; destruct (Rlt_dec (x i) t), (Rlt_dec (x' i) t'); try reflexivity; tauto.
Qed.
Lemma crit_value_ext c labels lab x x' d t t' idx : (forall i, In i idx -> (x i < t <-> x' i < t')) ->
  crit_value c labels lab x d t idx = crit_value c labels lab x' d t' idx.
Proof.
  intros H. destruct (below_filter_ext x x' t t' idx H) as [E1 E2]. destruct c; unfold crit_value, split_impurity, twoing_of; rewrite ?E1, ?E2; try reflexivity.
  do 2 f_equal. unfold stump_edge. apply rsum_map_ext. intros i Hi. specialize (H i Hi). unfold stump. destruct (Rlt_dec (x i) t), (Rlt_dec (x' i) t'); try reflexivity; tauto.
Qed.

Lemma cover_sum (g : Z -> R) l l' : NoDup l -> NoDup l' -> (forall z, g z <> 0 -> In z l /\ In z l') -> rsum (map g l) = rsum (map g l').
Proof.
  intros N N' H. set (q := fun z => negb (Reqb (g z) 0)).
  assert (F : forall l, rsum (map g l) = rsum (map g (filter q l))).
  { clear. induction l as [|z l IH]; simpl; [reflexivity|]. unfold q at 1. destruct (Reqb_spec (g z) 0); simpl; lra. }
  rewrite (F l), (F l'). apply rsum_perm. apply Permutation_map. apply NoDup_Permutation; try (apply NoDup_filter; assumption).
  intros z. rewrite !filter_In. unfold q. destruct (Reqb_spec (g z) 0) as [|Hz]; simpl; [intuition discriminate|]. destruct (H z Hz). tauto.
Qed.

Lemma sum_where_filter g p q idx : sum_where g p (filter q idx) = sum_where (fun i => if p i then g i else 0) q idx.
Proof. unfold sum_where. induction idx as [|i idx IH]; simpl; [reflexivity|]. destruct (q i); simpl; [|exact IH]. destruct (p i); simpl; rewrite IH; lra. Qed.

Lemma total_labels labels lab d I : NoDup labels -> (forall i, In i I -> In (lab i) labels) -> rsum (map (fun z => label_weight lab d z I) labels) = total d I.
Proof.
  intros NL H. destruct (histo_spec lab d I) as [A [B [C [D _]]]]. cbv zeta in *. rewrite <- D, (lw_total_labels labels); try assumption.
  - apply rsum_map_ext. intros z _. symmetry. apply C.
  - intros z Hz. apply B in Hz. destruct Hz as [i [Hi <-]]. apply H, Hi.
Qed.

Lemma label_weight_nonneg lab d z I : (forall i, In i I -> 0 < d i) -> 0 <= label_weight lab d z I.
Proof. intros H. unfold label_weight, sum_where. apply rsum_nonneg. intros v Hv. apply in_map_iff in Hv. destruct Hv as [i [<- Hi]]. apply filter_In in Hi. left. apply H. tauto. Qed.

Lemma total_pos' d I : I <> [] -> (forall i, In i I -> 0 < d i) -> 0 < total d I.
Proof. intros Hne H. unfold total. apply rsum_pos; [destruct I; [congruence|discriminate]|]. intros v Hv. apply in_map_iff in Hv. destruct Hv as [i [<- Hi]]. apply H, Hi. Qed.

Section Imp.
  Variables (labels : list Z) (lab : nat -> Z) (d : nat -> R) (W : R).
  Hypothesis NL : NoDup labels.
  Hypothesis W0 : 0 < W.
  Lemma scaled_keys I : (forall i, In i I -> In (lab i) labels) -> NoDup (keys (scale W (histo lab d I))) /\ forall z, In z (keys (scale W (histo lab d I))) -> In z labels.
  Proof.
    intros H. destruct (histo_spec lab d I) as [A [B _]]. cbv zeta in *. rewrite scale_keys. split; [exact A|]. intros z Hz. apply B in Hz. destruct Hz as [i [Hi <-]]. apply H, Hi.
  Qed.
  Lemma scaled_val I z : lw_val (scale W (histo lab d I)) z = label_weight lab d z I / W.
  Proof. rewrite scale_val. destruct (histo_spec lab d I) as [_ [_ [C _]]]. rewrite C. reflexivity. Qed.
  Lemma scaled_tot I : (forall i, In i I -> In (lab i) labels) -> rsum (map (lw_val (scale W (histo lab d I))) labels) = total d I / W.
  Proof.
    intros H. rewrite (rsum_map_ext _ (fun z => label_weight lab d z I / W)) by (intros z _; apply scaled_val). rewrite rsum_map_div, total_labels by assumption. reflexivity.
  Qed.

  Lemma entropy_value I : I <> [] -> (forall i, In i I -> 0 < d i) -> (forall i, In i I -> In (lab i) labels) ->
    entropic_impurity (scale W (histo lab d I)) = entropy_of labels lab d I.
  Proof.
    intros Hne Hd Hl. destruct (scaled_keys I Hl) as [N K]. rewrite (entropy_labels labels _ NL N K). cbv zeta. rewrite scaled_tot by exact Hl.
    pose proof (total_pos' d I Hne Hd) as T0. rewrite Rleb_false by (apply Rdiv_lt_0_compat; assumption). unfold entropy_of. apply rsum_map_ext. intros z _.
    rewrite scaled_val. replace (label_weight lab d z I / W / (total d I / W)) with (share lab d z I) by (unfold share; field; lra).
    assert (S0 : 0 <= share lab d z I). { unfold share. apply Rmult_le_pos; [apply label_weight_nonneg, Hd|]. left. apply Rinv_0_lt_compat, T0. }
    unfold xlnx. destruct (Rleb_spec (share lab d z I) 0), (Req_EM_T (share lab d z I) 0); try lra.
  Qed.
  Lemma gini_value I : I <> [] -> (forall i, In i I -> 0 < d i) -> (forall i, In i I -> In (lab i) labels) ->
    gini_impurity (scale W (histo lab d I)) = gini_of labels lab d I.
  Proof.
    intros Hne Hd Hl. destruct (scaled_keys I Hl) as [N K]. rewrite (gini_labels labels _ NL N K). cbv zeta. rewrite scaled_tot by exact Hl.
    pose proof (total_pos' d I Hne Hd) as T0. rewrite Rleb_false by (apply Rdiv_lt_0_compat; assumption). unfold gini_of.
    rewrite (rsum_map_ext _ (fun z => share lab d z I ^ 2)).
    2:{ intros z _. rewrite scaled_val. f_equal. unfold share. field. lra. }
    apply Rmax_left.
    assert (H1 : rsum (map (fun z => share lab d z I) labels) = 1).
    { unfold share. rewrite rsum_map_div, total_labels by assumption. field. lra. }
    assert (S0 : forall z, 0 <= share lab d z I). { intros z. unfold share. apply Rmult_le_pos; [apply label_weight_nonneg, Hd|]. left. apply Rinv_0_lt_compat, T0. }
    assert (H2 : rsum (map (fun z => share lab d z I ^ 2) labels) <= rsum (map (fun z => share lab d z I) labels)); [|lra].
    apply rsum_map_le. intros z Hz. assert (share lab d z I <= 1).
    { rewrite <- H1. apply (rsum_in_le (map (fun z => share lab d z I) labels)); [|apply (in_map (fun z => share lab d z I)), Hz]. intros v Hv. apply in_map_iff in Hv. destruct Hv as [z' [<- _]]. apply S0. }
    specialize (S0 z). nra.
  Qed.
End Imp.

(** ** one feature *)
Section Feature.
  Variables (x d : nat -> R) (lab : nat -> Z) (labels : list Z) (idx : list nat) (out : list (bin * lw)) (e' : R).
  Let W := total d idx.
  Hypothesis Hc : chain F64MIN e' (map fst out).
  Hypothesis Hon : out <> [].
  Hypothesis Hne : idx <> [].
  Hypothesis Hx : forall i, In i idx -> F64MIN <= x i < e'.
  Hypothesis Hd : forall i, In i idx -> 0 < d i.
  Hypothesis Hm : forall b m, In (b, m) out -> m = scale W (histo lab d (filter (fun i => bin_contains b (x i)) idx)).
  Hypothesis NL : NoDup labels.
  Hypothesis Hl : forall i, In i idx -> In (lab i) labels.

  Lemma W_pos : 0 < W. Proof. apply total_pos'; assumption. Qed.

  Lemma out_good : good_maps labels out.
  Proof.
    intros [b m] Hin. simpl. rewrite (Hm b m Hin). set (I := filter _ idx). assert (HI : forall i, In i I -> In i idx) by (intros i Hi; apply filter_In in Hi; tauto).
    destruct (scaled_keys labels lab d W I) as [A B]; [intros i Hi; apply Hl, HI, Hi|]. split; [exact A|]. split; [|exact B].
    intros p Hp. apply in_map_iff in Hp. destruct Hp as [q [<- Hq]]. simpl. apply Rdiv_lt_0_compat; [|apply W_pos]. apply (histo_pos lab d I); [intros i Hi; apply Hd, HI, Hi|exact Hq].
  Qed.

  Definition thr k := b_end (fst (nth k out (b0, []))).
  Lemma thr_map k : (k < length out)%nat -> thr k = b_end (nth k (map fst out) b0).
  Proof. intros Hk. unfold thr. rewrite (nth_map_in fst out k (b0, [])) by exact Hk. reflexivity. Qed.

  (** sums over the first bins are sums over the rows below the threshold *)
  Lemma prefix_fun (F : lw -> R) (g : nat -> R) : (forall I, incl I idx -> F (scale W (histo lab d I)) = rsum (map g I) / W) ->
    forall k, (k < length out)%nat -> rsum (map (fun bp => F (snd bp)) (firstn (S k) out)) = sum_where g (below x (thr k)) idx / W.
  Proof.
    intros HF k Hk. rewrite thr_map by exact Hk.
    rewrite <- (prefix_sum x g (map fst out) F64MIN e' idx k Hc (fun i Hi => proj1 (Hx i Hi)) ltac:(rewrite map_length; exact Hk)).
    rewrite firstn_map, map_map, <- rsum_map_div. apply rsum_map_ext. intros [b m] Hin. simpl.
    assert (Hin' : In (b, m) out) by (rewrite <- (firstn_skipn (S k) out); apply in_or_app; left; exact Hin).
    rewrite (Hm b m Hin'), HF; [reflexivity|]. intros i Hi. apply filter_In in Hi. tauto.
  Qed.
  Lemma whole_fun (F : lw -> R) (g : nat -> R) : (forall I, incl I idx -> F (scale W (histo lab d I)) = rsum (map g I) / W) ->
    rsum (map (fun bp => F (snd bp)) out) = rsum (map g idx) / W.
  Proof.
    intros HF. assert (Hmn : map fst out <> []) by (clear - Hon; destruct out; [congruence|discriminate]). rewrite <- (all_sum x g (map fst out) F64MIN e' idx Hc Hmn Hx).
    rewrite map_map, <- rsum_map_div. apply rsum_map_ext. intros [b m] Hin. simpl. rewrite (Hm b m Hin), HF; [reflexivity|]. intros i Hi. apply filter_In in Hi. tauto.
  Qed.

  Lemma F_total I : incl I idx -> lw_total (scale W (histo lab d I)) = rsum (map d I) / W.
  Proof. intros _. rewrite scale_total. destruct (histo_spec lab d I) as [_ [_ [_ [D _]]]]. rewrite D. reflexivity. Qed.
  Lemma F_val z I : incl I idx -> lw_val (scale W (histo lab d I)) z = rsum (map (fun i => if Z.eqb (lab i) z then d i else 0) I) / W.
  Proof.
    intros _. rewrite scaled_val. f_equal. unfold label_weight, sum_where. clear. induction I as [|i I IH]; simpl; [reflexivity|]. destruct (Z.eqb (lab i) z); simpl; lra.
  Qed.
  Lemma F_edge I : incl I idx -> pack_edge (scale W (histo lab d I)) = rsum (map (fun i => IZR (lab i) * d i) I) / W.
  Proof. intros _. rewrite scale_edge. destruct (histo_spec lab d I) as [_ [_ [_ [_ E]]]]. rewrite E. reflexivity. Qed.

  Lemma T_prefix k : (k < length out)%nat -> T (firstn (S k) out) = total d (filter (below x (thr k)) idx) / W.
  Proof. intros Hk. unfold T. rewrite (prefix_fun lw_total d F_total k Hk). reflexivity. Qed.
  Lemma T_whole : T out = 1.
  Proof. unfold T. rewrite (whole_fun lw_total d F_total). fold (total d idx). fold W. field. pose proof W_pos. lra. Qed.
  Lemma V_prefix k z : (k < length out)%nat -> V (firstn (S k) out) z = label_weight lab d z (filter (below x (thr k)) idx) / W.
  Proof. intros Hk. unfold V. rewrite (prefix_fun (fun m => lw_val m z) _ (F_val z) k Hk). unfold label_weight. rewrite sum_where_filter. reflexivity. Qed.
  Lemma not_below_sum g t : sum_where g (not_below x t) idx = rsum (map g idx) - sum_where g (below x t) idx.
  Proof.
    rewrite <- (sum_where_split g (below x t) idx). rewrite (sum_where_ext g (not_below x t) (fun i => negb (below x t i)) idx); [lra|].
    intros i _. unfold below, not_below. destruct (Rlt_dec (x i) t); reflexivity.
  Qed.
  Lemma V_suffix k z : (k < length out)%nat -> V (skipn (S k) out) z = label_weight lab d z (filter (not_below x (thr k)) idx) / W.
  Proof.
    intros Hk. assert (E : V out z = V (firstn (S k) out) z + V (skipn (S k) out) z) by (rewrite <- V_app, firstn_skipn; reflexivity).
    assert (Ew : V out z = rsum (map (fun i => if Z.eqb (lab i) z then d i else 0) idx) / W) by (unfold V; rewrite (whole_fun (fun m => lw_val m z) _ (F_val z)); reflexivity).
    rewrite (V_prefix k z Hk) in E. unfold label_weight in *. rewrite sum_where_filter in *. rewrite not_below_sum.
    replace (V (skipn (S k) out) z) with (V out z - sum_where (fun i => if Z.eqb (lab i) z then d i else 0) (below x (thr k)) idx / W) by lra. rewrite Ew. unfold Rdiv. ring.
  Qed.
  Lemma total_not_below t : total d (filter (not_below x t) idx) = W - total d (filter (below x t) idx).
  Proof. unfold total. fold (sum_where d (not_below x t) idx) (sum_where d (below x t) idx). rewrite not_below_sum. reflexivity. Qed.

  Lemma first_below : filter (below x F64MIN) idx = [].
  Proof.
    destruct (filter (below x F64MIN) idx) as [|i l] eqn:E; [reflexivity|]. assert (Hi : In i (filter (below x F64MIN) idx)) by (rewrite E; left; reflexivity).
    apply filter_In in Hi. destruct Hi as [Hi Hb]. unfold below in Hb. specialize (Hx i Hi). destruct (Rlt_dec (x i) F64MIN); [lra|discriminate].
  Qed.
  Lemma first_not_below : filter (not_below x F64MIN) idx = idx.
  Proof.
    rewrite (filter_ext_in' _ (fun _ => true)); [clear; induction idx as [|i l IH]; simpl; [reflexivity|rewrite IH; reflexivity]|].
    intros i Hi. specialize (Hx i Hi). unfold not_below. destruct (Rlt_dec (x i) F64MIN); [lra|reflexivity].
  Qed.

  (** impurities *)
  Section One.
    Variables (imp : lw -> R) (impS : list nat -> R).
    Hypothesis Hext : imp_ext labels imp.
    Hypothesis Hnil : imp [] = 0.
    Hypothesis Hval : forall I, I <> [] -> incl I idx -> imp (scale W (histo lab d I)) = impS I.

    Lemma imp_of ps I : good_maps labels ps -> incl I idx -> (forall z, V ps z = label_weight lab d z I / W) -> imp (all_right ps) = match I with [] => 0 | _ => impS I end.
    Proof.
      intros G HI HV. destruct (all_right_spec labels ps G) as [N [K Vv]].
      assert (E : imp (all_right ps) = imp (scale W (histo lab d I))).
      { destruct (scaled_keys labels lab d W I) as [A B]; [intros i Hi; apply Hl, HI, Hi|]. apply Hext; try assumption.
        - intros z Hz. apply K in Hz. destruct Hz as [q [Hq Hz]]. apply (G q Hq), Hz.
        - intros z. rewrite Vv, HV, scaled_val. reflexivity. }
      rewrite E. clear E HV. destruct I as [|i I']; [exact Hnil|]. apply Hval; [discriminate|exact HI].
    Qed.

    Lemma imp_score_value k : (k < length out)%nat -> imp_score imp 1 (firstn (S k) out) (skipn (S k) out) = split_impurity impS x d (thr k) idx.
    Proof.
      intros Hk. unfold imp_score. pose proof W_pos as W0.
      assert (G1 : good_maps labels (firstn (S k) out)). { intros q Hq. apply out_good. rewrite <- (firstn_skipn (S k) out). apply in_or_app. left. exact Hq. }
      assert (G2 : good_maps labels (skipn (S k) out)). { intros q Hq. apply out_good. rewrite <- (firstn_skipn (S k) out). apply in_or_app. right. exact Hq. }
      rewrite (imp_of _ (filter (below x (thr k)) idx) G1); [|intros i Hi; apply filter_In in Hi; tauto|intros z; apply V_prefix, Hk].
      rewrite (imp_of _ (filter (not_below x (thr k)) idx) G2); [|intros i Hi; apply filter_In in Hi; tauto|intros z; apply V_suffix, Hk].
      rewrite T_prefix by exact Hk. set (A := filter (below x (thr k)) idx). set (B := filter (not_below x (thr k)) idx).
      assert (EB : total d B = W - total d A) by apply total_not_below.
      assert (B0 : 0 <= total d B). { unfold total. apply rsum_nonneg. intros v Hv. apply in_map_iff in Hv. destruct Hv as [i [<- Hi]]. apply filter_In in Hi. left. apply Hd. tauto. }
      replace (1 - total d A / W / 1) with (total d B / W) by (rewrite EB; field; lra).
      rewrite Rmax_left by (apply Rmult_le_pos; [exact B0|left; apply Rinv_0_lt_compat, W0]).
      unfold split_impurity. fold A B W. unfold side. destruct A as [|a A']; destruct B as [|b B']; unfold Rdiv; rewrite ?Rinv_1; try ring.
    Qed.

    Lemma imp_first : imp (all_right out) = split_impurity impS x d F64MIN idx.
    Proof.
      rewrite (imp_of out idx out_good (incl_refl idx)).
      - unfold split_impurity. rewrite first_below, first_not_below. pose proof W_pos. unfold side. destruct idx; [congruence|]. fold W. field. lra.
      - intros z. unfold V. rewrite (whole_fun (fun m => lw_val m z) _ (F_val z)). f_equal. unfold label_weight, sum_where. clear. induction idx as [|i I IH]; simpl; [reflexivity|]. destruct (Z.eqb (lab i) z); simpl; lra.
    Qed.

    Lemma impurity_choice drop : exists t b, split_by_impurity drop imp out = Ok (t, b) /\
      In t (F64MIN :: map (fun o => b_end (fst o)) out) /\ b = split_impurity impS x d t idx /\
      forall t', In t' (F64MIN :: map (fun o => b_end (fst o)) out) -> b <= split_impurity impS x d t' idx.
    Proof.
      destruct (split_by_impurity_spec labels drop imp out NL Hext out_good) as [t [b [E [Hb [Hall Hex]]]]]. rewrite T_whole in *.
      exists t, b. split; [exact E|]. split; [|split].
      - destruct Hex as [[-> _]|[k [Hk [-> _]]]]; [left; reflexivity|]. right. apply (in_map (fun o => b_end (fst o))), nth_In, Hk.
      - destruct Hex as [[-> ->]|[k [Hk [-> ->]]]]; [apply imp_first|]. apply (imp_score_value k Hk).
      - intros t' [<-|Ht]; [rewrite <- imp_first; exact Hb|]. apply in_map_iff in Ht. destruct Ht as [o [<- Ho]]. apply (In_nth _ _ (b0, [])) in Ho. destruct Ho as [k [Hk <-]].
        specialize (Hall k Hk). rewrite (imp_score_value k Hk) in Hall. exact Hall.
    Qed.
  End One.

  Lemma entropy_choice : exists t b, split_by_entropy out = Ok (t, b) /\
      In t (F64MIN :: map (fun o => b_end (fst o)) out) /\ b = split_impurity (entropy_of labels lab d) x d t idx /\
      forall t', In t' (F64MIN :: map (fun o => b_end (fst o)) out) -> b <= split_impurity (entropy_of labels lab d) x d t' idx.
  Proof.
    apply impurity_choice; [apply entropy_ext, NL| |].
    - unfold entropic_impurity, lw_total. simpl. rewrite Rleb_true by lra. reflexivity.
    - intros I HI Hin. apply entropy_value; auto. apply W_pos.
  Qed.
  Lemma gini_choice : exists t b, split_by_gini out = Ok (t, b) /\
      In t (F64MIN :: map (fun o => b_end (fst o)) out) /\ b = split_impurity (gini_of labels lab d) x d t idx /\
      forall t', In t' (F64MIN :: map (fun o => b_end (fst o)) out) -> b <= split_impurity (gini_of labels lab d) x d t' idx.
  Proof.
    apply impurity_choice; [apply gini_ext, NL| |].
    - unfold gini_impurity, lw_total. simpl. rewrite Rleb_true by lra. reflexivity.
    - intros I HI Hin. apply gini_value; auto. apply W_pos.
  Qed.

  (** the edge *)
  Lemma stump_edge_sum t : stump_edge x (fun i => IZR (lab i)) d t idx = rsum (map (fun i => IZR (lab i) * d i) idx) - 2 * sum_where (fun i => IZR (lab i) * d i) (below x t) idx.
  Proof.
    unfold stump_edge, sum_where. clear. induction idx as [|i I IH]; simpl; [lra|]. rewrite IH. unfold below at 2, stump. destruct (Rlt_dec (x i) t); simpl; lra.
  Qed.
  Lemma edge_choice : let '(t, b) := split_by_edge out in
      In t (F64MIN :: map (fun o => b_end (fst o)) out) /\ b = Rabs (stump_edge x (fun i => IZR (lab i)) d t idx) / W /\
      forall t', In t' (F64MIN :: map (fun o => b_end (fst o)) out) -> Rabs (stump_edge x (fun i => IZR (lab i)) d t' idx) / W <= b.
  Proof.
    unfold split_by_edge. fold (PE out). pose proof W_pos as W0. 
    assert (Ew : PE out = rsum (map (fun i => IZR (lab i) * d i) idx) / W) by (unfold PE; apply (whole_fun pack_edge _ F_edge)).
    assert (Ek : forall k, (k < length out)%nat -> Rabs (PE out - 2 * PE (firstn (S k) out)) = Rabs (stump_edge x (fun i => IZR (lab i)) d (thr k) idx) / W).
    { intros k Hk. rewrite Ew. unfold PE. rewrite (prefix_fun pack_edge _ F_edge k Hk). rewrite stump_edge_sum.
      rewrite <- (Rabs_right W) at 3 by lra. unfold Rdiv. rewrite <- Rabs_inv, <- Rabs_mult. f_equal. ring. }
    assert (E0 : Rabs (PE out) = Rabs (stump_edge x (fun i => IZR (lab i)) d F64MIN idx) / W).
    { rewrite Ew, stump_edge_sum. unfold sum_where. rewrite first_below. simpl. rewrite <- (Rabs_right W) at 2 by lra. unfold Rdiv. rewrite <- Rabs_inv, <- Rabs_mult. f_equal. ring. }
    pose proof (edge_loop_spec out (PE out) (Rabs (PE out)) F64MIN) as S. destruct (edge_loop out (PE out) (Rabs (PE out)) F64MIN) as [t b]. destruct S as [A [B C]]. split; [|split].
    - destruct C as [[-> _]|[k [Hk [-> _]]]]; [left; reflexivity|]. right. apply (in_map (fun o => b_end (fst o))), nth_In, Hk.
    - destruct C as [[-> ->]|[k [Hk [-> ->]]]]; [exact E0|]. apply (Ek k Hk).
    - intros t' [<-|Ht]; [rewrite <- E0; exact A|]. apply in_map_iff in Ht. destruct Ht as [o [<- Ho]]. apply (In_nth _ _ (b0, [])) in Ho. destruct Ho as [k [Hk <-]].
      specialize (B k Hk). rewrite (Ek k Hk) in B. exact B.
  Qed.

  (** twoing *)
  Lemma twoing_labels labels' t : NoDup labels' -> (forall i, In i idx -> In (lab i) labels') -> twoing_of labels' lab x d t idx = twoing_of labels lab x d t idx.
  Proof.
    intros NL' Hl'. unfold twoing_of. destruct (filter (below x t) idx) as [|a A] eqn:EA; [reflexivity|]. destruct (filter (not_below x t) idx) as [|b B] eqn:EB; [reflexivity|]. f_equal. f_equal.
    apply cover_sum; try assumption. intros z Hz.
    assert (HS : forall I, incl I idx -> share lab d z I <> 0 -> In z labels' /\ In z labels).
    { intros I HI HS. unfold share, label_weight, sum_where in HS. destruct (filter (fun i => Z.eqb (lab i) z) I) as [|i l] eqn:E.
      - exfalso. apply HS. simpl. unfold Rdiv. ring.
      - assert (Hi : In i (filter (fun i => Z.eqb (lab i) z) I)) by (rewrite E; left; reflexivity). apply filter_In in Hi. destruct Hi as [Hi Hz']. apply Z.eqb_eq in Hz'. subst z. split; [apply Hl'|apply Hl]; apply HI, Hi. }
    destruct (Req_EM_T (share lab d z (a :: A)) 0) as [E1|E1].
    - destruct (Req_EM_T (share lab d z (b :: B)) 0) as [E2|E2].
      + exfalso. apply Hz. rewrite E1, E2, Rminus_0_r. apply Rabs_R0.
      + apply (HS (b :: B)); [|exact E2]. rewrite <- EB. intros i Hi. apply filter_In in Hi. tauto.
    - apply (HS (a :: A)); [|exact E1]. rewrite <- EA. intros i Hi. apply filter_In in Hi. tauto.
  Qed.

  Lemma tw_fun_value k : (k < length out)%nat -> tw_fun labels (V (firstn (S k) out)) (V (skipn (S k) out)) = twoing_of labels lab x d (thr k) idx.
  Proof.
    intros Hk. pose proof W_pos as W0. rewrite (tw_fun_ext labels _ _ (fun z => label_weight lab d z (filter (below x (thr k)) idx) / W) (fun z => label_weight lab d z (filter (not_below x (thr k)) idx) / W)) by (intros z _; (apply V_prefix || apply V_suffix); exact Hk).
    unfold tw_fun, twoing_of. cbv zeta. set (A := filter (below x (thr k)) idx). set (B := filter (not_below x (thr k)) idx).
    assert (HA : incl A idx) by (intros i Hi; apply filter_In in Hi; tauto). assert (HB : incl B idx) by (intros i Hi; apply filter_In in Hi; tauto).
    rewrite !rsum_map_div, !total_labels by (try exact NL; intros i Hi; apply Hl; auto).
    assert (EB : total d B = W - total d A) by apply total_not_below.
    assert (Z0 : total d [] = 0) by reflexivity.
    destruct A as [|a A'] eqn:EA.
    { rewrite Z0. rewrite (Reqb_true (0 / W) 0) by (unfold Rdiv; ring). reflexivity. }
    destruct B as [|b B'] eqn:EBn.
    { rewrite Z0. rewrite (Reqb_true (0 / W) 0) by (unfold Rdiv; ring). rewrite orb_true_r. reflexivity. }
    rewrite <- EA, <- EBn in *. assert (TA : 0 < total d A) by (apply total_pos'; [congruence|intros i Hi; apply Hd, HA, Hi]). assert (TB : 0 < total d B) by (apply total_pos'; [congruence|intros i Hi; apply Hd, HB, Hi]).
    assert (QA : 0 < total d A / W) by (apply Rdiv_lt_0_compat; assumption). assert (QB : 0 < total d B / W) by (apply Rdiv_lt_0_compat; assumption).
    rewrite !Reqb_false by lra. simpl orb. cbv iota. fold W.
    rewrite (rsum_map_ext _ (fun z => Rabs (share lab d z A - share lab d z B))).
    2:{ intros z _. f_equal. unfold share. field. lra. }
    replace (total d A / W + total d B / W) with 1 by (rewrite EB; field; lra). field. lra.
  Qed.
End Feature.

Section Feature2.
  Variables (x d : nat -> R) (lab : nat -> Z) (labels : list Z) (idx : list nat) (out : list (bin * lw)) (e' : R).
  Let W := total d idx.
  Hypothesis Hc : chain F64MIN e' (map fst out).
  Hypothesis Hon : out <> [].
  Hypothesis Hne : idx <> [].
  Hypothesis Hx : forall i, In i idx -> F64MIN <= x i < e'.
  Hypothesis Hd : forall i, In i idx -> 0 < d i.
  Hypothesis Hm : forall b m, In (b, m) out -> m = scale W (histo lab d (filter (fun i => bin_contains b (x i)) idx)).
  Hypothesis NL : NoDup labels.
  Hypothesis Hl : forall i, In i idx -> In (lab i) labels.

  Lemma twoing_choice : exists t b, split_by_twoing out = Ok (t, b) /\
      In t (F64MIN :: map (fun o => b_end (fst o)) out) /\ b = twoing_of labels lab x d t idx /\
      forall t', In t' (F64MIN :: map (fun o => b_end (fst o)) out) -> twoing_of labels lab x d t' idx <= b.
  Proof.
    unfold split_by_twoing. pose proof (out_good x d lab labels idx out Hne Hd Hm Hl) as G0.
    destruct (all_right_spec labels out G0) as [N [K Vr]]. set (L' := map fst (all_right out)) in *. 
    assert (Hl' : forall i, In i idx -> In (lab i) L').
    { intros i Hi. fold (keys (all_right out)) in L'. unfold L'. apply K.
      destruct (chain_find _ _ _ _ Hc (Hx i Hi)) as [k [Hk Hb]]. rewrite map_length in Hk. exists (nth k out (b0, [])). split; [apply nth_In, Hk|].
      rewrite (nth_map_in fst out k (b0, []) b0) in Hb by exact Hk. destruct (nth k out (b0, [])) as [b m] eqn:Eb. assert (Hin : In (b, m) out) by (rewrite <- Eb; apply nth_In, Hk).
      simpl. rewrite (Hm b m Hin), scale_keys. apply (histo_spec lab d). exists i. split; [|reflexivity]. apply filter_In. split; [exact Hi|]. apply bin_contains_spec. exact Hb. }
    pose proof (out_good x d lab L' idx out Hne Hd Hm Hl') as G.
    destruct (twoing_loop_spec L' N out [] [] (all_right out) 0 F64MIN) as [t [b [E [Hb [Hall Hex]]]]].
    - exact G.
    - constructor.
    - exact N.
    - intros z [].
    - intros z Hz. exact Hz.
    - intros z. unfold lw_val, lw_get, V. reflexivity.
    - exact Vr.
    - cbn [app] in *.
      assert (Val : forall k, (k < length out)%nat -> tw_fun L' (V (firstn (S k) out)) (V (skipn (S k) out)) = twoing_of labels lab x d (thr out k) idx).
      { intros k Hk. rewrite (tw_fun_value x d lab L' idx out e' Hc Hon Hne Hx Hd Hm N Hl' k Hk). apply twoing_labels; assumption. }
      assert (V0 : twoing_of labels lab x d F64MIN idx = 0) by (unfold twoing_of; rewrite (first_below x idx e' Hx); reflexivity).
      exists t, b. split; [exact E|]. split; [|split].
      + destruct Hex as [[-> _]|[k [Hk [-> _]]]]; [left; reflexivity|]. right. apply (in_map (fun o => b_end (fst o))), nth_In, Hk.
      + destruct Hex as [[-> ->]|[k [Hk [-> ->]]]]; [symmetry; exact V0|]. apply (Val k Hk).
      + intros t' [<-|Ht]; [rewrite V0; exact Hb|]. apply in_map_iff in Ht. destruct Ht as [o [<- Ho]]. apply (In_nth _ _ (b0, [])) in Ho. destruct Ho as [k [Hk <-]].
        specialize (Hall k Hk). rewrite (Val k Hk) in Hall. exact Hall.
  Qed.

  Lemma choice c : exists t b, split_by c out = Ok (t, b) /\
      In t (F64MIN :: map (fun o => b_end (fst o)) out) /\ b = crit_value c labels lab x d t idx /\
      forall t', In t' (F64MIN :: map (fun o => b_end (fst o)) out) -> not_worse c b (crit_value c labels lab x d t' idx).
  Proof.
    destruct c; unfold split_by, crit_value, not_worse.
    - apply (entropy_choice x d lab labels idx out e'); assumption.
    - pose proof (edge_choice x d lab idx out e' Hc Hon Hne Hx Hd Hm) as H. destruct (split_by_edge out) as [t b]. exists t, b. split; [reflexivity|exact H].
    - apply (gini_choice x d lab labels idx out e'); assumption.
    - apply twoing_choice.
  Qed.
End Feature2.
