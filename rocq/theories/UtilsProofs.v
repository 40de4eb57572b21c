(** Proofs about src/common/utils.rs. *)
From Verif Require Import Base Spec SortLib Utils.
Open Scope R_scope.

(** ** logsums *)
Lemma logsums_cons x i ix : logsums x (i :: ix) = logsum_step x (logsums x ix) i.
Proof. unfold logsums. simpl rev. rewrite fold_left_app. reflexivity. Qed.

Definition expsum (x : list R) (ix : list nat) : R := rsum (map (fun i => exp (nth i x 0)) ix).

Lemma expsum_cons x i ix : expsum x (i :: ix) = exp (nth i x 0) + expsum x ix.
Proof. reflexivity. Qed.

Lemma expsum_nonneg x ix : 0 <= expsum x ix.
Proof.
  apply rsum_nonneg. intros v Hv. apply in_map_iff in Hv. destruct Hv as [i [<- _]].
  left; apply exp_pos.
Qed.

Lemma expsum_pos x ix : ix <> [] -> 0 < expsum x ix.
Proof.
  destruct ix as [|i ix]; [congruence|]. intros _. rewrite expsum_cons.
  pose proof (expsum_nonneg x ix). pose proof (exp_pos (nth i x 0)). lra.
Qed.

Lemma exp_lse_minmax a b : exp (lse (Rmax a b) (Rmin a b)) = exp a + exp b.
Proof.
  rewrite exp_lse. unfold Rmax, Rmin. destruct (Rle_dec a b); lra.
Qed.

Lemma logsums_head x i ix :
  exists ls, logsums x (i :: ix) = ls :: logsums x ix /\ exp ls = expsum x (i :: ix).
Proof.
  revert i; induction ix as [|j ix IH]; intros i.
  - exists (nth i x 0). split; [reflexivity|]. unfold expsum; simpl; lra.
  - destruct (IH j) as [ls [E1 E2]]. rewrite logsums_cons. rewrite E1. cbn [logsum_step].
    eexists. split; [reflexivity|]. cbv zeta. rewrite exp_lse_minmax, E2, (expsum_cons x i). lra.
Qed.

(** ** the loop *)
Lemma proj_rest_spec log_xi rest dist :
  NoDup (map fst rest) -> (forall j, In j (map fst rest) -> (j < length dist)%nat) ->
  length (proj_rest log_xi rest dist) = length dist /\
  (forall j, In j (map fst rest) -> nth j (proj_rest log_xi rest dist) 0 = exp (log_xi + nth j dist 0)) /\
  (forall j, ~ In j (map fst rest) -> nth j (proj_rest log_xi rest dist) 0 = nth j dist 0).
Proof.
  revert dist; induction rest as [|[i ls] rest IH]; intros dist Hnd Hr; simpl in *.
  - split; [reflexivity|]. split; [intros j []|reflexivity].
  - inversion Hnd as [|? ? Hni Hnd']; subst.
    destruct (IH (upd i (exp (log_xi + nth i dist 0)) dist) Hnd') as [H1 [H2 H3]].
    { intros j Hj. rewrite upd_length. apply Hr; right; exact Hj. }
    rewrite upd_length in H1. split; [exact H1|]. split.
    + intros j [<-|Hj].
      * rewrite H3 by exact Hni. apply upd_nth_same. apply Hr; left; reflexivity.
      * rewrite H2 by exact Hj. rewrite upd_nth_other; [reflexivity|]. intros ->; contradiction.
    + intros j Hj. rewrite H3 by tauto. apply upd_nth_other. tauto.
Qed.

Lemma combine_fst_logsums x ix : map fst (combine ix (logsums x ix)) = ix.
Proof.
  induction ix as [|i ix IH]; [reflexivity|].
  destruct (logsums_head x i ix) as [ls [E _]]. rewrite E. simpl. f_equal. exact IH.
Qed.

Lemma proj_loop_spec nu x rem :
  1 <= nu -> NoDup rem -> (forall j, In j rem -> (j < length x)%nat) ->
  StronglySorted (desc x) rem -> rem <> [] ->
  forall i dist,
  length dist = length x ->
  (forall j, In j rem -> nth j dist 0 = nth j x 0) ->
  0 < 1 - 1 / nu * INR i ->
  nu <= INR (i + length rem) ->
  exists A B xi d',
    proj_loop (1 / nu) (ln nu) i (combine rem (logsums x rem)) dist = Ok d' /\
    rem = A ++ B /\ B <> [] /\ 0 < xi /\
    length d' = length x /\
    (forall j, ~ In j rem -> nth j d' 0 = nth j dist 0) /\
    (forall j, In j A -> nth j d' 0 = 1 / nu /\ 1 / nu < xi * exp (nth j x 0)) /\
    (forall j, In j B -> nth j d' 0 = xi * exp (nth j x 0) /\ xi * exp (nth j x 0) <= 1 / nu) /\
    xi * expsum x B = 1 - 1 / nu * INR (i + length A).
Proof.
  intros Hnu. assert (Hnup : 0 < nu) by lra.
  assert (Hub : 0 < 1 / nu) by (apply Rdiv_lt_0_compat; lra).
  assert (Hubn : 1 / nu * nu = 1) by (field; lra).
  induction rem as [|a rem IH]; intros Hnd Hr Hs Hne i dist Hlen Hd Hpos Hcap; [congruence|].
  inversion Hnd as [|? ? Hna Hnd']; subst. inversion Hs as [|? ? Hs' Ha]; subst.
  destruct (logsums_head x a rem) as [ls [E1 E2]].
  rewrite E1. cbn [combine proj_loop].
  rewrite Rleb_false by exact Hpos.
  rewrite (Hd a) by (left; reflexivity).
  set (arg := 1 - 1 / nu * INR i) in *.
  set (S := expsum x (a :: rem)) in *.
  assert (HS : 0 < S) by (apply expsum_pos; discriminate).
  set (ea := exp (nth a x 0)).
  assert (Hea : 0 < ea) by apply exp_pos.
  assert (HSe : S = ea + expsum x rem) by reflexivity.
  pose proof (expsum_nonneg x rem) as Hrem.
  assert (Hxi : forall z, exp (ln arg - ls + z) = arg / S * exp z).
  { intros z. rewrite exp_plus. unfold Rminus. rewrite exp_plus, exp_Ropp, E2, exp_ln by exact Hpos.
    reflexivity. }
  assert (Htest : ln arg - ls + nth a x 0 + ln nu <= 0 <-> arg / S * ea <= 1 / nu).
  { assert (Ex : exp (ln arg - ls + nth a x 0 + ln nu) = arg / S * ea * nu)
      by (rewrite exp_plus, Hxi, exp_ln by exact Hnup; reflexivity).
    rewrite Rle_div_iff by exact Hnup. rewrite <- Ex, <- exp_0.
    split; [apply exp_le_exp|apply exp_le_inv]. }
  destruct (Rleb_spec (ln arg - ls + nth a x 0 + ln nu) 0) as [Hstop|Hgo].
  - (* stop here *)
    apply Htest in Hstop.
    set (dist1 := upd a (exp (ln arg - ls + nth a x 0)) dist).
    destruct (proj_rest_spec (ln arg - ls) (combine rem (logsums x rem)) dist1) as [H1 [H2 H3]].
    + rewrite combine_fst_logsums. exact Hnd'.
    + rewrite combine_fst_logsums. intros j Hj. unfold dist1. rewrite upd_length, Hlen.
      apply Hr; right; exact Hj.
    + rewrite combine_fst_logsums in H2, H3. assert (Hd1 : length dist1 = length dist) by apply upd_length. rewrite Hd1 in H1.
      exists [], (a :: rem), (arg / S), (proj_rest (ln arg - ls) (combine rem (logsums x rem)) dist1).
      assert (Hxp : 0 < arg / S) by (apply Rdiv_lt_0_compat; assumption).
      split; [reflexivity|]. split; [reflexivity|]. split; [discriminate|]. split; [exact Hxp|].
      split; [rewrite H1; exact Hlen|].
      split. { intros j Hj. simpl in Hj. rewrite H3 by tauto. unfold dist1. apply upd_nth_other. tauto. }
      split; [intros j []|]. split.
      * intros j [<-|Hj].
        -- split; [|exact Hstop]. rewrite H3 by exact Hna. unfold dist1. rewrite upd_nth_same.
           ++ apply Hxi.
           ++ rewrite Hlen. apply Hr; left; reflexivity.
        -- rewrite H2 by exact Hj. unfold dist1. rewrite upd_nth_other by (intros ->; contradiction).
           rewrite (Hd j) by (right; exact Hj). rewrite Hxi. split; [reflexivity|].
           rewrite Forall_forall in Ha. pose proof (Ha j Hj) as Hle. unfold desc in Hle.
           apply exp_le_exp in Hle. fold ea in Hle.
           apply Rle_trans with (arg / S * ea); [|exact Hstop].
           apply Rmult_le_compat_l; lra.
      * fold S. simpl length. rewrite Nat.add_0_r. fold arg. field. lra.
  - (* cap this coordinate and go on *)
    assert (Hgt : 1 / nu < arg / S * ea) by (destruct (Rle_dec (arg / S * ea) (1 / nu)); [tauto|lra]).
    assert (Hgt' : 1 / nu * S < arg * ea).
    { apply (Rmult_lt_compat_r S) in Hgt; [|exact HS].
      replace (arg / S * ea * S) with (arg * ea) in Hgt by (field; lra). exact Hgt. }
    assert (HargS : arg * ea <= arg * S) by (apply Rmult_le_compat_l; lra).
    assert (Harg1 : 1 / nu < arg).
    { apply (Rmult_lt_reg_r S); [exact HS|]. lra. }
    assert (Hi1 : 0 < 1 - 1 / nu * INR (i + 1)).
    { rewrite plus_INR. simpl INR. unfold arg in Harg1. lra. }
    assert (Hrne : rem <> []).
    { intros ->. simpl length in Hcap.
      apply (Rmult_le_compat_l (1/nu)) in Hcap; [|lra]. lra. }
    assert (Hlen1 : length (upd a (1 / nu) dist) = length x) by (rewrite upd_length; exact Hlen).
    destruct (IH Hnd') with (i := Datatypes.S i) (dist := upd a (1 / nu) dist)
      as [A [B [xi [d' [F1 [F2 [F3 [F4 [F5 [F6 [F7 [F8 F9]]]]]]]]]]]]; auto.
    { intros j Hj. apply Hr; right; exact Hj. }
    { intros j Hj. rewrite upd_nth_other by (intros ->; contradiction). apply Hd; right; exact Hj. }
    { rewrite Nat.add_1_r in Hi1. exact Hi1. }
    { simpl length in Hcap. rewrite Nat.add_succ_r in Hcap. exact Hcap. }
    exists (a :: A), B, xi, d'.
    split; [exact F1|]. split; [rewrite F2; reflexivity|]. split; [exact F3|]. split; [exact F4|].
    split; [exact F5|].
    split. { intros j Hj. simpl in Hj. rewrite F6 by tauto. apply upd_nth_other. tauto. }
    split.
    + intros j [<-|Hj]; [|apply F7; exact Hj]. split.
      * rewrite F6 by exact Hna. apply upd_nth_same. rewrite Hlen. apply Hr; left; reflexivity.
      * fold ea. destruct A as [|a' A].
        -- simpl in F2. subst B. simpl length in F9. rewrite Nat.add_0_r in F9.
           pose proof (expsum_pos x rem Hrne) as Hrp.
           apply (Rmult_lt_reg_r (expsum x rem)); [exact Hrp|].
           replace (xi * ea * expsum x rem) with (ea * (xi * expsum x rem)) by ring.
           rewrite F9, S_INR. unfold arg in Hgt'. rewrite HSe in Hgt'. nra.
        -- destruct (F7 a' (or_introl eq_refl)) as [_ G].
           rewrite Forall_forall in Ha. assert (Hle : desc x a a') by (apply Ha; rewrite F2; left; reflexivity).
           unfold desc in Hle. apply exp_le_exp in Hle. fold ea in Hle.
           apply (Rmult_le_compat_l xi) in Hle; lra.
    + split; [exact F8|]. rewrite F9. simpl length. rewrite Nat.add_succ_r. reflexivity.
Qed.

(** ** Sum over a permutation of the indices *)
Lemma rsum_over_perm (f : nat -> R) ix n :
  Permutation ix (seq 0 n) -> rsum (map f ix) = rsum (map f (seq 0 n)).
Proof. intros H. apply rsum_perm, Permutation_map, H. Qed.

Lemma rsum_map_ub (A : list nat) (f : nat -> R) c :
  (forall j, In j A -> f j = c) -> rsum (map f A) = INR (length A) * c.
Proof.
  intros H. rewrite (rsum_map_ext f (fun _ => c)) by exact H. apply rsum_map_const.
Qed.

Lemma sorted_indices_ok x : sorted_perm x (sorted_indices x).
Proof.
  split; [apply Permutation_sym, isort_perm|].
  pose proof (isort_sorted (key_desc x) (key_desc_total x) (key_desc_trans x) (seq 0 (length x))) as Hs.
  unfold sorted_indices. induction Hs as [|a l Hs IH Ha]; constructor; [exact IH|].
  eapply Forall_impl; [|exact Ha]. intros b Hb. unfold desc.
  cbv beta in Hb. unfold key_desc in Hb. destruct (Rleb_spec (nth b x 0) (nth a x 0)); [assumption|discriminate].
Qed.

(** The whole projection: it succeeds and has the threshold form. *)
Lemma project_with_spec ix nu x :
  sorted_perm x ix -> 1 <= nu <= INR (length x) ->
  exists xi d,
    project_with ix nu x = Ok d /\ 0 < xi /\ length d = length x /\
    (forall i, (i < length x)%nat -> nth i d 0 = Rmin (1 / nu) (xi * exp (nth i x 0))) /\
    rsum d = 1.
Proof.
  intros [Hp Hs] [Hn1 Hn2].
  assert (Hx : x <> []) by (intros ->; simpl in Hn2; lra).
  assert (Hnd : NoDup ix) by (eapply Permutation_NoDup; [apply Permutation_sym, Hp|apply seq_NoDup]).
  assert (Hin : forall j, In j ix <-> (j < length x)%nat).
  { intros j. split; intros Hj.
    - eapply Permutation_in in Hj; [|exact Hp]. apply in_seq in Hj. lia.
    - eapply Permutation_in; [apply Permutation_sym, Hp|]. apply in_seq; lia. }
  assert (Hne : ix <> []).
  { intros ->. apply Permutation_length in Hp. rewrite seq_length in Hp. destruct x; [congruence|discriminate]. }
  assert (Hl : length ix = length x) by (rewrite (Permutation_length Hp); apply seq_length).
  assert (Hub : 0 < 1 / nu) by (apply Rdiv_lt_0_compat; lra).
  destruct (proj_loop_spec nu x ix Hn1 Hnd (fun j => proj1 (Hin j)) Hs Hne 0%nat x eq_refl (fun j _ => eq_refl))
    as [A [B [xi [d [F1 [F2 [F3 [F4 [F5 [F6 [F7 [F8 F9]]]]]]]]]]]].
  { simpl; lra. } { simpl; rewrite Hl; exact Hn2. }
  assert (Hsum : rsum d = 1).
  { rewrite <- rsum_nth, F5, <- (rsum_over_perm _ ix) by exact Hp.
    rewrite F2, map_app, rsum_app.
    rewrite (rsum_map_ub A _ (1 / nu)) by (intros j Hj; apply F7; exact Hj).
    rewrite (rsum_map_ext _ (fun j => xi * exp (nth j x 0))) by (intros j Hj; apply F8; exact Hj).
    rewrite rsum_map_mult. fold (expsum x B). rewrite F9. simpl. lra. }
  assert (Hmin : forall i, (i < length x)%nat -> nth i d 0 = Rmin (1 / nu) (xi * exp (nth i x 0))).
  { intros i Hi. apply Hin in Hi. rewrite F2 in Hi. apply in_app_or in Hi. destruct Hi as [Hi|Hi].
    - destruct (F7 i Hi) as [-> G]. symmetry. apply Rmin_left. lra.
    - destruct (F8 i Hi) as [-> G]. symmetry. apply Rmin_right. lra. }
  exists xi, d. split; [|split; [exact F4|split; [exact F5|split; [exact Hmin|exact Hsum]]]].
  unfold project_with. rewrite Rleb_false by lra. rewrite F1. simpl bind.
  unfold check_capped_simplex_condition, check_nu, assert_, bind.
  rewrite F5, Rleb_true, Rleb_true by lra. simpl.
  rewrite Hsum, Rltb_true.
  - assert (Hall : forallb (fun s => (Rleb 0 s && Rleb s (1 / nu))%bool) d = true).
    { apply forallb_forall. intros s Hsd. apply (In_nth _ _ 0) in Hsd. destruct Hsd as [k [Hk <-]].
      rewrite Hmin by congruence. pose proof (exp_pos (nth k x 0)) as He.
      rewrite Rleb_true, Rleb_true; [reflexivity| |].
      - apply Rmin_l.
      - apply Rmin_glb; [lra|]. left. apply Rmult_lt_0_compat; assumption. }
    rewrite Hall. reflexivity.
  - replace (1 - 1) with 0 by lra. rewrite Rabs_R0. unfold SIMPLEX_TOLERANCE. lra.
Qed.

(** ** Gibbs' inequality and optimality *)
Lemma xlnx_ge d q : 0 <= d -> 0 < q -> d - q <= xlnx d - d * ln q.
Proof.
  intros Hd Hq. unfold xlnx. destruct (Req_EM_T d 0) as [->|Hd0]; [lra|].
  assert (Hdp : 0 < d) by lra.
  assert (Hqd : 0 < q / d) by (apply Rdiv_lt_0_compat; lra).
  pose proof (ln_le_sub (q / d) Hqd) as L.
  unfold Rdiv in L. rewrite ln_mult in L by (try apply Rinv_0_lt_compat; lra).
  rewrite ln_Rinv in L by lra.
  apply (Rmult_le_compat_l d) in L; [|lra].
  replace (d * (q * / d - 1)) with (q - d) in L by (field; lra). lra.
Qed.

Lemma xlnx_gt d q : 0 <= d -> 0 < q -> d <> q -> d - q < xlnx d - d * ln q.
Proof.
  intros Hd Hq Hne. unfold xlnx. destruct (Req_EM_T d 0) as [->|Hd0]; [lra|].
  assert (Hdp : 0 < d) by lra.
  assert (Hqd : 0 < q / d) by (apply Rdiv_lt_0_compat; lra).
  assert (Hne1 : q / d <> 1).
  { intros E. apply Hne. apply (f_equal (fun z => z * d)) in E. unfold Rdiv in E.
    rewrite Rmult_assoc, Rinv_l in E by lra. lra. }
  pose proof (ln_lt_sub (q / d) Hqd Hne1) as L.
  unfold Rdiv in L. rewrite ln_mult in L by (try apply Rinv_0_lt_compat; lra).
  rewrite ln_Rinv in L by lra.
  apply (Rmult_lt_compat_l d) in L; [|lra].
  replace (d * (q * / d - 1)) with (q - d) in L by (field; lra). lra.
Qed.

(** pointwise: with p = min(ub, xi e^x), 0 <= d <= ub:
    xlnx d - d x - (xlnx p - p x) >= (d - p) (1 + ln xi). *)
Lemma kl_pointwise ub xi x d p :
  0 < ub -> 0 < xi -> p = Rmin ub (xi * exp x) -> 0 <= d <= ub ->
  (d - p) * (1 + ln xi) <= (xlnx d - d * x) - (xlnx p - p * x) /\
  (d <> p -> (d - p) * (1 + ln xi) < (xlnx d - d * x) - (xlnx p - p * x)).
Proof.
  intros Hub Hxi Hp Hd. pose proof (exp_pos x) as He.
  assert (Hxe : 0 < xi * exp x) by (apply Rmult_lt_0_compat; assumption).
  assert (Hpp : 0 < p) by (rewrite Hp; apply Rmin_glb_lt; assumption).
  assert (Hxp : xlnx p = p * ln p) by (unfold xlnx; destruct (Req_EM_T p 0); lra).
  assert (Hlxe : ln (xi * exp x) = ln xi + x) by (rewrite ln_mult, ln_exp by lra; lra).
  assert (Hslack : 0 <= (d - p) * (ln p - x - ln xi)).
  { unfold Rmin in Hp. destruct (Rle_dec ub (xi * exp x)) as [L|L].
    - subst p. apply ln_le in L; [|assumption].
      replace ((d - ub) * (ln ub - x - ln xi)) with ((ub - d) * (ln xi + x - ln ub)) by ring.
      apply Rmult_le_pos; lra.
    - subst p. rewrite Hlxe. replace (ln xi + x - x - ln xi) with 0 by lra. lra. }
  rewrite Hxp. split.
  - pose proof (xlnx_ge d p (proj1 Hd) Hpp). lra.
  - intros Hne. pose proof (xlnx_gt d p (proj1 Hd) Hpp Hne). lra.
Qed.

Lemma in_nth_bounds (P : R -> Prop) d : (forall x, In x d -> P x) ->
  forall i, (i < length d)%nat -> P (nth i d 0).
Proof. intros H i Hi. apply H, nth_In, Hi. Qed.

Lemma kl_optimal nu xi x p d :
  1 <= nu -> 0 < xi -> length p = length x -> length d = length x ->
  (forall i, (i < length x)%nat -> nth i p 0 = Rmin (1 / nu) (xi * exp (nth i x 0))) ->
  rsum p = 1 -> in_capped_simplex nu d ->
  kl_to_exp p x <= kl_to_exp d x /\ (kl_to_exp d x <= kl_to_exp p x -> d = p).
Proof.
  intros Hnu Hxi Hlp Hld Hp Hsp [Hd Hsd].
  assert (Hub : 0 < 1 / nu) by (apply Rdiv_lt_0_compat; lra).
  set (D := fun i => (xlnx (nth i d 0) - nth i d 0 * nth i x 0) - (xlnx (nth i p 0) - nth i p 0 * nth i x 0)
                     - (nth i d 0 - nth i p 0) * (1 + ln xi)).
  assert (HD : forall i, (i < length x)%nat -> 0 <= D i /\ (nth i d 0 <> nth i p 0 -> 0 < D i)).
  { intros i Hi. unfold D.
    assert (Hdi : 0 <= nth i d 0 <= 1 / nu)
      by (apply (in_nth_bounds (fun z => 0 <= z <= 1 / nu) d Hd); lia).
    destruct (kl_pointwise (1 / nu) xi (nth i x 0) (nth i d 0) (nth i p 0) Hub Hxi (Hp i Hi) Hdi) as [G1 G2].
    split; [lra|]. intros Hne. specialize (G2 Hne). lra. }
  assert (Hsum : kl_to_exp d x - kl_to_exp p x = rsum (map D (seq 0 (length x)))).
  { unfold kl_to_exp, D. rewrite Hld, Hlp.
    rewrite !rsum_map_minus. rewrite (rsum_map_ext (fun a => (nth a d 0 - nth a p 0) * (1 + ln xi))
      (fun a => (1 + ln xi) * (nth a d 0 - nth a p 0))) by (intros; ring).
    rewrite rsum_map_mult, rsum_map_minus.
    assert (E1 : rsum (map (fun a => nth a d 0) (seq 0 (length x))) = 1) by (rewrite <- Hld, rsum_nth; exact Hsd).
    assert (E2 : rsum (map (fun a => nth a p 0) (seq 0 (length x))) = 1) by (rewrite <- Hlp, rsum_nth; exact Hsp).
    rewrite E1, E2. lra. }
  assert (Hnn : forall v, In v (map D (seq 0 (length x))) -> 0 <= v).
  { intros v Hv. apply in_map_iff in Hv. destruct Hv as [i [<- Hi]]. apply in_seq in Hi. apply HD; lia. }
  split; [pose proof (rsum_nonneg _ Hnn); lra|].
  intros Hle. pose proof (rsum_nonneg _ Hnn).
  assert (Hz : rsum (map D (seq 0 (length x))) = 0) by lra.
  apply (list_eq_nth 0); [congruence|]. intros i Hi.
  destruct (Req_dec (nth i d 0) (nth i p 0)) as [E|E]; [exact E|].
  rewrite Hld in Hi. pose proof (proj2 (HD i Hi) E) as Hpos.
  assert (D i = 0) by (apply (rsum_nonneg_zero _ Hnn Hz), in_map, in_seq; lia). lra.
Qed.

(** ** entropy *)
Lemma entropy_xlnx d : entropy d = rsum (map xlnx d).
Proof.
  unfold entropy. apply rsum_map_ext. intros v _. unfold xlnx, Reqb. destruct (Req_EM_T v 0); reflexivity.
Qed.

Lemma entropy_lower d : is_dist d -> - ln (INR (length d)) <= entropy d.
Proof.
  intros [Hd Hs]. rewrite entropy_xlnx.
  assert (Hn : (0 < length d)%nat) by (destruct d; [simpl in Hs; lra|simpl; lia]).
  pose proof (INR_pos _ Hn) as Hn'. set (n := INR (length d)) in *.
  assert (Hq : 0 < / n) by (apply Rinv_0_lt_compat; exact Hn').
  assert (L : rsum (map (fun v => (v - / n) - v * ln n) d) <= rsum (map xlnx d)).
  { apply rsum_map_le. intros v Hv. pose proof (xlnx_ge v (/ n) (Hd v Hv) Hq) as G.
    rewrite ln_Rinv in G by exact Hn'. lra. }
  rewrite !rsum_map_minus in L. rewrite rsum_map_const in L. fold n in L.
  rewrite (rsum_map_ext (fun v => v * ln n) (fun v => ln n * v)) in L by (intros; ring).
  rewrite (rsum_map_mult (ln n) (fun v => v)), map_id, Hs in L.
  replace (n * / n) with 1 in L by (field; lra). lra.
Qed.

Lemma entropy_upper_cap nu d : 1 <= nu -> in_capped_simplex nu d -> entropy d <= - ln nu.
Proof.
  intros Hnu [Hd Hs]. rewrite entropy_xlnx.
  assert (L : rsum (map xlnx d) <= rsum (map (fun v => - ln nu * v) d)).
  { apply rsum_map_le. intros v Hv. destruct (Hd v Hv) as [H0 H1]. unfold xlnx.
    destruct (Req_EM_T v 0) as [->|Hne]; [lra|].
    assert (Hvp : 0 < v) by lra. apply ln_le in H1; [|exact Hvp].
    unfold Rdiv in H1. rewrite Rmult_1_l, ln_Rinv in H1 by lra. nra. }
  rewrite (rsum_map_mult (- ln nu) (fun v => v)), map_id, Hs in L. lra.
Qed.

(** ** normalize *)
Lemma normalize_spec v :
  match normalize v with
  | Ok w => length w = length v /\ rsum (map Rabs w) = 1 /\
            exists z, 0 < z /\ z = rsum (map Rabs v) /\
                      forall i, (i < length v)%nat -> nth i w 0 = nth i v 0 / z
  | Panic p => p = AssertFailed /\ forall x, In x v -> x = 0
  end.
Proof.
  unfold normalize. set (z := rsum (map Rabs v)).
  assert (Hnn : forall u, In u (map Rabs v) -> 0 <= u).
  { intros u Hu. apply in_map_iff in Hu. destruct Hu as [w [<- _]]. apply Rabs_pos. }
  assert (Hz : 0 <= z) by (apply rsum_nonneg; exact Hnn).
  destruct (Reqb_spec z 0) as [E|E].
  - split; [reflexivity|]. intros x Hx.
    assert (Rabs x = 0) by (apply (rsum_nonneg_zero _ Hnn E), in_map, Hx).
    destruct (Req_dec x 0) as [|Hne]; [assumption|]. apply Rabs_no_R0 in Hne. contradiction.
  - assert (Hzp : 0 < z) by lra. split; [apply map_length|]. split.
    + rewrite map_map. rewrite (rsum_map_ext (fun x => Rabs (x / z)) (fun x => Rabs x / z)).
      * rewrite rsum_map_div. fold z. field. lra.
      * intros a _. unfold Rdiv. rewrite Rabs_mult, (Rabs_pos_eq (/ z)); [reflexivity|].
        left; apply Rinv_0_lt_compat; exact Hzp.
    + exists z. split; [exact Hzp|]. split; [reflexivity|].
      intros i Hi. apply (nth_map_in (fun it => it / z)). exact Hi.
Qed.
