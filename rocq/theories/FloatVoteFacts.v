(** Property C79: the weighted vote and its predictions in binary64. *)
From Coq Require Import ZArith List Bool Reals Lia Lra Psatz Permutation.
From Flocq Require Import Core.Core IEEE754.BinarySingleNaN Relative Plus_error.
From Verif Require Import Base Float FloatSpec FloatProofs FloatFacts FloatCheckFacts.
Import ListNotations.
Open Scope R_scope.

Lemma members_filter {H} (ws : list f64) (hs : list H) : finite_all ws -> filter (fun p => flt f0 (fst p)) (combine ws hs) = positive_members ws hs.
Proof.
  intros F. unfold positive_members. revert hs. induction ws as [|w ws IH]; intros [|h hs]; try reflexivity. cbn [combine filter fst].
  assert (Fw : fin w) by (apply F; left; reflexivity). rewrite IH by (intros x Hx; apply F; right; exact Hx). destruct (Rlt_dec 0 (val w)) as [P|N].
  - rewrite (proj2 (flt_true f0 w fin_f0 Fw)) by exact P. reflexivity.
  - destruct (flt f0 w) eqn:E; [|reflexivity]. apply (flt_true f0 w fin_f0 Fw) in E. rewrite val_f0 in E. contradiction.
Qed.

Lemma total_pos l : l <> [] -> (forall x, In x l -> 0 < val x) -> 0 < total l.
Proof.
  intros N Hp. destruct l as [|x l]; [congruence|]. unfold total. simpl. assert (0 <= rsum (map val l)). { apply rsum_nonneg. intros y Hy. apply in_map_iff in Hy. destruct Hy as [z [<- Hz]]. left. apply Hp. right; exact Hz. }
  specialize (Hp x (or_introl eq_refl)). lra.
Qed.
Lemma in_le_total l x : (forall x, In x l -> 0 < val x) -> In x l -> val x <= total l.
Proof.
  intros Hp Hx. unfold total. apply rsum_in_le; [|apply in_map, Hx]. intros y Hy. apply in_map_iff in Hy. destruct Hy as [z [<- Hz]]. left. apply Hp, Hz.
Qed.

Lemma many n : INR n <= 2 ^ 40 -> few n /\ gam n <= / 2 ^ 12 /\ INR n * eta0 <= / 2 ^ 60.
Proof.
  intros H. assert (F : few n) by (unfold few; eapply Rle_trans; [exact H|]; apply Rle_pow; [lra|lia]). split; [exact F|]. destruct (gam_few n F) as [G _]. pose proof uu_pos. pose proof (pos_INR n). split.
  - eapply Rle_trans; [exact G|]. apply Rle_trans with (2 * (2 ^ 40 * uu)); [apply Rmult_le_compat_l; [lra|]; apply Rmult_le_compat_r; lra|]. unfold uu. simpl. lra.
  - pose proof eta0_small. pose proof eta0_pos. apply Rle_trans with (2 ^ 40 * / 2 ^ 100); [apply Rmult_le_compat; lra|]. simpl. lra.
Qed.

(** the normaliser *)
Lemma normaliser l : finite_all l -> (forall x, In x l -> 0 < val x) -> l <> [] -> INR (length l) <= 2 ^ 40 -> total l < 2 ^ 1022 ->
  let z := fsum (map fabs l) in fin z /\ 0 < val z /\ Rabs (val z - total l) <= gam (length l) * total l.
Proof.
  intros Fl Hp N Hn Ht z. destruct (many _ Hn) as [Fw [G _]].
  assert (Fa : finite_all (map fabs l)) by (intros x Hx; apply in_map_iff in Hx; destruct Hx as [y [<- Hy]]; apply fin_abs, Fl, Hy).
  assert (Ev : forall x, In x l -> val (fabs x) = val x) by (intros x Hx; unfold fabs; rewrite B2R_Babs; apply Rabs_pos_eq; left; apply Hp, Hx).
  assert (Et : total (map fabs l) = total l) by (unfold total; rewrite map_map; apply rsum_map_ext; exact Ev).
  assert (Es : size (map fabs l) = total l). { rewrite size_total; [exact Et|]. intros x Hx. apply in_map_iff in Hx. destruct Hx as [y [<- Hy]]. rewrite Ev by exact Hy. left. apply Hp, Hy. }
  destruct (P_C77_parallel_sum_error (FLeaf (map fabs l))) as [R1 R2]; cbn [ftree_items ftree_sum] in *; try rewrite map_length in *; [exact Fa|exact Fw| |].
  - rewrite Es. change (2 ^ 1023) with (2 * 2 ^ 1022). assert (0 < 2 ^ 1022) by (apply pow_lt; lra). generalize dependent (2 ^ 1022). intros; lra.
  - rewrite Et, Es in R2. fold z in R1, R2. pose proof (total_pos l N Hp) as T0. assert (G1 : gam (length l - 1) <= gam (length l)) by (apply gam_le; lia).
    assert (R3 : Rabs (val z - total l) <= gam (length l) * total l) by (eapply Rle_trans; [exact R2|]; apply Rmult_le_compat_r; lra).
    split; [exact R1|]. split; [|exact R3]. apply Rabs_le_inv in R3. assert (/ 2 ^ 12 <= / 4) by (simpl; lra). nra.
Qed.

(** one normalised weight: w the weight, W the total, z the computed normaliser *)
Lemma weight_close w z W g : 0 <= g <= / 4 -> 0 < w <= W -> 0 < z -> Rabs (z - W) <= g * W ->
  Rabs (rnd (w / z) - w / W) <= (2 * g + 2 * uu) * (w / W) + eta0 /\ w / z <= 2.
Proof.
  intros Hg Hw Hz Hd. destruct (err_mult (w / z)) as [e [h [He [Hh E]]]]. fold eta0 in Hh. apply Rabs_le_inv in Hd. pose proof uu_pos as U. pose proof uu_small as U2.
  assert (W0 : 0 < W) by lra. assert (Q0 : 0 < w / W) by (apply Rdiv_lt_0_compat; lra).
  assert (Q1 : w / W <= 1) by (apply Rdiv_le_iff; lra).
  assert (D : Rabs (w / z - w / W) <= 4 / 3 * g * (w / W)).
  { replace (w / z - w / W) with ((w / W) * ((W - z) / z)) by (field; lra). rewrite Rabs_mult, (Rabs_pos_eq (w / W)) by lra.
    rewrite Rmult_comm. apply Rmult_le_compat_r; [lra|]. unfold Rdiv at 1. rewrite Rabs_mult, (Rabs_pos_eq (/ z)) by (left; apply Rinv_0_lt_compat; lra).
    apply Rmult_le_reg_r with z; [exact Hz|]. rewrite Rmult_assoc, Rinv_l, Rmult_1_r by lra. apply Rle_trans with (g * W); [apply Rabs_le; lra|nra]. }
  assert (B : w / z <= 4 / 3 * (w / W)). { apply Rabs_le_inv in D. nra. }
  assert (P : 0 < w / z) by (apply Rdiv_lt_0_compat; lra).
  split; [|lra]. rewrite E. replace (w / z * (1 + e) + h - w / W) with ((w / z - w / W) + e * (w / z) + h) by ring.
  eapply Rle_trans; [apply Rabs_triang|]. apply Rplus_le_compat; [|exact Hh]. eapply Rle_trans; [apply Rabs_triang|]. rewrite Rabs_mult, (Rabs_pos_eq (w / z)) by lra.
  assert (Rabs e * (w / z) <= uu * (4 / 3 * (w / W))) by (apply Rmult_le_compat; try lra; apply Rabs_pos). nra.
Qed.

Section Vote.
  Variable H : Type.
  Variable conf : H -> f64.
  Variable m : list (f64 * H).
  Hypothesis fin_w : forall p, In p m -> fin (fst p).
  Hypothesis pos_w : forall p, In p m -> 0 < val (fst p).
  Hypothesis m_ne : m <> [].
  Hypothesis fin_c : forall p, In p m -> fin (conf (snd p)).
  Hypothesis le_c : forall p, In p m -> Rabs (val (conf (snd p))) <= 1.
  Hypothesis Hn : INR (length m) <= 2 ^ 40.
  Hypothesis Ht : total (map fst m) < 2 ^ 1022.

  Local Notation W := (total (map fst m)).
  Local Notation z := (fsum (map fabs (map fst m))).
  Local Notation ws := (map (fun it => fdiv it z) (map fst m)).

  Lemma z_spec : fin z /\ 0 < val z /\ Rabs (val z - W) <= gam (length m) * W.
  Proof.
    rewrite <- (map_length fst m). apply normaliser.
    - intros x Hx. apply in_map_iff in Hx. destruct Hx as [p [<- Hp]]. apply fin_w, Hp.
    - intros x Hx. apply in_map_iff in Hx. destruct Hx as [p [<- Hp]]. apply pos_w, Hp.
    - destruct m; [congruence|discriminate].
    - rewrite map_length. exact Hn.
    - exact Ht.
  Qed.

  Lemma normalize_ok : f_normalize (map fst m) = Ok ws.
  Proof.
    destruct z_spec as [Fz [Pz _]]. unfold f_normalize. cbv zeta. unfold feq. rewrite Beqb_correct by (exact Fz || reflexivity). rewrite val_f0. rewrite Req_bool_false by lra. reflexivity.
  Qed.

  Lemma one_weight p : In p m -> fin (fdiv (fst p) z) /\ Rabs (val (fdiv (fst p) z) - val (fst p) / W) <= (2 * gam (length m) + 2 * uu) * (val (fst p) / W) + eta0.
  Proof.
    intros Hp. destruct z_spec as [Fz [Pz Dz]]. destruct (many _ Hn) as [_ [G _]]. pose proof (gam_nonneg (length m)). assert (/ 2 ^ 12 <= / 4) by (simpl; lra).
    assert (Pw : 0 < val (fst p) <= W). { split; [apply pos_w, Hp|]. apply in_le_total; [|apply in_map, Hp]. intros x Hx. apply in_map_iff in Hx. destruct Hx as [q [<- Hq]]. apply pos_w, Hq. }
    destruct (weight_close (val (fst p)) (val z) W (gam (length m)) ltac:(lra) Pw Pz Dz) as [C B].
    destruct (fdiv_spec (fst p) z (fin_w p Hp)) as [Ff Vf]; [lra| |].
    - rewrite Rabs_pos_eq by (left; apply Rdiv_lt_0_compat; lra). pose proof big1023 as B4. generalize dependent (2 ^ 1023). intros; lra.
    - split; [exact Ff|]. rewrite Vf. exact C.
  Qed.

  Lemma sums (l : list (f64 * H)) : (forall p, In p l -> In p m) ->
    size (map (fun it => fdiv it z) (map fst l)) <= (1 + (2 * gam (length m) + 2 * uu)) * (total (map fst l) / W) + INR (length l) * eta0 /\
    dot_size (map (fun it => fdiv it z) (map fst l)) (map conf (map snd l)) <= size (map (fun it => fdiv it z) (map fst l)) /\
    Rabs (dot_exact (map (fun it => fdiv it z) (map fst l)) (map conf (map snd l)) - rsum (map (fun p => val (fst p) * val (conf (snd p))) l) / W)
      <= (2 * gam (length m) + 2 * uu) * (total (map fst l) / W) + INR (length l) * eta0.
  Proof.
    assert (W0 : 0 < W). { apply total_pos; [destruct m; [congruence|discriminate]|]. intros x Hx. apply in_map_iff in Hx. destruct Hx as [q [<- Hq]]. apply pos_w, Hq. }
    pose proof (gam_nonneg (length m)) as Gn. pose proof uu_pos as U.
    induction l as [|p l IH]; intros Hl.
    { unfold size, dot_size, dot_exact, total. simpl. unfold Rdiv. rewrite !Rmult_0_l, Rminus_0_r, Rabs_R0. lra. }
    destruct IH as [I1 [I2 I3]]; [intros q Hq; apply Hl; right; exact Hq|]. assert (Hp : In p m) by (apply Hl; left; reflexivity).
    destruct (one_weight p Hp) as [_ C]. pose proof (pos_w p Hp) as Pw. pose proof (le_c p Hp) as Lc.
    set (k := 2 * gam (length m) + 2 * uu) in *. set (x := fdiv (fst p) z) in *.
    assert (Q : 0 < val (fst p) / W) by (apply Rdiv_lt_0_compat; assumption). set (q := val (fst p) / W) in *.
    assert (Sx : Rabs (val x) <= (1 + k) * q + eta0). { replace (val x) with (q + (val x - q)) by ring. eapply Rle_trans; [apply Rabs_triang|]. rewrite (Rabs_pos_eq q) by lra. lra. }
    assert (Et : total (map fst (p :: l)) / W = q + total (map fst l) / W) by (change (total (map fst (p :: l))) with (val (fst p) + total (map fst l)); unfold q; field; lra).
    cbn [length]. rewrite S_INR, Et. cbn [map]. fold x.
    split; [|split].
    - unfold size in *. cbn [map rsum]. lra.
    - unfold dot_size, size in *. cbn [combine map rsum fst snd]. apply Rplus_le_compat; [|exact I2]. rewrite Rabs_mult. pose proof (Rabs_pos (val x)). nra.
    - set (c := val (conf (snd p))) in *. set (A := dot_exact (map (fun it => fdiv it z) (map fst l)) (map conf (map snd l))) in *.
      set (B := rsum (map (fun p0 => val (fst p0) * val (conf (snd p0))) l)) in *.
      change (Rabs (val x * c + A - (val (fst p) * c + B) / W) <= k * (q + total (map fst l) / W) + (INR (length l) + 1) * eta0).
      replace (val x * c + A - (val (fst p) * c + B) / W) with ((val x - q) * c + (A - B / W)) by (unfold q; field; lra).
      eapply Rle_trans; [apply Rabs_triang|]. rewrite Rabs_mult. assert (Rabs (val x - q) * Rabs c <= k * q + eta0) by (pose proof (Rabs_pos (val x - q)); pose proof (Rabs_pos c); nra). lra.
  Qed.

  Lemma vote_close : fin (fsum (f_products ws (map conf (map snd m)))) /\
    Rabs (val (fsum (f_products ws (map conf (map snd m)))) - exact_vote conf m) <= (INR (length m) + 1) / 2 ^ 50.
  Proof.
    assert (W0 : 0 < W). { apply total_pos; [destruct m; [congruence|discriminate]|]. intros x Hx. apply in_map_iff in Hx. destruct Hx as [q [<- Hq]]. apply pos_w, Hq. }
    destruct (sums m (fun _ h => h)) as [S1 [S2 S3]]. replace (total (map fst m) / W) with 1 in S1, S3 by (field; lra). rewrite Rmult_1_r in S1, S3.
    destruct (many _ Hn) as [Fw [G E]]. destruct (gam_few _ Fw) as [G2 _]. pose proof (gam_nonneg (length m)) as Gn. pose proof uu_pos as U. pose proof uu_small as U2.
    assert (D : dot_size ws (map conf (map snd m)) <= 2). { assert (/ 2 ^ 12 <= / 8) by (simpl; lra). assert (/ 2 ^ 60 <= / 8) by (simpl; lra). lra. }
    destruct (P_C77_inner_product_error ws (map conf (map snd m)) (FLeaf (f_products ws (map conf (map snd m)))) eq_refl) as [R1 R2]; rewrite ?map_length in *; auto.
    - intros x Hx. apply in_map_iff in Hx. destruct Hx as [y [<- Hy]]. apply in_map_iff in Hy. destruct Hy as [p [<- Hp]]. apply one_weight, Hp.
    - intros x Hx. apply in_map_iff in Hx. destruct Hx as [y [<- Hy]]. apply in_map_iff in Hy. destruct Hy as [p [<- Hp]]. apply fin_c, Hp.
    - eapply Rle_lt_trans; [exact D|]. apply Rlt_le_trans with (2 ^ 2); [simpl; lra|]. apply Rle_pow; [lra|lia].
    - cbn [ftree_sum] in *. split; [exact R1|]. set (s := val (fsum (f_products ws (map conf (map snd m))))) in *. set (d := dot_exact ws (map conf (map snd m))) in *.
      assert (EV : exact_vote conf m = rsum (map (fun p => val (fst p) * val (conf (snd p))) m) / W). { unfold exact_vote, total. rewrite map_map. reflexivity. }
      rewrite <- EV in S3. replace (s - exact_vote conf m) with ((s - d) + (d - exact_vote conf m)) by ring. eapply Rle_trans; [apply Rabs_triang|].
      assert (T : / 2 ^ 1074 <= / 2 ^ 100). { apply Rinv_le_contravar; [apply pow_lt; lra|]. apply Rle_pow; [lra|lia]. }
      set (n := INR (length m)) in *. assert (N0 : 0 <= n) by apply pos_INR. set (g := gam (length m)) in *.
      assert (T2 : n * / 2 ^ 1074 <= n * / 2 ^ 100) by (apply Rmult_le_compat_l; [assumption|exact T]).
      assert (T3 : n * eta0 <= n * / 2 ^ 100) by (apply Rmult_le_compat_l; [assumption|exact eta0_small]).
      assert (T4 : g * dot_size ws (map conf (map snd m)) <= g * 2) by (apply Rmult_le_compat_l; [exact Gn|exact D]).
      apply Rle_trans with (4 * g + 2 * uu + 2 * (n * / 2 ^ 100)); [lra|].
      apply Rle_trans with (8 * (n * uu) + 2 * uu + 2 * (n * / 2 ^ 100)); [lra|]. assert (N1 : n * / 2 ^ 100 <= 2 ^ 40 * / 2 ^ 100) by (apply Rmult_le_compat_r; [left; apply Rinv_0_lt_compat, pow_lt; lra|exact Hn]).
      assert (N2 : 2 ^ 40 * / 2 ^ 100 <= uu) by (unfold uu; simpl; lra). assert (N3 : / 2 ^ 50 = 8 * uu) by (unfold uu; simpl; lra). unfold Rdiv. rewrite N3. lra.
  Qed.
End Vote.

(** ** C79: the vote built by from_slices and evaluated in binary64 is close to the exact vote: n members cost at most
    (n+1) 2^-50 *)
Lemma P_C79_confidence_close :
  forall (H : Type) (conf : H -> f64) (ws : list f64) (hs : list H), let m := positive_members ws hs in
  finite_all ws -> (forall h, In h hs -> finite_num (conf h) /\ Rabs (val (conf h)) <= 1) -> m <> [] ->
  INR (length m) <= 2 ^ 40 -> rsum (map (fun p => val (fst p)) m) < 2 ^ 1022 ->
  exists v, f_from_slices ws hs = Ok v /\ snd v = map snd m /\ finite_num (f_confidence conf v) /\
    Rabs (val (f_confidence conf v) - exact_vote conf m) <= (INR (length m) + 1) / 2 ^ 50.
Proof.
  intros H conf ws hs m Fw Hc Ne Hn Ht.
  assert (Mw : forall p, In p m -> fin (fst p) /\ 0 < val (fst p)).
  { intros [w h] Hp. apply filter_In in Hp. destruct Hp as [Hp Hl]. apply in_combine_l in Hp. simpl in *. split; [apply Fw, Hp|]. destruct (Rlt_dec 0 (val w)); [assumption|discriminate]. }
  assert (Mc : forall p, In p m -> fin (conf (snd p)) /\ Rabs (val (conf (snd p))) <= 1).
  { intros [w h] Hp. apply filter_In in Hp. destruct Hp as [Hp _]. apply in_combine_r in Hp. apply Hc, Hp. }
  assert (Ht' : total (map fst m) < 2 ^ 1022) by (unfold total; rewrite map_map; exact Ht).
  pose proof (normalize_ok H conf m (fun p h => proj1 (Mw p h)) (fun p h => proj2 (Mw p h)) Ne (fun p h => proj1 (Mc p h)) (fun p h => proj2 (Mc p h)) Hn Ht') as E.
  pose proof (vote_close H conf m (fun p h => proj1 (Mw p h)) (fun p h => proj2 (Mw p h)) Ne (fun p h => proj1 (Mc p h)) (fun p h => proj2 (Mc p h)) Hn Ht') as [V1 V2].
  eexists. split; [unfold f_from_slices; rewrite (members_filter ws hs Fw); fold m; rewrite E; reflexivity|]. split; [reflexivity|]. split; [exact V1|exact V2].
Qed.

(** ** C79: so unless the exact vote is within (n+1) 2^-50 of zero, the predicted label is the sign of the exact vote *)
Lemma P_C79_prediction_exact :
  forall (H : Type) (conf : H -> f64) (ws : list f64) (hs : list H), let m := positive_members ws hs in
  finite_all ws -> (forall h, In h hs -> finite_num (conf h) /\ Rabs (val (conf h)) <= 1) -> m <> [] ->
  INR (length m) <= 2 ^ 40 -> rsum (map (fun p => val (fst p)) m) < 2 ^ 1022 -> (INR (length m) + 1) / 2 ^ 50 < Rabs (exact_vote conf m) ->
  exists v, f_from_slices ws hs = Ok v /\ (0 < exact_vote conf m -> f_predict conf v = 1%Z) /\ (exact_vote conf m < 0 -> f_predict conf v = (-1)%Z).
Proof.
  intros H conf ws hs m Fw Hc Ne Hn Ht Hv. destruct (P_C79_confidence_close H conf ws hs Fw Hc Ne Hn Ht) as [v [E [_ [Fc C]]]]. fold m in C. exists v. split; [exact E|].
  apply Rabs_le_inv in C. unfold f_predict. split; intros S.
  - rewrite Rabs_pos_eq in Hv by lra. rewrite (proj2 (fle_true f0 _ fin_f0 Fc)); [reflexivity|]. rewrite val_f0. lra.
  - rewrite Rabs_left in Hv by exact S. destruct (fle f0 (f_confidence conf v)) eqn:B; [|reflexivity]. apply (fle_true f0 _ fin_f0 Fc) in B. rewrite val_f0 in B. lra.
Qed.

(** ** the bound cannot be dropped: a vote of three members whose exact value is negative and whose computed value is zero,
    so that the label +1 is predicted *)
Definition f_num (k e : Z) : f64 := binary_normalize 53 1024 eq_refl eq_refl mode_NE k e false.
Lemma P_C79_bound_needed :
  exists (conf : bool -> f64) (ws : list f64) (hs : list bool) v,
    finite_all ws /\ (forall h, finite_num (conf h) /\ Rabs (val (conf h)) = 1) /\ length ws = length hs /\ (forall w, In w ws -> 0 < val w) /\
    f_from_slices ws hs = Ok v /\ exact_vote conf (positive_members ws hs) < 0 /\ f_predict conf v = 1%Z.
Proof.
  set (conf := fun b : bool => if b then f_num 1 0 else f_num (-1) 0). set (ws := [f_num 1 (-60); f_num 1 0; f_num 1 0]). set (hs := [false; true; false]).
  assert (N1 : fin (f_num 1 0) /\ val (f_num 1 0) = 1) by (destruct (normalize_exact 1 0) as [F V]; [vm_compute; reflexivity|lia|]; split; [exact F|unfold f_num; rewrite V; simpl; lra]).
  assert (N2 : fin (f_num (-1) 0) /\ val (f_num (-1) 0) = -1) by (destruct (normalize_exact (-1) 0) as [F V]; [vm_compute; reflexivity|lia|]; split; [exact F|unfold f_num; rewrite V; simpl; lra]).
  assert (N3 : fin (f_num 1 (-60)) /\ val (f_num 1 (-60)) = / 2 ^ 60).
  { destruct (normalize_exact 1 (-60)) as [F V]; [vm_compute; reflexivity|lia|]; split; [exact F|]. unfold f_num; rewrite V. change (-60)%Z with (- Z.of_nat 60)%Z. rewrite bpow_opp, two_pow. ring. }
  destruct N1 as [F1 V1]. destruct N2 as [F2 V2]. destruct N3 as [F3 V3]. assert (P60 : 0 < / 2 ^ 60) by (apply Rinv_0_lt_compat, pow_lt; lra).
  assert (L1 : flt f0 (f_num 1 0) = true) by (vm_compute; reflexivity). assert (L3 : flt f0 (f_num 1 (-60)) = true) by (vm_compute; reflexivity).
  assert (M : positive_members ws hs = combine ws hs) by (rewrite <- members_filter by (intros x [<-|[<-|[<-|[]]]]; assumption); unfold ws, hs; cbn [combine filter fst]; rewrite L1, L3; reflexivity).
  set (v := (map (fun it => fdiv it (fsum (map fabs ws))) ws, hs)).
  assert (E : f_from_slices ws hs = Ok v).
  { unfold f_from_slices. rewrite members_filter by (intros x [<-|[<-|[<-|[]]]]; assumption). rewrite M. change (map fst (combine ws hs)) with ws. change (map snd (combine ws hs)) with hs. unfold f_normalize.
    assert (Z : feq (fsum (map fabs ws)) f0 = false) by (vm_compute; reflexivity). rewrite Z. reflexivity. }
  exists conf, ws, hs, v. split; [|split; [|split; [|split; [|split; [|split]]]]].
  - intros x [<-|[<-|[<-|[]]]]; assumption.
  - intros [|]; unfold conf; split; try assumption; [rewrite V1, Rabs_R1; reflexivity|rewrite V2; apply Rabs_m1 || (unfold Rabs; destruct (Rcase_abs (-1)); lra)].
  - reflexivity.
  - intros w [<-|[<-|[<-|[]]]]; lra.
  - exact E.
  - rewrite M. unfold exact_vote, ws, hs. cbn [combine map rsum fst snd]. unfold conf. rewrite V1, V2, V3.
    assert (0 < / (/ 2 ^ 60 + (1 + (1 + 0)))) by (apply Rinv_0_lt_compat; lra). unfold Rdiv. nra.
  - vm_compute. reflexivity.
Qed.

(** ** hypotheses met: two members that agree; the label is that of the exact vote *)
Example C79_nonvacuous : forall v, f_from_slices [f1; f1] [true; true] = Ok v -> exact_vote (fun _ : bool => f1) (positive_members [f1; f1] [true; true]) = 1.
Proof.
  intros v _. assert (L : flt f0 f1 = true) by (vm_compute; reflexivity). unfold exact_vote. rewrite <- members_filter by (intros x [<-|[<-|[]]]; apply f1_spec). cbn [combine filter fst]. rewrite L. cbn [map rsum fst snd]. rewrite (proj2 f1_spec). field.
Qed.
