(** The twoing criterion in binary64: the total weight is positive whenever it is asserted to be. *)
From Coq Require Import ZArith List Bool Reals Lia Lra Psatz Permutation.
From Flocq Require Import Core.Core IEEE754.BinarySingleNaN Relative Plus_error.
From Verif Require Import Base Bins DTree Float FloatSpec FloatProofs FloatFacts FloatCheckFacts FloatMedianFacts FloatTree FloatTreeSpec FloatTreeProofs FloatPackProofs.
Import ListNotations.
Open Scope R_scope.

Ltac flia := unfold flw, f64 in *; lia.
Notation fkeys m := (map (@fst Z f64) m).

Lemma set_keys m z w : fkeys (f_lw_set m z w) = fkeys m.
Proof. unfold f_lw_set. rewrite map_map. apply map_ext. intros [a v]. cbn [fst]. destruct (Z.eqb a z); reflexivity. Qed.
Lemma remove_nodup m z : NoDup (fkeys m) -> NoDup (fkeys (f_lw_remove m z)).
Proof.
  unfold f_lw_remove. induction m as [|[a v] m IH]; intros H; cbn [filter fst]; [constructor|]. cbn [map fst] in H. inversion H as [|? ? N H']; subst.
  destruct (negb (Z.eqb a z)); [|apply IH, H']. cbn [map fst]. constructor; [|apply IH, H']. intros Q. apply N. apply in_map_iff in Q. destruct Q as [p [E Q]]. apply filter_In in Q. rewrite <- E. apply in_map, Q.
Qed.
Lemma add_keys m z w z' : In z' (fkeys (f_lw_add m z w)) -> z' = z \/ In z' (fkeys m).
Proof.
  induction m as [|[a v] m IH]; cbn [f_lw_add].
  - intros [<- | []]. left. reflexivity.
  - destruct (Z.eqb a z); cbn [map fst]; intros H; [right; exact H|]. destruct H as [<- |H]; [right; left; reflexivity|]. destruct (IH H) as [-> |H']; [left; reflexivity|right; right; exact H'].
Qed.
Lemma add_nodup m z w : NoDup (fkeys m) -> NoDup (fkeys (f_lw_add m z w)).
Proof.
  induction m as [|[a v] m IH]; intros H; cbn [f_lw_add].
  - repeat constructor. intros [].
  - cbn [map fst] in H. inversion H as [|? ? N H']; subst. destruct (Z.eqb_spec a z) as [-> |Ne]; [exact H|]. cbn [map fst]. constructor; [|apply IH, H'].
    intros Q. apply add_keys in Q. destruct Q as [-> |Q]; [congruence|exact (N Q)].
Qed.
Lemma fold_nodup l : forall m, NoDup (fkeys m) -> NoDup (fkeys (fold_left fadd_all l m)).
Proof. induction l as [|p l IH]; intros m H; cbn [fold_left]; [exact H|]. apply IH, add_nodup, H. Qed.
Lemma get_in m z v : NoDup (fkeys m) -> In (z, v) m -> f_lw_get m z = Some v.
Proof.
  induction m as [|[a u] m IH]; intros H Hin; [destruct Hin|]. cbn [map fst] in H. inversion H as [|? ? N H']; subst. rewrite get_cons. destruct Hin as [E|Hin].
  - inversion E; subst. rewrite Z.eqb_refl. reflexivity.
  - destruct (Z.eqb_spec a z) as [-> |Ne]; [exfalso; apply N; change z with (fst (z, v)); apply in_map, Hin|apply IH; assumption].
Qed.

(** different labels share out the weight *)
Lemma ents_nonneg z l : (forall p : Z * f64, In p l -> 0 <= val (snd p)) -> 0 <= total (ents z l).
Proof.
  intros H. rewrite <- size_total; [apply size_nonneg|]. intros x Hx. unfold ents in Hx. apply in_map_iff in Hx. destruct Hx as [p [<- Hx]]. apply filter_In in Hx. apply H, Hx.
Qed.
Lemma ents_in z l w : In w (ents z l) -> In (z, w) l.
Proof. unfold ents. intros H. apply in_map_iff in H. destruct H as [[a v] [<- H]]. apply filter_In in H. destruct H as [H E]. cbn [fst snd] in *. apply Z.eqb_eq in E. subst a. exact H. Qed.
Lemma share_labels zs : NoDup zs -> forall l, (forall p : Z * f64, In p l -> 0 <= val (snd p)) -> rsum (map (fun z => total (ents z l)) zs) <= total (map snd l).
Proof.
  intros ND l. induction l as [|[a w] l IH]; intros H.
  - right. unfold total at 2. simpl. clear. induction zs as [|z zs IH]; [reflexivity|]. cbn [map]. change (rsum (0 :: map (fun z => total (ents z [])) zs) = 0). simpl. rewrite IH. lra.
  - assert (Pw : 0 <= val w) by (apply (H (a, w)); left; reflexivity). assert (IH' : rsum (map (fun z => total (ents z l)) zs) <= total (map snd l)) by (apply IH; intros p Hp; apply H; right; exact Hp).
    cbn [map snd]. rewrite total_cons. clear IH H.
    assert (Q : rsum (map (fun z => total (ents z ((a, w) :: l))) zs) <= (if in_dec Z.eq_dec a zs then val w else 0) + rsum (map (fun z => total (ents z l)) zs)).
    { clear IH'. induction zs as [|z zs IH]; [simpl; lra|]. inversion ND as [|? ? N ND']; subst. specialize (IH ND'). cbn [map].
      change (total (ents z ((a, w) :: l)) + rsum (map (fun z => total (ents z ((a, w) :: l))) zs) <= (if in_dec Z.eq_dec a (z :: zs) then val w else 0) + (total (ents z l) + rsum (map (fun z => total (ents z l)) zs))).
      rewrite ents_cons. destruct (Z.eqb_spec a z) as [-> |Ne].
      - rewrite total_cons. destruct (in_dec Z.eq_dec z (z :: zs)) as [_|Q]; [|exfalso; apply Q; left; reflexivity]. destruct (in_dec Z.eq_dec z zs); [contradiction|]. lra.
      - destruct (in_dec Z.eq_dec a zs) as [I|I]; destruct (in_dec Z.eq_dec a (z :: zs)) as [J|J]; try lra; exfalso; apply J; right; exact I. }
    destruct (in_dec Z.eq_dec a zs); lra.
Qed.

(** the sum of numbers that are hardly negative is hardly negative *)
Definition neg (x : R) : R := Rmax (- x) 0.
Lemma split_pm (l : list f64) : exists P Q, 0 <= P /\ Q = rsum (map (fun x => neg (val x)) l) /\ total l = P - Q /\ size l = P + Q.
Proof.
  exists (rsum (map (fun x => Rmax (val x) 0) l)), (rsum (map (fun x => neg (val x)) l)). split.
  { apply rsum_nonneg. intros x Hx. apply in_map_iff in Hx. destruct Hx as [v [<- _]]. apply Rmax_r. }
  split; [reflexivity|]. unfold total, size, neg. rewrite <- rsum_map_minus, <- rsum_map_plus. split; apply rsum_map_ext; intros x _.
  - unfold Rmax. destruct (Rle_dec (val x) 0), (Rle_dec (- val x) 0); lra.
  - unfold Rmax, Rabs. destruct (Rle_dec (val x) 0), (Rle_dec (- val x) 0), (Rcase_abs (val x)); lra.
Qed.

Lemma flt_num x z : flt x z = true -> is_nan x = false /\ is_nan z = false.
Proof. destruct x, z; intros H; try discriminate H; split; reflexivity. Qed.

Lemma ents_len z l : (length (ents z l) <= length l)%nat.
Proof. unfold ents. rewrite map_length. induction l as [|p l IH]; cbn [filter length]; [lia|]. destruct (Z.eqb (fst p) z); cbn [length]; lia. Qed.

Section Twoing.
  Variables (sched : list f64 -> f64) (all : flw) (N : nat).
  Hypothesis Hs : summing sched.
  Hypothesis Hall : forall p, In p all -> fin (snd p) /\ 0 <= val (snd p).
  Hypothesis Htot : total (map snd all) <= 2.
  Hypothesis HL : (length all <= N)%nat.
  Hypothesis HN : INR (2 * N) <= 2 ^ 32.

  Definition tinv (pre suf lft rgt : flw) : Prop :=
    all = pre ++ suf /\ lft = fold_left fadd_all pre [] /\ NoDup (fkeys rgt) /\
    (forall z v, f_lw_get rgt z = Some v -> exists k A, fin v /\ approx k (val v) (total (ents z suf)) A /\ total (ents z suf) <= A /\
       (k + length (ents z suf) <= 2 * length (ents z all))%nat /\ A + total (ents z suf) <= 2 * total (ents z all)) /\ (length rgt <= N)%nat.

  Lemma part (pre suf : flw) : all = pre ++ suf -> (forall p, In p pre -> fin (snd p) /\ 0 <= val (snd p)) /\ (forall p, In p suf -> fin (snd p) /\ 0 <= val (snd p)).
  Proof. intros E. split; intros p Hp; apply Hall; rewrite E; apply in_or_app; auto. Qed.
  Lemma ents_le2 z : total (ents z all) <= 2.
  Proof. eapply Rle_trans; [|exact Htot]. eapply Rle_trans; [|apply (share_labels [z])]; [simpl; lra|repeat constructor; intros []|intros p Hp; apply Hall, Hp]. Qed.

  Lemma big_room x : Rabs x <= 100 -> Rabs x * (1 + uu) < bpow radix2 1024.
  Proof.
    intros H. rewrite big_1024. pose proof uu_small. pose proof uu_pos. pose proof (Rabs_pos x). assert (2 ^ 10 <= 2 ^ 1023) by (apply Rle_pow; [lra|lia]). assert (1024 = 2 ^ 10) by (simpl; lra).
    assert (Rabs x * (1 + uu) <= 100 * 2) by (apply Rmult_le_compat; lra). generalize dependent (2 ^ 1023). intros; lra.
  Qed.

  Lemma tinv_step pre z w t lft rgt : tinv pre ((z, w) :: t) lft rgt ->
    let lft' := f_lw_add lft z w in
    let rgt' := match f_lw_get rgt z with Some v => f_lw_set rgt z (fsub v w) | None => rgt end in
    tinv (pre ++ [(z, w)]) t lft' (if fle (f_or0 (f_lw_get lft' z)) f0 then f_lw_remove rgt' z else rgt').
  Proof.
    intros [Ea [El [ND [Hv Hlen]]]]. cbv zeta.
    assert (Ea' : all = (pre ++ [(z, w)]) ++ t) by (rewrite <- app_assoc; exact Ea). destruct (part _ _ Ea) as [_ Hsuf]. destruct (Hsuf (z, w) (or_introl eq_refl)) as [Fw Pw]. cbn [snd] in *.
    assert (Pt : forall z', 0 <= total (ents z' t)) by (intros z'; apply ents_nonneg; intros p Hp; apply Hsuf; right; exact Hp).
    set (rgt' := match f_lw_get rgt z with Some v => f_lw_set rgt z (fsub v w) | None => rgt end).
    assert (ND' : NoDup (fkeys rgt')) by (unfold rgt'; destruct (f_lw_get rgt z); [rewrite set_keys|]; exact ND).
    assert (L' : (length rgt' <= N)%nat) by (unfold rgt'; destruct (f_lw_get rgt z); [unfold f_lw_set; rewrite map_length|]; exact Hlen).
    assert (Hv' : forall z' v, f_lw_get rgt' z' = Some v -> exists k A, fin v /\ approx k (val v) (total (ents z' t)) A /\ total (ents z' t) <= A /\
       (k + length (ents z' t) <= 2 * length (ents z' all))%nat /\ A + total (ents z' t) <= 2 * total (ents z' all)).
    { intros z' v Hg. unfold rgt' in Hg. destruct (f_lw_get rgt z) as [u|] eqn:Eu.
      - rewrite get_set, Eu in Hg. destruct (Z.eqb_spec z z') as [<- |Ne].
        + inversion Hg; subst v. destruct (Hv z u Eu) as [k [A [Fu [Ap [HA [Hk HW]]]]]]. rewrite ents_cons, Z.eqb_refl in Ap, HA, Hk, HW. rewrite total_cons in *. cbn [length] in Hk.
          pose proof (ents_le2 z) as E2. specialize (Pt z). pose proof (ents_len z all) as LE.
          assert (Ss : Rabs (val w + total (ents z t)) <= A) by (rewrite Rabs_pos_eq; lra).
          assert (Gk : gam k <= / 2 ^ 20) by (apply gam_30; eapply Rle_trans; [apply le_INR|exact HN]; lia).
          pose proof (approx_size _ _ _ _ Ss Ap) as Sz. assert (/ 2 ^ 20 <= 1) by (simpl; lra). assert ((1 + gam k) * A <= 2 * A) by (apply Rmult_le_compat_r; lra).
          destruct (fsub_spec u w Fu Fw) as [Fs [e [He Es]]].
          { apply big_room. unfold Rminus. eapply Rle_trans; [apply Rabs_triang|]. rewrite Rabs_Ropp, (Rabs_pos_eq (val w)) by exact Pw. lra. }
          exists (S k), (A + val w). split; [exact Fs|]. split.
          { rewrite Es. replace (total (ents z t)) with (val w + total (ents z t) - val w) by ring. apply approx_sub; auto. rewrite Rabs_pos_eq; lra. }
          split; [lra|]. split; [lia|lra].
        + destruct (Hv z' v Hg) as [k [A H]]. rewrite ents_cons in H. destruct (Z.eqb_spec z z'); [congruence|]. exists k, A. exact H.
      - destruct (Hv z' v Hg) as [k [A H]]. rewrite ents_cons in H. destruct (Z.eqb_spec z z') as [<- |]; [congruence|]. exists k, A. exact H. }
    split; [exact Ea'|]. split; [rewrite fold_left_app, El; reflexivity|].
    destruct (fle (f_or0 (f_lw_get (f_lw_add lft z w) z)) f0).
    - split; [apply remove_nodup, ND'|]. split; [|eapply Nat.le_trans; [|exact L']; unfold f_lw_remove; apply filter_le_len].
      intros z' v Hg. rewrite get_remove in Hg. destruct (Z.eqb z z'); [discriminate|]. apply Hv', Hg.
    - split; [exact ND'|]. split; [exact Hv'|exact L'].
  Qed.

  Lemma score_ok labels pre suf lft rgt : tinv pre suf lft rgt -> exists sc, f_twoing_score sched labels lft rgt = Ok sc.
  Proof.
    intros [Ea [El [ND [Hv Hlen]]]]. destruct (part _ _ Ea) as [Hpre Hsuf].
    assert (Epre : total (map snd pre) <= 2). { eapply Rle_trans; [|exact Htot]. rewrite Ea, map_app, total_app. assert (0 <= total (map snd suf)); [|lra]. rewrite <- size_total; [apply size_nonneg|]. intros x Hx. apply in_map_iff in Hx. destruct Hx as [p [<- Hx]]. apply Hsuf, Hx. }
    assert (Lpre : (length pre <= N)%nat) by (eapply Nat.le_trans; [|exact HL]; rewrite Ea, app_length; flia).
    assert (B10 : 2 ^ 10 <= 2 ^ 1020) by (apply Rle_pow; [lra|flia]). assert (E10 : 2 ^ 10 = 1024) by (simpl; lra).
    destruct (fold_acc 0 pre 0 [] []) as [Xs [HX [HXs HXl]]].
    { intros p Hp. destruct (Hpre p Hp) as [A B]. split; [exact A|]. split; exact B. }
    { eapply Rle_trans; [apply le_INR|exact HN]. flia. }
    { constructor. }
    { change (rsum []) with 0. rewrite Rplus_0_l. rewrite E10 in B10. eapply Rle_lt_trans; [exact Epre|]. eapply Rlt_le_trans; [|exact B10]. lra. }
    rewrite <- El in HX, HXl. simpl in HXs. rewrite Rplus_0_l in HXs. cbn [length] in HXl. rewrite Nat.add_0_l in *.
    set (M := total (map snd pre)) in *.
    assert (Apl : acc (length pre + length (map snd lft)) (sched (map snd lft)) M).
    { rewrite <- HXs. apply sched_acc; [exact Hs| |rewrite map_length; eapply Rle_trans; [apply le_INR|exact HN]; flia|rewrite HXs; generalize dependent (2 ^ 1020); intros; lra].
      clear -HX. induction HX as [|p X l Xs [Hp _] HX IH]; cbn [map]; constructor; assumption. }
    apply (acc_le _ (2 * N)) in Apl; [|rewrite map_length; flia].
    pose proof (acc_nonneg _ _ _ HN Apl) as [Pl _]. destruct Apl as [Fl [PM Al]]. pose proof (gam_30 _ HN) as G. unfold approx in Al. apply Rabs_le_inv in Al. assert (S20 : / 2 ^ 20 <= 1 / 1000) by (simpl; lra). pose proof (gam_nonneg (2 * N)) as G0.
    unfold f_twoing_score. cbv zeta. set (pl := sched (map snd lft)) in *. set (pr := sched (map snd rgt)) in *.
    destruct (feq pl f0) eqn:El0; [cbn [orb]; eexists; reflexivity|]. destruct (feq pr f0); [cbn [orb]; eexists; reflexivity|]. cbn [orb].
    assert (Nz : val pl <> 0) by (intros Q; apply feq_zero in Q; [congruence|exact Fl]).
    assert (MP : 0 < M). { destruct PM as [PM|PM]; [exact PM|]. rewrite <- PM in Al. lra. }
    (* the right side *)
    assert (Neg : rsum (map (fun x => neg (val x)) (map snd rgt)) <= 2 * gam (2 * N) * M).
    { rewrite map_map. apply Rle_trans with (2 * gam (2 * N) * rsum (map (fun z => total (ents z pre)) (fkeys rgt))).
      2:{ apply Rmult_le_compat_l; [lra|]. apply share_labels; [exact ND|]. intros p Hp. apply Hpre, Hp. }
      rewrite map_map. rewrite <- rsum_map_mult. apply rsum_map_le. intros [z v] Hin. cbn [fst snd].
      destruct (Hv z v (get_in rgt z v ND Hin)) as [k [A [Fv [Ap [HA [Hk HW]]]]]]. unfold approx in Ap. apply Rabs_le_inv in Ap.
      assert (Es : total (ents z all) = total (ents z pre) + total (ents z suf)) by (rewrite Ea, ents_app, total_app; reflexivity).
      assert (P1 : 0 <= total (ents z pre)) by (apply ents_nonneg; intros p Hp; apply Hpre, Hp). assert (P2 : 0 <= total (ents z suf)) by (apply ents_nonneg; intros p Hp; apply Hsuf, Hp).
      pose proof (ents_len z all) as LE. assert (Gk : gam k * A <= gam (2 * N) * (2 * total (ents z pre) + total (ents z suf))) by (apply Rmult_le_compat; [apply gam_nonneg|lra|apply gam_le; flia|lra]).
      assert (gam (2 * N) * total (ents z suf) <= 1 * total (ents z suf)) by (apply Rmult_le_compat_r; lra).
      assert (0 <= gam (2 * N) * total (ents z pre)) by (apply Rmult_le_pos; lra).
      unfold neg. apply Rmax_lub; lra. }
    assert (Fr : finite_all (map snd rgt)). { intros x Hx. apply in_map_iff in Hx. destruct Hx as [[z v] [<- Hx]]. destruct (Hv z v (get_in rgt z v ND Hx)) as [k [A [Fv _]]]. exact Fv. }
    destruct (split_pm (map snd rgt)) as [P [Q [PP [EQ [ET ES]]]]]. rewrite <- EQ in Neg.
    assert (Q0 : 0 <= Q). { rewrite EQ. apply rsum_nonneg. intros x Hx. apply in_map_iff in Hx. destruct Hx as [v [<- _]]. apply Rmax_r. }
    assert (PB : P + Q <= 2 ^ 40).
    { rewrite <- ES. unfold size. rewrite map_map. apply Rle_trans with (rsum (map (fun _ => 16) rgt)).
      - apply rsum_map_le. intros [z v] Hin. cbn [snd]. destruct (Hv z v (get_in rgt z v ND Hin)) as [k [A [Fv [Ap [HA [Hk HW]]]]]].
        pose proof (ents_le2 z) as E2. pose proof (ents_len z all) as LE. assert (P2 : 0 <= total (ents z suf)) by (apply ents_nonneg; intros p Hp; apply Hsuf, Hp).
        assert (Gk : gam k <= 1). { eapply Rle_trans; [apply (gam_le k (2 * N)); flia|]. lra. }
        assert (Ss : Rabs (total (ents z suf)) <= A) by (rewrite Rabs_pos_eq; lra). eapply Rle_trans; [apply (approx_size _ _ _ _ Ss Ap)|]. apply Rle_trans with (2 * A); [apply Rmult_le_compat_r; lra|lra].
      - rewrite rsum_map_const. assert (INR (length rgt) <= 2 ^ 32) by (eapply Rle_trans; [apply le_INR|exact HN]; flia). replace (2 ^ 40) with (256 * 2 ^ 32) by (simpl; lra). assert (0 < 2 ^ 32) by (apply pow_lt; lra). lra. }
    destruct (Hs (map snd rgt)) as [t [Pt Et]]. destruct (total_perm _ _ Pt) as [E1 E2]. assert (Lt : length (ftree_items t) = length rgt) by (rewrite (Permutation_length Pt); apply map_length).
    assert (Bg : 2 ^ 45 <= 2 ^ 1023) by (apply Rle_pow; [lra|flia]).
    destruct (ftree_spec t) as [Ft At].
    { intros x Hx. apply Fr. apply (Permutation_in x Pt Hx). }
    { rewrite E2, Lt, ES, big_1024. assert (Gl : gam (length rgt - 1) <= 1) by (eapply Rle_trans; [apply (gam_le _ (2 * N)); flia|]; lra).
      apply Rle_lt_trans with (2 * 2 ^ 40); [apply Rmult_le_compat; try lra; pose proof (gam_nonneg (length rgt - 1)); lra|]. replace (2 ^ 45) with (32 * 2 ^ 40) in Bg by (simpl; lra). assert (0 < 2 ^ 40) by (apply pow_lt; lra). generalize dependent (2 ^ 1023). intros; lra. }
    rewrite <- Et in Ft, At. fold pr in Ft, At. rewrite E1, E2, Lt, ET, ES in At. unfold approx in At.
    assert (Gl : gam (length rgt - 1) <= 1 / 1000) by (eapply Rle_trans; [apply (gam_le _ (2 * N)); flia|]; lra). pose proof (gam_nonneg (length rgt - 1)) as Gl0.
    assert (At' := At). apply Rabs_le_inv in At.
    assert (Lo : - (2 * Q) <= val pr). { assert (gam (length rgt - 1) * (P + Q) <= P + Q * 1) by nra. nra. }
    assert (Pos : 0 < val pl + val pr).
    { assert (gam (2 * N) * M <= 1 / 1000 * M) by (apply Rmult_le_compat_r; lra). lra. }
    assert (Ub : Rabs (val pl + val pr) <= 2 ^ 42).
    { rewrite Rabs_pos_eq by lra. assert (gam (length rgt - 1) * (P + Q) <= 1 * (P + Q)) by (apply Rmult_le_compat_r; lra). assert (gam (2 * N) * M <= 1 * M) by (apply Rmult_le_compat_r; lra). replace (2 ^ 42) with (4 * 2 ^ 40) by (simpl; lra). assert (1024 <= 2 ^ 40) by (simpl; lra). lra. }
    destruct (fadd_spec pl pr Fl Ft) as [Fa [e [He Ee]]].
    { rewrite big_1024. pose proof uu_small. pose proof uu_pos. apply Rle_lt_trans with (2 ^ 42 * 2); [apply Rmult_le_compat; try lra; apply Rabs_pos|]. replace (2 ^ 45) with (8 * 2 ^ 42) in Bg by (simpl; lra). assert (0 < 2 ^ 42) by (apply pow_lt; lra). generalize dependent (2 ^ 1023). intros; lra. }
    assert (T : flt f0 (fadd pl pr) = true). { apply flt_true; [reflexivity|exact Fa|]. rewrite val_f0, Ee. apply Rabs_le_inv in He. pose proof uu_small. apply Rmult_lt_0_compat; lra. }
    rewrite T. cbn [assert_ bind]. eexists. reflexivity.
  Qed.

  Lemma tmove_ok l : forall pre rest lft rgt, tinv pre (l ++ rest) lft rgt -> exists lft' rgt', f_twoing_move l lft rgt = (lft', rgt') /\ tinv (pre ++ l) rest lft' rgt'.
  Proof.
    induction l as [|[z w] l IH]; intros pre rest lft rgt H; cbn [f_twoing_move].
    - exists lft, rgt. rewrite app_nil_r. split; [reflexivity|exact H].
    - cbn [app] in H. apply tinv_step in H. cbv zeta in H. destruct (IH _ _ _ _ H) as [l' [r' [E H']]]. exists l', r'. split; [exact E|]. rewrite <- app_assoc in H'. exact H'.
  Qed.
  Lemma tloop_ok labels pack : forall pre lft rgt best thr, is_nan best = false -> tinv pre (flat pack) lft rgt ->
    exists r, f_twoing_loop sched labels pack lft rgt best thr = Ok r /\ is_nan (snd r) = false.
  Proof.
    induction pack as [|[b m] pack IH]; intros pre lft rgt best thr Nb H; cbn [f_twoing_loop]; [eexists; split; [reflexivity|exact Nb]|].
    unfold flat in H. cbn [map concat snd] in H. fold (flat pack) in H. destruct (tmove_ok m pre (flat pack) lft rgt H) as [l' [r' [E H']]]. rewrite E.
    destruct (score_ok labels _ _ _ _ H') as [sc Es]. rewrite Es. cbn [bind].
    destruct (flt best sc) eqn:Ef; [|apply (IH (pre ++ m)); assumption]. apply (IH (pre ++ m)); [apply (flt_num _ _ Ef)|exact H'].
  Qed.
End Twoing.

Lemma fold_len l : forall m, (length (fold_left fadd_all l m) <= length m + length l)%nat.
Proof.
  induction l as [|[z w] l IH]; intros m; cbn [fold_left fst snd length]; [lia|]. eapply Nat.le_trans; [apply IH|].
  assert ((length (f_lw_add m z w) <= S (length m))%nat); [|lia]. clear. induction m as [|[a v] m IH]; cbn [f_lw_add length]; [lia|]. destruct (Z.eqb a z); cbn [length]; lia.
Qed.

Lemma twoing_ok sched pack N : summing sched -> (forall p, In p (flat pack) -> fin (snd p) /\ 0 <= val (snd p)) -> total (map snd (flat pack)) <= 2 -> (length (flat pack) <= N)%nat -> INR (2 * N) <= 2 ^ 32 ->
  exists r, f_split_by_twoing sched pack = Ok r /\ is_nan (snd r) = false.
Proof.
  intros Hs Hp Ht HL HN. unfold f_split_by_twoing. apply (tloop_ok sched (flat pack) N Hs Hp Ht HL HN (map fst (f_all_right pack)) pack [] [] (f_all_right pack) f0 F64MIN); [reflexivity|].
  split; [reflexivity|]. split; [reflexivity|]. rewrite all_right_flat. split; [apply fold_nodup; constructor|]. split; [|pose proof (fold_len (flat pack) []) as L; cbn [length] in L; lia].
  intros z v Hg. rewrite <- all_right_flat, all_right_get in Hg. set (es := ents z (flat pack)) in *.
  assert (Fe : finite_all es) by (intros x Hx; apply ents_in in Hx; apply (Hp _ Hx)). assert (Pe : forall x, In x es -> 0 <= val x) by (intros x Hx; apply ents_in in Hx; apply (Hp _ Hx)).
  assert (T2 : total es <= 2) by (apply (ents_le2 (flat pack) Hp Ht z)).
  assert (Le : (length es <= N)%nat) by (eapply Nat.le_trans; [apply ents_len|exact HL]).
  destruct (fsum_spec es Fe) as [Fs Ap].
  { apply room; [lia| |]. { unfold few. eapply Rle_trans; [apply le_INR; instantiate (1 := (2 * N)%nat); lia|]. eapply Rle_trans; [exact HN|]. apply Rle_pow; [lra|lia]. }
    rewrite (size_total es Pe). pose proof big1023. generalize dependent (2 ^ 1023). intros; lra. }
  rewrite (size_total es Pe) in Ap. assert (P0 : 0 <= total es) by (rewrite <- (size_total es Pe); apply size_nonneg).
  destruct es as [|w es'] eqn:Ee; [discriminate|]. rewrite <- Ee in *. inversion Hg; subst v. exists (length es), (total es). rewrite Ee in *. rewrite <- Ee in *.
  split; [exact Fs|]. split; [apply (approx_le (length es - 1)); [lia|exact P0|exact Ap]|]. split; [lra|]. split; [lia|lra].
Qed.
