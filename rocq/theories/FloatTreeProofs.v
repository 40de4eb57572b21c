(** The maps from labels to weights and the loops over the bins, in binary64. *)
From Coq Require Import ZArith List Bool Reals Lia Lra Psatz Permutation.
From Flocq Require Import Core.Core IEEE754.BinarySingleNaN Relative Plus_error.
From Verif Require Import Base Bins DTree Float FloatSpec FloatProofs FloatFacts FloatCheckFacts FloatTree.
Import ListNotations.
Open Scope R_scope.

(** the weights of label z in a list of entries, in order *)
Definition ents (z : Z) (l : flw) : list f64 := map snd (filter (fun p => Z.eqb (fst p) z) l).
Definition flat (pack : list (bin * flw)) : flw := concat (map snd pack).
Notation fadd_all := (fun (m : flw) (zw : Z * f64) => f_lw_add m (fst zw) (snd zw)).

Lemma ents_cons z a w l : ents z ((a, w) :: l) = if Z.eqb a z then w :: ents z l else ents z l.
Proof. unfold ents. cbn [filter fst]. destruct (Z.eqb a z); reflexivity. Qed.
Lemma ents_app z l m : ents z (l ++ m) = ents z l ++ ents z m.
Proof. unfold ents. rewrite filter_app, map_app. reflexivity. Qed.

Lemma get_cons a v m z : f_lw_get ((a, v) :: m) z = if Z.eqb a z then Some v else f_lw_get m z.
Proof. unfold f_lw_get. cbn [find fst]. destruct (Z.eqb a z); reflexivity. Qed.
Lemma get_add m z w z' : f_lw_get (f_lw_add m z w) z' =
  if Z.eqb z z' then Some (fadd (match f_lw_get m z with Some v => v | None => f0 end) w) else f_lw_get m z'.
Proof.
  induction m as [|[a v] m IH]; cbn [f_lw_add].
  - rewrite get_cons. reflexivity.
  - destruct (Z.eqb_spec a z) as [->|N].
    + rewrite !get_cons. rewrite Z.eqb_refl. destruct (Z.eqb z z'); reflexivity.
    + rewrite !get_cons, IH. destruct (Z.eqb_spec a z) as [->|_]; [congruence|]. destruct (Z.eqb_spec a z') as [->|N']; [destruct (Z.eqb_spec z z'); [congruence|reflexivity]|reflexivity].
Qed.
Lemma get_set m z w z' : f_lw_get (f_lw_set m z w) z' = if Z.eqb z z' then match f_lw_get m z with Some _ => Some w | None => None end else f_lw_get m z'.
Proof.
  unfold f_lw_set. induction m as [|[a v] m IH]; cbn [map fst].
  - unfold f_lw_get. simpl. destruct (Z.eqb z z'); reflexivity.
  - destruct (Z.eqb_spec a z) as [->|N]; rewrite !get_cons.
    + rewrite IH, Z.eqb_refl. destruct (Z.eqb z z'); reflexivity.
    + rewrite IH. destruct (Z.eqb_spec a z') as [->|N']; [destruct (Z.eqb_spec z z'); [congruence|reflexivity]|]. destruct (Z.eqb_spec a z); [congruence|]. reflexivity.
Qed.
Lemma get_remove m z z' : f_lw_get (f_lw_remove m z) z' = if Z.eqb z z' then None else f_lw_get m z'.
Proof.
  unfold f_lw_remove. induction m as [|[a v] m IH]; cbn [filter fst].
  - unfold f_lw_get. simpl. destruct (Z.eqb z z'); reflexivity.
  - destruct (Z.eqb_spec a z) as [->|N]; cbn [negb].
    + rewrite get_cons, IH. destruct (Z.eqb z z'); reflexivity.
    + rewrite !get_cons, IH. destruct (Z.eqb_spec a z') as [->|N']; [destruct (Z.eqb_spec z z'); [congruence|reflexivity]|reflexivity].
Qed.

(** what is under a label after a list of additions *)
Lemma get_fold l : forall m z, f_lw_get (fold_left fadd_all l m) z =
  match ents z l with
  | [] => f_lw_get m z
  | w :: t => Some (fold_left fadd (w :: t) (match f_lw_get m z with Some v => v | None => f0 end))
  end.
Proof.
  induction l as [|[a w] l IH]; intros m z; cbn [fold_left fst snd]; [reflexivity|].
  rewrite IH, get_add, ents_cons. destruct (Z.eqb_spec a z) as [->|N].
  - destruct (ents z l) as [|w' t]; reflexivity.
  - destruct (ents z l); reflexivity.
Qed.

Lemma merge_fold (ps : list (bin * flw)) : forall m, fold_left (fun m (bp : bin * flw) => f_lw_merge m (snd bp)) ps m = fold_left fadd_all (flat ps) m.
Proof.
  induction ps as [|[b m0] ps IH]; intros m; cbn [fold_left snd]; [reflexivity|]. rewrite IH. unfold flat. cbn [map concat snd]. rewrite fold_left_app. reflexivity.
Qed.
Lemma all_right_flat ps : f_all_right ps = fold_left fadd_all (flat ps) [].
Proof. apply merge_fold. Qed.
Lemma all_right_get ps z : f_lw_get (f_all_right ps) z = match ents z (flat ps) with [] => None | _ => Some (fsum (ents z (flat ps))) end.
Proof. rewrite all_right_flat, get_fold. destruct (ents z (flat ps)); reflexivity. Qed.

(** ** the loop over the bins does not panic as long as the labels to come are on the right *)
Section Loop.
  Variables (drop : bool) (Inv : flw -> flw -> Prop).
  Hypothesis step : forall z w t rgt, Inv ((z, w) :: t) rgt -> exists v, f_lw_get rgt z = Some v /\
    Inv t (if andb drop (fle (fsub v w) f0) then f_lw_remove rgt z else f_lw_set rgt z (fsub v w)).

  Lemma move_ok l : forall rest lft rgt lsum, Inv (l ++ rest) rgt -> exists lft' rgt' lsum', f_move_loop drop l lft rgt lsum = Ok (lft', rgt', lsum') /\ Inv rest rgt'.
  Proof.
    induction l as [|[z w] l IH]; intros rest lft rgt lsum H; cbn [f_move_loop].
    - exists lft, rgt, lsum. split; [reflexivity|exact H].
    - cbn [app] in H. destruct (step _ _ _ _ H) as [v [E H']]. rewrite E. apply IH. exact H'.
  Qed.
  Lemma loop_ok imp ws pack : forall lft rgt lsum best thr, Inv (flat pack) rgt -> exists r, f_impurity_loop drop imp ws pack lft rgt lsum best thr = Ok r.
  Proof.
    induction pack as [|[b m] pack IH]; intros lft rgt lsum best thr H; cbn [f_impurity_loop]; [eexists; reflexivity|].
    unfold flat in H. cbn [map concat snd] in H. fold (flat pack) in H. destruct (move_ok m (flat pack) lft rgt lsum H) as [l' [r' [s' [E H']]]]. rewrite E. cbn [bind].
    destruct (flt _ best); apply IH; exact H'.
  Qed.
End Loop.

(** without removal *)
Lemma keep_ok sched imp pack : exists r, f_split_by_impurity sched false imp pack = Ok r.
Proof.
  unfold f_split_by_impurity. apply (loop_ok false (fun l rgt => forall z, ents z l <> [] -> f_lw_get rgt z <> None)).
  - intros z w t rgt H. assert (Hz : f_lw_get rgt z <> None) by (apply H; rewrite ents_cons, Z.eqb_refl; discriminate).
    destruct (f_lw_get rgt z) as [v|] eqn:E; [|congruence]. exists v. split; [reflexivity|]. cbn [andb]. intros z' Hz'. rewrite get_set.
    destruct (Z.eqb_spec z z') as [->|N]; [rewrite E; discriminate|]. apply H. rewrite ents_cons. destruct (Z.eqb_spec z z'); [congruence|exact Hz'].
  - intros z Hz. rewrite all_right_get. destruct (ents z (flat pack)); [congruence|discriminate].
Qed.

(** ** with removal *)
Lemma approx_sub k s1 S1 A1 s2 A2 e : Rabs S1 <= A1 -> Rabs s2 <= A2 -> approx k s1 S1 A1 -> Rabs e <= uu ->
  approx (S k) ((s1 - s2) * (1 + e)) (S1 - s2) (A1 + A2).
Proof.
  intros H1 H2 Ha He. replace (s1 - s2) with (s1 + - s2) by ring. replace (S1 - s2) with (S1 + - s2) by ring. apply approx_add; auto.
  - rewrite Rabs_Ropp. exact H2.
  - unfold approx. rewrite Rminus_diag_eq, Rabs_R0 by reflexivity. apply Rmult_le_pos; [apply gam_nonneg|]. pose proof (Rabs_pos s2). lra.
Qed.

Lemma total_cons x l : total (x :: l) = val x + total l. Proof. reflexivity. Qed.
Lemma total_ge l x : In x l -> (forall w, In w l -> 0 <= val w) -> val x <= total l.
Proof.
  induction l as [|a l IH]; intros Hx Hp; [destruct Hx|]. rewrite total_cons.
  assert (Q : 0 <= total l). { rewrite <- size_total by (intros; apply Hp; right; assumption). apply size_nonneg. }
  destruct Hx as [->|Hx]; [lra|]. assert (0 <= val a) by (apply Hp; left; reflexivity). assert (val x <= total l) by (apply IH; [exact Hx|intros; apply Hp; right; assumption]). lra.
Qed.

Section Drop.
  Variables (num : Z -> nat) (W : Z -> R).
  Hypothesis few2 : forall z, few (2 * num z).
  Hypothesis small : forall z, W z < 2 ^ 1020.

  Definition above (z : Z) (w : f64) : Prop := fin w /\ 0 < val w /\ gam (2 * num z) * (2 * W z) < val w.

  Definition dinv (l rgt : flw) : Prop := forall z, (forall w, In w (ents z l) -> above z w) /\ (ents z l <> [] ->
    exists v k A, f_lw_get rgt z = Some v /\ fin v /\ approx k (val v) (total (ents z l)) A /\ total (ents z l) <= A /\
      (k + length (ents z l) <= 2 * num z)%nat /\ A + total (ents z l) <= 2 * W z).

  Lemma dinv_step z w t rgt : dinv ((z, w) :: t) rgt -> exists v, f_lw_get rgt z = Some v /\
    dinv t (if andb true (fle (fsub v w) f0) then f_lw_remove rgt z else f_lw_set rgt z (fsub v w)).
  Proof.
    intros H. destruct (H z) as [Ha Hv]. rewrite !ents_cons, !Z.eqb_refl in Ha, Hv. destruct Hv as [v [k [A [E [Fv [Ap [HA [Hk HW]]]]]]]]; [discriminate|].
    exists v. split; [exact E|]. intros z'. destruct (H z') as [Ha' Hv']. rewrite ents_cons in Ha', Hv'.
    destruct (Z.eqb_spec z z') as [Q|N].
    2:{ split; [exact Ha'|]. intros Hne. destruct (Hv' Hne) as [v' [k' [A' [E' R']]]]. exists v', k', A'. split; [|exact R'].
        destruct (andb true (fle (fsub v w) f0)); [rewrite get_remove|rewrite get_set]; destruct (Z.eqb_spec z z'); congruence. }
    subst z'. clear Ha' Hv'. split; [intros x Hx; apply Ha; right; exact Hx|]. intros Hne.
    destruct (Ha w (or_introl eq_refl)) as [Fw [W0' Bw]]. set (T := total (ents z t)) in *. cbn [length] in Hk. rewrite total_cons in *. fold T in Ap, HA, HW.
    pose proof (gam_nonneg (2 * num z)) as G0.
    destruct (ents z t) as [|x rest] eqn:Et; [congruence|]. destruct (Ha x (or_intror (or_introl eq_refl))) as [Fx [X0' Bx]].
    assert (P2 : 2 ^ (3 + 1020) = 2 ^ 3 * 2 ^ 1020) by apply pow_add. change (3 + 1020)%nat with 1023%nat in P2. replace (2 ^ 3) with 8 in P2 by (simpl; lra).
    assert (L1 : forall y, In y (x :: rest) -> 0 <= val y). { intros y Hy. destruct (Ha y (or_intror Hy)) as [_ [Q _]]. lra. }
    assert (W0 : 0 <= val w) by lra. assert (X0 : val x <= T) by (apply total_ge; [left; reflexivity|exact L1]). 
    assert (T0 : 0 <= T) by (specialize (L1 x (or_introl eq_refl)); lra).
    assert (Ss : Rabs (val w + T) <= A) by (rewrite Rabs_pos_eq; lra).
    assert (Sv : Rabs (val v) <= 2 * A).
    { pose proof (approx_size _ _ _ _ Ss Ap) as Q. destruct (gam_few (2 * num z) (few2 z)) as [_ G2]. assert (gam k <= gam (2 * num z)) by (apply gam_le; cbn [length] in Hk; lia). 
      eapply Rle_trans; [exact Q|]. apply Rmult_le_compat_r; lra. }
    destruct (fsub_spec v w Fv Fw) as [Fs [e [He Es]]].
    { rewrite big_1024. apply Rle_lt_trans with ((2 * A + val w) * 2).
      - apply Rmult_le_compat; [apply Rabs_pos|pose proof uu_pos; lra| |pose proof uu_small; lra]. unfold Rminus. eapply Rle_trans; [apply Rabs_triang|]. rewrite Rabs_Ropp, (Rabs_pos_eq (val w)) by exact W0. lra.
      - pose proof (small z) as Sm. rewrite P2. generalize dependent (2 ^ 1020). intros; lra. }
    assert (Ap' : approx (S k) (val (fsub v w)) T (A + val w)).
    { rewrite Es. replace T with (val w + T - val w) by ring. apply approx_sub; auto. rewrite Rabs_pos_eq; lra. }
    assert (Pos : 0 < val (fsub v w)).
    { unfold approx in Ap'. apply Rabs_le_inv in Ap'. assert (gam (S k) * (A + val w) <= gam (2 * num z) * (2 * W z)).
      { apply Rmult_le_compat; [apply gam_nonneg|lra|apply gam_le; cbn [length] in Hk; lia|lra]. } lra. }
    assert (Fl : fle (fsub v w) f0 = false). { apply Bool.not_true_iff_false. intros Q. apply fle_true in Q; [|exact Fs|reflexivity]. rewrite val_f0 in Q. lra. }
    cbn [andb]. rewrite Fl. exists (fsub v w), (S k), (A + val w). split; [rewrite get_set, Z.eqb_refl, E; reflexivity|]. split; [exact Fs|]. fold T. split; [exact Ap'|]. split; [lra|]. split; [lia|lra].
  Qed.
End Drop.


Lemma min_entry (l : list f64) : l <> [] -> exists m, In m l /\ forall x, In x l -> val m <= val x.
Proof.
  induction l as [|a l IH]; intros N; [congruence|]. destruct l as [|b l]; [exists a; split; [left; reflexivity|intros x [<- | []]; lra]|].
  destruct IH as [m [Hm1 Hm2]]; [discriminate|]. destruct (Rle_or_lt (val a) (val m)) as [L|L].
  - exists a. split; [left; reflexivity|]. intros x [<- | Hx]; [lra|]. specialize (Hm2 x Hx). lra.
  - exists m. split; [right; exact Hm1|]. intros x [<- | Hx]; [lra|]. apply Hm2, Hx.
Qed.
Lemma count_le (l : list f64) m : (forall x, In x l -> m <= val x) -> INR (length l) * m <= total l.
Proof.
  induction l as [|a l IH]; intros H; [unfold total; simpl; lra|]. rewrite total_cons. cbn [length]. rewrite S_INR. 
  assert (m <= val a) by (apply H; left; reflexivity). assert (INR (length l) * m <= total l) by (apply IH; intros; apply H; right; assumption). lra.
Qed.

Lemma drop_ok sched imp pack : (forall z, let es := ents z (flat pack) in (forall w, In w es -> fin w /\ 0 < val w /\ INR (length es) * total es < 2 ^ 50 * val w)) ->
  (forall z, total (ents z (flat pack)) < 2 ^ 1020) -> exists r, f_split_by_impurity sched true imp pack = Ok r.
Proof.
  intros H Hs. cbv zeta in H.
  assert (Cnt : forall z, few (2 * length (ents z (flat pack)))).
  { intros z. specialize (H z). set (es := ents z (flat pack)) in *. clearbody es. unfold few. rewrite mult_INR. simpl (INR 2).
    assert (N : es = [] \/ es <> []) by (destruct es; [left; reflexivity|right; discriminate]). destruct N as [-> |N]; [simpl; pose proof (pow_lt 2 52); lra|].
    destruct (min_entry es N) as [m [Hm1 Hm2]]. destruct (H m Hm1) as [_ [Pm Q]]. pose proof (count_le es (val m) Hm2) as C. pose proof (pos_INR (length es)) as L0.
    assert (B : INR (length es) * INR (length es) < 2 ^ 50).
    { apply Rmult_lt_reg_r with (val m); [exact Pm|]. eapply Rle_lt_trans; [|exact Q]. rewrite Rmult_assoc. apply Rmult_le_compat_l; assumption. }
    destruct (Rle_or_lt (INR (length es)) (2 ^ 25)) as [B2|B2]; [|exfalso].
    - assert (2 ^ 25 * 2 <= 2 ^ 52) by (simpl; lra). lra.
    - assert (2 ^ 25 * 2 ^ 25 <= INR (length es) * INR (length es)) by (apply Rmult_le_compat; try lra; left; apply pow_lt; lra). replace (2 ^ 50) with (2 ^ 25 * 2 ^ 25) in B by (simpl; lra). lra. }
  unfold f_split_by_impurity. set (num := fun z => length (ents z (flat pack))). set (W := fun z => total (ents z (flat pack))).
  apply (loop_ok true (dinv num W)).
  - intros z w t rgt. apply dinv_step; [exact Cnt|exact Hs].
  - intros z. assert (Ab : forall w, In w (ents z (flat pack)) -> above num W z w).
    { intros w Hw. destruct (H z w Hw) as [Fw [Pw Q]]. split; [exact Fw|]. split; [exact Pw|]. destruct (gam_few (2 * num z) (Cnt z)) as [G _]. fold (num z) (W z) in Q. rewrite mult_INR in G. simpl (INR 2) in G.
      assert (PW : 0 <= W z). { unfold W. rewrite <- size_total; [apply size_nonneg|]. intros x Hx. destruct (H z x Hx) as [_ [P _]]. lra. }
      apply Rle_lt_trans with (2 * (2 * INR (num z) * uu) * (2 * W z)); [apply Rmult_le_compat_r; lra|].
      apply Rmult_lt_reg_l with (2 ^ 50); [apply pow_lt; lra|]. eapply Rle_lt_trans; [|exact Q]. unfold uu. replace (2 ^ 53) with (8 * 2 ^ 50) by (simpl; lra).
      assert (P50 : 0 < 2 ^ 50) by (apply pow_lt; lra). generalize dependent (2 ^ 50). intros; right; field; lra. }
    split; [exact Ab|]. intros Hne.
    assert (Pos : forall x, In x (ents z (flat pack)) -> 0 <= val x) by (intros x Hx; destruct (H z x Hx) as [_ [P _]]; lra).
    rewrite all_right_get. set (es := ents z (flat pack)) in *. exists (fsum es), (length es), (total es).
    assert (Fe : finite_all es) by (intros x Hx; apply (H z x Hx)).
    destruct (fsum_spec es Fe) as [Fs Ap].
    { apply room; [lia|eapply few_le; [|apply (Cnt z)]; fold es; lia|]. rewrite (size_total es Pos). eapply Rlt_le_trans; [apply (Hs z)|]. apply Rle_pow; [lra|lia]. }
    split; [destruct es; [congruence|reflexivity]|]. split; [exact Fs|]. rewrite (size_total es Pos) in Ap. assert (T0 : 0 <= total es) by (rewrite <- (size_total es Pos); apply size_nonneg).
    split; [apply (approx_le (length es - 1)); [lia|exact T0|exact Ap]|]. split; [lra|]. split; [unfold num; fold es; lia|]. unfold W. fold es. lra.
Qed.
