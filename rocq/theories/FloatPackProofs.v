(** Packing the weights into bins, in binary64: how far the packed weights are from the exact ones. *)
From Coq Require Import ZArith List Bool Reals Lia Lra Psatz Permutation.
From Flocq Require Import Core.Core IEEE754.BinarySingleNaN Relative Plus_error.
From Verif Require Import Base Feature FeatureFacts Bins BinsSpec BinsProofs DTree Float FloatSpec FloatProofs FloatFacts FloatCheckFacts FloatTree FloatTreeSpec FloatTreeProofs.
Import ListNotations.
Open Scope R_scope.

(** x approximates X >= 0 with k roundings *)
Definition acc (k : nat) (x : f64) (X : R) : Prop := fin x /\ 0 <= X /\ approx k (val x) X X.

Lemma acc_le k m x X : (k <= m)%nat -> acc k x X -> acc m x X.
Proof. intros L [F [P A]]. split; [exact F|]. split; [exact P|]. apply (approx_le k); assumption. Qed.
Lemma acc_self x : fin x -> 0 <= val x -> acc 0 x (val x).
Proof. intros F P. split; [exact F|]. split; [exact P|]. unfold approx. rewrite Rminus_diag_eq, Rabs_R0, gam_0 by reflexivity. lra. Qed.
Lemma gam_plus a b : (1 + gam a) * (1 + gam b) = 1 + gam (a + b).
Proof. unfold gam. rewrite pow_add. ring. Qed.
Lemma gam_30 n : INR n <= 2 ^ 32 -> gam n <= / 2 ^ 20.
Proof.
  intros H. destruct (gam_few n) as [G _]; [unfold few; eapply Rle_trans; [exact H|]; apply Rle_pow; [lra|lia]|]. eapply Rle_trans; [exact G|].
  apply Rle_trans with (2 * (2 ^ 32 * uu)); [apply Rmult_le_compat_l; [lra|]; apply Rmult_le_compat_r; [left; apply uu_pos|exact H]|]. unfold uu. simpl. lra.
Qed.
Lemma acc_nonneg k x X : INR k <= 2 ^ 32 -> acc k x X -> 0 <= val x <= 2 * X.
Proof.
  intros Hk [F [P A]]. pose proof (gam_30 k Hk) as G. unfold approx in A. apply Rabs_le_inv in A. assert (/ 2 ^ 20 <= / 2) by (simpl; lra).
  assert (gam k * X <= / 2 * X) by (apply Rmult_le_compat_r; lra). lra.
Qed.

Lemma Forall2_sum {A} (P : A -> R -> Prop) (f : A -> R) (g : R) l Xs : Forall2 P l Xs -> (forall a X, P a X -> Rabs (f a - X) <= g * X) -> Rabs (rsum (map f l) - rsum Xs) <= g * rsum Xs.
Proof.
  intros H Hp. induction H as [|a X l Xs Ha H IH]; simpl; [rewrite Rminus_0_r, Rabs_R0; lra|].
  replace (f a + rsum (map f l) - (X + rsum Xs)) with ((f a - X) + (rsum (map f l) - rsum Xs)) by ring. eapply Rle_trans; [apply Rabs_triang|]. specialize (Hp a X Ha). lra.
Qed.
Lemma Forall2_nonneg l Xs k : Forall2 (acc k) l Xs -> 0 <= rsum Xs.
Proof. intros H. induction H as [|x X l Xs [_ [P _]] H IH]; simpl; lra. Qed.

(** a sum of approximations *)
Lemma sched_acc sched l Xs k : summing sched -> Forall2 (acc k) l Xs -> INR (k + length l) <= 2 ^ 32 -> rsum Xs < 2 ^ 1020 -> acc (k + length l) (sched l) (rsum Xs).
Proof.
  intros Hs H Hk Hb. destruct (Hs l) as [t [Pt Et]]. rewrite Et.
  assert (Fl : finite_all l). { intros x Hx. clear -H Hx. induction H as [|a X l Xs [F _] H IH]; [destruct Hx|]. destruct Hx as [<- |Hx]; [exact F|apply IH, Hx]. }
  assert (Kk : INR k <= 2 ^ 32) by (eapply Rle_trans; [apply le_INR|exact Hk]; lia).
  assert (Pl : forall x, In x l -> 0 <= val x). { intros x Hx. clear -H Hx Kk. induction H as [|a X l Xs Ha H IH]; [destruct Hx|]. destruct Hx as [<- |Hx]; [apply (acc_nonneg k a X Kk Ha)|apply IH, Hx]. }
  assert (T1 : Rabs (total l - rsum Xs) <= gam k * rsum Xs) by (apply (Forall2_sum (acc k) val _ l Xs H); intros a X [_ [_ A]]; exact A).
  pose proof (Forall2_nonneg l Xs k H) as P. pose proof (gam_30 k Kk) as Gk.
  destruct (total_perm _ _ Pt) as [E1 E2]. rewrite (size_total l Pl) in E2.
  assert (T2 : total l <= (1 + gam k) * rsum Xs) by (apply Rabs_le_inv in T1; lra).
  assert (L : length (ftree_items t) = length l) by (apply Permutation_length, Pt).
  assert (Fw : few (length l)). { unfold few. eapply Rle_trans; [apply le_INR; instantiate (1 := (k + length l)%nat); lia|]. eapply Rle_trans; [exact Hk|]. apply Rle_pow; [lra|lia]. }
  assert (Tb : total l < 2 ^ 1023).
  { assert (P2 : 2 ^ (3 + 1020) = 2 ^ 3 * 2 ^ 1020) by apply pow_add. change (3 + 1020)%nat with 1023%nat in P2. rewrite P2. replace (2 ^ 3) with 8 by (simpl; lra). assert (/ 2 ^ 20 <= 1) by (simpl; lra). assert ((1 + gam k) * rsum Xs <= 2 * rsum Xs) by (apply Rmult_le_compat_r; lra). generalize dependent (2 ^ 1020). intros; lra. }
  destruct (ftree_spec t) as [F A].
  { intros x Hx. apply Fl. apply (Permutation_in x Pt Hx). }
  { rewrite E2, L. rewrite <- (size_total l Pl). apply room; [lia|exact Fw|]. rewrite (size_total l Pl). exact Tb. }
  split; [exact F|]. split; [exact P|]. rewrite E1, E2, L in A.
  apply (approx_le (length l - 1) (length l)) in A; [|lia|rewrite <- (size_total l Pl); apply size_nonneg]. unfold approx in *.
  replace (val (ftree_sum t) - rsum Xs) with ((val (ftree_sum t) - total l) + (total l - rsum Xs)) by ring. eapply Rle_trans; [apply Rabs_triang|].
  pose proof (gam_nonneg (length l)) as G1. assert (gam (length l) * total l <= gam (length l) * ((1 + gam k) * rsum Xs)) by (apply Rmult_le_compat_l; assumption).
  pose proof (gam_plus k (length l)) as Gp. replace (gam (k + length l)) with (gam k + gam (length l) * (1 + gam k)) by lra. lra.
Qed.

(** ** the maps of the bins *)
Definition eacc (k : nat) (delta : R) (p : Z * f64) (X : R) : Prop := acc k (snd p) X /\ delta <= X.

Lemma eacc_le k m delta l Xs : (k <= m)%nat -> Forall2 (eacc k delta) l Xs -> Forall2 (eacc m delta) l Xs.
Proof. intros L H. induction H as [|a X l Xs [A B] H IH]; constructor; [|exact IH]. split; [apply (acc_le k); assumption|exact B]. Qed.

Lemma add_one k x X w : fin w -> 0 <= val w -> acc k x X -> INR (S k) <= 2 ^ 32 -> X + val w < 2 ^ 1020 -> acc (S k) (fadd x w) (X + val w).
Proof.
  intros Fw Pw A Hk Hb. assert (Kk : INR k <= 2 ^ 32) by (eapply Rle_trans; [apply le_INR|exact Hk]; lia). destruct A as [F [P A]].
  destruct (fadd_spec x w F Fw) as [Fs [e [He E]]].
  { destruct (acc_nonneg k x X Kk (conj F (conj P A))) as [N1 N2]. rewrite Rabs_pos_eq by lra. rewrite big_1024.
    assert (P2 : 2 ^ (3 + 1020) = 2 ^ 3 * 2 ^ 1020) by apply pow_add. change (3 + 1020)%nat with 1023%nat in P2. rewrite P2. replace (2 ^ 3) with 8 by (simpl; lra).
    pose proof uu_pos. pose proof uu_small. apply Rle_lt_trans with ((val x + val w) * 2); [apply Rmult_le_compat_l; lra|]. generalize dependent (2 ^ 1020). intros; lra. }
  split; [exact Fs|]. split; [lra|]. rewrite E. apply approx_add; try exact He; try exact A; rewrite ?Rabs_pos_eq by lra; try lra.
  unfold approx. rewrite Rminus_diag_eq, Rabs_R0 by reflexivity. apply Rmult_le_pos; [apply gam_nonneg|lra].
Qed.

Lemma add_acc k delta z (w : f64) : fin w -> 0 <= val w -> delta <= val w -> INR (S k) <= 2 ^ 32 -> forall (m : list (Z * f64)) Xs, Forall2 (eacc k delta) m Xs -> rsum Xs + val w < 2 ^ 1020 ->
  exists Xs', Forall2 (eacc (S k) delta) (f_lw_add m z w) Xs' /\ rsum Xs' = rsum Xs + val w /\ (length (f_lw_add m z w) <= S (length m))%nat.
Proof.
  intros Fw Pw Dw Hk m Xs H. induction H as [|[a v] X m Xs [A B] H IH]; intros Hb; cbn [f_lw_add].
  - exists [val w]. split; [|split; [simpl; lra|simpl; lia]]. constructor; [|constructor]. split; [|exact Dw]. cbn [snd]. simpl in Hb.
    assert (A0 : acc k f0 0) by (apply (acc_le 0); [lia|]; apply (acc_self f0); [reflexivity|rewrite val_f0; lra]).
    pose proof (add_one k f0 0 w Fw Pw A0 Hk) as Q. rewrite Rplus_0_l in *. apply Q. exact Hb.
  - assert (Q : 0 <= rsum Xs). { clear -H. induction H as [|p X m Xs [[_ [P _]] _] H IH]; simpl; lra. } assert (PX : 0 <= X) by apply A. simpl in Hb.
    destruct (Z.eqb a z).
    + exists (X + val w :: Xs). split; [|split; [simpl; lra|simpl; lia]]. constructor; [|apply (eacc_le k); [lia|exact H]]. split; [|lra]. cbn [snd]. apply add_one; auto. lra.
    + destruct IH as [Xs' [H1 [H2 H3]]]; [lra|]. exists (X :: Xs'). split; [|split; [simpl; rewrite H2; lra|simpl; lia]]. constructor; [|exact H1]. split; [apply (acc_le k); [lia|exact A]|exact B].
Qed.

Lemma fold_acc delta (l : list (Z * f64)) : forall k (m : list (Z * f64)) Xs, (forall p, In p l -> fin (snd p) /\ 0 <= val (snd p) /\ delta <= val (snd p)) -> INR (k + length l) <= 2 ^ 32 -> Forall2 (eacc k delta) m Xs ->
  rsum Xs + total (map snd l) < 2 ^ 1020 ->
  exists Xs', Forall2 (eacc (k + length l) delta) (fold_left fadd_all l m) Xs' /\ rsum Xs' = rsum Xs + total (map snd l) /\ (length (fold_left fadd_all l m) <= length m + length l)%nat.
Proof.
  induction l as [|[z w] l IH]; intros k m Xs Hp Hk H Hb; cbn [fold_left fst snd map].
  - exists Xs. rewrite Nat.add_0_r. split; [exact H|]. unfold total. simpl. split; [lra|lia].
  - destruct (Hp (z, w) (or_introl eq_refl)) as [Fw [Pw Dw]]. cbn [snd] in *. cbn [map snd] in Hb. rewrite total_cons in Hb. cbn [length] in Hk.
    assert (T0 : 0 <= total (map snd l)). { rewrite <- size_total; [apply size_nonneg|]. intros x Hx. apply in_map_iff in Hx. destruct Hx as [p [<- Hx]]. apply (Hp p (or_intror Hx)). }
    destruct (add_acc k delta z w Fw Pw Dw) with (m := m) (Xs := Xs) as [Xs1 [H1 [H2 H3]]]; [eapply Rle_trans; [apply le_INR|exact Hk]; lia|exact H|lra|].
    destruct (IH (S k) (f_lw_add m z w) Xs1) as [Xs2 [H4 [H5 H6]]]; [intros p Hq; apply Hp; right; exact Hq|rewrite Nat.add_succ_comm; exact Hk|exact H1|lra|].
    exists Xs2. cbn [length]. rewrite <- Nat.add_succ_comm. split; [exact H4|]. rewrite total_cons. split; [lra|lia].
Qed.

(** ** all the bins *)
Lemma Forall2_upd {A B} (P : A -> B -> Prop) l l' k a b : Forall2 P l l' -> P a b -> Forall2 P (upd k a l) (upd k b l').
Proof. intros H. revert k. induction H as [|x y l l' Hx H IH]; intros [|k] Hab; cbn [upd]; constructor; auto. Qed.
Lemma Forall2_at {A B} (P : A -> B -> Prop) l l' k d d' : Forall2 P l l' -> (k < length l)%nat -> P (nth k l d) (nth k l' d').
Proof. intros H. revert k. induction H as [|x y l l' Hx H IH]; intros k Hk; [simpl in Hk; lia|]. destruct k as [|k]; [exact Hx|]. simpl in *. apply IH. lia. Qed.
Lemma rsum_upd (l : list (list R)) k b : (k < length l)%nat -> rsum (map rsum (upd k b l)) = rsum (map rsum l) - rsum (nth k l []) + rsum b.
Proof. revert k. induction l as [|a l IH]; intros [|k] Hk; simpl in *; try lia; [lra|]. rewrite IH by lia. lra. Qed.
Lemma len_upd (l : list flw) k b : (k < length l)%nat -> (length (concat (upd k b l)) + length (nth k l []) = length (concat l) + length b)%nat.
Proof. revert k. induction l as [|a l IH]; intros [|k] Hk; simpl in *; try lia; rewrite !app_length; [lia|]. specialize (IH k). lia. Qed.
Lemma nth_rsum_le (l : list (list R)) k : (forall xs, In xs l -> 0 <= rsum xs) -> (k < length l)%nat -> rsum (nth k l []) <= rsum (map rsum l).
Proof.
  revert k. induction l as [|a l IH]; intros k Hp Hk; [simpl in Hk; lia|]. assert (Q : 0 <= rsum (map rsum l)) by (apply rsum_nonneg; intros x Hx; apply in_map_iff in Hx; destruct Hx as [xs [<- Hx]]; apply Hp; right; exact Hx).
  assert (0 <= rsum a) by (apply Hp; left; reflexivity). destruct k as [|k]; simpl; [lra|]. assert (rsum (nth k l []) <= rsum (map rsum l)) by (apply IH; [intros; apply Hp; right; assumption|simpl in Hk; lia]). lra.
Qed.
Lemma eacc_sum k delta m Xs : Forall2 (eacc k delta) m Xs -> 0 <= rsum Xs.
Proof. intros H. induction H as [|p X m Xs [[_ [P _]] _] H IH]; simpl; lra. Qed.

Section Pack.
  Variables (bins : list bin) (f : feature) (y : list R) (dist : list f64) (x : nat -> R) (s e delta : R).
  Hypothesis C : chain s e bins.
  Let row i := feat_index f i = Ok (x i) /\ s <= x i < e /\ (i < length y)%nat /\ (i < length dist)%nat /\ fin (nth i dist f0) /\ 0 <= val (nth i dist f0) /\ delta <= val (nth i dist f0).

  Lemma f_get_ok i : (i < length dist)%nat -> f_get dist i = Ok (nth i dist f0).
  Proof. intros H. unfold f_get. rewrite (nth_error_nth' dist f0 H). reflexivity. Qed.

  Lemma pack_loop_acc idx : forall k packs Xss, (forall i, In i idx -> row i) -> length packs = length bins -> INR (k + length idx) <= 2 ^ 32 ->
    Forall2 (Forall2 (eacc k delta)) packs Xss -> rsum (map rsum Xss) + total (map (fun i => nth i dist f0) idx) < 2 ^ 1020 ->
    exists packs' Xss', pack_loop (f_dt_add y dist) [] bins f idx packs = Ok packs' /\ Forall2 (Forall2 (eacc (k + length idx) delta)) packs' Xss' /\
      rsum (map rsum Xss') = rsum (map rsum Xss) + total (map (fun i => nth i dist f0) idx) /\ (length (concat packs') <= length (concat packs) + length idx)%nat /\ length packs' = length packs.
  Proof.
    induction idx as [|i idx IH]; intros k packs Xss Hr Hl Hk H Hb; cbn [pack_loop].
    - exists packs, Xss. rewrite Nat.add_0_r. split; [reflexivity|]. split; [exact H|]. unfold total. simpl. split; [lra|]. split; [lia|reflexivity].
    - destruct (Hr i (or_introl eq_refl)) as [Ex [Hx [Hy [Hd [Fd [Pd Dd]]]]]]. rewrite Ex. cbn [bind].
      destruct (find_bin_ok _ _ _ _ C Hx) as [j [Ej [Hj _]]]. rewrite Ej. cbn [bind]. unfold f_dt_add at 1. rewrite get_ok by exact Hy. cbn [bind]. rewrite f_get_ok by exact Hd. cbn [bind].
      cbn [map] in Hb |- *. rewrite total_cons in *. cbn [length] in Hk. set (w := nth i dist f0) in *. set (T := total (map (fun i => nth i dist f0) idx)) in *.
      assert (T0 : 0 <= T). { unfold T. rewrite <- size_total; [apply size_nonneg|]. intros v Hv. apply in_map_iff in Hv. destruct Hv as [i' [<- Hv]]. apply (Hr i' (or_intror Hv)). }
      assert (HX : forall xs, In xs Xss -> 0 <= rsum xs). { clear -H. induction H as [|m Xs packs Xss Hm H IH]; intros xs Hx; [destruct Hx|]. destruct Hx as [<- |Hx]; [apply (eacc_sum _ _ _ _ Hm)|apply IH, Hx]. }
      assert (LX : length Xss = length bins) by (rewrite <- Hl; symmetry; eapply Forall2_length', H).
      assert (Hj' : (j < length packs)%nat) by lia. pose proof (Forall2_at _ _ _ j [] [] H Hj') as Hm.
      pose proof (nth_rsum_le Xss j HX ltac:(lia)) as NL.
      destruct (add_acc k delta (as_int 32 (nth i y 0)) w Fd Pd Dd) with (m := nth j packs []) (Xs := nth j Xss []) as [Xs' [H1 [H2 H3]]]; [eapply Rle_trans; [apply le_INR|exact Hk]; lia|exact Hm|lra|].
      destruct (IH (S k) (upd j (f_lw_add (nth j packs []) (as_int 32 (nth i y 0)) w) packs) (upd j Xs' Xss)) as [packs' [Xss' [E1 [E2 [E3 [E4 E5]]]]]].
      + intros i' Hi'. apply Hr. right. exact Hi'.
      + rewrite upd_length. exact Hl.
      + rewrite Nat.add_succ_comm. exact Hk.
      + apply Forall2_upd; [|exact H1]. clear -H. induction H as [|m Xs packs Xss Hm H IH]; constructor; [apply (eacc_le k); [lia|exact Hm]|exact IH].
      + rewrite rsum_upd by lia. lra.
      + exists packs', Xss'. split; [exact E1|]. cbn [length]. rewrite <- Nat.add_succ_comm. split; [exact E2|]. rewrite rsum_upd in E3 by lia. fold T in E3. split; [rewrite E3, H2; ring|].
        pose proof (len_upd packs j (f_lw_add (nth j packs []) (as_int 32 (nth i y 0)) w) Hj') as LU. rewrite upd_length in E5. split; [|exact E5].
        unfold flw in *. set (L1 := length (concat (upd _ _ packs))) in *. set (L2 := length (f_lw_add _ _ w)) in *. clearbody L1 L2. clear - E4 LU H3. lia.
  Qed.
End Pack.

(** ** normalised weights *)
Lemma Forall2_concat {A B} (P : A -> B -> Prop) ls ls' : Forall2 (Forall2 P) ls ls' -> Forall2 P (concat ls) (concat ls').
Proof. intros H. induction H as [|l l' ls ls' Hl H IH]; cbn [concat]; [constructor|]. apply Forall2_app; assumption. Qed.
Lemma rsum_concat (ls : list (list R)) : rsum (concat ls) = rsum (map rsum ls).
Proof. induction ls as [|l ls IH]; [reflexivity|]. cbn [concat map]. rewrite rsum_app, IH. reflexivity. Qed.
Lemma rsum_nils n : rsum (map rsum (repeat [] n)) = 0.
Proof. induction n as [|k IH]; simpl; [reflexivity|rewrite IH; lra]. Qed.
Lemma concat_nils {A} n : concat (repeat (@nil A) n) = [].
Proof. induction n as [|k IH]; simpl; [reflexivity|exact IH]. Qed.
Lemma ratio_bounds a b e : Rabs a <= / 2 ^ 20 -> Rabs b <= / 2 ^ 20 -> Rabs e <= uu -> 995 / 1000 * (1 + b) <= (1 + a) * (1 + e) <= 1005 / 1000 * (1 + b).
Proof.
  intros Ha Hb He. pose proof uu_small as U. assert (/ 2 ^ 20 <= 1 / 1000000) by (simpl; lra). apply Rabs_le_inv in Ha, Hb, He.
  assert (U' : uu <= 1 / 1000000) by lra. assert (A1 : 999999 / 1000000 <= 1 + a <= 1000001 / 1000000) by lra. assert (E1 : 999999 / 1000000 <= 1 + e <= 1000001 / 1000000) by lra. nra.
Qed.
Lemma div_acc k v t X D : INR k <= 2 ^ 32 -> acc k v X -> acc k t D -> 0 < D -> X <= D ->
  fin (fdiv v t) /\ 995 / 1000 * (X / D) - eta0 <= val (fdiv v t) <= 1005 / 1000 * (X / D) + eta0 /\ 0 <= val (fdiv v t).
Proof.
  intros Hk [Fv [PX Av]] [Ft [_ At]] PD XD. pose proof (gam_30 k Hk) as G. unfold approx in *.
  assert (Da : exists a, Rabs a <= / 2 ^ 20 /\ val v = X * (1 + a)).
  { destruct (Req_dec X 0) as [-> |N].
    - exists 0. split; [rewrite Rabs_R0; simpl; lra|]. rewrite Rmult_0_r in Av. pose proof (Rabs_pos (val v - 0)). rewrite Rminus_0_r in *. destruct (Req_dec (val v) 0) as [Q|Q]; [lra|]. apply Rabs_pos_lt in Q. lra.
    - exists ((val v - X) / X). split; [|field; exact N]. unfold Rdiv. rewrite Rabs_mult, Rabs_inv, (Rabs_pos_eq X) by exact PX. apply Rmult_le_reg_r with X; [lra|]. rewrite Rmult_assoc, Rinv_l, Rmult_1_r by exact N. eapply Rle_trans; [exact Av|]. apply Rmult_le_compat_r; lra. }
  assert (Db : exists b, Rabs b <= / 2 ^ 20 /\ val t = D * (1 + b)).
  { exists ((val t - D) / D). split; [|field; lra]. unfold Rdiv. rewrite Rabs_mult, Rabs_inv, (Rabs_pos_eq D) by lra. apply Rmult_le_reg_r with D; [lra|]. rewrite Rmult_assoc, Rinv_l, Rmult_1_r by lra. eapply Rle_trans; [exact At|]. apply Rmult_le_compat_r; lra. }
  destruct Da as [a [Ha Ea]]. destruct Db as [b [Hb Eb]].
  assert (B1 : 1 / 2 <= 1 + b) by (apply Rabs_le_inv in Hb; assert (/ 2 ^ 20 <= 1 / 2) by (simpl; lra); lra).
  assert (Q : 0 <= X / D <= 1) by (split; [apply Rmult_le_pos; [exact PX|left; apply Rinv_0_lt_compat, PD]|apply (proj2 (Rdiv_le_iff X 1 D PD)); lra]).
  assert (Er : val v / val t = X / D * ((1 + a) / (1 + b))) by (rewrite Ea, Eb; field; lra).
  assert (Hr : forall e, Rabs e <= uu -> 995 / 1000 <= (1 + a) / (1 + b) * (1 + e) <= 1005 / 1000).
  { intros e He. pose proof (ratio_bounds a b e Ha Hb He) as RB. replace ((1 + a) / (1 + b) * (1 + e)) with ((1 + a) * (1 + e) / (1 + b)) by (field; lra).
    assert (B0 : 0 < 1 + b) by lra. split; [apply (proj2 (Rle_div_iff _ _ _ B0))|apply (proj2 (Rdiv_le_iff _ _ _ B0))]; lra. }
  pose proof (Hr 0 ltac:(rewrite Rabs_R0; left; apply uu_pos)) as H0. rewrite Rplus_0_r, Rmult_1_r in H0.
  destruct (fdiv_spec v t Fv) as [Fd Vd].
  { rewrite Eb. nra. }
  { rewrite Er. pose proof big1023. rewrite Rabs_pos_eq by (apply Rmult_le_pos; lra). assert (X / D * ((1 + a) / (1 + b)) <= 1 * (1005 / 1000)) by (apply Rmult_le_compat; lra). generalize dependent (2 ^ 1023). intros; lra. }
  split; [exact Fd|]. assert (NN : 0 <= val (fdiv v t)).
  { rewrite Vd, Er. replace 0 with (rnd 0) by (apply round_0; typeclasses eauto). apply rnd_mono. apply Rmult_le_pos; lra. }
  split; [|exact NN]. clear NN. rewrite Vd, Er. destruct (err_mult (X / D * ((1 + a) / (1 + b)))) as [e [h [He [Hh E]]]]. rewrite E. change (bpow radix2 (-1075)) with eta0 in Hh. apply Rabs_le_inv in Hh.
  specialize (Hr e He). rewrite Rmult_assoc. set (q := (1 + a) / (1 + b) * (1 + e)) in *. clearbody q. clear - Hr Q Hh. nra.
Qed.

Section Packed.
  Variables (sched : list f64 -> f64) (order : flw -> flw) (bins : list bin) (f : feature) (y : list R) (dist : list f64) (x : nat -> R) (s e delta : R) (idx : list nat).
  Hypothesis Hs : summing sched.
  Hypothesis Ho : forall m, Permutation (order m) m.
  Hypothesis C : chain s e bins.
  Hypothesis Hne : idx <> [].
  Hypothesis Hr : forall i, In i idx -> feat_index f i = Ok (x i) /\ s <= x i < e /\ (i < length y)%nat /\ (i < length dist)%nat /\ fin (nth i dist f0) /\ 0 < val (nth i dist f0) /\ delta <= val (nth i dist f0).
  Hypothesis Hd : 0 < delta.
  Local Notation N := (length idx).
  Local Notation D := (FloatSpec.total (map (fun i => nth i dist f0) idx)).
  Hypothesis HN : INR (2 * N + length bins) <= 2 ^ 32.
  Hypothesis HD : D < 2 ^ 1000.

  Lemma D_pos : 0 < D.
  Proof.
    destruct idx as [|i l] eqn:E; [congruence|]. cbn [map]. rewrite total_cons. destruct (Hr i (or_introl eq_refl)) as [_ [_ [_ [_ [_ [P _]]]]]].
    assert (Q : 0 <= FloatSpec.total (map (fun i => nth i dist f0) l)). { rewrite <- size_total; [apply size_nonneg|]. intros v Hv. apply in_map_iff in Hv. destruct Hv as [j [<- Hv]]. destruct (Hr j (or_intror Hv)) as [_ [_ [_ [_ [_ [Pj _]]]]]]. lra. }
    lra.
  Qed.

  Lemma packed_ok : exists out, f_dt_pack sched order bins idx f y dist = Ok out /\ (length (flat out) <= N)%nat /\
    (forall p, In p (flat out) -> fin (snd p) /\ 0 <= val (snd p) <= 2) /\ total (map snd (flat out)) <= 2 /\
    (D <= 2 ^ 900 * delta -> (forall p, In p (flat out) -> 99 / 100 * (delta / D) <= val (snd p)) /\ total (map snd (flat out)) <= 101 / 100).
  Proof.
    pose proof D_pos as DP. assert (B20 : 2 ^ 1000 <= 2 ^ 1020) by (apply Rle_pow; [lra|lia]).
    assert (KN : INR (0 + N) <= 2 ^ 32) by (eapply Rle_trans; [apply le_INR|exact HN]; lia).
    destruct (pack_loop_acc bins f y dist x s e delta C idx 0 (repeat [] (length bins)) (repeat [] (length bins))) as [packs [Xss [E [H [HS [HL HLp]]]]]].
    { intros i Hi. destruct (Hr i Hi) as [A1 [A2 [A3 [A4 [A5 [A6 A7]]]]]]. repeat (split; [assumption|]). split; [lra|assumption]. }
    { apply repeat_length. }
    { exact KN. }
    { clear. induction (length bins) as [|k IH]; simpl; [constructor|]. constructor; [constructor|exact IH]. }
    { assert (Z : rsum (map rsum (repeat [] (length bins))) = 0) by apply rsum_nils. rewrite Z. lra. }
    assert (Z : rsum (map rsum (repeat [] (length bins))) = 0) by apply rsum_nils. rewrite Z, Rplus_0_l in HS. clear Z.
    assert (Z : concat (repeat (@nil (Z * f64)) (length bins)) = []) by apply concat_nils. unfold flw in HL. rewrite Z in HL. clear Z. cbn [length] in HL. rewrite repeat_length in HLp. rewrite Nat.add_0_l in *.
    assert (Lm : forall m, In m packs -> (length m <= N)%nat).
    { intros m Hm. eapply Nat.le_trans; [|exact HL]. clear -Hm. induction packs as [|a l IH]; [destruct Hm|]. cbn [concat]. rewrite app_length. destruct Hm as [<- |Hm]; [lia|]. specialize (IH Hm). lia. }
    assert (HX : forall xs, In xs Xss -> 0 <= rsum xs). { clear -H. induction H as [|m Xs packs Xss Hm H IH]; intros xs Hx; [destruct Hx|]. destruct Hx as [<- |Hx]; [apply (eacc_sum _ _ _ _ Hm)|apply IH, Hx]. }
    assert (HXD : forall xs, In xs Xss -> rsum xs <= D). { intros xs Hx. apply (In_nth _ _ []) in Hx. destruct Hx as [j [Hj <-]]. rewrite <- HS. apply nth_rsum_le; assumption. }
    (* the total *)
    set (tot := sched (map (fun m : flw => sched (map snd m)) packs)).
    assert (At : acc (2 * N + length bins) tot D).
    { rewrite <- HS. unfold tot. replace (2 * N + length bins)%nat with (2 * N + length (map (fun m : flw => sched (map snd m)) packs))%nat by (rewrite map_length; lia).
      apply sched_acc; [exact Hs| |rewrite map_length, HLp; exact HN|rewrite HS; lra].
      assert (G : forall m, In m packs -> (length m <= N)%nat) by exact Lm. clear -H Hs G HXD HN B20 HD. induction H as [|m Xs packs Xss Hm H IH]; cbn [map]; constructor.
      - assert (L : (length m <= N)%nat) by (apply G; left; reflexivity). apply (acc_le (N + length (map snd m))); [rewrite map_length; lia|].
        apply sched_acc; [exact Hs| |rewrite map_length; eapply Rle_trans; [apply le_INR|exact HN]; lia|specialize (HXD Xs (or_introl eq_refl)); lra].
        clear -Hm. induction Hm as [|p X m Xs [Hp _] Hm IH]; cbn [map]; constructor; assumption.
      - apply IH; [intros xs Hx; apply HXD; right; exact Hx|intros m' Hm'; apply G; right; exact Hm']. }
    assert (Pt : flt f0 tot = true).
    { destruct At as [Ft [_ A]]. apply flt_true; [reflexivity|exact Ft|]. rewrite val_f0. unfold approx in A. apply Rabs_le_inv in A. pose proof (gam_30 _ HN). assert (/ 2 ^ 20 <= 1 / 2) by (simpl; lra). assert (gam (2 * N + length bins) * D <= 1 / 2 * D) by (apply Rmult_le_compat_r; lra). lra. }
    (* the empty bins *)
    assert (Ne : exists m, In m packs /\ is_nil m = false).
    { destruct (concat packs) as [|p l] eqn:Ec.
      - exfalso. pose proof (Forall2_concat _ _ _ H) as Hc. rewrite Ec in Hc. assert (Q : concat Xss = []) by (inversion Hc; reflexivity). rewrite <- rsum_concat, Q in HS. simpl in HS. lra.
      - assert (Hp : In p (concat packs)) by (rewrite Ec; left; reflexivity). apply in_concat in Hp. destruct Hp as [m [Hm Hp]]. exists m. split; [exact Hm|]. destruct m; [destruct Hp|reflexivity]. }
    destruct (remove_empty_spec (P := flw) is_nil bins packs s e C HLp Ne) as [out0 [Eo [Ho1 _]]].
    set (g := fun zw : Z * f64 => (fst zw, fdiv (snd zw) tot)).
    set (out := map (fun bp : bin * flw => (fst bp, order (map g (snd bp)))) out0).
    assert (Ef : f_dt_pack sched order bins idx f y dist = Ok out).
    { unfold f_dt_pack. unfold flw in *. rewrite E. cbn [bind]. fold tot. rewrite Pt. cbn [assert_ bind]. rewrite Eo. reflexivity. }
    assert (Pm : Permutation (flat out) (map g (concat packs))).
    { unfold flat, out. rewrite map_map. cbn [snd].
      assert (P1 : Permutation (concat (map (fun bp : bin * flw => order (map g (snd bp))) out0)) (concat (map (map g) (map snd out0)))).
      { clear -Ho. induction out0 as [|[b m] l IH]; cbn [map concat snd]; [constructor|]. apply Permutation_app; [apply Ho|exact IH]. }
      eapply Permutation_trans; [exact P1|]. rewrite Ho1. rewrite <- concat_map. apply Permutation_map.
      match goal with |- Permutation ?a ?b => replace a with b; [apply Permutation_refl|] end.
      clear -HLp. revert bins HLp. induction packs as [|m l IH]; intros [|b bs] HLp; simpl in HLp; try lia; [reflexivity|]. cbn [combine filter snd concat].
      destruct m as [|p m]; cbn [is_nil negb]; [cbn [app]; apply IH; lia|]. cbn [map concat snd]. f_equal. apply IH; lia. }
    pose proof (Forall2_concat _ _ _ H) as Hc. rewrite <- rsum_concat in HS. set (Xs := concat Xss) in *. set (l := concat packs) in *. clearbody Xs l.
    assert (LX : forall X, In X Xs -> X <= D).
    { intros X HX'. rewrite <- HS. apply (In_nth _ _ 0) in HX'. destruct HX' as [j [Hj <-]]. clear -Hc Hj. revert j Hj. induction Hc as [|p X l Xs [[_ [PX _]] _] Hc IH]; intros j Hj; [simpl in Hj; lia|].
      assert (0 <= rsum Xs) by (eapply eacc_sum; exact Hc). destruct j as [|j]; simpl; [lra|]. simpl in Hj. specialize (IH j ltac:(lia)). lra. }
    assert (Per : Forall2 (fun p X => fin (fdiv (snd p) tot) /\ 995 / 1000 * (X / D) - eta0 <= val (fdiv (snd p) tot) <= 1005 / 1000 * (X / D) + eta0 /\ delta <= X /\ X <= D /\ 0 <= val (fdiv (snd p) tot)) l Xs).
    { clear -Hc At DP HN LX. induction Hc as [|p X l Xs [Hp1 Hp2] Hc IH]; constructor.
      - assert (XD : X <= D) by (apply LX; left; reflexivity).
        assert (Hp' : acc (2 * N + length bins) (snd p) X) by (apply (acc_le N); [lia|exact Hp1]).
        destruct (div_acc _ _ _ _ _ HN Hp' At DP XD) as [A1 A2]. tauto.
      - apply IH. intros X' HX'. apply LX. right. exact HX'. }
    pose proof eta0_small as Es. pose proof eta0_pos as Ep.
    assert (Ln : length (flat out) = length l) by (rewrite (Permutation_length Pm); apply map_length).
    assert (PerIn : forall p, In p (flat out) -> exists X, fin (snd p) /\ 995 / 1000 * (X / D) - eta0 <= val (snd p) <= 1005 / 1000 * (X / D) + eta0 /\ delta <= X <= D /\ (delta / D <= X / D <= 1) /\ 0 <= val (snd p)).
    { intros p Hp. apply (Permutation_in p Pm) in Hp. apply in_map_iff in Hp. destruct Hp as [q [<- Hq]]. unfold g. cbn [snd].
      assert (Ex : exists X, fin (fdiv (snd q) tot) /\ 995 / 1000 * (X / D) - eta0 <= val (fdiv (snd q) tot) <= 1005 / 1000 * (X / D) + eta0 /\ delta <= X /\ X <= D /\ 0 <= val (fdiv (snd q) tot)).
      { clear -Per Hq. induction Per as [|p X l Xs Hp Per IH]; [destruct Hq|]. destruct Hq as [<- |Hq]; [exists X; exact Hp|apply IH, Hq]. }
      destruct Ex as [X [F1 [F2 [F3 [F4 F5]]]]]. exists X. split; [exact F1|]. split; [exact F2|]. split; [lra|]. split.
      - split; [apply Rmult_le_compat_r; [left; apply Rinv_0_lt_compat, DP|exact F3]|apply (proj2 (Rdiv_le_iff X 1 D DP)); lra].
      - exact F5. }
    exists out. split; [exact Ef|]. split; [rewrite Ln; exact HL|]. split.
    { intros p Hp. destruct (PerIn p Hp) as [X [F1 [[_ F2] [_ [[_ F3] F4]]]]]. split; [exact F1|]. split; [exact F4|]. assert (/ 2 ^ 100 <= 1 / 10) by (simpl; lra). lra. }
    assert (Tot : total (map snd (flat out)) <= 1005 / 1000 + INR N * eta0).
    { destruct (total_perm _ _ (Permutation_map snd Pm)) as [-> _]. rewrite map_map. unfold g. cbn [snd].
      assert (T1 : total (map (fun p : Z * f64 => fdiv (snd p) tot) l) <= 1005 / 1000 * (rsum Xs / D) + INR (length l) * eta0).
      { clear -Per DP. induction Per as [|p X l Xs [_ [[_ Hp] _]] Per IH]; [unfold total; simpl; lra|]. cbn [map length]. rewrite total_cons, S_INR. simpl rsum. rewrite Rdiv_plus_distr. lra. }
      rewrite HS in T1. replace (D / D) with 1 in T1 by (field; lra). assert (INR (length l) * eta0 <= INR N * eta0) by (apply Rmult_le_compat_r; [lra|apply le_INR, HL]). lra. }
    assert (Nb : INR N * eta0 <= 1 / 1000).
    { apply Rle_trans with (2 ^ 32 * / 2 ^ 100); [apply Rmult_le_compat; [apply pos_INR|lra|exact KN|exact Es]|]. simpl. lra. }
    split; [lra|]. intros Hbig. split; [|lra].
    intros p Hp. destruct (PerIn p Hp) as [X [F1 [[F2 _] [_ [[F3 _] F4]]]]]. 
    assert (Big : eta0 <= 5 / 1000 * (delta / D)).
    { assert (Q : / 2 ^ 900 <= delta / D). { apply (proj2 (Rle_div_iff _ _ _ DP)). apply Rmult_le_reg_l with (2 ^ 900); [apply pow_lt; lra|]. rewrite <- Rmult_assoc, Rinv_r, Rmult_1_l by (apply pow_nonzero; lra). exact Hbig. }
      assert (Q2 : eta0 <= / 2 ^ 900 * / 2 ^ 100). { unfold eta0. rewrite <- Rinv_mult, <- pow_add. change (900 + 100)%nat with 1000%nat. rewrite <- two_pow, <- bpow_opp. apply bpow_le. lia. }
      assert (/ 2 ^ 100 <= 5 / 1000) by (simpl; lra). assert (0 < / 2 ^ 900) by (apply Rinv_0_lt_compat, pow_lt; lra). generalize dependent (/ 2 ^ 900). generalize dependent (/ 2 ^ 100). intros; nra. }
    lra.
  Qed.
End Packed.
