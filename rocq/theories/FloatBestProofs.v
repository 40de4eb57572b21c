(** The edge criterion in binary64: how far the computed edges are from the exact ones. *)
From Coq Require Import ZArith List Bool Reals Lia Lra Psatz Permutation String.
From Flocq Require Import Core.Core IEEE754.BinarySingleNaN Relative Plus_error Mult_error.
From Verif Require Import Base Feature FeatureFacts Bins BinsSpec BinsProofs DTree TreeSpec DTreeProofs DTreeSplit DTreeBest Float FloatSpec FloatProofs FloatFacts FloatCheckFacts FloatEdgeFacts FloatTree FloatTreeSpec FloatTreeProofs FloatPackProofs FloatGrowProofs.
Import ListNotations.
Open Scope R_scope.

Notation ftotal := FloatSpec.total.
Notation rtotal := TreeSpec.total.

Lemma sched_err sched l : summing sched -> finite_all l -> few (length l) -> size l < 2 ^ 1023 -> fin (sched l) /\ Rabs (val (sched l) - ftotal l) <= gam (length l) * size l.
Proof.
  intros Hs F W B. destruct (Hs l) as [t [Pt Et]]. rewrite Et. destruct (total_perm _ _ Pt) as [E1 E2].
  assert (L : length (ftree_items t) = length l) by (apply Permutation_length, Pt).
  destruct (ftree_spec t) as [G A].
  - intros x Hx. apply F. apply (Permutation_in x Pt Hx).
  - rewrite E2, L. apply room; [lia|exact W|exact B].
  - split; [exact G|]. rewrite E1, E2, L in A. apply (approx_le (length l - 1) (length l)) in A; [exact A|lia|apply size_nonneg].
Qed.

Lemma gam_ge n : INR n * uu <= gam n.
Proof. unfold gam. pose proof uu_pos. pose proof (poly n uu uu_pos). lra. Qed.

(** ** the maps *)
Definition rel (k : nat) (m : list (Z * f64)) (r : list (Z * R)) : Prop := Forall2 (fun p q => fst p = fst q /\ acc k (snd p) (snd q)) m r.
Lemma rel_le k k' m r : (k <= k')%nat -> rel k m r -> rel k' m r.
Proof. intros L H. induction H as [|a X l Xs [A B] H IH]; constructor; [|exact IH]. split; [exact A|apply (acc_le k); assumption]. Qed.
Lemma rel_nonneg k m r : rel k m r -> 0 <= rsum (map snd r).
Proof. intros H. induction H as [|a X l Xs [_ [_ [P _]]] H IH]; cbn [map rsum]; lra. Qed.

Lemma rel_add k z (w : f64) : fin w -> 0 <= val w -> INR (S k) <= 2 ^ 32 -> forall m r, rel k m r -> rsum (map snd r) + val w < 2 ^ 1020 -> rel (S k) (f_lw_add m z w) (lw_add r z (val w)).
Proof.
  intros Fw Pw Hk m r H. induction H as [|[a v] [a' X] m r [A B] H IH]; intros Hb; cbn [f_lw_add lw_add].
  - constructor; [|constructor]. split; [reflexivity|]. cbn [snd]. cbn [map rsum] in Hb.
    assert (A0 : acc k f0 0) by (apply (acc_le 0); [lia|]; pose proof (acc_self f0 eq_refl) as Q; rewrite val_f0 in Q; apply Q; lra).
    apply add_one; auto.
  - cbn [fst snd] in A, B. subst a'. cbn [map snd rsum] in Hb. pose proof (rel_nonneg k m r H) as Q. assert (PX : 0 <= X) by apply B.
    destruct (Z.eqb a z).
    + constructor; [|apply (rel_le k); [lia|exact H]]. split; [reflexivity|]. cbn [snd]. apply add_one; auto. lra.
    + constructor; [|apply IH; lra]. split; [reflexivity|]. apply (acc_le k); [lia|exact B].
Qed.

Section Histo.
  Variables (lab : nat -> Z) (d : nat -> f64).
  Definition ffold (I : list nat) : flw := fold_left (fun m i => f_lw_add m (lab i) (d i)) I [].
  Lemma fold_rel I : forall k m r, (forall i, In i I -> fin (d i) /\ 0 <= val (d i)) -> INR (k + length I) <= 2 ^ 32 -> rel k m r -> rsum (map snd r) + rsum (map (fun i => val (d i)) I) < 2 ^ 1020 ->
    rel (k + length I) (fold_left (fun m i => f_lw_add m (lab i) (d i)) I m) (fold_left (fun m i => lw_add m (lab i) (val (d i))) I r).
  Proof.
    induction I as [|i I IH]; intros k m r Hi Hk H Hb; cbn [fold_left].
    - rewrite Nat.add_0_r. exact H.
    - cbn [length map rsum] in *. destruct (Hi i (or_introl eq_refl)) as [Fw Pw].
      assert (T0 : 0 <= rsum (map (fun i => val (d i)) I)) by (apply rsum_nonneg; intros v Hv; apply in_map_iff in Hv; destruct Hv as [j [<- Hj]]; apply (Hi j (or_intror Hj))).
      rewrite <- Nat.add_succ_comm. apply IH; [intros j Hj; apply Hi; right; exact Hj|rewrite Nat.add_succ_comm; exact Hk| |].
      + apply rel_add; auto; [|lra]. eapply Rle_trans; [apply le_INR|exact Hk]. lia.
      + assert (E : rsum (map snd (lw_add r (lab i) (val (d i)))) = rsum (map snd r) + val (d i)).
        { clear. induction r as [|[a X] r IH]; cbn [lw_add map snd rsum]; [lra|]. destruct (Z.eqb a (lab i)); cbn [map snd rsum]; lra. }
        rewrite E. lra.
  Qed.
  Lemma histo_rel I : (forall i, In i I -> fin (d i) /\ 0 <= val (d i)) -> INR (length I) <= 2 ^ 32 -> rsum (map (fun i => val (d i)) I) < 2 ^ 1020 -> rel (length I) (ffold I) (histo lab (fun i => val (d i)) I).
  Proof. intros H1 H2 H3. apply (fold_rel I 0 [] []); [exact H1|exact H2|constructor|]. cbn [map rsum]. lra. Qed.
End Histo.

(** ** dividing by the total *)
Definition near (c : R) (p : Z * f64) (q : Z * R) : Prop := fst p = fst q /\ fin (snd p) /\ 0 <= snd q /\ Rabs (val (snd p) - snd q) <= c * snd q + eta0.

Lemma ratio_near g a b e : 0 <= g <= / 2 ^ 20 -> Rabs a <= g -> Rabs b <= g -> Rabs e <= g -> Rabs ((1 + a) / (1 + b) * (1 + e) - 1) <= 4 * g.
Proof.
  intros Hg Ha Hb He. assert (S : / 2 ^ 20 <= 1 / 100) by (simpl; lra). apply Rabs_le_inv in Ha, Hb, He.
  assert (B : 0 < 1 + b) by lra. replace ((1 + a) / (1 + b) * (1 + e) - 1) with ((a + e + a * e - b) / (1 + b)) by (field; lra).
  unfold Rdiv. rewrite Rabs_mult, Rabs_inv, (Rabs_pos_eq (1 + b)) by lra. apply (proj2 (Rdiv_le_iff _ _ _ B)). 
  assert (Rabs (a + e + a * e - b) <= 3 * g + g * g) by (apply Rabs_le; nra). nra.
Qed.

Lemma div_near k v t X D : (1 <= k)%nat -> INR k <= 2 ^ 32 -> acc k v X -> acc k t D -> 0 < D -> X <= D -> fin (fdiv v t) /\ Rabs (val (fdiv v t) - X / D) <= 4 * gam k * (X / D) + eta0.
Proof.
  intros K1 Hk Av' At' PD XD. destruct (div_acc k v t X D Hk Av' At' PD XD) as [Fd _]. split; [exact Fd|].
  destruct Av' as [Fv [PX Av]]. destruct At' as [Ft [_ At]]. pose proof (gam_30 k Hk) as G. pose proof (gam_nonneg k) as G0. unfold approx in *.
  assert (U : uu <= gam k). { eapply Rle_trans; [|apply gam_ge]. pose proof uu_pos. assert (1 <= INR k) by (change 1 with (INR 1); apply le_INR, K1). nra. }
  assert (Da : exists a, Rabs a <= gam k /\ val v = X * (1 + a)).
  { destruct (Req_dec X 0) as [-> |N].
    - exists 0. split; [rewrite Rabs_R0; exact G0|]. rewrite Rmult_0_r in Av. pose proof (Rabs_pos (val v - 0)). rewrite Rminus_0_r in *. destruct (Req_dec (val v) 0) as [Q|Q]; [lra|]. apply Rabs_pos_lt in Q. lra.
    - exists ((val v - X) / X). split; [|field; exact N]. unfold Rdiv. rewrite Rabs_mult, Rabs_inv, (Rabs_pos_eq X) by exact PX. apply Rmult_le_reg_r with X; [lra|]. rewrite Rmult_assoc, Rinv_l, Rmult_1_r by exact N. exact Av. }
  assert (Db : exists b, Rabs b <= gam k /\ val t = D * (1 + b)).
  { exists ((val t - D) / D). split; [|field; lra]. unfold Rdiv. rewrite Rabs_mult, Rabs_inv, (Rabs_pos_eq D) by lra. apply Rmult_le_reg_r with D; [lra|]. rewrite Rmult_assoc, Rinv_l, Rmult_1_r by lra. exact At. }
  destruct Da as [a [Ha Ea]]. destruct Db as [b [Hb Eb]].
  assert (S : / 2 ^ 20 <= 1 / 100) by (simpl; lra).
  assert (B1 : 0 < 1 + b) by (apply Rabs_le_inv in Hb; lra).
  assert (Q : 0 <= X / D <= 1) by (split; [apply Rmult_le_pos; [exact PX|left; apply Rinv_0_lt_compat, PD]|apply (proj2 (Rdiv_le_iff X 1 D PD)); lra]).
  assert (Er : val v / val t = X / D * ((1 + a) / (1 + b))) by (rewrite Ea, Eb; field; lra).
  assert (R0 : Rabs ((1 + a) / (1 + b) * (1 + 0) - 1) <= 4 * gam k) by (apply ratio_near; auto; rewrite Rabs_R0; exact G0). rewrite Rplus_0_r, Rmult_1_r in R0. apply Rabs_le_inv in R0.
  destruct (fdiv_spec v t Fv) as [_ Vd].
  { rewrite Eb. nra. }
  { rewrite Er. pose proof big1023. rewrite Rabs_pos_eq by (apply Rmult_le_pos; lra). assert (X / D * ((1 + a) / (1 + b)) <= 1 * 2) by (apply Rmult_le_compat; lra). assert (8 <= 2 ^ 1023) by (replace 8 with (2 ^ 3) by (simpl; lra); apply Rle_pow; [lra|lia]). generalize dependent (2 ^ 1023). intros; lra. }
  rewrite Vd, Er. destruct (err_mult (X / D * ((1 + a) / (1 + b)))) as [e [h [He [Hh E]]]]. rewrite E. change (bpow radix2 (-1075)) with eta0 in Hh.
  assert (He' : Rabs e <= gam k) by lra. pose proof (ratio_near (gam k) a b e ltac:(lra) Ha Hb He') as RB.
  replace (X / D * ((1 + a) / (1 + b)) * (1 + e) + h - X / D) with (X / D * ((1 + a) / (1 + b) * (1 + e) - 1) + h) by ring.
  eapply Rle_trans; [apply Rabs_triang|]. rewrite Rabs_mult, (Rabs_pos_eq (X / D)) by lra. assert (X / D * Rabs ((1 + a) / (1 + b) * (1 + e) - 1) <= X / D * (4 * gam k)) by (apply Rmult_le_compat_l; lra). lra.
Qed.

(** ** the edge of one bin *)
Lemma mul_label z v : z = 1%Z \/ z = (-1)%Z -> fin v -> Rabs (val v) < 2 ^ 1023 -> fin (fmul (f_of_Z z) v) /\ val (fmul (f_of_Z z) v) = IZR z * val v.
Proof.
  intros Hz Fv Bv.
  assert (Fz : fin (f_of_Z z) /\ val (f_of_Z z) = IZR z).
  { destruct Hz as [-> | ->]; [|exact fm1_spec]. destruct (normalize_exact 1 0) as [F V]; [reflexivity|lia|]. split; [exact F|]. unfold f_of_Z. rewrite V. simpl. lra. }
  destruct Fz as [Fz Vz]. rewrite <- Vz. apply fmul_exact; auto; rewrite Vz.
  - destruct Hz as [-> | ->]; [rewrite Rmult_1_l; apply format_val|]. replace (-1 * val v) with (- val v) by ring. apply generic_format_opp, format_val.
  - rewrite Rabs_mult. destruct Hz as [-> | ->]; [rewrite Rabs_R1|rewrite (Rabs_left (-1)) by lra]; lra.
Qed.

Lemma near_sums c m r (h : Z * f64 -> f64) : Forall2 (near c) m r -> 0 <= c <= 1 -> (forall p, In p m -> fin (h p) /\ exists z : Z, (z = 1%Z \/ z = (-1)%Z) /\ fst p = z /\ val (h p) = IZR z * val (snd p)) ->
  Rabs (ftotal (map h m) - rsum (map (fun q => IZR (fst q) * snd q) r)) <= c * rsum (map snd r) + INR (length m) * eta0 /\
  size (map h m) <= (1 + c) * rsum (map snd r) + INR (length m) * eta0.
Proof.
  intros H Hc Hh. pose proof eta0_pos as E0. induction H as [|p q m r [Hk [Fp [Pq A]]] H IH]; [unfold ftotal, size; simpl; rewrite Rminus_0_r, Rabs_R0; lra|].
  destruct (Hh p (or_introl eq_refl)) as [Fh [z [Hz [Ez Vz]]]]. destruct IH as [I1 I2]; [intros p' Hp'; apply Hh; right; exact Hp'|].
  cbn [map length rsum]. rewrite total_cons, S_INR. unfold size in *. cbn [map rsum]. rewrite Vz, <- Hk, Ez.
  assert (Az : Rabs (IZR z) = 1) by (destruct Hz as [-> | ->]; [apply Rabs_R1|rewrite (Rabs_left (-1)); lra]). split.
  - replace (IZR z * val (snd p) + ftotal (map h m) - (IZR z * snd q + rsum (map (fun q => IZR (fst q) * snd q) r))) with (IZR z * (val (snd p) - snd q) + (ftotal (map h m) - rsum (map (fun q => IZR (fst q) * snd q) r))) by ring.
    eapply Rle_trans; [apply Rabs_triang|]. rewrite Rabs_mult, Az, Rmult_1_l. lra.
  - rewrite Rabs_mult, Az, Rmult_1_l. assert (Rabs (val (snd p)) <= (1 + c) * snd q + eta0).
    { replace (val (snd p)) with (snd q + (val (snd p) - snd q)) by ring. eapply Rle_trans; [apply Rabs_triang|]. rewrite (Rabs_pos_eq (snd q)) by exact Pq. lra. }
    lra.
Qed.

Lemma bin_edge sched order g m r N : summing sched -> some_order order -> Forall2 (near (4 * g)) m r -> (forall p, In p m -> fst p = 1%Z \/ fst p = (-1)%Z) -> lw_total r <= 1 ->
  (length m <= N)%nat -> INR N <= 2 ^ 32 -> gam N <= g <= / 2 ^ 20 ->
  fin (f_pack_edge sched (order m)) /\ Rabs (val (f_pack_edge sched (order m)) - pack_edge r) <= 6 * g * lw_total r + 2 * (INR N * eta0).
Proof.
  intros Hs Ho H Hk HT Ln HN Hg. unfold f_pack_edge. set (h := fun zw : Z * f64 => fmul (f_of_Z (fst zw)) (snd zw)).
  pose proof eta0_pos as E0. pose proof eta0_small as Es. pose proof (gam_nonneg N) as GN. assert (S : / 2 ^ 20 <= 1 / 100) by (simpl; lra).
  assert (T0 : 0 <= lw_total r). { unfold lw_total. clear -H. induction H as [|p q m r [_ [_ [P _]]] H IH]; cbn [map rsum]; lra. }
  assert (Hq : forall p, In p m -> fin (snd p) /\ Rabs (val (snd p)) < 2 ^ 1023).
  { assert (Hr : forall q, In q r -> 0 <= snd q <= lw_total r).
    { clear -H. unfold lw_total. induction H as [|p q m r [_ [_ [P _]]] H IH]; intros q' Hq; [destruct Hq|]. cbn [map rsum].
      assert (Q : 0 <= rsum (map snd r)) by (apply rsum_nonneg; intros v Hv; apply in_map_iff in Hv; destruct Hv as [q1 [<- Hq1]]; apply IH, Hq1). destruct Hq as [<- |Hq]; [lra|]. specialize (IH q' Hq). lra. }
    assert (B8 : 8 <= 2 ^ 1023) by (replace 8 with (2 ^ 3) by (simpl; lra); apply Rle_pow; [lra|lia]).
    assert (E1 : eta0 <= 1) by (eapply Rle_trans; [exact Es|]; simpl; lra). clear Ln Hk Es HN.
    intros p Hp. induction H as [|p' q m r [Hkk [Fp [Pq A]]] H IH]; [destruct Hp|]. destruct Hp as [<- |Hp].
    - split; [exact Fp|]. specialize (Hr q (or_introl eq_refl)). assert (4 * g * snd q <= 4 * (1 / 100) * 1) by (apply Rmult_le_compat; lra). assert (Rabs (val (snd p')) <= snd q + 2). { replace (val (snd p')) with (snd q + (val (snd p') - snd q)) by ring. eapply Rle_trans; [apply Rabs_triang|]. rewrite (Rabs_pos_eq (snd q)) by lra. lra. }
      generalize dependent (2 ^ 1023). intros; lra.
    - assert (Tr : lw_total r <= lw_total (q :: r)) by (unfold lw_total; cbn [map rsum]; lra). assert (T0' : 0 <= lw_total r). { unfold lw_total. clear -H. induction H as [|p q m r [_ [_ [P _]]] H IH]; cbn [map rsum]; lra. }
      apply IH; [lra|exact T0'| |exact Hp]. clear -H. unfold lw_total. induction H as [|p q m r [_ [_ [P _]]] H IH]; intros q' Hq; [destruct Hq|]. cbn [map rsum].
      assert (Q : 0 <= rsum (map snd r)) by (apply rsum_nonneg; intros v Hv; apply in_map_iff in Hv; destruct Hv as [q1 [<- Hq1]]; apply IH, Hq1). destruct Hq as [<- |Hq]; [lra|]. specialize (IH q' Hq). lra. }
  destruct (near_sums (4 * g) m r h H ltac:(lra)) as [S1 S2].
  { intros p Hp. destruct (Hq p Hp) as [Q1 Q2]. destruct (mul_label (fst p) (snd p) (Hk p Hp) Q1 Q2) as [F V]. split; [exact F|]. exists (fst p). split; [apply Hk, Hp|]. split; [reflexivity|exact V]. }
  pose proof (Permutation_map h (Ho m)) as Pm. destruct (total_perm _ _ Pm) as [E1 E2].
  assert (Lm : length (map h (order m)) = length m) by (rewrite map_length; apply Permutation_length, Ho).
  assert (LN : INR (length m) * eta0 <= INR N * eta0) by (apply Rmult_le_compat_r; [lra|apply le_INR, Ln]).
  assert (Nb : INR N * eta0 <= 1 / 1000). { apply Rle_trans with (2 ^ 32 * / 2 ^ 100); [apply Rmult_le_compat; [apply pos_INR|lra|exact HN|exact Es]|]. simpl. lra. }
  unfold lw_total, pack_edge in *. set (T := rsum (map snd r)) in *.
  assert (Sz : size (map h m) <= (1 + 4 * g) * T + INR N * eta0) by lra.
  assert (Sz2 : size (map h m) <= 3). { assert ((1 + 4 * g) * T <= 2 * 1) by (apply Rmult_le_compat; lra). lra. }
  destruct (sched_err sched (map h (order m)) Hs) as [F A].
  - intros x Hx. apply (Permutation_in x Pm) in Hx. apply in_map_iff in Hx. destruct Hx as [p [<- Hp]]. destruct (Hq p Hp) as [Q1 Q2]. apply (mul_label (fst p) (snd p) (Hk p Hp) Q1 Q2).
  - rewrite Lm. unfold few. eapply Rle_trans; [apply le_INR, Ln|]. eapply Rle_trans; [exact HN|]. apply Rle_pow; [lra|lia].
  - rewrite E2. assert (B8 : 8 <= 2 ^ 1023) by (replace 8 with (2 ^ 3) by (simpl; lra); apply Rle_pow; [lra|lia]). generalize dependent (2 ^ 1023). intros; lra.
  - split; [exact F|]. rewrite E1, E2, Lm in A.
    match goal with |- Rabs (?a - ?b) <= _ => replace (a - b) with ((a - ftotal (map h m)) + (ftotal (map h m) - b)) by ring end.
    eapply Rle_trans; [apply Rabs_triang|]. pose proof (gam_le _ _ Ln) as G1. pose proof (gam_nonneg (length m)) as G2.
    assert (gam (length m) * size (map h m) <= g * ((1 + 4 * g) * T + INR N * eta0)) by (apply Rmult_le_compat; [lra|apply size_nonneg|lra|exact Sz]).
    assert (g * ((1 + 4 * g) * T) <= 2 * g * T) by (assert (0 <= g * T) by (apply Rmult_le_pos; lra); assert (g * (g * T) <= 1 / 100 * (g * T)) by (apply Rmult_le_compat_r; lra); replace (g * ((1 + 4 * g) * T)) with (g * T + 4 * (g * (g * T))) by ring; lra). assert (0 <= INR N * eta0) by (apply Rmult_le_pos; [apply pos_INR|lra]). assert (g * (INR N * eta0) <= 1 * (INR N * eta0)) by (apply Rmult_le_compat_r; lra). lra.
Qed.

(** ** the loop over the bins *)
Lemma fabs_spec x : fin x -> fin (fabs x) /\ val (fabs x) = Rabs (val x).
Proof. intros F. unfold fabs. split; [apply fin_abs, F|apply B2R_Babs]. Qed.
Lemma flt_or x y : fin x -> fin y -> (flt x y = true /\ val x < val y) \/ (flt x y = false /\ val y <= val x).
Proof.
  intros Fx Fy. pose proof (flt_true x y Fx Fy) as Q. destruct (flt x y); [left; split; [reflexivity|apply Q; reflexivity]|]. right. split; [reflexivity|].
  destruct (Rlt_dec (val x) (val y)) as [L|L]; [apply Q in L; discriminate|]. apply Rnot_lt_le. exact L.
Qed.

(** a bin in binary64 and the same bin with exact weights, a: how far the edges may be apart *)
Definition bin_near (sched : list f64 -> f64) (g tau : R) (p : bin * flw) (q : bin * lw) : Prop :=
  fst p = fst q /\ fin (f_pack_edge sched (snd p)) /\ Rabs (val (f_pack_edge sched (snd p)) - pack_edge (snd q)) <= 6 * g * lw_total (snd q) + tau /\ Rabs (pack_edge (snd q)) <= lw_total (snd q).
Definition TT (rpack : list (bin * lw)) : R := rsum (map (fun q => lw_total (snd q)) rpack).

Lemma edge_loop_near sched g tau : 0 <= g -> 0 <= tau -> forall pack rpack, Forall2 (bin_near sched g tau) pack rpack -> forall edge er best thr eps E,
  fin edge -> Rabs (val edge - er) <= eps -> Rabs er + 2 * TT rpack <= 3 -> eps + 2 * (6 * g * TT rpack + INR (length rpack) * tau) + 4 * uu * INR (length rpack) <= E -> E <= 1 -> fin best ->
  let r := f_edge_loop sched pack edge best thr in
  fin (snd r) /\ val best <= val (snd r) /\
  (forall k, (k < length rpack)%nat -> Rabs (er - 2 * PE (firstn (S k) rpack)) <= val (snd r) + E) /\
  ((fst r = thr /\ snd r = best) \/ exists k, (k < length rpack)%nat /\ fst r = b_end (fst (nth k rpack (b0, []))) /\ val (snd r) <= Rabs (er - 2 * PE (firstn (S k) rpack)) + E).
Proof.
  intros G0 T0 pack rpack H. pose proof uu_pos as U0. pose proof uu_small as U1.
  induction H as [|[b m] [b' mr] pack rpack [Eb [Fe [Ae Be]]] H IH]; intros edge er best thr eps E Fd Ad HT HE HE1 Fb; cbn [f_edge_loop]; cbv zeta.
  - cbn [fst snd length]. split; [exact Fb|]. split; [lra|]. split; [intros k Hk; lia|]. left. split; reflexivity.
  - cbn [fst snd] in *. subst b'. set (pe := f_pack_edge sched m) in *. 
    assert (TTc : TT ((b, mr) :: rpack) = lw_total mr + TT rpack) by reflexivity. rewrite TTc in *. cbn [length] in *. rewrite S_INR in HE.
    assert (TT0 : 0 <= TT rpack). { clear -H. unfold TT. induction H as [|p q pack rpack [_ [_ [_ B]]] H IH]; cbn [map rsum]; [lra|]. pose proof (Rabs_pos (pack_edge (snd q))). lra. }
    pose proof (Rabs_pos (pack_edge mr)) as PM. pose proof (Rabs_pos er) as PR. pose proof (Rabs_pos (val edge - er)) as PE0. pose proof (pos_INR (length rpack)) as Ln.
    assert (N1 : 0 <= 6 * g * TT rpack) by (apply Rmult_le_pos; lra). assert (N2 : 0 <= INR (length rpack) * tau) by (apply Rmult_le_pos; lra). assert (N3 : 0 <= 4 * uu * INR (length rpack)) by (apply Rmult_le_pos; lra). assert (N4 : 0 <= 6 * g * lw_total mr) by (apply Rmult_le_pos; lra).
    set (a := 6 * g * lw_total mr + tau) in *.
    assert (HE' : eps + 2 * a + 4 * uu + 2 * (6 * g * TT rpack + INR (length rpack) * tau) + 4 * uu * INR (length rpack) <= E) by (unfold a; lra). 
    assert (A1 : eps + 2 * a <= 1) by lra.
    assert (A0 : 0 <= a) by (unfold a; lra).
    (* twice the edge of the bin *)
    assert (Pe : Rabs (val pe) <= lw_total mr + a). { replace (val pe) with (pack_edge mr + (val pe - pack_edge mr)) by ring. eapply Rle_trans; [apply Rabs_triang|]. lra. }
    assert (B8 : 64 <= 2 ^ 1023) by (replace 64 with (2 ^ 6) by (simpl; lra); apply Rle_pow; [lra|lia]).
    destruct f2_spec as [F2 V2].
    assert (M2 : fin (fmul f2 pe) /\ val (fmul f2 pe) = 2 * val pe).
    { rewrite <- V2. apply fmul_exact; auto; rewrite V2.
      - replace (2 * val pe) with (val pe * bpow radix2 1) by (simpl; lra). apply mult_bpow_pos_exact_FLT; [apply format_val|lia].
      - rewrite Rabs_mult, (Rabs_pos_eq 2) by lra. generalize dependent (2 ^ 1023). intros; lra. }
    destruct M2 as [FM VM]. set (tw := fmul f2 pe) in *.
    assert (D0 : Rabs (val edge - val tw - (er - 2 * pack_edge mr)) <= eps + 2 * a).
    { rewrite VM. replace (val edge - 2 * val pe - (er - 2 * pack_edge mr)) with ((val edge - er) + (-2) * (val pe - pack_edge mr)) by ring. eapply Rle_trans; [apply Rabs_triang|]. rewrite Rabs_mult, (Rabs_left (-2)) by lra. lra. }
    assert (R1 : Rabs (er - 2 * pack_edge mr) <= Rabs er + 2 * lw_total mr). { replace (er - 2 * pack_edge mr) with (er + (-2) * pack_edge mr) by ring. eapply Rle_trans; [apply Rabs_triang|]. rewrite Rabs_mult, (Rabs_left (-2)) by lra. lra. }
    assert (D1 : Rabs (val edge - val tw) <= 4). { replace (val edge - val tw) with ((er - 2 * pack_edge mr) + (val edge - val tw - (er - 2 * pack_edge mr))) by ring. eapply Rle_trans; [apply Rabs_triang|]. lra. }
    destruct (fsub_spec edge tw Fd FM) as [FS [e [He ES]]].
    { rewrite big_1024. apply Rle_lt_trans with (4 * 2); [apply Rmult_le_compat; [apply Rabs_pos|lra|exact D1|lra]|]. generalize dependent (2 ^ 1023). intros; lra. }
    set (edge' := fsub edge tw) in *.
    assert (Ad' : Rabs (val edge' - (er - 2 * pack_edge mr)) <= eps + 2 * a + 4 * uu).
    { rewrite ES. replace ((val edge - val tw) * (1 + e) - (er - 2 * pack_edge mr)) with ((val edge - val tw - (er - 2 * pack_edge mr)) + (val edge - val tw) * e) by ring.
      eapply Rle_trans; [apply Rabs_triang|]. rewrite Rabs_mult. assert (Rabs (val edge - val tw) * Rabs e <= 4 * uu) by (apply Rmult_le_compat; auto using Rabs_pos). lra. }
    destruct (fabs_spec edge' FS) as [FA VA].
    assert (E0 : PE (firstn 1 ((b, mr) :: rpack)) = pack_edge mr) by (unfold PE; simpl; lra).
    assert (Es : forall k, er - 2 * pack_edge mr - 2 * PE (firstn (S k) rpack) = er - 2 * PE (firstn (S (S k)) ((b, mr) :: rpack))).
    { intros k. change (firstn (S (S k)) ((b, mr) :: rpack)) with ((b, mr) :: firstn (S k) rpack). unfold PE. cbn [map rsum snd]. lra. }
    assert (Cl : Rabs (Rabs (val edge') - Rabs (er - 2 * pack_edge mr)) <= E). { eapply Rle_trans; [apply Rabs_triang_inv2|]. eapply Rle_trans; [exact Ad'|]. lra. }
    apply Rabs_le_inv in Cl.
    assert (HT' : Rabs (er - 2 * pack_edge mr) + 2 * TT rpack <= 3) by lra.
    destruct (flt_or best (fabs edge') Fb FA) as [[-> L]|[-> L]]; rewrite VA in L.
    + specialize (IH edge' (er - 2 * pack_edge mr) (fabs edge') (b_end b) (eps + 2 * a + 4 * uu) E FS Ad' HT' HE' HE1 FA). cbv zeta in IH.
      destruct IH as [I1 [I2 [I3 I4]]]. split; [exact I1|]. rewrite VA in I2. split; [lra|]. split.
      * intros [|k] Hk; [rewrite E0; lra|]. rewrite <- Es. apply I3. lia.
      * right. destruct I4 as [[-> ->]|[k [Hk [-> Q]]]].
        -- exists 0%nat. split; [lia|]. split; [reflexivity|]. rewrite E0, VA. lra.
        -- exists (S k). split; [lia|]. split; [reflexivity|]. rewrite <- Es. exact Q.
    + specialize (IH edge' (er - 2 * pack_edge mr) best thr (eps + 2 * a + 4 * uu) E FS Ad' HT' HE' HE1 Fb). cbv zeta in IH.
      destruct IH as [I1 [I2 [I3 I4]]]. split; [exact I1|]. split; [exact I2|]. split.
      * intros [|k] Hk; [rewrite E0; lra|]. rewrite <- Es. apply I3. lia.
      * destruct I4 as [C|[k [Hk [-> Q]]]]; [left; exact C|]. right.
        exists (S k). split; [lia|]. split; [reflexivity|]. rewrite <- Es. exact Q.
Qed.
