(** Proofs about bins: cutting, finding the bin of a value, packing, removing empty bins. *)
From Verif Require Import Base Spec BinSearch Feature Bins BinsSpec.
Open Scope R_scope.

Lemma F64MAX_big : 10 <= F64MAX.
Proof.
  unfold F64MAX. assert (E : 1 <= 2 ^ 52) by (apply pow_R1_Rle; lra).
  assert (H1 : / 2 ^ 52 <= 1). { rewrite <- Rinv_1. apply Rinv_le_contravar; lra. }
  assert (H2 : 16 <= 2 ^ 1023).
  { replace 16 with (2 ^ 4) by lra. apply Rle_pow; [lra|lia]. }
  nra.
Qed.

Lemma Rabs_le_inv x a : Rabs x <= a -> - a <= x <= a.
Proof. intros H. pose proof (Rle_abs x). pose proof (Rle_abs (- x)). rewrite Rabs_Ropp in *. lra. Qed.

(** ** chains *)
Definition b0 := mkBin 0 0.

Lemma chain_le s e l : chain s e l -> s <= e.
Proof. revert s; induction l as [|b t IH]; intros s H; simpl in H; [lra|]. destruct H as [E [L C]]. apply IH in C. lra. Qed.

Lemma chain_of_nth l : forall s e, l <> [] ->
  (forall k, (k < length l)%nat -> b_start (nth k l b0) < b_end (nth k l b0)) ->
  (forall k, (S k < length l)%nat -> b_end (nth k l b0) = b_start (nth (S k) l b0)) ->
  b_start (nth 0 l b0) = s -> b_end (nth (length l - 1) l b0) = e -> chain s e l.
Proof.
  induction l as [|b t IH]; intros s e Hne Hlt Hc Hs He; [congruence|]. simpl. split; [exact Hs|].
  split; [apply (Hlt 0%nat); simpl; lia|]. destruct t as [|b' t].
  - simpl in *. exact He.
  - apply IH; [discriminate| | | |].
    + intros k Hk. apply (Hlt (S k)). simpl in *; lia.
    + intros k Hk. apply (Hc (S k)). simpl in *; lia.
    + symmetry. apply (Hc 0%nat). simpl; lia.
    + rewrite <- He. simpl length. replace (S (S (length t)) - 1)%nat with (S (S (length t) - 1)) by lia. reflexivity.
Qed.

Lemma chain_nth l : forall s e, chain s e l -> forall k, (k < length l)%nat ->
  s <= b_start (nth k l b0) /\ b_start (nth k l b0) < b_end (nth k l b0) /\ b_end (nth k l b0) <= e.
Proof.
  induction l as [|b t IH]; intros s e H k Hk; simpl in *; [lia|]. destruct H as [E [L C]]. destruct k as [|k].
  - apply chain_le in C. lra.
  - destruct (IH _ _ C k) as [H1 [H2 H3]]; [lia|]. lra.
Qed.

Lemma chain_mono l : forall s e, chain s e l -> forall i j, (i < j < length l)%nat ->
  b_end (nth i l b0) <= b_start (nth j l b0).
Proof.
  induction l as [|b t IH]; intros s e H i j Hij; simpl in *; [lia|]. destruct H as [E [L C]]. destruct j as [|j]; [lia|].
  destruct i as [|i].
  - apply (chain_nth _ _ _ C j). lia.
  - apply (IH _ _ C). lia.
Qed.

Lemma chain_adj l : forall s e, chain s e l -> forall k, (S k < length l)%nat ->
  b_end (nth k l b0) = b_start (nth (S k) l b0).
Proof.
  induction l as [|b t IH]; intros s e H k Hk; simpl in *; [lia|]. destruct H as [E [L C]].
  destruct k as [|k].
  - destruct t as [|b' t]; [simpl in Hk; lia|]. simpl in C. symmetry. tauto.
  - apply (IH _ _ C). lia.
Qed.

Lemma chain_first l s e : chain s e l -> l <> [] -> b_start (nth 0 l b0) = s.
Proof. destruct l; [congruence|]. simpl. tauto. Qed.
Lemma chain_last l : forall s e, chain s e l -> l <> [] -> b_end (nth (length l - 1) l b0) = e.
Proof.
  induction l as [|b t IH]; intros s e H Hne; [congruence|]. simpl in H. destruct H as [_ [_ C]].
  destruct t as [|b' t]; [simpl in *; exact C|]. rewrite <- (IH _ _ C) by discriminate. simpl length.
  replace (S (S (length t)) - 1)%nat with (S (S (length t) - 1)) by lia. reflexivity.
Qed.

Lemma chain_find l : forall s e x, chain s e l -> s <= x < e -> exists k, (k < length l)%nat /\ in_bin (nth k l b0) x.
Proof.
  induction l as [|b t IH]; intros s e x H Hx; simpl in H; [lra|]. destruct H as [E [L C]].
  destruct (Rlt_dec x (b_end b)) as [Hlt|Hge].
  - exists 0%nat. simpl. split; [lia|]. unfold in_bin. lra.
  - destruct (IH _ _ x C) as [k [Hk Hb]]; [lra|]. exists (S k). simpl. split; [lia|exact Hb].
Qed.

Lemma chain_unique l s e x i j : chain s e l -> (i < length l)%nat -> (j < length l)%nat ->
  in_bin (nth i l b0) x -> in_bin (nth j l b0) x -> i = j.
Proof.
  intros C Hi Hj [A1 A2] [B1 B2]. destruct (Nat.lt_trichotomy i j) as [L|[->|L]]; [|reflexivity|].
  - pose proof (chain_mono _ _ _ C i j). assert (b_end (nth i l b0) <= b_start (nth j l b0)) by (apply H; lia). lra.
  - pose proof (chain_mono _ _ _ C j i). assert (b_end (nth j l b0) <= b_start (nth i l b0)) by (apply H; lia). lra.
Qed.

Lemma chain_one_bin l s e x : chain s e l -> s <= x < e -> one_bin l x.
Proof.
  intros C Hx. destruct (chain_find _ _ _ _ C Hx) as [k [Hk Hb]]. exists k. split; [exact Hk|]. split; [exact Hb|].
  intros j Hj Hbj. eapply chain_unique; eauto.
Qed.

Lemma bin_contains_spec b x : bin_contains b x = true <-> in_bin b x.
Proof.
  unfold bin_contains, in_bin. destruct (Rleb_spec (b_start b) x), (Rltb_spec x (b_end b)); simpl; split; intros H; try discriminate; try lra; reflexivity.
Qed.

(** ** binary search finds the bin *)
Lemma find_bin_spec l s e x : chain s e l ->
  match find_bin l x with
  | Ok k => (k < length l)%nat /\ in_bin (nth k l b0) x
  | Panic _ => ~ (s <= x < e)
  end.
Proof.
  intros C. unfold find_bin. fold b0. set (cmp := fun k => cmp_bin (nth k l b0) x).
  assert (Hl : forall k, (k < length l)%nat -> (cmp k = Lt <-> b_end (nth k l b0) <= x) /\ (cmp k = Gt <-> x < b_start (nth k l b0)) /\ (cmp k = Eq <-> in_bin (nth k l b0) x)).
  { intros k Hk. destruct (chain_nth _ _ _ C k Hk) as [_ [L _]]. unfold cmp, cmp_bin, bin_contains, in_bin.
    destruct (Rleb_spec (b_start (nth k l b0)) x), (Rltb_spec x (b_end (nth k l b0))), (Rltb_spec (b_start (nth k l b0)) x), (Rltb_spec x (b_start (nth k l b0))); simpl;
    repeat split; intros; try discriminate; try lra; try reflexivity. }
  assert (Ho : ordered_cmp cmp (length l)).
  { intros i j Hij. pose proof (chain_mono _ _ _ C i j Hij) as M. destruct (Hl i) as [L1 [G1 _]]; [lia|]. destruct (Hl j) as [L2 [G2 _]]; [lia|].
    destruct (chain_nth _ _ _ C i) as [_ [Li _]]; [lia|]. destruct (chain_nth _ _ _ C j) as [_ [Lj _]]; [lia|]. split; intros H.
    - apply L1. apply L2 in H. lra.
    - apply G2. apply G1 in H. lra. }
  pose proof (binary_search_spec cmp (length l) Ho) as B. destruct (binary_search cmp (length l)) as [k|p].
  - destruct B as [Hk Hc]. split; [exact Hk|]. apply Hl; assumption.
  - destruct B as [Hp [H1 H2]]. intros Hx. destruct (chain_find _ _ _ _ C Hx) as [k [Hk Hb]]. destruct (Hl k Hk) as [L [G E]].
    apply E in Hb. destruct (Nat.lt_ge_cases k p) as [Q|Q]; [rewrite H1 in Hb by exact Q|rewrite H2 in Hb by lia]; discriminate.
Qed.

Lemma find_bin_ok l s e x : chain s e l -> s <= x < e -> exists k, find_bin l x = Ok k /\ (k < length l)%nat /\ in_bin (nth k l b0) x.
Proof.
  intros C Hx. pose proof (find_bin_spec l s e x C) as H. destruct (find_bin l x) as [k|p]; [exists k; tauto|contradiction].
Qed.

(** ** cutting *)
Definition even_bins (lo w : R) (j : nat) : list bin := map (fun k => mkBin (lo + INR k * w) (lo + INR (S k) * w)) (seq 0 j).

Lemma cut_loop_ok w mx : / 10 ^ 9 <= w -> forall j fuel left, (j < fuel)%nat -> left = mx - INR j * w ->
  cut_loop fuel mx w left = Ok (even_bins left w j).
Proof.
  intros Hw. assert (W0 : 0 < w) by (assert (0 < / 10 ^ 9) by (apply Rinv_0_lt_compat; lra); lra).
  induction j as [|j IH]; intros fuel left Hf El; destruct fuel as [|fuel]; try lia; cbn [cut_loop].
  - rewrite Rltb_false by (simpl in El; lra). reflexivity.
  - rewrite S_INR in El. pose proof (pos_INR j) as Hj. assert (0 <= INR j * w) by (apply Rmult_le_pos; lra).
    rewrite Rltb_true by lra. cbv zeta. destruct j as [|j].
    + rewrite Rltb_true; [unfold even_bins; simpl|].
      * do 2 f_equal. f_equal; lra.
      * simpl in El. replace (left + w - mx) with 0 by lra. rewrite Rabs_R0. apply Rinv_0_lt_compat; lra.
    + assert (1 * w <= INR (S j) * w). { apply Rmult_le_compat_r; [lra|]. rewrite S_INR. pose proof (pos_INR j). lra. }
      rewrite Rltb_false; [|rewrite Rabs_left1 by lra; lra]. rewrite (IH fuel (left + w)) by (lia || lra). cbn [bind].
      unfold even_bins. change (seq 0 (S (S j))) with (0%nat :: seq 1 (S j)). rewrite <- seq_shift. rewrite map_cons, map_map. f_equal. f_equal.
      * f_equal; simpl; lra.
      * apply map_ext. intros k. rewrite !S_INR. f_equal; lra.
Qed.

Lemma cut_loop_short w mx : 0 < w < / 10 ^ 9 -> forall j fuel left, (S (S j) < fuel)%nat -> left = mx - INR (S (S j)) * w ->
  exists l, cut_loop fuel mx w left = Ok l /\ (length l < S (S j))%nat.
Proof.
  intros [W0 Hw]. induction j as [|j IH]; intros fuel left Hf El; destruct fuel as [|fuel]; try lia; cbn [cut_loop].
  - simpl in El. rewrite Rltb_true by lra. cbv zeta. rewrite Rltb_true; [|rewrite Rabs_left; lra]. eexists. split; [reflexivity|]. simpl; lia.
  - rewrite S_INR in El. assert (0 <= INR (S (S j)) * w) by (apply Rmult_le_pos; [apply pos_INR|lra]).
    rewrite Rltb_true by lra. cbv zeta. destruct (Rltb _ _).
    + eexists. split; [reflexivity|]. simpl; lia.
    + destruct (IH fuel (left + w)) as [l [E L]]; [lia|lra|]. rewrite E. cbn [bind]. eexists. split; [reflexivity|]. simpl; lia.
Qed.

Lemma cut_loop_one w mx left fuel : 0 < w -> (0 < fuel)%nat -> left = mx - w -> cut_loop fuel mx w left = Ok [mkBin left (left + w)].
Proof.
  intros W Hf El. destruct fuel; [lia|]. cbn [cut_loop]. rewrite Rltb_true by lra. cbv zeta.
  rewrite Rltb_true; [reflexivity|]. replace (left + w - mx) with 0 by lra. rewrite Rabs_R0. apply Rinv_0_lt_compat; lra.
Qed.

Definition cut_lo (mn mx : R) : R := if Req_EM_T mn mx then mn - / 1000 else mn.

Lemma cut_range_spec mn mx n : mn <= mx ->
  match cut_range mn mx n with
  | Ok bins => bins = even_bins (cut_lo mn mx) (bin_width mn mx n) n /\ (n = 1%nat \/ ((1 < n)%nat /\ / 10 ^ 9 <= bin_width mn mx n))
  | Panic _ => (n = 0%nat \/ ((1 < n)%nat /\ bin_width mn mx n < / 10 ^ 9))
  end.
Proof.
  intros Hle. unfold cut_range, bin_width, cut_lo. unfold Reqb. 
  set (lo := if Req_EM_T mn mx then mn - / 1000 else mn). set (hi := if Req_EM_T mn mx then mx + / 1000 else mx).
  set (d := if Req_EM_T mn mx then / 500 else mx - mn).
  assert (Hd : d = hi - lo /\ 0 < d).
  { unfold d, hi, lo. destruct (Req_EM_T mn mx); split; lra. }
  assert (Ep : (if if Req_EM_T mn mx then true else false then (mn - / 1000, mx + / 1000) else (mn, mx)) = (lo, hi)).
  { unfold lo, hi. destruct (Req_EM_T mn mx); reflexivity. }
  rewrite Ep. destruct Hd as [Hd D0]. rewrite <- Hd. destruct (Nat.eqb_spec n 0) as [->|Hn]; [left; reflexivity|].
  assert (N0 : 0 < INR n) by (apply INR_pos; lia). set (w := d / INR n). assert (W0 : 0 < w) by (apply Rdiv_lt_0_compat; assumption).
  assert (El : lo = hi - INR n * w). { unfold w. field_simplify; [|lra]. lra. }
  destruct (Nat.eq_dec n 1) as [->|Hn1].
  { rewrite cut_loop_one; [|exact W0|lia|simpl in El; lra]. cbn [bind length Nat.eqb assert_]. split; [|left; reflexivity].
    unfold even_bins. simpl. do 2 f_equal; lra. }
  destruct (Rle_dec (/ 10 ^ 9) w) as [Hw|Hw].
  - rewrite (cut_loop_ok w hi Hw n (S n) lo) by (lia || exact El). cbn [bind].
    assert (Hlen : length (even_bins lo w n) = n) by (unfold even_bins; rewrite map_length, seq_length; reflexivity).
    rewrite Hlen, Nat.eqb_refl. cbn [assert_ bind]. split; [reflexivity|]. right. split; [lia|exact Hw].
  - destruct n as [|[|j]]; try lia. destruct (cut_loop_short w hi (conj W0 (Rnot_le_lt _ _ Hw)) j (S (S (S j))) lo) as [l [E L]]; [lia|exact El|].
    rewrite E. cbn [bind]. destruct (Nat.eqb_spec (length l) (S (S j))) as [|_]; [lia|]. cbn [assert_ bind]. right. split; [lia|lra].
Qed.

(** minimum and maximum *)
Lemma fold_min v : forall a, let m := fold_left Rmin v a in m <= a /\ (forall x, In x v -> m <= x) /\ (m = a \/ In m v).
Proof.
  induction v as [|y v IH]; intros a; simpl; [split; [lra|split; [contradiction|left; reflexivity]]|].
  destruct (IH (Rmin a y)) as [H1 [H2 H3]]. split; [pose proof (Rmin_l a y); lra|]. split.
  - intros x [->|Hx]; [pose proof (Rmin_r a x); lra|apply H2, Hx].
  - destruct H3 as [->|H3]; [|right; right; exact H3]. unfold Rmin. destruct (Rle_dec a y); [left; reflexivity|right; left; reflexivity].
Qed.
Lemma fold_max v : forall a, let m := fold_left Rmax v a in a <= m /\ (forall x, In x v -> x <= m) /\ (m = a \/ In m v).
Proof.
  induction v as [|y v IH]; intros a; simpl; [split; [lra|split; [contradiction|left; reflexivity]]|].
  destruct (IH (Rmax a y)) as [H1 [H2 H3]]. split; [pose proof (Rmax_l a y); lra|]. split.
  - intros x [->|Hx]; [pose proof (Rmax_r a x); lra|apply H2, Hx].
  - destruct H3 as [->|H3]; [|right; right; exact H3]. unfold Rmax. destruct (Rle_dec a y); [right; left; reflexivity|left; reflexivity].
Qed.

(** the range that [cut] computes is the range of the column *)
Definition cut_bounds (f : feature) : R * R :=
  match f with
  | Dense _ v => (vmin v, vmax v)
  | Sparse _ e m =>
      let v := map snd e in
      (if andb (Rltb 0 (vmin v)) (has_zero e m) then 0 else vmin v, if andb (Rltb (vmax v) 0) (has_zero e m) then 0 else vmax v)
  end.

Lemma cut_bounds_spans f mn mx : spans f mn mx -> (forall x, In x (stored f) -> finite_f64 x) -> cut_bounds f = (mn, mx).
Proof.
  assert (FM := F64MAX_big). unfold finite_f64, F64MIN.
  assert (Hmin : forall v m, In m v -> (forall x, In x v -> m <= x <= F64MAX) -> vmin v = m).
  { intros v m Hm Hv. unfold vmin. destruct (fold_min v F64MAX) as [H1 [H2 H3]]. cbv zeta in *. apply Rle_antisym; [apply H2, Hm|].
    destruct H3 as [H3|H3]; [rewrite H3; apply (Hv m Hm)|apply Hv, H3]. }
  assert (Hmax : forall v m, In m v -> (forall x, In x v -> - F64MAX <= x <= m) -> vmax v = m).
  { intros v m Hm Hv. unfold vmax, F64MIN. destruct (fold_max v (- F64MAX)) as [H1 [H2 H3]]. cbv zeta in *. apply Rle_antisym; [|apply H2, Hm].
    destruct H3 as [H3|H3]; [rewrite H3; apply (Hv m Hm)|apply Hv, H3]. }
  destruct f as [nm v|nm e n]; unfold spans, stored, cut_bounds; cbv zeta; intros [A [B C]] F.
  - rewrite (Hmin v mn), (Hmax v mx); auto; intros x Hx; specialize (C x Hx); specialize (F x Hx); lra.
  - unfold has_zero. set (v := map snd e) in *. destruct (Nat.ltb (length e) n).
    + assert (Z : In 0 (v ++ [0])) by (apply in_or_app; right; left; reflexivity). pose proof (C 0 Z) as C0.
      assert (Cv : forall x, In x v -> mn <= x <= mx) by (intros x Hx; apply C, in_or_app; left; exact Hx).
      f_equal.
      * apply in_app_or in A. destruct A as [A|[<-|[]]].
        -- rewrite (Hmin v mn A); [|intros x Hx; specialize (Cv x Hx); specialize (F x Hx); lra]. rewrite Rltb_false by lra. reflexivity.
        -- destruct (Rltb_spec 0 (vmin v)) as [|N]; [reflexivity|]. simpl. unfold vmin in *. destruct (fold_min v F64MAX) as [H1 [H2 H3]]. cbv zeta in *.
           destruct H3 as [H3|H3]; [rewrite H3 in N; lra|]. apply Cv in H3. lra.
      * apply in_app_or in B. destruct B as [B|[<-|[]]].
        -- rewrite (Hmax v mx B); [|intros x Hx; specialize (Cv x Hx); specialize (F x Hx); lra]. rewrite Rltb_false by lra. reflexivity.
        -- destruct (Rltb_spec (vmax v) 0) as [|N]; [reflexivity|]. simpl. unfold vmax, F64MIN in *. destruct (fold_max v (- F64MAX)) as [H1 [H2 H3]]. cbv zeta in *.
           destruct H3 as [H3|H3]; [rewrite H3 in N; lra|]. apply Cv in H3. lra.
    + rewrite app_nil_r in *. rewrite !Bool.andb_false_r. rewrite (Hmin v mn), (Hmax v mx); auto; intros x Hx; specialize (C x Hx); specialize (F x Hx); lra.
Qed.

Lemma set_last_length e l : length (set_last_end e l) = length l.
Proof. induction l as [|b [|b' t] IH]; simpl in *; [reflexivity|reflexivity|]. rewrite IH. reflexivity. Qed.
Lemma set_last_nth e l k : (k < length l)%nat ->
  nth k (set_last_end e l) b0 = if Nat.eqb (S k) (length l) then mkBin (b_start (nth k l b0)) e else nth k l b0.
Proof.
  revert k. induction l as [|b [|b' t] IH]; intros k Hk.
  - simpl in Hk. lia.
  - destruct k; [reflexivity|simpl in Hk; lia].
  - destruct k as [|k]; [reflexivity|]. change (set_last_end e (b :: b' :: t)) with (b :: set_last_end e (b' :: t)).
    change (nth (S k) (b :: set_last_end e (b' :: t)) b0) with (nth k (set_last_end e (b' :: t)) b0). rewrite IH by (simpl in *; lia). reflexivity.
Qed.

Lemma cut_spec f n mn mx : spans f mn mx -> (forall x, In x (stored f) -> moderate x) ->
  match cut f n with
  | Ok bins =>
      length bins = n /\ (n = 1%nat \/ ((1 < n)%nat /\ / 10 ^ 9 <= bin_width mn mx n)) /\
      chain F64MIN F64MAX bins /\
      (forall k, (S k < n)%nat -> b_end (nth k bins b0) = cut_lo mn mx + INR (S k) * bin_width mn mx n)
  | Panic _ => (n = 0%nat \/ ((1 < n)%nat /\ bin_width mn mx n < / 10 ^ 9))
  end.
Proof.
  intros Hs Hm. assert (FM := F64MAX_big).
  assert (Hfin : forall x, In x (stored f) -> finite_f64 x).
  { intros x Hx. specialize (Hm x Hx). unfold moderate in Hm. unfold finite_f64, F64MIN. apply Rabs_le_inv in Hm. lra. }
  pose proof (cut_bounds_spans f mn mx Hs Hfin) as Eb.
  assert (Hmm : mn <= mx /\ - F64MAX + 1 <= mn /\ mx <= F64MAX - 1).
  { destruct Hs as [A [B C]]. pose proof (C _ B). split; [lra|].
    assert (Q : forall x, In x (match f with Dense _ v => v | Sparse _ e n0 => map snd e ++ (if Nat.ltb (length e) n0 then [0] else []) end) -> Rabs x <= F64MAX - 1).
    { intros x Hx. destruct f as [nm v|nm e m]; [apply Hm, Hx|]. apply in_app_or in Hx. destruct Hx as [Hx|Hx]; [apply Hm, Hx|].
      destruct (Nat.ltb _ _); [|contradiction]. destruct Hx as [<-|[]]. rewrite Rabs_R0. lra. }
    apply Q in A. apply Q in B. apply Rabs_le_inv in A. apply Rabs_le_inv in B. lra. }
  assert (Ec : cut f n = bind (cut_range mn mx n) (fun bins => match bins with [] => Panic UnwrapNone | _ => Ok (set_last_end F64MAX (set_first_start F64MIN bins)) end)).
  { unfold cut. destruct f as [nm v|nm e m]; simpl in Eb; inversion Eb; subst; reflexivity. }
  rewrite Ec. pose proof (cut_range_spec mn mx n (proj1 Hmm)) as R. destruct (cut_range mn mx n) as [bins|p]; cbn [bind]; [|exact R].
  destruct R as [-> Hn]. assert (Hl : length (even_bins (cut_lo mn mx) (bin_width mn mx n) n) = n) by (unfold even_bins; rewrite map_length, seq_length; reflexivity).
  set (w := bin_width mn mx n) in *. set (lo := cut_lo mn mx) in *.
  assert (N0 : (0 < n)%nat) by lia.
  assert (W0 : 0 < w).
  { unfold w, bin_width. apply Rdiv_lt_0_compat; [|apply INR_pos; lia]. destruct (Req_EM_T mn mx); lra. }
  assert (Hnw : INR n * w <= mx - mn + / 500).
  { unfold w, bin_width. replace (INR n * ((if Req_EM_T mn mx then / 500 else mx - mn) / INR n)) with (if Req_EM_T mn mx then / 500 else mx - mn) by (field; apply not_0_INR; lia).
    destruct (Req_EM_T mn mx); lra. }
  assert (Hlo : mn - / 1000 <= lo <= mn) by (unfold lo, cut_lo; destruct (Req_EM_T mn mx); lra).
  set (eb := even_bins lo w n) in *.
  assert (Heb : forall k, (k < n)%nat -> nth k eb b0 = mkBin (lo + INR k * w) (lo + INR (S k) * w)).
  { intros k Hk. unfold eb, even_bins. rewrite nth_map_seq by exact Hk. reflexivity. }
  destruct eb as [|e1 et] eqn:Eeb; [simpl in Hl; lia|]. set (fin := set_last_end F64MAX (set_first_start F64MIN (e1 :: et))).
  assert (Hlf : length fin = n) by (unfold fin; rewrite set_last_length; simpl in *; exact Hl).
  assert (Hfn : forall k, (k < n)%nat -> nth k fin b0 = mkBin (if Nat.eqb k 0 then F64MIN else lo + INR k * w) (if Nat.eqb (S k) n then F64MAX else lo + INR (S k) * w)).
  { intros k Hk. unfold fin. rewrite set_last_nth by (simpl in *; lia).
    replace (length (set_first_start F64MIN (e1 :: et))) with n by (simpl in *; lia).
    assert (Q : nth k (set_first_start F64MIN (e1 :: et)) b0 = mkBin (if Nat.eqb k 0 then F64MIN else lo + INR k * w) (lo + INR (S k) * w)).
    { destruct k as [|k].
      - simpl. specialize (Heb 0%nat N0). simpl in Heb. rewrite Heb. reflexivity.
      - change (nth (S k) (set_first_start F64MIN (e1 :: et)) b0) with (nth (S k) (e1 :: et) b0). rewrite Heb by exact Hk. reflexivity. }
    rewrite Q. destruct (Nat.eqb (S k) n); reflexivity. }
  split; [exact Hlf|]. split; [exact Hn|].
  assert (Kw : forall k, (k <= n)%nat -> 0 <= INR k * w <= INR n * w).
  { intros k Hk. apply le_INR in Hk. pose proof (pos_INR k). split; [apply Rmult_le_pos; lra|apply Rmult_le_compat_r; lra]. }
  split.
  - apply chain_of_nth.
    + intros E. rewrite E in Hlf. simpl in Hlf. lia.
    + rewrite Hlf. intros k Hk. rewrite Hfn by exact Hk. cbn [b_start b_end].
      pose proof (Kw (S k) ltac:(lia)) as K1. pose proof (Kw k ltac:(lia)) as K0. rewrite S_INR in *. unfold F64MIN.
      destruct (Nat.eqb_spec k 0) as [Ek|Hk0]; destruct (Nat.eqb_spec (S k) n) as [E|E]; [lra| | |lra].
      * subst k. simpl INR in *. lra.
      * lra.
    + rewrite Hlf. intros k Hk. rewrite !Hfn by lia. cbn [b_start b_end].
      destruct (Nat.eqb_spec (S k) n); [lia|]. destruct (Nat.eqb_spec (S k) 0); [lia|]. reflexivity.
    + rewrite Hfn by lia. reflexivity.
    + rewrite Hlf. rewrite Hfn by lia. cbn [b_end]. destruct (Nat.eqb_spec (S (n - 1)) n); [reflexivity|lia].
  - intros k Hk. rewrite Hfn by lia. cbn [b_end]. destruct (Nat.eqb_spec (S k) n); [lia|reflexivity].
Qed.

(** ** packing *)
Lemma pack_loop_spec {P} (add : nat -> P -> res P) (addf : nat -> P -> P) (d : P) bins f (x : nat -> R) s e :
  chain s e bins -> forall idx packs,
  (forall i, In i idx -> feat_index f i = Ok (x i) /\ s <= x i < e /\ forall p, add i p = Ok (addf i p)) ->
  length packs = length bins ->
  exists packs', pack_loop add d bins f idx packs = Ok packs' /\ length packs' = length bins /\
    forall k, (k < length bins)%nat ->
      nth k packs' d = fold_left (fun p i => addf i p) (filter (fun i => bin_contains (nth k bins b0) (x i)) idx) (nth k packs d).
Proof.
  intros C. induction idx as [|i idx IH]; intros packs Hi Hl; cbn [pack_loop].
  - exists packs. split; [reflexivity|]. split; [exact Hl|]. intros; reflexivity.
  - destruct (Hi i (or_introl eq_refl)) as [Ex [Hx Ha]]. rewrite Ex. cbn [bind].
    destruct (find_bin_ok _ _ _ _ C Hx) as [k [Ek [Hk Hb]]]. rewrite Ek. cbn [bind]. rewrite Ha. cbn [bind].
    destruct (IH (upd k (addf i (nth k packs d)) packs)) as [packs' [E [L N]]].
    { intros j Hj. apply Hi. right. exact Hj. }
    { rewrite upd_length. exact Hl. }
    exists packs'. split; [exact E|]. split; [exact L|]. intros j Hj. rewrite N by exact Hj. cbn [filter].
    destruct (bin_contains (nth j bins b0) (x i)) eqn:Ec.
    + apply bin_contains_spec in Ec. assert (k = j) by (eapply chain_unique; eauto). subst j.
      rewrite upd_nth_same by lia. reflexivity.
    + rewrite upd_nth_other; [reflexivity|]. intros ->. apply bin_contains_spec in Hb. congruence.
Qed.

(** ** removing empty bins *)
Definition sub_bin (a b : bin) : Prop := b_start b <= b_start a /\ b_end a <= b_end b.

(** ordered, with gaps *)
Fixpoint gapped (s : R) (l : list bin) : Prop :=
  match l with
  | [] => True
  | b :: t => s <= b_start b /\ b_start b < b_end b /\ gapped (b_end b) t
  end.
Lemma gapped_weaken l s s' : s' <= s -> gapped s l -> gapped s' l.
Proof. destruct l; simpl; [trivial|]. intros H [A B]. split; [lra|exact B]. Qed.
Lemma chain_gapped l : forall s e, chain s e l -> gapped s l.
Proof. induction l as [|b t IH]; intros s e H; simpl in *; [trivial|]. destruct H as [E [L C]]. split; [lra|]. split; [exact L|]. eapply IH, C. Qed.
Lemma gapped_filter {P} (q : bin * P -> bool) (l : list (bin * P)) : forall s, gapped s (map fst l) -> gapped s (map fst (filter q l)).
Proof.
  induction l as [|b t IH]; intros s H; simpl in *; [trivial|]. destruct H as [E [L G]]. destruct (q b); simpl.
  - split; [exact E|]. split; [exact L|]. apply IH, G.
  - apply IH. eapply gapped_weaken; [|exact G]. lra.
Qed.

Lemma merge_loop_spec {P} (rest : list (bin * P)) : forall pb pp,
  b_start pb < b_end pb -> gapped (b_end pb) (map fst rest) ->
  let out := merge_loop pb pp rest in
  map snd out = pp :: map snd rest /\
  chain (b_start pb) (b_end (last (map fst rest) pb)) (map fst out) /\
  Forall2 (fun a b => sub_bin (fst a) (fst b)) ((pb, pp) :: rest) out.
Proof.
  induction rest as [|[nb np] rest IH]; intros pb pp Hp G; cbn [merge_loop]; cbv zeta.
  - simpl. repeat split; try lra. constructor; [|constructor]. unfold sub_bin. simpl. lra.
  - simpl in G. destruct G as [G1 [G2 G3]]. set (e := (b_end pb + b_start nb) / 2).
    assert (He : b_end pb <= e <= b_start nb) by (unfold e; lra).
    destruct (IH (mkBin e (b_end nb)) np) as [H1 [H2 H3]]; [simpl; lra|exact G3|]. cbv zeta in *.
    split; [cbn [map snd]; rewrite H1; reflexivity|]. split.
    + cbn [map fst chain b_start b_end]. split; [reflexivity|]. split; [lra|]. 
      replace (last (nb :: map fst rest) pb) with (last (map fst rest) nb).
      * cbn [b_start] in H2. replace (b_end (last (map fst rest) nb)) with (b_end (last (map fst rest) (mkBin e (b_end nb)))); [exact H2|].
        destruct rest as [|r rest]; [reflexivity|]. f_equal. cbn [map]. clear. generalize (fst r). induction (map fst rest) as [|a l IH]; intros b; [reflexivity|]. simpl. apply IH.
      * destruct rest as [|r rest]; [reflexivity|]. cbn [map last]. clear. generalize (fst r). induction (map fst rest) as [|a l IH]; intros b; [reflexivity|]. simpl. apply IH.
    + constructor; [unfold sub_bin; simpl; lra|]. inversion H3 as [|? ? ? ? Q1 Q2 Q3]; subst. constructor; [|exact Q2].
      unfold sub_bin in *. simpl in *. lra.
Qed.

Lemma remove_empty_spec {P} (empty : P -> bool) bins packs s e :
  chain s e bins -> length packs = length bins -> (exists p, In p packs /\ empty p = false) ->
  let kept := filter (fun bp => negb (empty (snd bp))) (combine bins packs) in
  exists out, remove_empty empty bins packs = Ok out /\
    map snd out = map snd kept /\
    chain s (b_end (last (map fst kept) b0)) (map fst out) /\
    Forall2 (fun a b => sub_bin (fst a) (fst b)) kept out.
Proof.
  intros C Hl Hne. cbv zeta. unfold remove_empty. destruct bins as [|b bins]; destruct packs as [|p packs]; try (simpl in Hl; lia).
  { destruct Hne as [p [[] _]]. }
  cbn [combine filter snd]. simpl in C. destruct C as [Es [L C]]. simpl in Hl.
  assert (G : gapped (b_end b) (map fst (combine bins packs))).
  { assert (E : map fst (combine bins packs) = bins).
    { clear -Hl. assert (H : length packs = length bins) by lia. clear Hl. revert packs H. induction bins as [|a l IH]; intros [|p packs] H; simpl in *; try lia; [reflexivity|]. rewrite IH by lia. reflexivity. }
    rewrite E. eapply chain_gapped, C. }
  apply (gapped_filter (fun bp => negb (empty (snd bp)))) in G. set (rest := filter _ (combine bins packs)) in *.
  destruct (empty p) eqn:Ep; cbn [negb].
  - destruct rest as [|[nb np] rest'] eqn:Er.
    { exfalso. destruct Hne as [q [[<-|Hq] Eq]]; [congruence|]. apply (In_nth _ _ p) in Hq. destruct Hq as [k [Hk Eqk]].
      assert (Hin : In (nth k (combine bins packs) (b, p)) rest).
      { unfold rest. apply filter_In. split; [apply nth_In; rewrite combine_length; lia|]. rewrite combine_nth by lia. simpl. rewrite Eqk, Eq. reflexivity. }
      rewrite Er in Hin. destruct Hin. }
    simpl in G. destruct G as [G1 [G2 G3]].
    destruct (merge_loop_spec rest' (mkBin (b_start b) (b_end nb)) np) as [H1 [H2 H3]]; [simpl; lra|exact G3|]. cbv zeta in *.
    eexists. split; [reflexivity|]. split; [exact H1|]. split.
    + cbn [b_start] in H2. rewrite Es in H2. cbn [map fst].
      replace (b_end (last (nb :: map fst rest') b0)) with (b_end (last (map fst rest') (mkBin (b_start b) (b_end nb)))); [rewrite Es; exact H2|].
      destruct rest' as [|r rest']; [reflexivity|]. f_equal. cbn [map last]. clear. generalize (fst r). induction (map fst rest') as [|a l IH]; intros c; [reflexivity|]. simpl. apply IH.
    + inversion H3 as [|? ? ? ? Q1 Q2 Q3]; subst. constructor; [|exact Q2]. unfold sub_bin in *. simpl in *. lra.
  - destruct (merge_loop_spec rest b p) as [H1 [H2 H3]]; [lra|exact G|]. cbv zeta in *. eexists. split; [reflexivity|]. split; [exact H1|]. split; [|exact H3].
    rewrite Es in H2. cbn [map fst]. replace (last (b :: map fst rest) b0) with (last (map fst rest) b); [exact H2|].
    destruct rest as [|r rest']; [reflexivity|]. cbn [map last]. clear. generalize (fst r). induction (map fst rest') as [|a l IH]; intros c; [reflexivity|]. simpl. apply IH.
Qed.

Lemma Forall2_length' {A B} (R : A -> B -> Prop) l l' : Forall2 R l l' -> length l = length l'.
Proof. induction 1; simpl; congruence. Qed.
Lemma Forall2_nth' {A B} (R : A -> B -> Prop) l l' da db : Forall2 R l l' -> forall k, (k < length l)%nat -> R (nth k l da) (nth k l' db).
Proof. induction 1; intros [|k] Hk; simpl in *; try lia; [assumption|]. apply IHForall2. lia. Qed.

(** a boundary of the original bins has a counterpart among the merged ones *)
Lemma separate {P Q} (kept : list (bin * P)) : forall (out : list (bin * Q)) g s e theta,
  Forall2 (fun a b => sub_bin (fst a) (fst b)) kept out ->
  gapped g (map fst kept) -> chain s e (map fst out) ->
  (forall b, In b (map fst kept) -> b_end b <= theta \/ theta <= b_start b) ->
  exists theta', In theta' (s :: map (fun o => b_end (fst o)) out) /\
    forall k db, (k < length kept)%nat ->
      (b_end (fst (nth k kept (b0, db))) <= theta -> forall do_, b_end (fst (nth k out (b0, do_))) <= theta') /\
      (theta <= b_start (fst (nth k kept (b0, db))) -> forall do_, theta' <= b_start (fst (nth k out (b0, do_)))).
Proof.
  intros out g s e theta F. revert g s e. induction F as [|[b p] [o q] kept out S F IH]; intros g s e G C D.
  - exists s. split; [left; reflexivity|]. intros k db Hk. simpl in Hk. lia.
  - simpl in G, C. destruct G as [G1 [G2 G3]]. destruct C as [C1 [C2 C3]]. unfold sub_bin in S. simpl in S.
    destruct (D b) as [Db|Db]; [left; reflexivity| |].
    + destruct (IH (b_end b) (b_end o) e) as [t' [Ht H]].
      { exact G3. }
      { exact C3. }
      { intros b' Hb'. apply D. right. exact Hb'. }
      exists t'. split.
      { right. simpl. destruct Ht as [<-|Ht]; [left; reflexivity|right; exact Ht]. }
      assert (Hge : b_end o <= t').
      { destruct Ht as [<-|Ht]; [lra|]. apply in_map_iff in Ht. destruct Ht as [[o2 q2] [<- Hin]]. apply (In_nth _ _ (b0, q)) in Hin. destruct Hin as [j [Hj Ej]].
        pose proof (chain_nth _ _ _ C3 j) as Q0. rewrite map_length in Q0. specialize (Q0 Hj). rewrite (nth_map_in fst out j (b0, q) b0) in Q0 by exact Hj.
        rewrite Ej in Q0. simpl in *. lra. }
      intros [|k] db Hk; simpl.
      * split; intros; [exact Hge|lra].
      * simpl in Hk. apply H. lia.
    + exists s. split; [left; reflexivity|].
      assert (Later : forall k db do_, (k < length kept)%nat -> theta <= b_start (fst (nth k kept (b0, db))) /\ b_start (fst (nth k kept (b0, db))) < b_end (fst (nth k kept (b0, db))) /\ s <= b_start (fst (nth k out (b0, do_)))).
      { intros k db do_ Hk. split; [|split].
        - revert G3. revert Hk. clear -G2 Db. assert (theta <= b_end b) by lra. revert H. generalize (b_end b). clear. revert k.
          induction kept as [|[c pc] kept IH]; intros k r Hr Hk G; simpl in *; [lia|]. destruct G as [A [B G]]. destruct k as [|k]; simpl; [lra|]. apply (IH k (b_end c)); [lra|lia|exact G].
        - revert G3. revert Hk. clear. generalize (b_end b). revert k.
          induction kept as [|[c pc] kept IH]; intros k r Hk G; simpl in *; [lia|]. destruct G as [A [B G]]. destruct k as [|k]; simpl; [lra|]. apply (IH k (b_end c)); [lia|exact G].
        - rewrite (Forall2_length' _ _ _ F) in Hk. pose proof (chain_nth _ _ _ C3 k) as Q0. rewrite map_length in Q0. specialize (Q0 Hk).
          rewrite (nth_map_in fst out k (b0, do_) b0) in Q0 by exact Hk. lra. }
      intros [|k] db Hk; simpl.
      * split; intros; lra.
      * simpl in Hk. split.
        -- intros Hle do_. destruct (Later k db do_) as [A [B _]]; [lia|]. lra.
        -- intros _ do_. destruct (Later k db do_) as [_ [_ A]]; [lia|]. exact A.
Qed.

Lemma filter_ext_in' {A} (f g : A -> bool) l : (forall a, In a l -> f a = g a) -> filter f l = filter g l.
Proof. induction l as [|a l IH]; simpl; intros H; [reflexivity|]. rewrite (H a) by (left; reflexivity). rewrite IH; [reflexivity|]. intros b Hb. apply H. right. exact Hb. Qed.

Lemma in_combine_nth {A B} (l : list A) (l' : list B) a b da db : In (a, b) (combine l l') ->
  exists k, (k < length l)%nat /\ (k < length l')%nat /\ a = nth k l da /\ b = nth k l' db.
Proof.
  revert l'. induction l as [|x l IH]; intros [|y l'] H; simpl in H; try contradiction. destruct H as [E|H].
  - inversion E; subst. exists 0%nat. simpl. repeat split; lia.
  - destruct (IH l' H) as [k [H1 [H2 [H3 H4]]]]. exists (S k). simpl. repeat split; try lia; assumption.
Qed.

(** ** the whole of [pack], for any kind of content *)
Lemma packed {P} (addf : nat -> P -> P) (d0 : P) (empty : P -> bool) bins packs (x : nat -> R) idx s e :
  let foldf := fun I => fold_left (fun p i => addf i p) I d0 in
  chain s e bins -> idx <> [] -> (forall i, In i idx -> s <= x i < e) ->
  length packs = length bins ->
  (forall k, (k < length bins)%nat -> nth k packs d0 = foldf (filter (fun i => bin_contains (nth k bins b0) (x i)) idx)) ->
  (forall I, incl I idx -> empty (foldf I) = match I with [] => true | _ => false end) ->
  exists out e', remove_empty empty bins packs = Ok out /\ s < e' <= e /\
    chain s e' (map fst out) /\
    (forall i, In i idx -> s <= x i < e') /\
    (forall b p, In (b, p) out -> p = foldf (filter (fun i => bin_contains b (x i)) idx) /\ exists i, In i idx /\ in_bin b (x i)) /\
    (forall b, In b bins -> exists t, In t (s :: map (fun o => b_end (fst o)) out) /\ forall i, In i idx -> (x i < b_end b <-> x i < t)) /\
    (forall b p, In (b, p) out -> exists b', In b' bins /\ forall i, In i idx -> (x i < b_end b <-> x i < b_end b')).
Proof.
  intros foldf C Hne Hx Hlp Hpk Hem.
  set (I := fun k => filter (fun i => bin_contains (nth k bins b0) (x i)) idx).
  assert (HI : forall k, incl (I k) idx) by (intros k i Hi; apply filter_In in Hi; tauto).
  assert (Hex : exists p, In p packs /\ empty p = false).
  { destruct idx as [|i idx']; [congruence|]. destruct (chain_find _ _ _ _ C (Hx i (or_introl eq_refl))) as [k [Hk Hb]].
    exists (nth k packs d0). split; [apply nth_In; lia|]. rewrite Hpk by exact Hk. fold (I k). rewrite Hem by apply HI.
    assert (In i (I k)) by (apply filter_In; split; [left; reflexivity|apply bin_contains_spec, Hb]). destruct (I k); [contradiction|reflexivity]. }
  destruct (remove_empty_spec empty bins packs s e C Hlp Hex) as [out [Eo [Hs [Hc HF]]]].
  set (kept := filter (fun bp => negb (empty (snd bp))) (combine bins packs)) in *.
  (* what is kept *)
  assert (Kin : forall b p, In (b, p) kept -> exists k, (k < length bins)%nat /\ b = nth k bins b0 /\ p = foldf (I k) /\ I k <> []).
  { intros b p H. apply filter_In in H. destruct H as [H E]. destruct (in_combine_nth _ _ _ _ b0 d0 H) as [k [H1 [H2 [H3 H4]]]].
    exists k. split; [exact H1|]. split; [exact H3|]. rewrite Hpk in H4 by exact H1. fold (I k) in H4. split; [exact H4|].
    simpl in E. rewrite H4, Hem in E by apply HI. destruct (I k); [discriminate|]. discriminate. }
  assert (Kall : forall i, In i idx -> exists j, (j < length kept)%nat /\ in_bin (fst (nth j kept (b0, d0))) (x i)).
  { intros i Hi. destruct (chain_find _ _ _ _ C (Hx i Hi)) as [k [Hk Hb]].
    assert (Hin : In (nth k (combine bins packs) (b0, d0)) kept).
    { apply filter_In. split; [apply nth_In; rewrite combine_length; lia|]. rewrite combine_nth by lia. simpl. rewrite Hpk by exact Hk. fold (I k). rewrite Hem by apply HI.
      assert (Hik : In i (I k)) by (apply filter_In; split; [exact Hi|apply bin_contains_spec, Hb]). destruct (I k); [contradiction|reflexivity]. }
    apply (In_nth _ _ (b0, d0)) in Hin. destruct Hin as [j [Hj Ej]]. exists j. split; [exact Hj|]. rewrite Ej, combine_nth by lia. exact Hb. }
  pose proof (Forall2_length' _ _ _ HF) as Hlen.
  assert (Hsub : forall j y, (j < length kept)%nat -> in_bin (fst (nth j kept (b0, d0))) y -> in_bin (fst (nth j out (b0, d0))) y).
  { intros j y Hj [A B]. pose proof (Forall2_nth' _ _ _ (b0, d0) (b0, d0) HF j Hj) as [S1 S2]. split; lra. }
  assert (Onth : forall j, (j < length out)%nat -> nth j (map fst out) b0 = fst (nth j out (b0, d0))) by (intros j Hj; apply nth_map_in; exact Hj).
  assert (Huniq : forall j i, (j < length out)%nat -> In i idx -> in_bin (fst (nth j out (b0, d0))) (x i) -> in_bin (fst (nth j kept (b0, d0))) (x i)).
  { intros j i Hj Hi Hb. destruct (Kall i Hi) as [j' [Hj' Hb']]. pose proof (Hsub _ _ Hj' Hb') as Ho.
    assert (j = j'); [|subst; exact Hb']. rewrite <- !Onth in * by lia. eapply (chain_unique (map fst out)); eauto; rewrite map_length; lia. }
  assert (Hsnd : forall j, (j < length out)%nat -> snd (nth j out (b0, d0)) = snd (nth j kept (b0, d0))).
  { intros j Hj. rewrite <- !(map_nth snd). rewrite Hs. reflexivity. }
  set (e' := b_end (last (map fst kept) b0)) in *. exists out, e'. split; [exact Eo|].
  assert (Hko : (0 < length kept)%nat).
  { destruct idx as [|i ?]; [congruence|]. destruct (Kall i (or_introl eq_refl)) as [j [Hj _]]. lia. }
  assert (Hlast : exists b p, In (b, p) kept /\ e' = b_end b).
  { unfold e'. assert (In (last (map fst kept) b0) (map fst kept)).
    { destruct (map fst kept) as [|a l] eqn:E; [apply (f_equal (@length bin)) in E; rewrite map_length in E; simpl in E; lia|].
      clear. revert a. induction l as [|b l IH]; intros a; [left; reflexivity|]. right. apply IH. }
    apply in_map_iff in H. destruct H as [[b p] [E H]]. exists b, p. split; [exact H|]. simpl in E. rewrite <- E. reflexivity. }
  assert (Hkb : forall b p, In (b, p) kept -> In b bins).
  { intros b p H. destruct (Kin _ _ H) as [k [Hk [-> _]]]. apply nth_In, Hk. }
  split.
  { destruct Hlast as [b [p [H ->]]]. destruct (Kin _ _ H) as [k [Hk [-> _]]]. pose proof (chain_nth _ _ _ C k Hk). lra. }
  split; [exact Hc|]. split.
  { intros i Hi. destruct (Kall i Hi) as [j [Hj Hb]]. apply (Hsub j) in Hb; [|exact Hj]. rewrite <- Onth in Hb by lia.
    pose proof (chain_nth _ _ _ Hc j) as Q. rewrite map_length in Q. specialize (Q ltac:(lia)). destruct Hb. lra. }
  assert (G : gapped s (map fst kept)).
  { unfold kept. apply gapped_filter. assert (E : map fst (combine bins packs) = bins).
    { clear -Hlp. revert packs Hlp. induction bins as [|a l IH]; intros [|p packs] H; simpl in *; try lia; [reflexivity|]. rewrite IH by lia. reflexivity. }
    rewrite E. eapply chain_gapped, C. }
  split; [|split].
  - intros b p H. apply (In_nth _ _ (b0, d0)) in H. destruct H as [j [Hj Ej]]. assert (Hjk : (j < length kept)%nat) by lia.
    destruct (nth j kept (b0, d0)) as [kb kp] eqn:Ek. assert (Hin : In (kb, kp) kept) by (rewrite <- Ek; apply nth_In; lia).
    destruct (Kin _ _ Hin) as [k [Hk [Ekb [Ekp Hnil]]]].
    assert (Eq : forall i, In i idx -> bin_contains b (x i) = bin_contains kb (x i)).
    { intros i Hi. specialize (Huniq j i Hj Hi). specialize (Hsub j (x i) Hjk). rewrite Ej in *. rewrite Ek in *. simpl in *. destruct (bin_contains b (x i)) eqn:E1.
      - apply bin_contains_spec in E1. symmetry. apply bin_contains_spec. apply Huniq, E1.
      - destruct (bin_contains kb (x i)) eqn:E2; [|reflexivity]. apply bin_contains_spec in E2. apply Hsub, bin_contains_spec in E2. congruence. }
    split.
    + pose proof (Hsnd j Hj) as E. rewrite Ej, Ek in E. simpl in E. rewrite E, Ekp. f_equal. unfold I. apply filter_ext_in'. intros i Hi. rewrite Eq by exact Hi. rewrite Ekb. reflexivity.
    + destruct (I k) as [|i Ik] eqn:EI; [congruence|]. assert (Hi : In i (I k)) by (rewrite EI; left; reflexivity). apply filter_In in Hi. destruct Hi as [Hi Hb].
      exists i. split; [exact Hi|]. apply bin_contains_spec. rewrite Eq by exact Hi. rewrite Ekb. exact Hb.
  - intros b Hb. apply (In_nth _ _ b0) in Hb. destruct Hb as [k [Hk Ekb]].
    assert (Dich : forall c, In c bins -> b_end c <= b_end b \/ b_end b <= b_start c).
    { intros c Hcin. apply (In_nth _ _ b0) in Hcin. destruct Hcin as [k' [Hk' Ekc]]. subst b c.
      destruct (Nat.lt_trichotomy k k') as [L|[->|L]].
      - right. apply (chain_mono _ _ _ C). lia.
      - left. lra.
      - left. pose proof (chain_mono _ _ _ C k' k ltac:(lia)). pose proof (chain_nth _ _ _ C k Hk). lra. }
    assert (Dich2 : forall c, In c (map fst kept) -> b_end c <= b_end b \/ b_end b <= b_start c).
    { intros c Hcin. apply in_map_iff in Hcin. destruct Hcin as [[c' p] [E Hin]]. simpl in E. subst c'. apply Dich. eapply Hkb, Hin. }
    destruct (separate kept out s s e' (b_end b) HF G Hc Dich2) as [t [Ht Hsep]]. exists t. split; [exact Ht|].
    intros i Hi. destruct (Kall i Hi) as [j [Hj Hb]]. pose proof (Hsub j _ Hj Hb) as Ho. destruct (Hsep j d0 Hj) as [S1 S2].
    assert (Hcin : In (fst (nth j kept (b0, d0))) (map fst kept)) by (apply in_map, nth_In, Hj).
    destruct Hb as [B1 B2]. destruct Ho as [O1 O2]. destruct (Dich2 _ Hcin) as [Q|Q].
    + specialize (S1 Q d0). lra.
    + specialize (S2 Q d0). lra.
  - intros b p H. apply (In_nth _ _ (b0, d0)) in H. destruct H as [j [Hj Ej]]. assert (Hjk : (j < length kept)%nat) by lia.
    exists (fst (nth j kept (b0, d0))). split.
    { destruct (nth j kept (b0, d0)) as [kb kp] eqn:Ek. simpl. apply (Hkb kb kp). rewrite <- Ek. apply nth_In, Hjk. }
    intros i Hi. destruct (Kall i Hi) as [j' [Hj' Hb']]. pose proof (Hsub j' _ Hj' Hb') as Ho.
    assert (Cm := chain_mono _ _ _ Hc). rewrite map_length in Cm.
    assert (Gm : forall a c, (a < c < length kept)%nat -> b_end (fst (nth a kept (b0, d0))) <= b_start (fst (nth c kept (b0, d0)))).
    { intros a c Hac. revert G. revert Hac. clear. revert s a c. induction kept as [|[q pq] kept IH]; intros s a c Hac G; simpl in *; [lia|]. destruct G as [A [B G]].
      destruct c as [|c]; [lia|]. destruct a as [|a]; simpl.
      - clear -G Hac. revert G. generalize (b_end q). revert c Hac. induction kept as [|[r pr] kept IH]; intros c Hac z G; simpl in *; [lia|]. destruct G as [A [B G]]. destruct c as [|c]; simpl; [exact A|].
        assert (b_end r <= b_start (fst (nth c kept (b0, d0)))) by (apply IH; [lia|exact G]). lra.
      - apply (IH (b_end q)); [lia|exact G]. }
    destruct Hb' as [B1 B2]. destruct Ho as [O1 O2]. replace b with (fst (nth j out (b0, d0))) by (rewrite Ej; reflexivity).
    destruct (Nat.lt_trichotomy j j') as [L|[->|L]].
    + pose proof (Cm j j' ltac:(lia)) as Q. rewrite !Onth in Q by lia. pose proof (Gm j j' ltac:(lia)). lra.
    + split; intros; assumption.
    + pose proof (Cm j' j ltac:(lia)) as Q. rewrite !Onth in Q by lia. pose proof (Gm j' j ltac:(lia)).
      pose proof (chain_nth _ _ _ Hc j) as Q2. rewrite map_length, Onth in Q2 by lia. specialize (Q2 Hj).
      assert (Hkin : In (nth j kept (b0, d0)) kept) by (apply nth_In, Hjk). destruct (nth j kept (b0, d0)) as [kb kp] eqn:Ek. destruct (Kin _ _ Hkin) as [k [Hk [Ekb _]]].
      pose proof (chain_nth _ _ _ C k Hk) as Q3. rewrite <- Ekb in Q3. simpl in *. lra.
Qed.
