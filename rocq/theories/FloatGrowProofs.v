(** Growing a tree on binary64 weights: no comparison meets a NaN and no unwrap a None. *)
From Coq Require Import ZArith List Bool Reals Lia Lra Psatz Permutation String.
From Flocq Require Import Core.Core IEEE754.BinarySingleNaN Relative Plus_error.
From Verif Require Import Base Feature FeatureFacts Sample SampleFacts Bins BinsSpec BinsProofs BinsFacts DTree DTreeGrow TreeShape Float FloatSpec FloatProofs FloatFacts FloatCheckFacts FloatMedianFacts FloatTree FloatTreeSpec FloatTreeProofs FloatPackProofs FloatTwoingProofs.
Import ListNotations.
Open Scope R_scope.
Local Notation total := FloatSpec.total.

(** ** numbers *)
Lemma fin_num x : fin x -> is_nan x = false. Proof. destruct x; intros H; try discriminate H; reflexivity. Qed.

Lemma rnd_bpow k : (-1000 <= k <= 1000)%Z -> rnd (bpow radix2 k) = bpow radix2 k.
Proof. intros H. apply round_generic; [typeclasses eauto|]. apply generic_format_bpow. unfold SpecFloat.fexp, SpecFloat.emin. lia. Qed.

Lemma f_of_Z_spec z : (Z.abs z <= 2 ^ 63)%Z -> fin (f_of_Z z) /\ Rabs (val (f_of_Z z)) <= 2 ^ 63.
Proof.
  intros H. pose proof (binary_normalize_correct 53 1024 eq_refl eq_refl mode_NE z 0 false) as C. cbv zeta in C.
  assert (E : F2R (Float radix2 z 0) = IZR z) by (unfold F2R; simpl; ring). rewrite E in C.
  assert (B : Rabs (rnd (IZR z)) <= bpow radix2 63).
  { apply abs_round_le_generic; try typeclasses eauto.
    - apply generic_format_bpow. unfold SpecFloat.fexp, SpecFloat.emin. lia.
    - rewrite <- abs_IZR. change (bpow radix2 63) with (IZR (2 ^ 63)). apply IZR_le, H. }
  rewrite Rlt_bool_true in C.
  - destruct C as [C1 [C2 _]]. split; [exact C2|]. unfold f_of_Z. rewrite C1. eapply Rle_trans; [exact B|]. change 63%Z with (Z.of_nat 63). rewrite two_pow. apply Rle_refl.
  - eapply Rle_lt_trans; [exact B|]. apply bpow_lt. lia.
Qed.
Lemma f2_spec : fin f2 /\ val f2 = 2.
Proof. destruct (normalize_exact 2 0) as [F V]; [reflexivity|lia|]. split; [exact F|]. unfold f2, f_of_Z. rewrite V. simpl. lra. Qed.
Lemma fm1_spec : fin (f_of_Z (-1)) /\ val (f_of_Z (-1)) = -1.
Proof. destruct (normalize_exact (-1) 0) as [F V]; [reflexivity|lia|]. split; [exact F|]. unfold f_of_Z. rewrite V. simpl. lra. Qed.

Lemma big_pow n : (n <= 1020)%nat -> 2 ^ n <= 2 ^ 1020. Proof. intros H. apply Rle_pow; [lra|exact H]. Qed.
Lemma p1023 : 2 ^ 1023 = 8 * 2 ^ 1020.
Proof. assert (P2 : 2 ^ (3 + 1020) = 2 ^ 3 * 2 ^ 1020) by apply pow_add. change (3 + 1020)%nat with 1023%nat in P2. rewrite P2. simpl (2 ^ 3). lra. Qed.

(** products and differences of numbers of moderate size *)
Lemma fmul_mod x y a b : fin x -> fin y -> Rabs (val x) <= 2 ^ a -> Rabs (val y) <= 2 ^ b -> (a + b <= 900)%nat -> fin (fmul x y) /\ Rabs (val (fmul x y)) <= 2 ^ S (a + b).
Proof.
  intros Fx Fy Hx Hy Hab. assert (B : Rabs (val x * val y) <= 2 ^ (a + b)) by (rewrite Rabs_mult, pow_add; apply Rmult_le_compat; auto using Rabs_pos).
  destruct (fmul_spec x y Fx Fy) as [F E].
  { pose proof (big_pow (a + b) ltac:(lia)). pose proof (pow_lt 2 1020 ltac:(lra)). rewrite p1023. eapply Rle_lt_trans; [exact B|]. generalize dependent (2 ^ 1020). intros; lra. }
  split; [exact F|]. pose proof eta0_small as Es. pose proof uu_small as Us. pose proof uu_pos as Up. pose proof (Rabs_pos (val x * val y)) as Pa. assert (O : 1 <= 2 ^ (a + b)) by (apply pow_R1_Rle; lra).
  assert (Q : uu * Rabs (val x * val y) <= / 4 * Rabs (val x * val y)) by (apply Rmult_le_compat_r; lra).
  assert (/ 2 ^ 100 <= / 4) by (apply Rinv_le_contravar; [lra|]; change 4 with (2 * 2); replace (2 * 2) with (2 ^ 2) by (simpl; ring); apply Rle_pow; [lra|lia]).
  replace (val (fmul x y)) with ((val (fmul x y) - val x * val y) + val x * val y) by ring. eapply Rle_trans; [apply Rabs_triang|]. change (2 ^ S (a + b)) with (2 * 2 ^ (a + b)).
  generalize dependent (2 ^ (a + b)). generalize dependent (/ 2 ^ 100). intros. lra.
Qed.
Lemma fsub_mod x y a : fin x -> fin y -> Rabs (val x) <= 2 ^ a -> Rabs (val y) <= 2 ^ a -> (a <= 900)%nat -> fin (fsub x y) /\ Rabs (val (fsub x y)) <= 2 ^ S (S a).
Proof.
  intros Fx Fy Hx Hy Ha. pose proof uu_small. pose proof uu_pos. assert (B : Rabs (val x - val y) <= 2 * 2 ^ a) by (unfold Rminus; eapply Rle_trans; [apply Rabs_triang|]; rewrite Rabs_Ropp; lra).
  destruct (fsub_spec x y Fx Fy) as [F [e [He E]]].
  { rewrite big_1024, p1023. pose proof (big_pow a ltac:(lia)). pose proof (Rabs_pos (val x - val y)). apply Rle_lt_trans with (2 * 2 ^ a * 2); [apply Rmult_le_compat; lra|]. pose proof (pow_lt 2 a ltac:(lra)). generalize dependent (2 ^ 1020). intros; lra. }
  split; [exact F|]. rewrite E, Rabs_mult. assert (Q : Rabs (1 + e) <= 2) by (eapply Rle_trans; [apply Rabs_triang|]; rewrite Rabs_R1; lra). 
  apply Rle_trans with (2 * 2 ^ a * 2); [apply Rmult_le_compat; auto using Rabs_pos|]. simpl. lra.
Qed.

Lemma size_bound l c : (forall x, In x l -> Rabs (val x) <= c) -> size l <= INR (length l) * c.
Proof.
  induction l as [|a l IH]; intros H; [unfold size; simpl; lra|]. cbn [length]. rewrite S_INR. change (size (a :: l)) with (Rabs (val a) + size l).
  assert (Rabs (val a) <= c) by (apply H; left; reflexivity). assert (size l <= INR (length l) * c) by (apply IH; intros; apply H; right; assumption). lra.
Qed.
Lemma sched_mod sched l a : summing sched -> (forall x, In x l -> fin x /\ Rabs (val x) <= 2 ^ a) -> INR (length l) <= 2 ^ 32 -> (a <= 500)%nat -> fin (sched l) /\ Rabs (val (sched l)) <= 2 ^ (34 + a).
Proof.
  intros Hs Hl Hn Ha. destruct (Hs l) as [t [Pt Et]]. destruct (total_perm _ _ Pt) as [E1 E2]. assert (L : length (ftree_items t) = length l) by (apply Permutation_length, Pt).
  assert (Sz : size l <= 2 ^ (32 + a)). { eapply Rle_trans; [apply (size_bound l (2 ^ a)); intros x Hx; apply Hl, Hx|]. rewrite pow_add. apply Rmult_le_compat_r; [left; apply pow_lt; lra|exact Hn]. }
  assert (Fw : few (length l)) by (unfold few; eapply Rle_trans; [exact Hn|]; apply Rle_pow; [lra|lia]).
  destruct (P_C77_parallel_sum_error t) as [F A].
  { intros x Hx. apply Hl. apply (Permutation_in x Pt Hx). }
  { rewrite L. exact Fw. }
  { rewrite E2, p1023. pose proof (big_pow (32 + a) ltac:(lia)). pose proof (pow_lt 2 1020 ltac:(lra)). generalize dependent (2 ^ 1020). intros; lra. }
  rewrite Et. split; [exact F|]. rewrite L, E1, E2 in A. destruct (gam_few (length l - 1)) as [_ G]; [apply (few_le _ (length l)); [lia|exact Fw]|].
  replace (val (ftree_sum t)) with ((val (ftree_sum t) - total l) + total l) by ring. eapply Rle_trans; [apply Rabs_triang|]. pose proof (total_size l) as Ts. pose proof (size_nonneg l).
  assert (gam (length l - 1) * size l <= 1 * size l) by (apply Rmult_le_compat_r; lra). replace (2 ^ (34 + a)) with (4 * 2 ^ (32 + a)) by (simpl; lra). lra.
Qed.

(** ** the scores are numbers *)
Lemma loop_num drop imp ws pack : forall lft rgt lsum best thr r, f_impurity_loop drop imp ws pack lft rgt lsum best thr = Ok r -> is_nan best = false -> is_nan (snd r) = false.
Proof.
  induction pack as [|[b m] pack IH]; intros lft rgt lsum best thr r; cbn [f_impurity_loop]; intros E Nb; [inversion E; subst; exact Nb|].
  destruct (f_move_loop drop m lft rgt lsum) as [[[l' r'] s']|p]; cbn [bind] in E; [|discriminate].
  match type of E with (if flt ?s best then _ else _) = _ => destruct (flt s best) eqn:F end; eapply IH; try exact E; [apply (flt_num _ _ F)|exact Nb].
Qed.
Lemma fmax_num x : is_nan (f_max x f0) = false.
Proof. unfold f_max. destruct (is_nan x) eqn:E; [reflexivity|]. change (is_nan f0) with false. cbv iota. destruct (flt x f0); [reflexivity|exact E]. Qed.
Lemma gini_num sched m : is_nan (f_gini_impurity sched m) = false.
Proof. unfold f_gini_impurity. cbv zeta. destruct (orb _ _); [reflexivity|apply fmax_num]. Qed.

Lemma entropy_num sched fln l N : summing sched -> sane_ln fln -> (forall p, In p l -> fin (snd p) /\ 0 <= val (snd p)) -> total (map snd l) <= 2 -> (length l <= N)%nat -> INR (2 * N) <= 2 ^ 32 ->
  is_nan (f_entropic_impurity sched fln (fold_left fadd_all l [])) = false.
Proof.
  intros Hs Hln Hl Ht HL HN. unfold f_entropic_impurity. cbv zeta. set (m := fold_left fadd_all l []). set (tot := sched (map snd m)).
  destruct (fle tot f0) eqn:E0; [reflexivity|]. cbn [orb]. destruct (is_nil m) eqn:En; [reflexivity|].
  assert (B : 4 <= 2 ^ 1020) by (apply Rle_trans with (2 ^ 2); [simpl; lra|apply big_pow; lia]).
  destruct (fold_acc 0 l 0 [] []) as [Xs [HX [HXs HXl]]].
  { intros p Hp. destruct (Hl p Hp) as [A1 A2]. auto. }
  { eapply Rle_trans; [apply le_INR|exact HN]. flia. }
  { constructor. }
  { change (rsum []) with 0. rewrite Rplus_0_l. eapply Rle_lt_trans; [exact Ht|]. eapply Rlt_le_trans; [|exact B]. lra. }
  fold m in HX, HXl. change (rsum []) with 0 in HXs. rewrite Rplus_0_l in HXs. cbn [length] in HXl. rewrite Nat.add_0_l in *.
  assert (Lm : (length m <= N)%nat) by flia.
  assert (At : acc (2 * N) tot (rsum Xs)).
  { apply (acc_le (length l + length (map snd m))); [rewrite map_length; flia|]. unfold tot. apply sched_acc; [exact Hs| |rewrite map_length; eapply Rle_trans; [apply le_INR|exact HN]; flia|rewrite HXs; eapply Rle_lt_trans; [exact Ht|]; eapply Rlt_le_trans; [|exact B]; lra].
    clear -HX. induction HX as [|p X m Xs [Hp _] HX IH]; cbn [map]; constructor; assumption. }
  pose proof (acc_nonneg _ _ _ HN At) as An. assert (DP : 0 < rsum Xs).
  { destruct (Rle_or_lt (rsum Xs) 0) as [Q|Q]; [|exact Q]. exfalso. assert (T : fle tot f0 = true) by (apply fle_true; [apply At|reflexivity|rewrite val_f0; lra]). congruence. }
  assert (Rb : forall p, In p m -> fin (fdiv (snd p) tot) /\ 0 <= val (fdiv (snd p) tot) <= 2).
  { intros p Hp. assert (Ex : exists X, acc (length l) (snd p) X /\ X <= rsum Xs).
    { clear -HX Hp. induction HX as [|q X m Xs [Hq _] HX IH]; [destruct Hp|]. pose proof (eacc_sum _ _ _ _ HX) as P. assert (0 <= X) by apply Hq. destruct Hp as [<- |Hp].
      - exists X. simpl. split; [exact Hq|lra].
      - destruct (IH Hp) as [X' [A1 A2]]. exists X'. simpl. split; [exact A1|lra]. }
    destruct Ex as [X [AX LX]]. assert (AX' : acc (2 * N) (snd p) X) by (apply (acc_le (length l)); [flia|exact AX]).
    destruct (div_acc _ _ _ _ _ HN AX' At DP LX) as [F [[_ U] P]]. split; [exact F|]. split; [exact P|].
    assert (X / rsum Xs <= 1) by (apply (proj2 (Rdiv_le_iff X 1 (rsum Xs) DP)); lra). pose proof eta0_small. assert (/ 2 ^ 100 <= / 2) by (simpl; lra). lra. }
  apply fin_num. apply (sched_mod sched _ 12 Hs); [|rewrite map_length; eapply Rle_trans; [apply le_INR|exact HN]; flia|lia].
  intros x Hx. apply in_map_iff in Hx. destruct Hx as [p [<- Hp]]. destruct (Rb p Hp) as [Fr Br]. set (r := fdiv (snd p) tot) in *.
  destruct (fle r f0) eqn:Er; [split; [reflexivity|rewrite val_f0, Rabs_R0; left; apply pow_lt; lra]|].
  assert (Pr : 0 < val r). { destruct (Rle_or_lt (val r) 0) as [Q|Q]; [|exact Q]. exfalso. assert (T : fle r f0 = true) by (apply fle_true; [exact Fr|reflexivity|rewrite val_f0; lra]). congruence. }
  destruct (Hln r Fr Pr) as [Fl Bl]. change 12%nat with (S (1 + 10)). apply fmul_mod; [unfold fopp; rewrite is_finite_Bopp; exact Fr|exact Fl| |exact Bl|lia].
  unfold fopp. rewrite B2R_Bopp, Rabs_Ropp, Rabs_pos_eq by lra. simpl. lra.
Qed.

Lemma edge_loop_num sched pack : forall edge best thr, is_nan best = false -> is_nan (snd (f_edge_loop sched pack edge best thr)) = false.
Proof.
  induction pack as [|[b m] pack IH]; intros edge best thr Nb; cbn [f_edge_loop]; [exact Nb|]. cbv zeta.
  match goal with |- context [if flt best ?s then _ else _] => destruct (flt best s) eqn:F end; apply IH; [apply (flt_num _ _ F)|exact Nb].
Qed.
Lemma edge_num sched pack : summing sched -> (forall p, In p (flat pack) -> fin (snd p) /\ 0 <= val (snd p) <= 2 /\ (Z.abs (fst p) <= 2 ^ 63)%Z) -> INR (length (flat pack)) <= 2 ^ 32 -> INR (length pack) <= 2 ^ 32 ->
  is_nan (snd (f_split_by_edge sched pack)) = false.
Proof.
  intros Hs Hp HL HP. unfold f_split_by_edge. apply edge_loop_num. unfold fabs. rewrite is_nan_Babs. apply fin_num. apply (sched_mod sched _ 99 Hs); [|rewrite map_length; exact HP|lia].
  intros x Hx. apply in_map_iff in Hx. destruct Hx as [[b m] [<- Hm]]. cbn [snd]. unfold f_pack_edge. change 99%nat with (34 + 65)%nat.
  assert (Sub : forall p, In p m -> In p (flat pack)). { intros p Hq. unfold flat. apply in_concat. exists m. split; [change m with (snd (b, m)); apply in_map, Hm|exact Hq]. }
  apply sched_mod; [exact Hs| | |lia].
  - intros x Hx. apply in_map_iff in Hx. destruct Hx as [p [<- Hq]]. destruct (Hp p (Sub p Hq)) as [F1 [F2 F3]]. destruct (f_of_Z_spec (fst p) F3) as [Fz Bz]. change 65%nat with (S (63 + 1)). apply fmul_mod; [exact Fz|exact F1|exact Bz| |lia]. rewrite Rabs_pos_eq by lra. simpl. lra.
  - rewrite map_length. eapply Rle_trans; [apply le_INR|exact HL]. clear -Hm. unfold flat. induction pack as [|q l IH]; [destruct Hm|]. cbn [map concat]. rewrite app_length. destruct Hm as [-> |Hm]; [cbn [snd]; lia|]. specialize (IH Hm). lia.
Qed.

(** ** the labels in a pack *)
Lemma as_int_abs b y : (1 <= b <= 64)%Z -> (Z.abs (as_int b y) <= 2 ^ 63)%Z.
Proof. intros H. unfold as_int. assert (0 < 2 ^ (b - 1) <= 2 ^ 63)%Z by (split; [apply Z.pow_pos_nonneg; lia|apply Z.pow_le_mono_r; lia]). lia. Qed.

Lemma pack_loop_keys (K : Z -> Prop) y dist bins f : (forall v, K (as_int 32 v)) -> forall idx packs packs', pack_loop (f_dt_add y dist) [] bins f idx packs = Ok packs' ->
  (forall m p, In m packs -> In p m -> K (fst p)) -> (forall m p, In m packs' -> In p m -> K (fst p)) /\ length packs' = length packs.
Proof.
  intros HK. induction idx as [|i idx IH]; intros packs packs'; cbn [pack_loop]; intros E H; [inversion E; subst; split; [exact H|reflexivity]|].
  destruct (feat_index f i) as [x|]; cbn [bind] in E; [|discriminate]. destruct (find_bin bins x) as [k|]; cbn [bind] in E; [|discriminate].
  unfold f_dt_add at 1 in E. destruct (get_ y i) as [yi|]; cbn [bind] in E; [|discriminate]. destruct (f_get dist i) as [di|]; cbn [bind] in E; [|discriminate].
  destruct (IH _ _ E) as [H1 H2].
  - intros m p Hm Hp. assert (Q : In m packs \/ m = f_lw_add (nth k packs []) (as_int 32 yi) di).
    { clear -Hm. revert Hm. generalize (f_lw_add (nth k packs []) (as_int 32 yi) di) as a. intros a. revert k. induction packs as [|q l IH]; intros [|k] Hm; cbn [upd] in Hm; try (destruct Hm; fail); destruct Hm as [<- |Hm]; auto.
      - left. right. exact Hm.
      - left. left. reflexivity.
      - destruct (IH k Hm); [left; right; assumption|right; assumption]. }
    destruct Q as [Q| ->]; [apply (H m p Q Hp)|]. assert (In (fst p) (map fst (f_lw_add (nth k packs []) (as_int 32 yi) di))) as I by (apply in_map, Hp). apply add_keys in I. destruct I as [-> |I]; [apply HK|].
    apply in_map_iff in I. destruct I as [q [<- Hq]]. destruct (Nat.lt_ge_cases k (length packs)) as [L|L]; [apply (H (nth k packs [])); [apply nth_In, L|exact Hq]|rewrite nth_overflow in Hq by exact L; destruct Hq].
  - split; [exact H1|]. rewrite upd_length in H2. exact H2.
Qed.

Lemma merge_snd {P} (rest : list (bin * P)) : forall pb pp, map snd (merge_loop pb pp rest) = pp :: map snd rest.
Proof. induction rest as [|[nb np] rest IH]; intros pb pp; cbn [merge_loop map snd]; [reflexivity|]. rewrite IH. reflexivity. Qed.
Lemma remove_sub {P} (empty : P -> bool) bins packs out : remove_empty empty bins packs = Ok out -> (forall m, In m (map snd out) -> In m packs) /\ (length out <= length bins)%nat.
Proof.
  unfold remove_empty. destruct (combine bins packs) as [|[b0 p0] rest0] eqn:Ec; [discriminate|].
  assert (Sub : forall m, In m (p0 :: map snd rest0) -> In m packs).
  { intros m Hm. assert (Hc : In m (map snd (combine bins packs))) by (rewrite Ec; exact Hm). apply in_map_iff in Hc. destruct Hc as [[b q] [<- Hc]]. apply in_combine_r in Hc. exact Hc. }
  assert (Len : (S (length rest0) <= length bins)%nat). { assert (Q : length (combine bins packs) = S (length rest0)) by (rewrite Ec; reflexivity). rewrite combine_length in Q. lia. }
  set (rest := filter _ rest0). assert (Lr : (length rest <= length rest0)%nat) by apply filter_le_len.
  assert (Sr : forall m, In m (map snd rest) -> In m (p0 :: map snd rest0)). { intros m Hm. right. apply in_map_iff in Hm. destruct Hm as [q [<- Hq]]. unfold rest in Hq. apply filter_In in Hq. apply in_map, Hq. }
  assert (LL : forall l pb (pp : P), length (merge_loop pb pp l) = S (length l)). { intros l pb pp. pose proof (merge_snd l pb pp) as Q. apply (f_equal (@length P)) in Q. rewrite map_length in Q. cbn [length] in Q. rewrite map_length in Q. exact Q. }
  destruct (empty p0).
  - destruct rest as [|[nb np] rest'] eqn:Er; [discriminate|]. intros E. inversion E; subst out. rewrite merge_snd, LL. split; [|simpl in Lr; lia].
    intros m Hm. apply Sub, Sr. exact Hm.
  - intros E. inversion E; subst out. rewrite merge_snd, LL. split; [|lia]. intros m [<- |Hm]; [apply Sub; left; reflexivity|apply Sub, Sr, Hm].
Qed.

Lemma packed_keys sched order bins idx f y dist out : some_order order -> f_dt_pack sched order bins idx f y dist = Ok out ->
  (forall p, In p (flat out) -> (Z.abs (fst p) <= 2 ^ 63)%Z) /\ (length out <= length bins)%nat.
Proof.
  intros Ho. unfold f_dt_pack. destruct (pack_loop _ _ _ _ _ _) as [packs|] eqn:E; cbn [bind]; [|discriminate]. set (tot := sched _). destruct (flt f0 tot); cbn [assert_ bind]; [|discriminate].
  destruct (remove_empty is_nil bins packs) as [out0|] eqn:Er; cbn [bind]; [|discriminate]. intros E'. inversion E'; subst out. clear E'.
  destruct (pack_loop_keys (fun z => (Z.abs z <= 2 ^ 63)%Z) y dist bins f (fun v => as_int_abs 32 v ltac:(lia)) idx _ _ E) as [H _].
  { intros m p Hm Hp. apply repeat_spec in Hm. subst m. destruct Hp. }
  destruct (remove_sub _ _ _ _ Er) as [H1 H2]. split; [|rewrite map_length; exact H2].
  intros p Hp. unfold flat in Hp. rewrite map_map in Hp. cbn [snd] in Hp. apply in_concat in Hp. destruct Hp as [m [Hm Hp]]. apply in_map_iff in Hm. destruct Hm as [bp [<- Hb]].
  apply (Permutation_in _ (Ho _)) in Hp. apply in_map_iff in Hp. destruct Hp as [q [<- Hq]]. cbn [fst]. apply (H (snd bp)); [apply H1, in_map, Hb|exact Hq].
Qed.
