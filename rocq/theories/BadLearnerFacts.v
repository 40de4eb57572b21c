(** Properties C46, C66: the worst-case weak learner, and the number of rounds that it forces on LPBoost. *)
From Verif Require Import Base Spec Utils UtilsProofs Num WMajority Booster Reach AdaBoost AdaBoostProofs
  AdaBoostMain AdaBoostMore FrankWolfeProofs CERLPProofs Csc ConicSpec CscProofs LPBoost LPBoostProofs LPBoostFacts BadLearner.
Open Scope R_scope.

(** the k-th hypothesis of the pool *)
Definition hyp (half shift : nat) (eps : R) (k : nat) : badh :=
  if Nat.eqb k 0 then mkBad 0 half shift 3 eps
  else if Nat.ltb k half then mkBad 1 (half + (k - 1)) shift (3 + 2 * INR k) eps
  else mkBad 2 half shift (1 + 2 * INR half) eps.

Lemma bad_loop_spec half shift eps : forall c a gap acc l g,
  bad_loop half shift eps (seq a c) gap acc = Ok (l, g) <->
  (forall k, (k < c)%nat -> eps * (gap + 2 * INR (S k)) <= 1) /\
  l = acc ++ map (fun k => mkBad 1 (half + (a + k)) shift (gap + 2 * INR (S k)) eps) (seq 0 c) /\ g = gap + 2 * INR c.
Proof.
  induction c as [|c IH]; intros a gap acc l g.
  - simpl. split.
    + injection 1 as <- <-. rewrite app_nil_r. repeat split; [intros; lia|ring].
    + intros [_ [-> ->]]. rewrite app_nil_r. do 2 f_equal. ring.
  - cbn [seq bad_loop map]. rewrite <- (seq_shift c 0), map_map.
    assert (E1 : gap + 2 * INR 1 = gap + 2) by (simpl; ring).
    assert (Em : (fun x => mkBad 1 (half + (a + S x)) shift (gap + 2 * INR (S (S x))) eps) = (fun x => mkBad 1 (half + (S a + x)) shift (gap + 2 + 2 * INR (S x)) eps)).
    { apply FunctionalExtensionality.functional_extensionality. intros x. f_equal; [lia|]. rewrite (S_INR (S x)). ring. }
    rewrite Em, E1, Nat.add_0_r. destruct (Rleb_spec (eps * (gap + 2)) 1) as [H|H]; cbn [assert_ bind].
    + rewrite IH. split; intros [A [B C]].
      * split; [|split; [rewrite B, <- app_assoc; reflexivity|rewrite C, (S_INR c); ring]].
        intros [|k] Hk; [rewrite E1; exact H|]. specialize (A k ltac:(lia)). replace (gap + 2 * INR (S (S k))) with (gap + 2 + 2 * INR (S k)) by (rewrite (S_INR (S k)); ring). exact A.
      * split; [|split; [rewrite B, <- app_assoc; reflexivity|rewrite C, (S_INR c); ring]].
        intros k Hk. specialize (A (S k) ltac:(lia)). replace (gap + 2 + 2 * INR (S k)) with (gap + 2 * INR (S (S k))) by (rewrite (S_INR (S k)); ring). exact A.
    + split; [discriminate|]. intros [A _]. specialize (A 0%nat ltac:(lia)). rewrite E1 in A. contradiction.
Qed.

Lemma bad_new_spec n tol nu pool : let half := Nat.div (n + 1) 2 in let eps := tol / (2 * INR n) in
  bad_new n tol nu = Ok pool <->
  (1 <= half)%nat /\ (forall k, (1 <= k < half)%nat -> eps * (3 + 2 * INR k) <= 1) /\ pool = map (hyp half (ceil_usize nu) eps) (seq 0 (half + 1)).
Proof.
  intros half eps. unfold bad_new. fold half eps. destruct (Nat.ltb_spec half 1) as [L|L]; [split; [discriminate|lia]|].
  assert (Em : map (hyp half (ceil_usize nu) eps) (seq 0 (half + 1)) =
    ([mkBad 0 half (ceil_usize nu) 3 eps] ++ map (fun k => mkBad 1 (half + (0 + k)) (ceil_usize nu) (3 + 2 * INR (S k)) eps) (seq 0 (half - 1))) ++ [mkBad 2 half (ceil_usize nu) (3 + 2 * INR (half - 1)) eps]).
  { rewrite seq_app, map_app. replace half with (S (half - 1)) at 2 by lia. cbn [seq map app Nat.add]. f_equal. f_equal.
    - rewrite <- (seq_shift (half - 1) 0), map_map. apply map_ext_in. intros k Hk. apply in_seq in Hk. unfold hyp. cbn [Nat.eqb].
      destruct (Nat.ltb_spec (S k) half); [|lia]. f_equal. lia.
    - unfold hyp. destruct (Nat.eqb_spec half 0); [lia|]. destruct (Nat.ltb_spec half half); [lia|]. do 2 f_equal. rewrite minus_INR by lia. simpl. ring. }
  rewrite Em. clear Em. destruct (bad_loop _ _ _ _ _ _) as [[cs gap]|p] eqn:E; cbn [bind].
  - apply bad_loop_spec in E. destruct E as [A [B C]]. subst cs gap. split.
    + injection 1 as <-. split; [exact L|]. split; [|reflexivity]. intros k Hk. specialize (A (k - 1)%nat ltac:(lia)). replace (S (k - 1)) with k in A by lia. exact A.
    + intros [_ [_ ->]]. reflexivity.
  - split; [discriminate|]. intros [_ [A _]]. exfalso.
    assert (A' : forall k, (k < half - 1)%nat -> eps * (3 + 2 * INR (S k)) <= 1) by (intros k Hk; apply A; lia).
    assert (X := proj2 (bad_loop_spec half (ceil_usize nu) eps (half - 1) 0 3 [mkBad 0 half (ceil_usize nu) 3 eps] _ _) (conj A' (conj eq_refl eq_refl))).
    rewrite X in E. discriminate.
Qed.

(** ** C46: the answer is a hypothesis of largest edge in the pool, of several the last *)
Lemma max_by_last_spec {A} (key : A -> R) : forall l best, exists l1 l2, best :: l = l1 ++ max_by_last key best l :: l2 /\
  (forall a, In a l1 -> key a <= key (max_by_last key best l)) /\ (forall a, In a l2 -> key a < key (max_by_last key best l)).
Proof.
  induction l as [|a t IH]; intros best.
  - exists [], []. simpl. repeat split; intros a [].
  - cbn [max_by_last]. destruct (Rltb_spec (key a) (key best)) as [Hl|Hl].
    + destruct (IH best) as [l1 [l2 [E [H1 H2]]]]. set (m := max_by_last key best t) in *. clearbody m. destruct l1 as [|x l1]; simpl in E.
      * injection E as Em El. exists [], (a :: l2). simpl. subst m. rewrite El. repeat split; [intros x []|]. intros x [<-|Hx]; [exact Hl|apply H2, Hx].
      * injection E as Ex El. subst x. exists (best :: a :: l1), l2. simpl. rewrite El. repeat split; [|exact H2].
        intros x [<-|[<-|Hx]]; [apply H1; left; reflexivity| |apply H1; right; exact Hx]. specialize (H1 best (or_introl eq_refl)). lra.
    + destruct (IH a) as [l1 [l2 [E [H1 H2]]]]. set (m := max_by_last key a t) in *. clearbody m. exists (best :: l1), l2. simpl. rewrite E. repeat split; [|exact H2].
      intros x [<-|Hx]; [|apply H1, Hx]. assert (In a (l1 ++ m :: l2)) by (rewrite <- E; left; reflexivity).
      apply in_app_or in H. destruct H as [H|[<-|H]]; [specialize (H1 a H); lra|lra|specialize (H2 a H); lra].
Qed.

Lemma P_C46_best_answer :
  forall y n tol nu pool d, bad_new n tol nu = Ok pool -> length d = length y ->
  exists h before after, bad_produce y pool d = Ok h /\ pool = before ++ h :: after /\
    (forall h', In h' pool -> edge_of y d (bad_conf y h') <= edge_of y d (bad_conf y h)) /\
    (forall h', In h' after -> edge_of y d (bad_conf y h') < edge_of y d (bad_conf y h)).
Proof.
  intros y n tol nu pool d E L. apply bad_new_spec in E. destruct E as [Hh [_ E]]. destruct pool as [|h0 t].
  { apply (f_equal (@length _)) in E. rewrite map_length, seq_length in E. simpl in E. lia. }
  clear E. unfold bad_produce. destruct (max_by_last_spec (fun h => edge_of_hypothesis (bad_conf y) y d h) t h0) as [l1 [l2 [E [H1 H2]]]].
  set (m := max_by_last _ h0 t) in *. exists m, l1, l2. split; [reflexivity|]. split; [exact E|].
  assert (K : forall h, edge_of_hypothesis (bad_conf y) y d h = edge_of y d (bad_conf y h)) by (intros; apply edge_of_hypothesis_spec, L).
  cbv beta in H1, H2. split; intros h' Hh'; rewrite <- !K; [|apply H2, Hh'].
  rewrite E in Hh'. apply in_app_or in Hh'. destruct Hh' as [Hh'|[<-|Hh']]; [apply H1, Hh'|lra|apply Rlt_le, H2, Hh'].
Qed.

Lemma bad_produce_strict y n tol nu pool d h : bad_new n tol nu = Ok pool -> length d = length y -> In h pool ->
  (forall h', In h' pool -> h' = h \/ edge_of y d (bad_conf y h') < edge_of y d (bad_conf y h)) -> bad_produce y pool d = Ok h.
Proof.
  intros E L Hin Hs. destruct (P_C46_best_answer y n tol nu pool d E L) as [m [l1 [l2 [Em [Ep [Hb _]]]]]]. rewrite Em. f_equal.
  assert (Im : In m pool) by (rewrite Ep; apply in_or_app; right; left; reflexivity).
  destruct (Hs m Im) as [->|N]; [reflexivity|]. specialize (Hb h Hin). lra.
Qed.

(** ** values *)
Lemma bad_edge y d h : (forall i, (i < length y)%nat -> pm1 (nth i y 0)) ->
  edge_of y d (bad_conf y h) = rsum (map (fun i => nth i d 0 * bad_value h i) (seq 0 (length y))).
Proof.
  intros Hy. unfold edge_of. apply rsum_map_ext. intros i Hi. apply in_seq in Hi. unfold bad_conf. destruct (Hy i ltac:(lia)) as [-> | ->]; ring.
Qed.

Lemma gap_eps n tol k : let half := Nat.div (n + 1) 2 in 0 <= tol -> (2 <= n)%nat -> (k < half)%nat -> 0 <= tol / (2 * INR n) * (3 + 2 * INR k) <= tol.
Proof.
  intros half Ht Hn Hk. assert (Hh : (2 * half <= n + 1)%nat) by (unfold half; apply Nat.mul_div_le; lia).
  assert (Nn : 2 <= INR n) by (apply le_INR in Hn; simpl in Hn; lra). assert (Nk : INR (2 * k + 3) <= INR (n + 2)) by (apply le_INR; lia).
  rewrite !plus_INR, mult_INR in Nk. simpl in Nk. pose proof (pos_INR k). replace (tol / (2 * INR n) * (3 + 2 * INR k)) with (tol * ((3 + 2 * INR k) / (2 * INR n))) by (field; lra).
  assert (Q : 0 <= (3 + 2 * INR k) / (2 * INR n) <= 1).
  { split; [apply Rlt_le, Rdiv_lt_0_compat; lra|apply Rdiv_le_iff; lra]. }
  nra.
Qed.

Lemma hyp_in_bounds n tol shift k row : let half := Nat.div (n + 1) 2 in (1 <= n)%nat -> 0 <= tol <= 1 ->
  -1 <= bad_value (hyp half shift (tol / (2 * INR n)) k) row <= 1.
Proof.
  intros half Hn Ht. set (eps := tol / (2 * INR n)). assert (Nn : 1 <= INR n) by (apply le_INR in Hn; simpl in Hn; lra).
  assert (E : 0 <= eps <= 1 / 2).
  { unfold eps. split; [apply Rmult_le_pos; [lra|apply Rlt_le, Rinv_0_lt_compat; lra]|apply Rdiv_le_iff; lra]. }
  unfold hyp. destruct (Nat.eqb_spec k 0); [|destruct (Nat.ltb_spec k half) as [L|L]]; unfold bad_value; cbn [bd_tag bd_index bd_shift bd_gap bd_eps Nat.eqb].
  - destruct (Nat.ltb _ _); [lra|]. destruct (_ && _)%bool; lra.
  - assert (N2 : (2 <= n)%nat). { assert (Hh : (2 * half <= n + 1)%nat) by (unfold half; apply Nat.mul_div_le; lia). lia. }
    pose proof (gap_eps n tol k ltac:(lra) N2 L) as G. fold eps in G. pose proof (pos_INR k). cbv zeta.
    destruct (_ && _)%bool; [lra|]. destruct (_ && _)%bool; nra.
  - destruct (Nat.ltb _ _); lra.
Qed.

(** ** C46: with a tolerance in [0, 1] the learner can be built for every nonempty sample, has (n+1)/2 + 1 hypotheses,
    and all confidences are in [-1, 1] *)
Lemma P_C46_can_be_built :
  forall y tol, y <> [] -> 0 <= tol <= 1 ->
  exists pool, bb_build (bb_tolerance (bb_init y) tol) = Ok pool /\ length pool = (Nat.div (length y + 1) 2 + 1)%nat /\ (exists pool', bb_build (bb_init y) = Ok pool').
Proof.
  assert (G : forall (y : list R) tol, y <> [] -> 0 <= tol <= 1 -> exists pool, bad_new (length y) tol 1 = Ok pool /\ length pool = (Nat.div (length y + 1) 2 + 1)%nat).
  { intros y tol Hy Ht. assert (Hn : (1 <= length y)%nat) by (destruct y; [congruence|simpl; lia]).
    set (half := Nat.div (length y + 1) 2). exists (map (hyp half (ceil_usize 1) (tol / (2 * INR (length y)))) (seq 0 (half + 1))).
    split; [|rewrite map_length, seq_length; reflexivity]. apply bad_new_spec. fold half.
    assert (Hh : (2 * half <= length y + 1)%nat) by (unfold half; apply Nat.mul_div_le; lia).
    assert (H1 : (1 <= half)%nat) by (unfold half; apply Nat.div_le_lower_bound; lia).
    split; [exact H1|]. split; [|reflexivity]. intros k Hk. pose proof (gap_eps (length y) tol k ltac:(lra) ltac:(lia) ltac:(fold half; lia)). lra. }
  intros y tol Hy Ht. destruct (G y tol Hy Ht) as [pool [E L]]. exists pool. split; [exact E|]. split; [exact L|].
  destruct (G y (1 / 10 ^ 9) Hy ltac:(lra)) as [pool' [E' _]]. exists pool'. exact E'.
Qed.

Lemma P_C46_confidence_bounded :
  forall y b nu b' pool h row, (forall i, (i < length y)%nat -> pm1 (nth i y 0)) -> 0 <= bb_tol b <= 1 -> bb_n b = length y ->
  bb_nu_set b nu = Ok b' \/ b' = b -> bb_build b' = Ok pool -> In h pool -> (row < length y)%nat -> -1 <= bad_conf y h row <= 1.
Proof.
  intros y b nu b' pool h row Hy Ht En Eb Ep Hin Hr.
  assert (X : bb_n b' = length y /\ 0 <= bb_tol b' <= 1).
  { destruct Eb as [Eb | ->]; [|auto]. unfold bb_nu_set in Eb. destruct (_ && _)%bool; cbn [assert_ bind] in Eb; [|discriminate]. injection Eb as <-. auto. }
  destruct X as [En' Ht']. unfold bb_build in Ep. rewrite En' in Ep. apply bad_new_spec in Ep. destruct Ep as [_ [_ ->]].
  apply in_map_iff in Hin. destruct Hin as [k [<- _]]. pose proof (hyp_in_bounds (length y) (bb_tol b') (ceil_usize (bb_nu b')) k row ltac:(lia) Ht') as B. cbv zeta in B.
  unfold bad_conf. destruct (Hy row Hr) as [-> | ->]; lra.
Qed.

Lemma y2_new tol : exists pool, bad_new 2 tol 1 = Ok pool /\ In (mkBad 0 1 1 3 (tol / 4)) pool.
Proof.
  exists (map (hyp 1 (ceil_usize 1) (tol / (2 * INR 2))) (seq 0 2)). split.
  - apply (bad_new_spec 2 tol 1). change (Nat.div (2 + 1) 2) with 1%nat. split; [lia|]. split; [intros; lia|reflexivity].
  - left. unfold hyp. cbn [Nat.eqb]. assert (C : ceil_usize 1 = 1%nat).
    { assert ((ceil_usize 1 <= 1)%nat) by (apply ceil_usize_least; simpl; lra). pose proof (ceil_usize_pos 1 ltac:(lra)). lia. }
    rewrite C. f_equal.
Qed.

(** the builder accepts any tolerance: with a large one a confidence is 3 *)
Lemma P_C46_confidence_refuted :
  exists y tol pool h row, is_valid_binary_instance y = Ok tt /\ 0 < tol /\ (row < length y)%nat /\ bb_build (bb_tolerance (bb_init y) tol) = Ok pool /\ In h pool /\ 1 < Rabs (bad_conf y h row).
Proof.
  destruct (y2_new 8) as [pool [E Hin]]. exists y2, 8, pool, (mkBad 0 1 1 3 (8 / 4)), 1%nat. split; [exact y2_valid|]. split; [lra|]. split; [simpl; lia|].
  split; [exact E|]. split; [exact Hin|]. unfold bad_conf, bad_value. simpl. rewrite Rabs_left; lra.
Qed.


(** the setter of nu accepts exactly [1, n); its message says [1, n] *)
Lemma P_C46_nu_range :
  forall b nu, (exists b', bb_nu_set b nu = Ok b') <-> 1 <= nu < INR (bb_n b).
Proof.
  intros b nu. unfold bb_nu_set. destruct (Rleb_spec 1 nu) as [A|A], (Rltb_spec nu (INR (bb_n b))) as [B|B]; cbn [andb assert_ bind]; (split; [intros [b' E]; try discriminate; lra|intros; try lra; eexists; reflexivity]).
Qed.

Lemma P_C46_nu_n_refuted :
  forall y, bb_nu_set (bb_init y) (INR (length y)) = Panic AssertFailed.
Proof.
  intros y. unfold bb_nu_set. cbn [bb_init bb_n]. rewrite (Rltb_false (INR (length y))) by lra. rewrite Bool.andb_false_r. reflexivity.
Qed.

(** ** LPBoost against this learner *)
Lemma ceil1 : ceil_usize 1 = 1%nat.
Proof. assert ((ceil_usize 1 <= 1)%nat) by (apply ceil_usize_least; simpl; lra). pose proof (ceil_usize_pos 1 ltac:(lra)). lia. Qed.

Section Worst.
  Variable n : nat.
  Variable eps : R.
  Notation half := (Nat.div (n + 1) 2).
  Notation hy := (hyp half 1 eps).
  Hypothesis Hn : (2 <= n)%nat.
  Hypothesis He : 0 < eps.
  Hypothesis Hg : forall k, (k < half)%nat -> eps * (3 + 2 * INR k) <= 1 / 2.

  Lemma half_pos : (1 <= half)%nat /\ (n <= 2 * half <= n + 1)%nat /\ (half + Nat.div n 2 = n)%nat.
  Proof.
    assert (half <= n)%nat by (apply Nat.div_le_upper_bound; lia). pose proof (Nat.div_mod_eq (n + 1) 2). pose proof (Nat.mod_upper_bound (n + 1) 2 ltac:(lia)).
    pose proof (Nat.div_mod_eq n 2). pose proof (Nat.mod_upper_bound n 2 ltac:(lia)).
    assert ((n + 1) mod 2 = 1 - n mod 2)%nat. { rewrite Nat.add_mod by lia. change (1 mod 2)%nat with 1%nat. assert (n mod 2 = 0 \/ n mod 2 = 1)%nat as [-> | ->] by lia; reflexivity. }
    lia.
  Qed.

  Lemma eps_small : eps <= 1 / 6.
  Proof. destruct half_pos as [H _]. specialize (Hg 0 ltac:(lia)). simpl in Hg. lra. Qed.

  Lemma hy_0 i : bad_value (hy 0) i = if Nat.ltb i half then 1 else if Nat.eqb i half then -1 + 2 * eps else -1 + 3 * eps.
  Proof.
    unfold hyp, bad_value. cbn [Nat.eqb bd_tag bd_index bd_shift bd_gap bd_eps]. destruct (Nat.ltb_spec i half); [reflexivity|].
    destruct (Nat.leb_spec half i); [|lia]. destruct (Nat.ltb_spec i (half + 1)), (Nat.eqb_spec i half); cbn [andb]; try reflexivity; lia.
  Qed.

  Lemma hy_k k i : (1 <= k < half)%nat -> bad_value (hy k) i =
    if Nat.eqb i (half + k - 1) then 1 else if Nat.eqb i (half + k) then -1 + (2 + 2 * INR k) * eps else -1 + (3 + 2 * INR k) * eps.
  Proof.
    intros Hk. unfold hyp. destruct (Nat.eqb_spec k 0); [lia|]. destruct (Nat.ltb_spec k half); [|lia].
    unfold bad_value. cbn [Nat.eqb bd_tag bd_index bd_shift bd_gap bd_eps].
    destruct (Nat.leb_spec (half + (k - 1)) i), (Nat.ltb_spec i (half + (k - 1) + 1)), (Nat.leb_spec (half + (k - 1) + 1) i), (Nat.ltb_spec i (half + (k - 1) + 1 + 1)),
      (Nat.eqb_spec i (half + k - 1)), (Nat.eqb_spec i (half + k)); cbn [andb]; try lia; try reflexivity. ring.
  Qed.

  Lemma hy_last i : bad_value (hy half) i = if Nat.ltb i half then -1 + eps else 1 - eps.
  Proof.
    destruct half_pos as [H _]. unfold hyp. destruct (Nat.eqb_spec half 0); [lia|]. destruct (Nat.ltb_spec half half); [lia|]. reflexivity.
  Qed.

  (** the value of the k-th hypothesis is smallest at row half + k, by eps *)
  Lemma hy_min k : (k < half)%nat -> forall i, -1 + (2 + 2 * INR k) * eps + (if Nat.eqb i (half + k) then 0 else eps) <= bad_value (hy k) i.
  Proof.
    intros Hk i. pose proof eps_small as E. pose proof (Hg k Hk) as G. pose proof (pos_INR k). destruct (Nat.eq_dec k 0) as [->|N].
    - rewrite hy_0, Nat.add_0_r. simpl INR. destruct (Nat.ltb_spec i half), (Nat.eqb_spec i half); try lia; lra.
    - rewrite hy_k by lia. destruct (Nat.eqb_spec i (half + k - 1)), (Nat.eqb_spec i (half + k)); try lia; lra.
  Qed.

  (** no hypothesis received so far exceeds that value there *)
  Lemma hy_row k j : (j <= k < half)%nat -> bad_value (hy j) (half + k) <= -1 + (2 + 2 * INR k) * eps.
  Proof.
    intros Hj. assert (Jk : INR j <= INR k) by (apply le_INR; lia). destruct (Nat.eq_dec j 0) as [->|N].
    - rewrite hy_0. destruct (Nat.ltb_spec (half + k) half); [lia|]. destruct (Nat.eqb_spec (half + k) half) as [E|E].
      + assert (k = 0%nat) by lia. subst k. simpl. lra.
      + assert (1 <= INR k) by (change 1 with (INR 1); apply le_INR; lia). nra.
    - rewrite hy_k by lia. destruct (Nat.eqb_spec (half + k) (half + j - 1)); [lia|]. destruct (Nat.eqb_spec (half + k) (half + j)) as [E|E].
      + assert (k = j) by lia. subst k. lra.
      + assert (INR j + 1 <= INR k) by (rewrite <- S_INR; apply le_INR; lia). nra.
  Qed.

  Lemma rsum_cut a b : forall m c, (c <= m)%nat -> rsum (map (fun i => if Nat.ltb i c then a else b) (seq 0 m)) = INR c * a + INR (m - c) * b.
  Proof.
    intros m c Hc. replace m with (c + (m - c))%nat at 1 by lia. rewrite seq_app, map_app, rsum_app.
    rewrite (rsum_map_ext _ (fun _ => a) (seq 0 c)) by (intros i Hi; apply in_seq in Hi; destruct (Nat.ltb_spec i c); [reflexivity|lia]).
    rewrite (rsum_map_ext _ (fun _ => b) (seq (0 + c) (m - c))) by (intros i Hi; apply in_seq in Hi; destruct (Nat.ltb_spec i c); [lia|reflexivity]).
    rewrite !rsum_map_const, !seq_length. ring.
  Qed.

  (** under the uniform distribution the first hypothesis has the largest edge, a positive one *)
  Lemma uniform_first : let S k := rsum (map (fun i => 1 / INR n * bad_value (hy k) i) (seq 0 n)) in
    0 < S 0%nat /\ forall k, (1 <= k <= half)%nat -> S k <= 0.
  Proof.
    intros S. destruct half_pos as [H1 [H2 H3]]. pose proof eps_small as E. assert (Nn : 0 < INR n) by (apply lt_0_INR; lia). assert (P : 0 < 1 / INR n) by (apply Rdiv_lt_0_compat; lra).
    assert (SE : forall k, S k = 1 / INR n * rsum (map (bad_value (hy k)) (seq 0 n))) by (intros k; apply rsum_map_mult).
    assert (Hh : INR (n - half) = INR n - INR half) by (apply minus_INR; lia). assert (Hh1 : INR n <= 2 * INR half) by (change 2 with (INR 2); rewrite <- mult_INR; apply le_INR; lia).
    assert (Hh2 : 1 <= INR (n - half)). { change 1 with (INR 1). apply le_INR. lia. }
    split.
    - rewrite SE. apply Rmult_lt_0_compat; [exact P|]. eapply Rlt_le_trans; [|apply (rsum_map_le (fun i => if Nat.ltb i half then 1 else -1 + 2 * eps))].
      + rewrite rsum_cut by lia. nra.
      + intros i _. rewrite hy_0. destruct (Nat.ltb i half); [lra|]. destruct (Nat.eqb i half); lra.
    - intros k Hk. rewrite SE. cut (rsum (map (bad_value (hy k)) (seq 0 n)) <= 0); [nra|]. destruct (Nat.eq_dec k half) as [->|N].
      + rewrite (rsum_map_ext _ (fun i => if Nat.ltb i half then -1 + eps else 1 - eps)) by (intros i _; apply hy_last). rewrite rsum_cut by lia. nra.
      + eapply Rle_trans; [apply (rsum_map_le _ (fun i => 3 / 2 * (if Nat.eqb i (half + k - 1) then 1 else 0) - 1 / 2))|].
        * intros i _. rewrite hy_k by lia. pose proof (Hg k ltac:(lia)). pose proof (pos_INR k). destruct (Nat.eqb _ _); [lra|]. destruct (Nat.eqb _ _); nra.
        * rewrite rsum_map_minus, rsum_map_mult, rsum_map_const, seq_length. assert (N3 : 3 <= INR n) by (replace 3 with (INR 3) by (simpl; ring); apply le_INR; lia).
          destruct (Nat.lt_ge_cases (half + k - 1) n) as [L|L]; [rewrite rsum_indicator by exact L; lra|].
          rewrite (rsum_zero (fun i => if Nat.eqb i (half + k - 1) then 1 else 0) n); [lra|]. intros i Hi. destruct (Nat.eqb_spec i (half + k - 1)); [lia|reflexivity].
  Qed.

  (** all weight on row half + k - 1: the k-th hypothesis has edge 1, all others less *)
  Lemma unit_best k : (1 <= k < half)%nat -> bad_value (hy k) (half + k - 1) = 1 /\ forall j, (j <= half)%nat -> j <> k -> bad_value (hy j) (half + k - 1) < 1.
  Proof.
    intros Hk. pose proof eps_small as E. split; [rewrite hy_k by lia; rewrite Nat.eqb_refl; reflexivity|]. intros j Hj N.
    destruct (Nat.eq_dec j 0) as [->|N0]; [|destruct (Nat.eq_dec j half) as [->|N1]].
    - rewrite hy_0. destruct (Nat.ltb_spec (half + k - 1) half); [lia|]. destruct (Nat.eqb _ _); lra.
    - rewrite hy_last. destruct (Nat.ltb_spec (half + k - 1) half); lra.
    - rewrite hy_k by lia. pose proof (Hg j ltac:(lia)). pose proof (pos_INR j). destruct (Nat.eqb_spec (half + k - 1) (half + j - 1)); [lia|]. destruct (Nat.eqb _ _); nra.
  Qed.
End Worst.

Section WorstRun.
  Variable solve : conic -> answer.
  Variable produce : nat -> list R -> badh.
  Variable y : list R.
  Variable s0 : @lpboost badh.
  Variable tol : R.
  Variable pool : list badh.
  Notation n := (length y).
  Notation conf := (bad_conf y).
  Notation half := (Nat.div (length y + 1) 2).
  Notation eps := (tol / (2 * INR (length y))).
  Notation hy := (hyp half 1 eps).
  Notation b := (lpboost_booster conf solve produce y).
  Hypothesis Hex : forall p, lpb_asks conf solve produce y s0 p -> solves p (solve p).
  Hypothesis Hy : forall i, (i < n)%nat -> pm1 (nth i y 0).
  Hypothesis Htol : 0 < tol <= 1 / 2.
  Hypothesis Hpool : bad_new n tol 1 = Ok pool.
  Hypothesis Hprod : forall t d, length d = n -> bad_produce y pool d = Ok (produce t d).
  Hypothesis Hstol : lb_tol s0 <= 1 / 2.

  Lemma pool_eq : pool = map hy (seq 0 (half + 1)).
  Proof. pose proof Hpool as E. apply bad_new_spec in E. rewrite ceil1 in E. apply E. Qed.

  Definition Stage (t : nat) (s : @lpboost badh) : Prop :=
    lb_hyps s = map hy (seq 0 (t - 1)) /\ (t = 1%nat -> lb_dist s = repeat (1 / INR n) n) /\
    ((1 < t)%nat -> forall i, (i < n)%nat -> nth i (lb_dist s) 0 = if Nat.eqb i (half + t - 2) then 1 else 0) /\ 0 <= lb_gamma_hat s.

  Lemma eps_pos : (2 <= n)%nat -> 0 < eps.
  Proof. intros N. apply Rdiv_lt_0_compat; [lra|]. assert (0 < INR n) by (apply lt_0_INR; lia). lra. Qed.

  Lemma eps_gap : (2 <= n)%nat -> forall k, (k < half)%nat -> eps * (3 + 2 * INR k) <= 1 / 2.
  Proof. intros N k Hk. pose proof (gap_eps n tol k ltac:(lra) N Hk). lra. Qed.

  Lemma stage_answer t s tr : LInv conf produce y s0 t s tr -> Stage t s -> (1 <= t <= Nat.div n 2)%nat ->
    produce t (lb_dist s) = hy (t - 1) /\ 0 <= edge_of y (lb_dist s) (conf (hy (t - 1))).
  Proof.
    intros HI [Eh [Eu [Ed Eg]]] Ht. assert (N2 : (2 <= n)%nat) by (destruct (Nat.lt_ge_cases n 2) as [L|L]; [rewrite Nat.div_small in Ht by exact L; lia|exact L]).
    destruct (half_pos n N2) as [H1 [H2 H3]]. assert (Ld : length (lb_dist s) = n) by apply HI.
    assert (Hk : (t - 1 < half)%nat) by lia.
    assert (Hin : In (hy (t - 1)) pool) by (rewrite pool_eq; apply in_map, in_seq; lia).
    assert (St : 0 <= edge_of y (lb_dist s) (conf (hy (t - 1))) /\
      forall j, (j <= half)%nat -> j <> (t - 1)%nat -> edge_of y (lb_dist s) (conf (hy j)) < edge_of y (lb_dist s) (conf (hy (t - 1)))).
    { destruct (Nat.eq_dec t 1) as [->|T1].
      - rewrite (Eu eq_refl). assert (X : forall j, edge_of y (repeat (1 / INR n) n) (conf (hy j)) = rsum (map (fun i => 1 / INR n * bad_value (hy j) i) (seq 0 n))).
        { intros j. rewrite bad_edge by exact Hy. apply rsum_map_ext. intros i Hi. apply in_seq in Hi. rewrite nth_repeat_lt by lia. reflexivity. }
        destruct (uniform_first n eps N2 (eps_pos N2) (eps_gap N2)) as [U0 U1]. simpl (1 - 1)%nat. rewrite X. split; [lra|]. intros j Hj Nj. rewrite X. specialize (U1 j ltac:(lia)). lra.
      - assert (X : forall j, edge_of y (lb_dist s) (conf (hy j)) = bad_value (hy j) (half + (t - 1) - 1)).
        { intros j. rewrite bad_edge by exact Hy. rewrite (rsum_map_ext _ (fun i => bad_value (hy j) (half + (t - 1) - 1) * (if Nat.eqb i (half + (t - 1) - 1) then 1 else 0))).
          - rewrite rsum_map_mult, rsum_indicator by lia. ring.
          - intros i Hi. apply in_seq in Hi. rewrite Ed by lia. replace (half + t - 2)%nat with (half + (t - 1) - 1)%nat by lia. destruct (Nat.eqb_spec i (half + (t - 1) - 1)) as [->|]; ring. }
        destruct (unit_best n eps N2 (eps_pos N2) (eps_gap N2) (t - 1) ltac:(lia)) as [U0 U1]. rewrite X, U0. split; [lra|]. intros j Hj Nj. rewrite X. apply U1; assumption. }
    destruct St as [S1 S2]. split; [|exact S1]. pose proof (Hprod t (lb_dist s) Ld) as Ep.
    rewrite (bad_produce_strict y n tol 1 pool (lb_dist s) (hy (t - 1)) Hpool Ld Hin) in Ep; [injection Ep; auto|].
    intros h' Hh'. rewrite pool_eq in Hh'. apply in_map_iff in Hh'. destruct Hh' as [j [<- Hj]]. apply in_seq in Hj.
    destruct (Nat.eq_dec j (t - 1)) as [->|Nj]; [left; reflexivity|right; apply S2; lia].
  Qed.

  Lemma stage_step t s tr : reach b s0 t s -> LInv conf produce y s0 t s tr -> Stage t s -> (1 <= t <= Nat.div n 2)%nat ->
    exists s', b_boost b t s = ([lb_dist s], Ok (s', Continue)) /\ Stage (S t) s'.
  Proof.
    intros Hr HI HS Ht. destruct (stage_answer t s tr HI HS Ht) as [Ep Ee]. destruct HS as [Eh [Eu [Edd Eg]]].
    destruct (round_step conf solve produce y s0 Hex t s tr Hr HI) as [m' [ws [d [g [Eb [Om [Ew [Ed [Lw [Dw [Ld [Dd [E1 [E2 E3]]]]]]]]]]]]]]. cbv zeta in *.
    assert (N2 : (2 <= n)%nat) by (destruct (Nat.lt_ge_cases n 2) as [L|L]; [rewrite Nat.div_small in Ht by exact L; lia|exact L]).
    destruct (half_pos n N2) as [H1 [H2 H3]]. pose proof (eps_pos N2) as He. pose proof (eps_gap N2) as Hg.
    assert (Hk : (t - 1 < half)%nat) by lia. set (k := (t - 1)%nat) in *.
    assert (Ehs : lb_hyps s ++ [produce t (lb_dist s)] = map hy (seq 0 (S k))).
    { rewrite Ep, Eh, seq_S, map_app. reflexivity. }
    rewrite Ehs in *. rewrite Ep in *. set (v := -1 + (2 + 2 * INR k) * eps).
    assert (Hr1 : (half + k < n)%nat) by lia.
    assert (Gv : g <= v).
    { eapply Rle_trans; [apply (E3 _ Hr1)|]. pose proof (unit_dist (half + k) n Hr1) as [Du Lu]. set (e := upd (half + k) 1 (repeat 0 n)) in *.
      assert (X : forall f, edge_of y e f = nth (half + k) y 0 * f (half + k)%nat).
      { intros f. unfold edge_of. rewrite (rsum_map_ext _ (fun i => (nth (half + k) y 0 * f (half + k)%nat) * (if Nat.eqb i (half + k) then 1 else 0))); [rewrite rsum_map_mult, rsum_indicator by exact Hr1; ring|].
        intros i Hi. apply in_seq in Hi. unfold e. destruct (Nat.eqb_spec i (half + k)) as [->|N]; [rewrite upd_nth_same by (rewrite repeat_length; lia); ring|].
        rewrite upd_nth_other by congruence. rewrite nth_repeat_lt by lia. ring. }
      rewrite <- X. apply vote_edge_ub; [exact Dw|exact Lw| |exact Lu]. intros h Hh. apply in_map_iff in Hh. destruct Hh as [j [<- Hj]]. apply in_seq in Hj.
      rewrite X. unfold bad_conf. pose proof (hy_row n eps N2 He k j ltac:(lia)) as B. fold v in B. destruct (Hy (half + k) Hr1) as [-> | ->]; lra. }
    assert (Ge : edge_of y d (conf (hy k)) <= g) by (apply E1, in_map, in_seq; lia).
    apply nth_is_dist in Dd. destruct Dd as [D1 D2]. rewrite Ld in *.
    assert (Dk : 1 <= nth (half + k) d 0).
    { rewrite bad_edge in Ge by exact Hy.
      assert (Q : v + eps - eps * nth (half + k) d 0 <= rsum (map (fun i => nth i d 0 * bad_value (hy k) i) (seq 0 n))).
      { replace (v + eps - eps * nth (half + k) d 0) with (rsum (map (fun i => (v + eps) * nth i d 0 - eps * nth (half + k) d 0 * (if Nat.eqb i (half + k) then 1 else 0)) (seq 0 n))).
        - apply rsum_le_seq. intros i Hi. specialize (D1 i Hi). pose proof (hy_min n eps N2 Hg k Hk i) as B. fold v in B. destruct (Nat.eqb_spec i (half + k)) as [->|]; nra.
        - rewrite rsum_map_minus, !rsum_map_mult, D2, rsum_indicator by exact Hr1. ring. }
      nra. }
    assert (Dz : forall i, (i < n)%nat -> nth i d 0 = if Nat.eqb i (half + k) then 1 else 0).
    { assert (G : forall i, (i < n)%nat -> i <> (half + k)%nat -> nth i d 0 + nth (half + k) d 0 <= 1).
      { intros i Hi Ni. rewrite <- D2. eapply Rle_trans; [|apply (rsum_le_seq (fun j => nth i d 0 * (if Nat.eqb j i then 1 else 0) + nth (half + k) d 0 * (if Nat.eqb j (half + k) then 1 else 0)))].
        - rewrite rsum_map_plus, !rsum_map_mult, !rsum_indicator by assumption. right. ring.
        - intros j Hj. specialize (D1 j Hj). destruct (Nat.eqb_spec j i) as [Ei|Ei], (Nat.eqb_spec j (half + k)) as [Ek|Ek]; try (exfalso; congruence); try rewrite Ei in *; try rewrite Ek in *; lra. }
      assert (Dk' : nth (half + k) d 0 <= 1). { rewrite <- D2. apply rsum_in_le; [intros x Hx; apply in_map_iff in Hx; destruct Hx as [j [<- Hj]]; apply in_seq in Hj; apply D1; lia|]. apply in_map_iff. exists (half + k)%nat. split; [reflexivity|apply in_seq; lia]. }
      intros i Hi. destruct (Nat.eqb_spec i (half + k)) as [->|N]; [lra|]. specialize (G i Hi N). specialize (D1 i Hi). lra. }
    assert (Hstop : g < Rmin (edge_of y (lb_dist s) (conf (hy k))) (lb_gamma_hat s) - lb_tol s).
    { assert (Et : lb_tol s = lb_tol s0) by apply HI. rewrite Et. assert (0 <= Rmin (edge_of y (lb_dist s) (conf (hy k))) (lb_gamma_hat s)) by (apply Rmin_glb; lra).
      specialize (Hg k Hk). unfold v in Gv. lra. }
    rewrite (Rleb_false _ g Hstop) in Eb. eexists. split; [exact Eb|]. unfold Stage. cbn [lb_hyps lb_dist lb_gamma_hat].
    replace (S t - 1)%nat with (S k) by lia. split; [reflexivity|]. split; [lia|]. split; [|apply Rmin_glb; lra].
    intros _ i Hi. rewrite Dz by exact Hi. replace (half + S t - 2)%nat with (half + k)%nat by lia. reflexivity.
  Qed.

  Lemma worst_rounds fuel tr f : run b fuel s0 = Finished tr f -> (Nat.div n 2 + 1 <= length tr)%nat.
  Proof.
    pose (I := fun t s (tr : trace) => LInv conf produce y s0 t s tr /\ ((t <= Nat.div n 2 + 1)%nat -> Stage t s)).
    intros E. refine (run_reach b s0 I (fun o : outcome (wmajority badh) => forall tr f, o = Finished tr f -> (Nat.div n 2 + 1 <= length tr)%nat) _ _ _ _ fuel tr f E).
    - intros s Es. split; [exact (linv_first conf solve produce y s0 s Es)|]. intros _. change (b_pre b s0) with (lpb_pre y s0) in Es. unfold lpb_pre in Es.
      destruct (is_valid_binary_instance y); cbn [bind] in Es; [|discriminate]. destruct (_ && _)%bool; cbn [assert_ bind] in Es; [|discriminate]. injection Es as <-.
      unfold Stage. cbn [lb_hyps lb_dist lb_gamma_hat]. split; [reflexivity|]. split; [reflexivity|]. split; [lia|lra].
    - intros t s tr1 Hr [HI HS]. pose proof (linv_step conf solve produce y s0 Hex t s tr1 Hr HI) as St.
      assert (Ht : (1 <= t)%nat /\ length tr1 = (t - 1)%nat) by (split; apply HI).
      destruct (Nat.le_gt_cases t (Nat.div n 2)) as [L|L].
      + destruct (stage_step t s tr1 Hr HI (HS ltac:(lia)) ltac:(lia)) as [s' [Eb S']]. rewrite Eb in *. split; [exact St|]. intros _. exact S'.
      + destruct (round_step conf solve produce y s0 Hex t s tr1 Hr HI) as [m' [ws [d [g [Eb _]]]]]. cbv zeta in Eb. rewrite Eb in *. destruct (Rleb _ _).
        * destruct (b_post b _) as [f1|p]; [|destruct St]. intros tr2 f2 E2. injection E2 as <- <-. rewrite app_length. cbn [length]. lia.
        * split; [exact St|lia].
    - intros t s tr1 _ _ tr2 f2 E2. discriminate.
    - intros p _ tr2 f2 E2. discriminate.
  Qed.
End WorstRun.

(** ** C66: against this weak learner (nu = 1, tolerance in (0, 1/2]) LPBoost with an exact solver makes a number of
    rounds that is linear in the number n of examples: at least n/2 + 1, at most (n+1)/2 + 2 *)
Lemma P_C66_linear_rounds :
  forall y solve produce (s : @lpboost badh) tol pool, is_valid_binary_instance y = Ok tt -> (forall i, (i < length y)%nat -> pm1 (nth i y 0)) ->
  0 < tol <= 1 / 2 -> bb_build (bb_tolerance (bb_init y) tol) = Ok pool ->
  (forall t d, bad_produce y pool d = Ok (produce t d)) ->
  (forall p, lpb_asks (bad_conf y) solve produce y s p -> solves p (solve p)) ->
  1 <= lb_nu s <= INR (length y) -> 0 <= lb_tol s <= 1 / 2 ->
  forall fuel, (Nat.div (length y + 1) 2 + 1 < fuel)%nat ->
  exists tr f, run (lpboost_booster (bad_conf y) solve produce y) fuel s = Finished tr f /\
    (Nat.div (length y) 2 + 1 <= length tr <= Nat.div (length y + 1) 2 + 2)%nat.
Proof.
  intros y solve produce s tol pool Hv Hy Ht Hp Hpr Hex Hnu Hs fuel Hf. unfold bb_build in Hp. cbn [bb_tolerance bb_init bb_n bb_tol bb_nu] in Hp.
  pose proof Hp as Hp'. apply bad_new_spec in Hp'. destruct Hp' as [_ [_ Ep]].
  destruct (P_C63_lpboost_terminates badh (bad_conf y) solve produce y s (map (bad_conf y) pool) Hex Hv Hnu (proj1 Hs)) with (fuel := fuel) as [tr [f [Er Hl]]].
  - intros t d. specialize (Hpr t d). exists (bad_conf y (produce t d)). split; [|reflexivity]. apply in_map. destruct pool as [|h0 l]; [discriminate|]. simpl in Hpr. injection Hpr as <-.
    destruct (max_by_last_spec (fun h => edge_of_hypothesis (bad_conf y) y d h) l h0) as [l1 [l2 [E _]]]. rewrite E. apply in_or_app. right. left. reflexivity.
  - rewrite map_length, Ep, map_length, seq_length. exact Hf.
  - exists tr, f. split; [exact Er|]. rewrite map_length, Ep, map_length, seq_length in Hl. split; [|lia].
    refine (worst_rounds solve produce y s tol pool Hex Hy Ht Hp (fun t d _ => Hpr t d) (proj2 Hs) fuel tr f Er).
Qed.
