(** The linear program of LPBoost: rows, columns, duality. *)
From Verif Require Import Base Spec RegSpec Utils UtilsProofs WMajority WMajorityProofs Booster AdaBoost AdaBoostProofs AdaBoostMain
  FrankWolfeProofs CERLPProofs Csc ConicSpec CscProofs LPBoost.
Open Scope R_scope.

Lemma nth_skipn_add {A} k (l : list A) i d : nth i (skipn k l) d = nth (k + i) l d.
Proof. revert l. induction k; intros [|a l]; simpl; auto; destruct i; reflexivity. Qed.

Lemma nth_firstn_lt {A} k (l : list A) i d : (i < k)%nat -> nth i (firstn k l) d = nth i l d.
Proof. revert l i. induction k; intros [|a l] [|i] Hi; simpl; auto; try lia. apply IHk. lia. Qed.

Lemma rsum_nonneg_seq (f : nat -> R) m : (forall i, (i < m)%nat -> 0 <= f i) -> 0 <= rsum (map f (seq 0 m)).
Proof. intros Hf. apply rsum_nonneg. intros x Hx. apply in_map_iff in Hx. destruct Hx as [i [<- Hi]]. apply in_seq in Hi. apply Hf. lia. Qed.

Lemma rsum_le_seq (f g : nat -> R) m : (forall i, (i < m)%nat -> f i <= g i) -> rsum (map f (seq 0 m)) <= rsum (map g (seq 0 m)).
Proof. intros Hf. apply rsum_map_le. intros i Hi. apply in_seq in Hi. apply Hf. lia. Qed.

Section LP.
  Context {H : Type}.
  Variable conf : H -> nat -> R.
  Variable y : list R.
  Let n := length y.

  Definition marg (hs : list H) (t i : nat) : R := nth i (nth t (map (fun h => margins_of y (conf h)) hs) []) 0.

  Definition rho_col : column := range_col 0 (repeat 1 n).
  Definition xi_col (r : nat) : column := [(r, -1); ((n + 1 + r)%nat, -1)].
  Definition w_col (t : nat) (h : H) : column := range_col 0 (map (fun yh => - yh) (margins_of y (conf h))) ++ [(n, 1); ((2 * n + S t)%nat, -1)].
  Definition lp_cols (hs : list H) : list column :=
    [rho_col] ++ map xi_col (seq 0 n) ++ map (fun th => w_col (fst th) (snd th)) (combine (seq 0 (length hs)) hs).

  Lemma lp_cols_length hs : length (lp_cols hs) = (n + length hs + 1)%nat.
  Proof. unfold lp_cols. rewrite !app_length, !map_length, combine_length, !seq_length. simpl. lia. Qed.

  Lemma lp_cols_app hs h : lp_cols (hs ++ [h]) = lp_cols hs ++ [w_col (length hs) h].
  Proof.
    unfold lp_cols. rewrite app_length, seq_app, combine_app_eq by (rewrite seq_length; reflexivity). simpl. rewrite map_app, app_assoc. reflexivity.
  Qed.

  Definition lp_conic (nu : R) (hs : list H) : conic :=
    let T := length hs in
    mkConic (csc_zeros (1 + n + T) (1 + n + T)) (-1 :: repeat (1 / (1 / nu)) n ++ repeat 0 T) (csc_of (2 * n + T + 1) (lp_cols hs))
            (upd n 1 (repeat 0 (2 * n + T + 1))) [NonnegCone n; ZeroCone 1; NonnegCone n; NonnegCone T].

  Definition lpm_ok (nu : R) (hs : list H) (m : lpmodel) : Prop :=
    lm_obj m = -1 :: repeat (1 / (1 / nu)) n ++ repeat 0 (length hs) /\ lm_bld m = bld_of (lp_cols hs) /\ lm_n m = n /\ lm_T m = length hs.

  Lemma lpm_init_ok nu : lpm_ok nu [] (lpm_init n (1 / nu)).
  Proof.
    unfold lpm_ok, lpm_init. cbn [lm_obj lm_bld lm_n lm_T length repeat]. split; [rewrite Nat.add_1_r, app_nil_r; reflexivity|]. split; [|split; reflexivity].
    assert (E : mkBld [0%nat] (seq 0 n) (repeat 1 n) = bld_of [rho_col]).
    { unfold bld_of. simpl. rewrite app_nil_r. f_equal; unfold rho_col, range_col; rewrite repeat_length; generalize 0%nat as a, n as k; intros a k; revert a; induction k; intros; simpl; f_equal; auto. }
    rewrite E. rewrite (fold_columns (fun r => xi_col r)). unfold lp_cols. simpl. rewrite app_nil_r. reflexivity.
  Qed.

  Lemma lpm_push_ok nu hs m h : lpm_ok nu hs m ->
    exists m', lpm_push conf y m h = Ok (m', lp_conic nu (hs ++ [h])) /\ lpm_ok nu (hs ++ [h]) m'.
  Proof.
    intros [E1 [E2 [E3 E4]]]. unfold lpm_push. rewrite E1, E2, E3, E4, margins_of_hypothesis_spec.
    assert (B : push_ent (push_ent (push_ents (combine (seq 0 (length (margins_of y (conf h)))) (map (fun yh => - yh) (margins_of y (conf h)))) (push_col (bld_of (lp_cols hs)))) (n, 1)) ((2 * n + S (length hs))%nat, -1)
      = bld_of (lp_cols (hs ++ [h]))).
    { rewrite lp_cols_app, <- push_column. unfold w_col, range_col. rewrite map_length. unfold push_ents at 2. rewrite fold_left_app. reflexivity. }
    rewrite B. clear B. cbn zeta.
    assert (L : length (hs ++ [h]) = S (length hs)) by (rewrite app_length; simpl; lia).
    rewrite csc_new_ok by (rewrite lp_cols_length, L; reflexivity). cbn [bind].
    unfold solver_new. rewrite upd_length, repeat_length.
    assert (Lo : length ((-1 :: repeat (1 / (1 / nu)) n ++ repeat 0 (length hs)) ++ [0]) = (1 + n + S (length hs))%nat).
    { rewrite app_length. simpl. rewrite app_length, !repeat_length. lia. }
    rewrite Lo. cbn [c_rows c_cols csc_zeros csc_of]. rewrite lp_cols_length, L, !Nat.eqb_refl. cbn [andb assert_ bind].
    rewrite (proj2 (Nat.eqb_eq (n + S (length hs) + 1) _)) by lia. cbn [andb assert_ bind].
    rewrite (proj2 (Nat.eqb_eq (fold_right _ _ _) _)) by (simpl; lia). cbn [assert_ bind].
    assert (Eo : (-1 :: repeat (1 / (1 / nu)) n ++ repeat 0 (length hs)) ++ [0] = -1 :: repeat (1 / (1 / nu)) n ++ repeat 0 (S (length hs))).
    { simpl. rewrite <- app_assoc, <- repeat_cons. reflexivity. }
    eexists. split; [unfold lp_conic; rewrite L, Eo; reflexivity|]. unfold lpm_ok. cbn [lm_obj lm_bld lm_n lm_T]. rewrite L. auto.
  Qed.

  (** ** entries *)
  Lemma nth_rho hs : nth 0 (lp_cols hs) [] = rho_col.
  Proof. reflexivity. Qed.

  Lemma nth_xi hs i : (i < n)%nat -> nth (1 + i) (lp_cols hs) [] = xi_col i.
  Proof.
    intros Hi. unfold lp_cols. cbn [app nth Nat.add]. rewrite app_nth1 by (rewrite map_length, seq_length; exact Hi).
    rewrite (nth_map_seq xi_col n i [] Hi). reflexivity.
  Qed.

  Lemma nth_w hs t h : nth_error hs t = Some h -> nth (1 + n + t) (lp_cols hs) [] = w_col t h.
  Proof.
    intros E. assert (Ht : (t < length hs)%nat) by (apply nth_error_Some; congruence). unfold lp_cols. cbn [app nth Nat.add].
    rewrite app_nth2 by (rewrite map_length, seq_length; lia). rewrite map_length, seq_length. replace (n + t - n)%nat with t by lia.
    rewrite (nth_map_in _ _ t (0%nat, h) []) by (rewrite combine_length, seq_length; lia). rewrite combine_nth by apply seq_length.
    rewrite seq_nth by exact Ht. simpl. f_equal. apply nth_error_nth. exact E.
  Qed.

  Lemma marg_nth hs t h i : nth_error hs t = Some h -> (i < n)%nat -> marg hs t i = nth i y 0 * conf h i.
  Proof.
    intros E Hi. assert (Ht : (t < length hs)%nat) by (apply nth_error_Some; congruence). unfold marg.
    rewrite (nth_map_in _ hs t h []) by exact Ht. rewrite (nth_error_nth _ _ _ E). apply margins_nth, Hi.
  Qed.

  Lemma w_ent t h r : colent (w_col t h) r = (if Nat.ltb r n then - (nth r y 0 * conf h r) else 0) + (if Nat.eqb n r then 1 else 0) + (if Nat.eqb (2 * n + S t) r then -1 else 0).
  Proof.
    unfold w_col. rewrite colent_app, colent_range, !colent_cons, colent_nil, map_length, margins_length. cbn [fst snd Nat.leb andb Nat.add]. rewrite Nat.sub_0_r. fold n.
    destruct (Nat.ltb_spec r n) as [L|L]; [|ring]. rewrite (nth_map_in _ _ r 0 0) by (rewrite margins_length; exact L). rewrite margins_nth by exact L. ring.
  Qed.

  Lemma rho_ent r : colent rho_col r = if Nat.ltb r n then 1 else 0.
  Proof.
    unfold rho_col. rewrite colent_range, repeat_length. cbn [Nat.leb andb Nat.add]. rewrite Nat.sub_0_r. destruct (Nat.ltb_spec r n) as [L|L]; [|reflexivity].
    apply nth_repeat_lt, L.
  Qed.

  Lemma xi_ent i r : colent (xi_col i) r = (if Nat.eqb i r then -1 else 0) + (if Nat.eqb (n + 1 + i) r then -1 else 0).
  Proof. unfold xi_col. rewrite !colent_cons, colent_nil. cbn [fst snd]. ring. Qed.

  Lemma vote_marg0 hs ws i : length ws = length hs -> (i < n)%nat -> nth i y 0 * vote conf (combine ws hs) i = rsum (map (fun t => nth t ws 0 * marg hs t i) (seq 0 (length hs))).
  Proof.
    intros L Hi. destruct hs as [|h0 tl] eqn:E; [destruct ws; [|simpl in L; discriminate]; unfold vote; simpl; ring|]. rewrite <- E in *.
    rewrite (vote_nth conf ws hs h0 i L). rewrite <- rsum_map_mult. apply rsum_map_ext. intros t Ht. apply in_seq in Ht.
    rewrite (marg_nth hs t (nth t hs h0) i) by (try exact Hi; apply nth_error_nth'; lia). ring.
  Qed.

  Section Prob.
    Variable hs : list H.
    Let T := length hs.
    Let A := csc_of (2 * n + T + 1) (lp_cols hs).

    Lemma row_split x r : row_dot A x r = colent rho_col r * nth 0 x 0 + rsum (map (fun i => colent (xi_col i) r * nth (1 + i) x 0) (seq 0 n))
      + rsum (map (fun t => entry A r (1 + n + t) * nth (1 + n + t) x 0) (seq 0 T)).
    Proof.
      unfold row_dot. change (c_cols A) with (length (lp_cols hs)). rewrite lp_cols_length. fold T. replace (n + T + 1)%nat with (1 + n + T)%nat by lia.
      rewrite rsum_split. f_equal. rewrite rsum_split. f_equal.
      - rewrite rsum_one. unfold A. rewrite entry_csc_of by (rewrite lp_cols_length; lia). reflexivity.
      - apply rsum_map_ext. intros i Hi. apply in_seq in Hi. unfold A. rewrite entry_csc_of by (rewrite lp_cols_length; lia). rewrite nth_xi by lia. reflexivity.
    Qed.

    Lemma entry_w t r : (t < T)%nat -> entry A r (1 + n + t) = (if Nat.ltb r n then - marg hs t r else 0) + (if Nat.eqb n r then 1 else 0) + (if Nat.eqb (2 * n + S t) r then -1 else 0).
    Proof.
      intros Ht. destruct (nth_error hs t) as [h|] eqn:E; [|apply nth_error_None in E; unfold T in Ht; lia].
      unfold A. rewrite entry_csc_of by (rewrite lp_cols_length; fold T; lia). rewrite (nth_w hs t h E), w_ent.
      destruct (Nat.ltb_spec r n) as [L|L]; [|reflexivity]. rewrite (marg_nth hs t h r E L). reflexivity.
    Qed.

    Lemma row_margin x i : (i < n)%nat -> row_dot A x i = nth 0 x 0 - nth (1 + i) x 0 - rsum (map (fun t => nth (1 + n + t) x 0 * marg hs t i) (seq 0 T)).
    Proof.
      intros Hi. rewrite row_split, rho_ent. rewrite (proj2 (Nat.ltb_lt i n) Hi).
      rewrite (rsum_pick _ i n Hi).
      2:{ intros j Hj Hne. rewrite xi_ent. rewrite (proj2 (Nat.eqb_neq j i)), (proj2 (Nat.eqb_neq (n + 1 + j) i)) by lia. ring. }
      rewrite xi_ent, Nat.eqb_refl, (proj2 (Nat.eqb_neq (n + 1 + i) i)) by lia.
      rewrite (rsum_map_ext _ (fun t => -1 * (nth (1 + n + t) x 0 * marg hs t i))).
      - rewrite rsum_map_mult. ring.
      - intros t Ht. apply in_seq in Ht. rewrite entry_w by lia. rewrite (proj2 (Nat.ltb_lt i n) Hi), (proj2 (Nat.eqb_neq n i)), (proj2 (Nat.eqb_neq (2 * n + S t) i)) by lia. ring.
    Qed.

    Lemma row_sum x : row_dot A x n = rsum (map (fun t => nth (1 + n + t) x 0) (seq 0 T)).
    Proof.
      rewrite row_split, rho_ent. rewrite (proj2 (Nat.ltb_ge n n)) by lia. rewrite rsum_zero.
      2:{ intros j Hj. rewrite xi_ent. rewrite (proj2 (Nat.eqb_neq j n)), (proj2 (Nat.eqb_neq (n + 1 + j) n)) by lia. ring. }
      rewrite (rsum_map_ext _ (fun t => nth (1 + n + t) x 0)); [ring|].
      intros t Ht. apply in_seq in Ht. rewrite entry_w by lia. rewrite (proj2 (Nat.ltb_ge n n)), Nat.eqb_refl, (proj2 (Nat.eqb_neq (2 * n + S t) n)) by lia. ring.
    Qed.

    Lemma row_xi x i : (i < n)%nat -> row_dot A x (n + 1 + i) = - nth (1 + i) x 0.
    Proof.
      intros Hi. rewrite row_split, rho_ent. rewrite (proj2 (Nat.ltb_ge (n + 1 + i) n)) by lia. rewrite (rsum_pick _ i n Hi).
      2:{ intros j Hj Hne. rewrite xi_ent. rewrite (proj2 (Nat.eqb_neq j (n + 1 + i))), (proj2 (Nat.eqb_neq (n + 1 + j) (n + 1 + i))) by lia. ring. }
      rewrite xi_ent, Nat.eqb_refl, (proj2 (Nat.eqb_neq i (n + 1 + i))) by lia. rewrite rsum_zero; [ring|].
      intros t Ht. rewrite entry_w by lia. rewrite (proj2 (Nat.ltb_ge (n + 1 + i) n)), (proj2 (Nat.eqb_neq n (n + 1 + i))), (proj2 (Nat.eqb_neq (2 * n + S t) (n + 1 + i))) by lia. ring.
    Qed.

    Lemma row_w x t : (t < T)%nat -> row_dot A x (2 * n + 1 + t) = - nth (1 + n + t) x 0.
    Proof.
      intros Ht. rewrite row_split, rho_ent. rewrite (proj2 (Nat.ltb_ge (2 * n + 1 + t) n)) by lia. rewrite rsum_zero.
      2:{ intros j Hj. rewrite xi_ent. rewrite (proj2 (Nat.eqb_neq j (2 * n + 1 + t))), (proj2 (Nat.eqb_neq (n + 1 + j) (2 * n + 1 + t))) by lia. ring. }
      rewrite (rsum_pick _ t T Ht).
      - rewrite entry_w by lia. rewrite (proj2 (Nat.ltb_ge (2 * n + 1 + t) n)), (proj2 (Nat.eqb_neq n (2 * n + 1 + t))), (proj2 (Nat.eqb_eq (2 * n + S t) (2 * n + 1 + t))) by lia. ring.
      - intros u Hu Hne. rewrite entry_w by lia. rewrite (proj2 (Nat.ltb_ge (2 * n + 1 + t) n)), (proj2 (Nat.eqb_neq n (2 * n + 1 + t))), (proj2 (Nat.eqb_neq (2 * n + S u) (2 * n + 1 + t))) by lia. ring.
    Qed.

    Lemma col_split z c : col_dot A z c = rsum (map (fun i => entry A i c * nth i z 0) (seq 0 n)) + entry A n c * nth n z 0
      + rsum (map (fun i => entry A (n + 1 + i) c * nth (n + 1 + i) z 0) (seq 0 n)) + rsum (map (fun t => entry A (2 * n + 1 + t) c * nth (2 * n + 1 + t) z 0) (seq 0 T)).
    Proof.
      unfold col_dot. change (c_rows A) with (2 * n + T + 1)%nat. replace (2 * n + T + 1)%nat with (n + 1 + n + T)%nat by lia.
      rewrite !rsum_split, rsum_one, Nat.add_0_r. f_equal. apply rsum_map_ext. intros t _. replace (n + 1 + n + t)%nat with (2 * n + 1 + t)%nat by lia. reflexivity.
    Qed.

    Lemma col_rho z : col_dot A z 0 = rsum (map (fun i => nth i z 0) (seq 0 n)).
    Proof.
      assert (E : forall r, entry A r 0 = if Nat.ltb r n then 1 else 0) by (intros; unfold A; rewrite entry_csc_of by (rewrite lp_cols_length; lia); rewrite nth_rho; apply rho_ent).
      rewrite col_split, E, (proj2 (Nat.ltb_ge n n)) by lia.
      rewrite (rsum_map_ext _ (fun i => nth i z 0)) by (intros i Hi; apply in_seq in Hi; rewrite E, (proj2 (Nat.ltb_lt i n)) by lia; ring).
      rewrite (rsum_zero (fun i => entry A (n + 1 + i) 0 * nth (n + 1 + i) z 0)) by (intros i Hi; rewrite E, (proj2 (Nat.ltb_ge _ n)) by lia; ring).
      rewrite (rsum_zero (fun t => entry A (2 * n + 1 + t) 0 * nth (2 * n + 1 + t) z 0)) by (intros i Hi; rewrite E, (proj2 (Nat.ltb_ge _ n)) by lia; ring). ring.
    Qed.

    Lemma col_xi z i : (i < n)%nat -> col_dot A z (1 + i) = - nth i z 0 - nth (n + 1 + i) z 0.
    Proof.
      intros Hi. assert (E : forall r, entry A r (1 + i) = (if Nat.eqb i r then -1 else 0) + (if Nat.eqb (n + 1 + i) r then -1 else 0)).
      { intros. unfold A. rewrite entry_csc_of by (rewrite lp_cols_length; lia). rewrite nth_xi by exact Hi. apply xi_ent. }
      rewrite col_split. rewrite E, (proj2 (Nat.eqb_neq i n)), (proj2 (Nat.eqb_neq (n + 1 + i) n)) by lia.
      rewrite (rsum_pick (fun j => entry A j (1 + i) * nth j z 0) i n Hi) by (intros j Hj Hne; rewrite E, (proj2 (Nat.eqb_neq i j)), (proj2 (Nat.eqb_neq (n + 1 + i) j)) by lia; ring).
      rewrite (rsum_pick (fun j => entry A (n + 1 + j) (1 + i) * nth (n + 1 + j) z 0) i n Hi) by (intros j Hj Hne; rewrite E, (proj2 (Nat.eqb_neq i (n + 1 + j))), (proj2 (Nat.eqb_neq (n + 1 + i) (n + 1 + j))) by lia; ring).
      rewrite rsum_zero by (intros t Ht; rewrite E, (proj2 (Nat.eqb_neq i (2 * n + 1 + t))), (proj2 (Nat.eqb_neq (n + 1 + i) (2 * n + 1 + t))) by lia; ring).
      rewrite !E, !Nat.eqb_refl, (proj2 (Nat.eqb_neq (n + 1 + i) i)), (proj2 (Nat.eqb_neq i (n + 1 + i))) by lia. ring.
    Qed.

    Lemma col_w z t : (t < T)%nat -> col_dot A z (1 + n + t) = - rsum (map (fun i => nth i z 0 * marg hs t i) (seq 0 n)) + nth n z 0 - nth (2 * n + 1 + t) z 0.
    Proof.
      intros Ht. rewrite col_split. rewrite (entry_w t n Ht), (proj2 (Nat.ltb_ge n n)), Nat.eqb_refl, (proj2 (Nat.eqb_neq (2 * n + S t) n)) by lia.
      rewrite (rsum_map_ext _ (fun i => -1 * (nth i z 0 * marg hs t i))).
      2:{ intros i Hi. apply in_seq in Hi. rewrite entry_w, (proj2 (Nat.ltb_lt i n)), (proj2 (Nat.eqb_neq n i)), (proj2 (Nat.eqb_neq (2 * n + S t) i)) by lia. ring. }
      rewrite rsum_map_mult. rewrite (rsum_zero (fun i => entry A (n + 1 + i) (1 + n + t) * nth (n + 1 + i) z 0)) by (intros i Hi; rewrite entry_w, (proj2 (Nat.ltb_ge (n + 1 + i) n)), (proj2 (Nat.eqb_neq n (n + 1 + i))), (proj2 (Nat.eqb_neq (2 * n + S t) (n + 1 + i))) by lia; ring).
      rewrite (rsum_pick (fun u => entry A (2 * n + 1 + u) (1 + n + t) * nth (2 * n + 1 + u) z 0) t T Ht)
        by (intros u Hu Hne; rewrite entry_w, (proj2 (Nat.ltb_ge (2 * n + 1 + u) n)), (proj2 (Nat.eqb_neq n (2 * n + 1 + u))), (proj2 (Nat.eqb_neq (2 * n + S t) (2 * n + 1 + u))) by lia; ring).
      rewrite (entry_w t (2 * n + 1 + t) Ht), (proj2 (Nat.ltb_ge (2 * n + 1 + t) n)), (proj2 (Nat.eqb_neq n (2 * n + 1 + t))), (proj2 (Nat.eqb_eq (2 * n + S t) (2 * n + 1 + t))) by lia. ring.
    Qed.

    (** ** the program in words *)
    Variable nu : R.
    Hypothesis Hnu : 1 <= nu.
    Let p := lp_conic nu hs.

    Lemma lp_q_length : length (k_q p) = (1 + n + T)%nat.
    Proof. simpl. rewrite app_length, !repeat_length. reflexivity. Qed.

    Lemma lp_b_length : length (k_b p) = (2 * n + T + 1)%nat.
    Proof. simpl k_b. rewrite upd_length, repeat_length. reflexivity. Qed.

    Lemma lp_b_nth r : (r < 2 * n + T + 1)%nat -> nth r (k_b p) 0 = if Nat.eqb r n then 1 else 0.
    Proof.
      intros Hr. simpl k_b. destruct (Nat.eqb_spec r n) as [->|E]; [apply upd_nth_same; rewrite repeat_length; fold T; lia|].
      rewrite upd_nth_other by congruence. apply nth_repeat_lt. fold T. lia.
    Qed.

    Lemma lp_sense r : (r < 2 * n + T + 1)%nat -> nth r (senses (k_cones p)) false = Nat.eqb r n.
    Proof.
      intros Hr. simpl senses. fold T. destruct (Nat.eqb_spec r n) as [->|E].
      - rewrite app_nth2, repeat_length, Nat.sub_diag by (rewrite repeat_length; lia). reflexivity.
      - destruct (Nat.lt_ge_cases r n) as [L|L]; [rewrite app_nth1 by (rewrite repeat_length; exact L); apply nth_repeat_lt, L|].
        rewrite app_nth2, repeat_length by (rewrite repeat_length; exact L). destruct (r - n)%nat as [|k] eqn:Ek; [lia|]. cbn [nth].
        destruct (Nat.lt_ge_cases k n) as [L'|L']; [rewrite app_nth1 by (rewrite repeat_length; exact L'); apply nth_repeat_lt, L'|].
        rewrite app_nth2, repeat_length by (rewrite repeat_length; exact L'). rewrite app_nil_r. apply nth_repeat_lt. lia.
    Qed.

    Lemma lp_slack x r : slack p x r = nth r (k_b p) 0 - row_dot A x r.
    Proof. reflexivity. Qed.

    Lemma lp_feasible x : feasible p x <-> length x = (1 + n + T)%nat /\
      (forall i, (i < n)%nat -> nth 0 x 0 - nth (1 + i) x 0 <= rsum (map (fun t => nth (1 + n + t) x 0 * marg hs t i) (seq 0 T))) /\
      rsum (map (fun t => nth (1 + n + t) x 0) (seq 0 T)) = 1 /\
      (forall i, (i < n)%nat -> 0 <= nth (1 + i) x 0) /\ (forall t, (t < T)%nat -> 0 <= nth (1 + n + t) x 0).
    Proof.
      unfold feasible. rewrite lp_q_length, lp_b_length. split; intros [L F]; split; try exact L.
      - assert (F' : forall r, (r < 2 * n + T + 1)%nat -> if Nat.eqb r n then slack p x r = 0 else 0 <= slack p x r) by (intros r Hr; specialize (F r Hr); rewrite lp_sense in F by exact Hr; exact F).
        clear F. repeat split.
        + intros i Hi. specialize (F' i ltac:(lia)). rewrite lp_slack, lp_b_nth, row_margin in F' by lia. rewrite (proj2 (Nat.eqb_neq i n)) in F' by lia. lra.
        + specialize (F' n ltac:(lia)). rewrite lp_slack, lp_b_nth, row_sum, Nat.eqb_refl in F' by lia. lra.
        + intros i Hi. specialize (F' (n + 1 + i)%nat ltac:(lia)). rewrite lp_slack, lp_b_nth, row_xi in F' by lia. rewrite (proj2 (Nat.eqb_neq (n + 1 + i) n)) in F' by lia. lra.
        + intros t Ht. specialize (F' (2 * n + 1 + t)%nat ltac:(lia)). rewrite lp_slack, lp_b_nth, row_w in F' by lia. rewrite (proj2 (Nat.eqb_neq (2 * n + 1 + t) n)) in F' by lia. lra.
      - destruct F as [F1 [F2 [F3 F4]]]. intros r Hr. rewrite lp_sense by exact Hr. rewrite lp_slack, lp_b_nth by exact Hr.
        destruct (Nat.eqb_spec r n) as [->|E]; [rewrite row_sum, F2; ring|].
        destruct (Nat.lt_ge_cases r n) as [L1|L1]; [specialize (F1 r L1); rewrite row_margin by exact L1; lra|].
        destruct (Nat.lt_ge_cases r (2 * n + 1)) as [L2|L2].
        + specialize (F3 (r - n - 1)%nat ltac:(lia)). replace r with (n + 1 + (r - n - 1))%nat by lia. rewrite row_xi by lia. lra.
        + specialize (F4 (r - 2 * n - 1)%nat ltac:(lia)). replace r with (2 * n + 1 + (r - 2 * n - 1))%nat by lia. rewrite row_w by lia. lra.
    Qed.

    Lemma lp_q_nth_xi i : (i < n)%nat -> nth (1 + i) (k_q p) 0 = nu.
    Proof.
      intros Hi. unfold p, lp_conic. cbn [k_q nth Nat.add]. rewrite app_nth1 by (rewrite repeat_length; exact Hi). rewrite nth_repeat_lt by exact Hi. field. lra.
    Qed.

    Lemma lp_q_nth_w t : (t < T)%nat -> nth (1 + n + t) (k_q p) 0 = 0.
    Proof.
      intros Ht. unfold p, lp_conic. cbn [k_q nth Nat.add]. rewrite app_nth2 by (rewrite repeat_length; lia). rewrite repeat_length. apply nth_repeat_lt. fold T. lia.
    Qed.

    Lemma lp_objective x : objective p x = - nth 0 x 0 + nu * rsum (map (fun i => nth (1 + i) x 0) (seq 0 n)).
    Proof.
      unfold objective. rewrite lp_q_length. rewrite rsum_zero by (intros; simpl k_P; rewrite row_dot_zeros; ring).
      rewrite !rsum_split, rsum_one. rewrite (rsum_map_ext _ (fun i => nu * nth (1 + i) x 0)) by (intros i Hi; apply in_seq in Hi; rewrite lp_q_nth_xi by lia; reflexivity).
      rewrite rsum_map_mult. rewrite (rsum_zero (fun t => nth (1 + n + t) (k_q p) 0 * nth (1 + n + t) x 0)) by (intros t Ht; rewrite lp_q_nth_w by lia; ring). simpl (nth 0 (k_q p) 0). field.
    Qed.

    Lemma edge_marg d t h : length d = n -> nth_error hs t = Some h -> edge_of y d (conf h) = rsum (map (fun i => nth i d 0 * marg hs t i) (seq 0 n)).
    Proof. intros L E. unfold edge_of. apply rsum_map_ext. intros i Hi. apply in_seq in Hi. rewrite (marg_nth hs t h i E) by (unfold n; lia). reflexivity. Qed.

    Lemma vote_marg ws i : length ws = T -> (i < n)%nat -> nth i y 0 * vote conf (combine ws hs) i = rsum (map (fun t => nth t ws 0 * marg hs t i) (seq 0 T)).
    Proof. apply vote_marg0. Qed.

    Lemma edge_vote_sum c ws : length ws = T -> edge_of y c (vote conf (combine ws hs)) = rsum (map (fun t => nth t ws 0 * rsum (map (fun i => nth i c 0 * marg hs t i) (seq 0 n))) (seq 0 T)).
    Proof.
      intros L. unfold edge_of. fold n. rewrite (rsum_map_ext _ (fun i => rsum (map (fun t => nth i c 0 * (nth t ws 0 * marg hs t i)) (seq 0 T)))).
      - rewrite rsum_swap_seq. apply rsum_map_ext. intros t _. rewrite <- rsum_map_mult. apply rsum_map_ext. intros; ring.
      - intros i Hi. apply in_seq in Hi. rewrite (vote_marg ws i L) by lia. rewrite rsum_map_mult. reflexivity.
    Qed.

    (** what an optimal pair says *)
    Lemma lp_solved a : solves p a -> let ws := skipn (1 + n) (a_x a) in let d := firstn n (a_z a) in
      (1 + n <= length (a_x a))%nat /\ (n <= length (a_z a))%nat /\
      length ws = T /\ is_dist ws /\ length d = n /\ is_dist d /\
      (forall h, In h hs -> edge_of y d (conf h) <= - a_obj a) /\ edge_of y d (vote conf (combine ws hs)) = - a_obj a /\
      (forall i, (i < n)%nat -> - a_obj a <= nth i y 0 * vote conf (combine ws hs) i).
    Proof.
      intros [[F [Lz [Zp [Cs St]]]] [Eo _]] ws d. rewrite lp_objective in Eo. rewrite lp_b_length in *. rewrite lp_q_length in St.
      apply lp_feasible in F. destruct F as [Lx [F1 [F2 [F3 F4]]]]. set (x := a_x a) in *. set (z := a_z a) in *.
      assert (St' : forall c, (c < 1 + n + T)%nat -> nth c (k_q p) 0 + col_dot A z c = 0) by (intros c Hc; specialize (St c Hc); simpl k_P in St; rewrite row_dot_zeros in St; fold A in St; change (k_A p) with A in St; lra).
      assert (Lw : length ws = T) by (unfold ws; rewrite skipn_length, Lx; lia).
      assert (Ld : length d = n) by (unfold d; rewrite firstn_length, Lz; lia).
      assert (Nw : forall t, nth t ws 0 = nth (1 + n + t) x 0) by (intros; apply nth_skipn_add).
      assert (Nd : forall i, (i < n)%nat -> nth i d 0 = nth i z 0) by (intros; apply nth_firstn_lt; assumption).
      assert (Zi : forall i, (i < n)%nat -> 0 <= nth i z 0) by (intros i Hi; apply Zp; [lia|rewrite lp_sense by lia; apply Nat.eqb_neq; lia]).
      assert (Zx : forall i, (i < n)%nat -> 0 <= nth (n + 1 + i) z 0) by (intros i Hi; apply Zp; [lia|rewrite lp_sense by lia; apply Nat.eqb_neq; lia]).
      assert (Zw : forall t, (t < T)%nat -> 0 <= nth (2 * n + 1 + t) z 0) by (intros i Hi; apply Zp; [lia|rewrite lp_sense by lia; apply Nat.eqb_neq; lia]).
      assert (Dw : is_dist ws).
      { apply is_dist_nth; rewrite Lw; [intros t Ht; rewrite Nw; apply F4, Ht|]. rewrite (rsum_map_ext _ (fun t => nth (1 + n + t) x 0)) by (intros; apply Nw). exact F2. }
      assert (Dd : is_dist d).
      { apply is_dist_nth; rewrite Ld; [intros t Ht; rewrite Nd by exact Ht; apply Zi, Ht|].
        rewrite (rsum_map_ext _ (fun t => nth t z 0)) by (intros i Hi; apply in_seq in Hi; apply Nd; lia). specialize (St' 0%nat ltac:(lia)). rewrite col_rho in St'. simpl (nth 0 (k_q p) 0) in St'. lra. }
      set (E := fun t => rsum (map (fun i => nth i d 0 * marg hs t i) (seq 0 n))).
      assert (Et : forall t, (t < T)%nat -> E t = nth n z 0 - nth (2 * n + 1 + t) z 0).
      { intros t Ht. specialize (St' (1 + n + t)%nat ltac:(lia)). rewrite lp_q_nth_w, col_w in St' by exact Ht. unfold E.
        rewrite (rsum_map_ext _ (fun i => nth i z 0 * marg hs t i)) by (intros i Hi; apply in_seq in Hi; rewrite Nd by lia; reflexivity). lra. }
      assert (Cw : forall t, (t < T)%nat -> nth t ws 0 * nth (2 * n + 1 + t) z 0 = 0).
      { intros t Ht. specialize (Cs (2 * n + 1 + t)%nat ltac:(lia)). rewrite lp_slack, lp_b_nth, row_w in Cs by lia. rewrite (proj2 (Nat.eqb_neq (2 * n + 1 + t) n)) in Cs by lia. rewrite Nw. lra. }
      assert (Cx : forall i, (i < n)%nat -> nth i d 0 * nth (1 + i) x 0 = nu * nth (1 + i) x 0).
      { intros i Hi. specialize (Cs (n + 1 + i)%nat ltac:(lia)). rewrite lp_slack, lp_b_nth, row_xi in Cs by lia. rewrite (proj2 (Nat.eqb_neq (n + 1 + i) n)) in Cs by lia.
        specialize (St' (1 + i)%nat ltac:(lia)). rewrite lp_q_nth_xi, col_xi in St' by exact Hi. rewrite Nd by exact Hi. replace (nth i z 0) with (nu - nth (n + 1 + i) z 0) by lra. nra. }
      assert (Ew : edge_of y d (vote conf (combine ws hs)) = nth n z 0).
      { rewrite (edge_vote_sum d ws Lw). rewrite (rsum_map_ext _ (fun t => nth n z 0 * nth t ws 0)).
        - rewrite rsum_map_mult. apply (nth_is_dist ws) in Dw. rewrite Lw in Dw. destruct Dw as [_ Dw]. rewrite Dw. ring.
        - intros t Ht. apply in_seq in Ht. fold (E t). rewrite Et by lia. specialize (Cw t ltac:(lia)). nra. }
      assert (Er : nth 0 x 0 - nu * rsum (map (fun i => nth (1 + i) x 0) (seq 0 n)) = nth n z 0).
      { rewrite <- Ew. unfold edge_of. fold n. symmetry. transitivity (rsum (map (fun i => nth 0 x 0 * nth i d 0 - nu * nth (1 + i) x 0) (seq 0 n))); [apply rsum_map_ext|].
        2:{ rewrite rsum_map_minus, !rsum_map_mult. apply (nth_is_dist d) in Dd. rewrite Ld in Dd. destruct Dd as [_ Dd]. rewrite Dd. ring. }
        intros i Hi. apply in_seq in Hi. rewrite (vote_marg ws i Lw) by lia. specialize (Cs i ltac:(lia)). rewrite lp_slack, lp_b_nth, row_margin in Cs by lia.
          rewrite (proj2 (Nat.eqb_neq i n)) in Cs by lia. specialize (Cx i ltac:(lia)). rewrite (rsum_map_ext _ (fun t => nth (1 + n + t) x 0 * marg hs t i)) by (intros; rewrite Nw; reflexivity).
          rewrite Nd in * by lia. nra. }
      assert (Go : - a_obj a = nth n z 0) by lra. rewrite Go.
      split; [lia|]. split; [lia|]. split; [exact Lw|]. split; [exact Dw|]. split; [exact Ld|]. split; [exact Dd|]. split; [|split; [exact Ew|]].
      - intros h Hh. apply In_nth_error in Hh. destruct Hh as [t Ht]. assert (t < T)%nat by (apply nth_error_Some; congruence).
        rewrite (edge_marg d t h Ld Ht). fold (E t). rewrite Et by assumption. specialize (Zw t ltac:(lia)). lra.
      - intros i Hi. rewrite (vote_marg ws i Lw Hi). rewrite (rsum_map_ext _ (fun t => nth (1 + n + t) x 0 * marg hs t i)) by (intros; rewrite Nw; reflexivity).
        specialize (F1 i Hi). assert (nth (1 + i) x 0 <= rsum (map (fun i => nth (1 + i) x 0) (seq 0 n))).
        { apply rsum_in_le; [intros v Hv; apply in_map_iff in Hv; destruct Hv as [j [<- Hj]]; apply in_seq in Hj; apply F3; lia|]. apply in_map_iff. exists i. split; [reflexivity|apply in_seq; lia]. }
        pose proof (F3 i Hi). nra.
    Qed.

    (** conversely: a way to show that an answer is optimal *)
    Lemma lp_solves_intro x z : length x = (1 + n + T)%nat -> length z = (2 * n + T + 1)%nat ->
      (forall i, (i < n)%nat -> nth 0 x 0 - nth (1 + i) x 0 <= rsum (map (fun t => nth (1 + n + t) x 0 * marg hs t i) (seq 0 T))) ->
      rsum (map (fun t => nth (1 + n + t) x 0) (seq 0 T)) = 1 ->
      (forall i, (i < n)%nat -> 0 <= nth (1 + i) x 0) -> (forall t, (t < T)%nat -> 0 <= nth (1 + n + t) x 0) ->
      (forall i, (i < n)%nat -> 0 <= nth i z 0 /\ 0 <= nth (n + 1 + i) z 0) -> (forall t, (t < T)%nat -> 0 <= nth (2 * n + 1 + t) z 0) ->
      (forall i, (i < n)%nat -> nth i z 0 * (rsum (map (fun t => nth (1 + n + t) x 0 * marg hs t i) (seq 0 T)) - nth 0 x 0 + nth (1 + i) x 0) = 0 /\ nth (n + 1 + i) z 0 * nth (1 + i) x 0 = 0) ->
      (forall t, (t < T)%nat -> nth (2 * n + 1 + t) z 0 * nth (1 + n + t) x 0 = 0) ->
      rsum (map (fun i => nth i z 0) (seq 0 n)) = 1 -> (forall i, (i < n)%nat -> nu = nth i z 0 + nth (n + 1 + i) z 0) ->
      (forall t, (t < T)%nat -> nth n z 0 = rsum (map (fun i => nth i z 0 * marg hs t i) (seq 0 n)) + nth (2 * n + 1 + t) z 0) ->
      solves p (mkAnswer x z (- nth 0 x 0 + nu * rsum (map (fun i => nth (1 + i) x 0) (seq 0 n))) Solved).
    Proof.
      intros Lx Lz F1 F2 F3 F4 Z1 Z2 C1 C2 S0 S1 S2. assert (F : feasible p x) by (apply lp_feasible; auto).
      split; [|split; [symmetry; apply lp_objective|reflexivity]]. cbn [a_x a_z]. split; [exact F|]. rewrite lp_b_length, lp_q_length. split; [exact Lz|]. split; [|split].
      - intros r Hr Es. rewrite lp_sense in Es by exact Hr. apply Nat.eqb_neq in Es.
        destruct (Nat.lt_ge_cases r n) as [L1|L1]; [apply Z1, L1|]. destruct (Nat.lt_ge_cases r (2 * n + 1)) as [L2|L2].
        + replace r with (n + 1 + (r - n - 1))%nat by lia. apply Z1. lia.
        + replace r with (2 * n + 1 + (r - 2 * n - 1))%nat by lia. apply Z2. lia.
      - intros r Hr. rewrite lp_slack, lp_b_nth by exact Hr. destruct (Nat.eqb_spec r n) as [->|E]; [rewrite row_sum, F2; ring|].
        destruct (Nat.lt_ge_cases r n) as [L1|L1]; [rewrite row_margin by exact L1; destruct (C1 r L1) as [C _]; etransitivity; [|exact C]; ring|]. destruct (Nat.lt_ge_cases r (2 * n + 1)) as [L2|L2].
        + replace r with (n + 1 + (r - n - 1))%nat by lia. rewrite row_xi by lia. destruct (C1 (r - n - 1)%nat ltac:(lia)) as [_ C]. etransitivity; [|exact C]; ring.
        + replace r with (2 * n + 1 + (r - 2 * n - 1))%nat by lia. rewrite row_w by lia. specialize (C2 (r - 2 * n - 1)%nat ltac:(lia)). etransitivity; [|exact C2]; ring.
      - intros c Hc. simpl k_P. rewrite row_dot_zeros. change (k_A p) with A.
        destruct c as [|c]; [rewrite col_rho, S0; simpl; ring|]. destruct (Nat.lt_ge_cases c n) as [L|L].
        + change (S c) with (1 + c)%nat. rewrite lp_q_nth_xi, col_xi by exact L. specialize (S1 c L). lra.
        + replace (S c) with (1 + n + (c - n))%nat by lia. rewrite lp_q_nth_w, col_w by lia. specialize (S2 (c - n)%nat ltac:(lia)). lra.
    Qed.
  End Prob.
End LP.
