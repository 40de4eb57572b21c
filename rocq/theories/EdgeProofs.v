(** The edge minimisation programs: rows, columns, feasible points, optimality. *)
From Verif Require Import Base Spec RegSpec LPSpec Utils UtilsProofs WMajority Booster AdaBoost AdaBoostProofs AdaBoostMain
  FrankWolfeProofs CERLPProofs Csc ConicSpec CscProofs LPBoost LPBoostProofs EdgeLP.
Open Scope R_scope.

(** ** an answer that satisfies the KKT conditions is optimal if the quadratic part is convex *)
Definition convex_quad (p : conic) : Prop := forall x x',
  rsum (map (fun c => row_dot (k_P p) x c * (nth c x' 0 - nth c x 0)) (seq 0 (length (k_q p)))) +
  rsum (map (fun c => row_dot (k_P p) x c * nth c x 0) (seq 0 (length (k_q p)))) / 2
  <= rsum (map (fun c => row_dot (k_P p) x' c * nth c x' 0) (seq 0 (length (k_q p)))) / 2.

Lemma kkt_optimal p x z : c_rows (k_A p) = length (k_b p) -> c_cols (k_A p) = length (k_q p) -> convex_quad p ->
  kkt p x z -> forall x', feasible p x' -> objective p x <= objective p x'.
Proof.
  intros Er Ec Hc [F [Lz [Zp [Cs St]]]] x' F'. set (N := length (k_q p)) in *. set (M := length (k_b p)) in *.
  assert (D : rsum (map (fun c => (row_dot (k_P p) x c + nth c (k_q p) 0) * (nth c x' 0 - nth c x 0)) (seq 0 N)) = rsum (map (fun r => nth r z 0 * slack p x' r) (seq 0 M))).
  { rewrite (rsum_map_ext _ (fun c => -1 * (col_dot (k_A p) z c * nth c x' 0 - col_dot (k_A p) z c * nth c x 0))) by (intros c Hi; apply in_seq in Hi; specialize (St c ltac:(unfold N in *; lia)); replace (row_dot (k_P p) x c + nth c (k_q p) 0) with (- col_dot (k_A p) z c) by lra; ring).
    rewrite rsum_map_mult, rsum_map_minus. rewrite <- Ec, <- !adjoint, Er.
    rewrite <- rsum_map_minus, <- rsum_map_mult. apply rsum_map_ext. intros r Hr. apply in_seq in Hr. specialize (Cs r ltac:(unfold M in *; lia)). unfold slack in *. lra. }
  assert (D0 : 0 <= rsum (map (fun r => nth r z 0 * slack p x' r) (seq 0 M))).
  { apply rsum_nonneg_seq. intros r Hr. destruct F' as [_ F']. specialize (F' r Hr). specialize (Zp r Hr). destruct (nth r (senses (k_cones p)) false); [rewrite F'; lra|]. specialize (Zp eq_refl). nra. }
  rewrite <- D in D0. specialize (Hc x x'). unfold objective. fold N in Hc |- *.
  rewrite (rsum_map_ext _ (fun c => row_dot (k_P p) x c * (nth c x' 0 - nth c x 0) + (nth c (k_q p) 0 * nth c x' 0 - nth c (k_q p) 0 * nth c x 0))) in D0 by (intros; ring).
  rewrite rsum_map_plus, rsum_map_minus in D0. lra.
Qed.

Lemma convex_zeros N q A b cs : convex_quad (mkConic (csc_zeros N N) q A b cs).
Proof.
  intros x x'. cbn [k_P k_q]. rewrite !(rsum_zero (fun c => row_dot (csc_zeros N N) _ c * _)) by (intros; rewrite row_dot_zeros; ring). lra.
Qed.

(** the number of columns before those of the examples *)
Definition offs (lead : bool) : nat := if lead then 1%nat else 0%nat.

Section Edge.
  Context {H : Type}.
  Variable conf : H -> nat -> R.
  Variable y : list R.
  Let n := length y.

  (** the margins of example i, one per hypothesis *)
  Definition erow (hs : list H) (i : nat) : list R := map (fun t => marg conf y hs t i) (seq 0 (length hs)).
  Definition erows (hs : list H) : list (list R) := map (erow hs) (seq 0 n).

  Lemma erow_nth hs i t : (t < length hs)%nat -> nth t (erow hs i) 0 = marg conf y hs t i.
  Proof. intros Ht. unfold erow. apply (nth_map_seq (fun t => marg conf y hs t i)). exact Ht. Qed.

  Lemma erow_length hs i : length (erow hs i) = length hs.
  Proof. unfold erow. rewrite map_length, seq_length. reflexivity. Qed.

  Lemma erows_length hs : length (erows hs) = n.
  Proof. unfold erows. rewrite map_length, seq_length. reflexivity. Qed.

  Lemma erows_nil : erows [] = repeat [] n.
  Proof. unfold erows, erow. cbn [length seq map]. generalize 0%nat. induction n as [|k IH]; intros a; simpl; [reflexivity|]. rewrite IH. reflexivity. Qed.

  Lemma zip_push_map (f : nat -> list R) (g : nat -> R) l : zip_push (map f l) (map g l) = map (fun i => f i ++ [g i]) l.
  Proof. induction l as [|a l IH]; simpl; [reflexivity|]. rewrite IH. reflexivity. Qed.

  Lemma erows_push hs h : zip_push (erows hs) (margins_of_hypothesis conf y h) = erows (hs ++ [h]).
  Proof.
    rewrite margins_of_hypothesis_spec. unfold margins_of. unfold erows. fold n. rewrite zip_push_map. apply map_ext_in. intros i Hi. apply in_seq in Hi.
    unfold erow. rewrite app_length, seq_app, map_app. cbn [length seq map Nat.add]. f_equal.
    - apply map_ext_in. intros t Ht. apply in_seq in Ht. destruct (nth_error hs t) as [k|] eqn:E; [|apply nth_error_None in E; lia].
      rewrite !(marg_nth conf y _ t k i); try (fold n; lia); try exact E; [reflexivity|]. rewrite nth_error_app1 by lia. exact E.
    - rewrite (marg_nth conf y (hs ++ [h]) (length hs) h i); [reflexivity| |fold n; lia]. rewrite nth_error_app2, Nat.sub_diag by lia. reflexivity.
  Qed.

  Section Cols.
    Variable lead : bool.
    Variable coef : R.
    Variable hs : list H.
    Let T := length hs.
    Notation off := (offs lead).

    Definition gam_col : column := range_col (1 + 2 * n) (repeat (-1) T).
    Definition ex_col (i : nat) : column := (0%nat, 1) :: (S i, -1) :: ((n + S i)%nat, coef) :: range_col (1 + 2 * n) (erow hs i).
    Definition edge_cols : list column := (if lead then [gam_col] else []) ++ map ex_col (seq 0 n).

    Lemma edge_cols_length : length edge_cols = (off + n)%nat.
    Proof. unfold edge_cols, offs. rewrite app_length, map_length, seq_length. destruct lead; reflexivity. Qed.

    Lemma fold_examples cols : fold_left (push_example n coef) (combine (seq 1 n) (erows hs)) (bld_of cols) = bld_of (cols ++ map ex_col (seq 0 n)).
    Proof.
      assert (E : combine (seq 1 n) (erows hs) = map (fun i => (S i, erow hs i)) (seq 0 n)).
      { unfold erows. rewrite <- seq_shift. generalize (seq 0 n) as l. induction l as [|a l IH]; simpl; [reflexivity|]. rewrite IH. reflexivity. }
      rewrite E. rewrite <- fold_columns. generalize (bld_of cols) as b. generalize (seq 0 n) as l. induction l as [|i l IH]; intros b; [reflexivity|].
      cbn [map fold_left]. rewrite IH. f_equal.
    Qed.

    Let A := csc_of (1 + 2 * n + T) edge_cols.

    Lemma ex_col_ent i r : colent (ex_col i) r = (if Nat.eqb 0 r then 1 else 0) + (if Nat.eqb (S i) r then -1 else 0) + (if Nat.eqb (n + S i) r then coef else 0)
      + (if andb (Nat.leb (1 + 2 * n) r) (Nat.ltb r (1 + 2 * n + T)) then marg conf y hs (r - (1 + 2 * n)) i else 0).
    Proof.
      unfold ex_col. rewrite !colent_cons, colent_range, erow_length. cbn [fst snd]. fold T.
      destruct (Nat.leb_spec (1 + 2 * n) r), (Nat.ltb_spec r (1 + 2 * n + T)); cbn [andb]; try ring. rewrite erow_nth by (fold T; lia). ring.
    Qed.

    Lemma gam_col_ent r : colent gam_col r = if andb (Nat.leb (1 + 2 * n) r) (Nat.ltb r (1 + 2 * n + T)) then -1 else 0.
    Proof.
      unfold gam_col. rewrite colent_range, repeat_length. destruct (Nat.leb_spec (1 + 2 * n) r), (Nat.ltb_spec r (1 + 2 * n + T)); cbn [andb]; try reflexivity. apply nth_repeat_lt. lia.
    Qed.

    Lemma entry_ex r i : (i < n)%nat -> entry A r (off + i) = colent (ex_col i) r.
    Proof.
      intros Hi. unfold A. rewrite entry_csc_of by (rewrite edge_cols_length; lia). unfold edge_cols, offs. f_equal.
      destruct lead; cbn [app nth Nat.add]; apply nth_map_seq; exact Hi.
    Qed.

    Lemma entry_gam r : lead = true -> entry A r 0 = colent gam_col r.
    Proof. intros E. unfold A. rewrite entry_csc_of by (rewrite edge_cols_length; unfold offs; rewrite E; lia). unfold edge_cols. rewrite E. reflexivity. Qed.

    (** the value of gamma in a point *)
    Definition gof (x : list R) : R := if lead then nth 0 x 0 else 0.

    Lemma edge_row x r : row_dot A x r = (if andb (Nat.leb (1 + 2 * n) r) (Nat.ltb r (1 + 2 * n + T)) then - gof x else 0) +
      rsum (map (fun i => colent (ex_col i) r * nth (off + i) x 0) (seq 0 n)).
    Proof.
      unfold row_dot. change (c_cols A) with (length edge_cols). rewrite edge_cols_length. rewrite rsum_split. f_equal.
      - unfold gof, offs. pose proof (entry_gam r) as E. destruct lead; [|cbn; destruct (andb _ _); ring]. rewrite rsum_one, E, gam_col_ent by reflexivity. destruct (andb _ _); ring.
      - apply rsum_map_ext. intros i Hi. apply in_seq in Hi. rewrite entry_ex by lia. reflexivity.
    Qed.

    Lemma row_total x : row_dot A x 0 = rsum (map (fun i => nth (off + i) x 0) (seq 0 n)).
    Proof.
      rewrite edge_row. cbn [Nat.leb Nat.add andb]. rewrite Rplus_0_l. apply rsum_map_ext. intros i Hi. rewrite ex_col_ent. cbn [Nat.eqb Nat.leb Nat.add andb].
      rewrite (proj2 (Nat.eqb_neq (n + S i) 0)) by lia. ring.
    Qed.

    Lemma row_pos x i : (i < n)%nat -> row_dot A x (S i) = - nth (off + i) x 0.
    Proof.
      intros Hi. rewrite edge_row. rewrite (proj2 (Nat.leb_gt (1 + 2 * n) (S i))) by lia. cbn [andb]. rewrite (rsum_pick _ i n Hi).
      - rewrite ex_col_ent, Nat.eqb_refl. cbn [Nat.eqb]. rewrite (proj2 (Nat.eqb_neq (n + S i) (S i))), (proj2 (Nat.leb_gt (1 + 2 * n) (S i))) by lia. cbn [andb]. ring.
      - intros j Hj Hne. rewrite ex_col_ent. rewrite (proj2 (Nat.eqb_neq 0 (S i))), (proj2 (Nat.eqb_neq (S j) (S i))), (proj2 (Nat.eqb_neq (n + S j) (S i))), (proj2 (Nat.leb_gt (1 + 2 * n) (S i))) by lia. cbn [andb]. ring.
    Qed.

    Lemma row_cap x i : (i < n)%nat -> row_dot A x (n + S i) = coef * nth (off + i) x 0.
    Proof.
      intros Hi. rewrite edge_row. rewrite (proj2 (Nat.leb_gt (1 + 2 * n) (n + S i))) by lia. cbn [andb]. rewrite (rsum_pick _ i n Hi).
      - rewrite ex_col_ent, Nat.eqb_refl. rewrite (proj2 (Nat.eqb_neq 0 (n + S i))), (proj2 (Nat.eqb_neq (S i) (n + S i))), (proj2 (Nat.leb_gt (1 + 2 * n) (n + S i))) by lia. cbn [andb]. ring.
      - intros j Hj Hne. rewrite ex_col_ent. rewrite (proj2 (Nat.eqb_neq 0 (n + S i))), (proj2 (Nat.eqb_neq (S j) (n + S i))), (proj2 (Nat.eqb_neq (n + S j) (n + S i))), (proj2 (Nat.leb_gt (1 + 2 * n) (n + S i))) by lia. cbn [andb]. ring.
    Qed.

    Lemma row_edge x t : (t < T)%nat -> row_dot A x (1 + 2 * n + t) = rsum (map (fun i => nth (off + i) x 0 * marg conf y hs t i) (seq 0 n)) - gof x.
    Proof.
      intros Ht. rewrite edge_row. rewrite (proj2 (Nat.leb_le (1 + 2 * n) (1 + 2 * n + t))), (proj2 (Nat.ltb_lt (1 + 2 * n + t) (1 + 2 * n + T))) by lia. cbn [andb].
      rewrite (rsum_map_ext _ (fun i => nth (off + i) x 0 * marg conf y hs t i)); [ring|]. intros i Hi. apply in_seq in Hi. rewrite ex_col_ent.
      rewrite (proj2 (Nat.eqb_neq 0 (1 + 2 * n + t))), (proj2 (Nat.eqb_neq (S i) (1 + 2 * n + t))), (proj2 (Nat.eqb_neq (n + S i) (1 + 2 * n + t))) by lia.
      rewrite (proj2 (Nat.leb_le (1 + 2 * n) (1 + 2 * n + t))), (proj2 (Nat.ltb_lt (1 + 2 * n + t) (1 + 2 * n + T))) by lia. cbn [andb].
      replace (1 + 2 * n + t - (1 + 2 * n))%nat with t by lia. ring.
    Qed.

    Lemma edge_col_split z c : col_dot A z c = entry A 0 c * nth 0 z 0 + rsum (map (fun i => entry A (S i) c * nth (S i) z 0) (seq 0 n))
      + rsum (map (fun i => entry A (n + S i) c * nth (n + S i) z 0) (seq 0 n)) + rsum (map (fun t => entry A (1 + 2 * n + t) c * nth (1 + 2 * n + t) z 0) (seq 0 T)).
    Proof.
      unfold col_dot. change (c_rows A) with (1 + 2 * n + T)%nat. replace (1 + 2 * n + T)%nat with (1 + n + n + T)%nat by lia.
      rewrite !rsum_split, rsum_one. f_equal; [f_equal|]; apply rsum_map_ext; intros t _.
      - replace (1 + n + t)%nat with (n + S t)%nat by lia. reflexivity.
      - replace (1 + n + n + t)%nat with (1 + 2 * n + t)%nat by lia. reflexivity.
    Qed.

    Lemma col_gam z : lead = true -> col_dot A z 0 = - rsum (map (fun t => nth (1 + 2 * n + t) z 0) (seq 0 T)).
    Proof.
      intros El. assert (E : forall r, entry A r 0 = if andb (Nat.leb (1 + 2 * n) r) (Nat.ltb r (1 + 2 * n + T)) then -1 else 0) by (intros; rewrite (entry_gam _ El); apply gam_col_ent).
      assert (Z : forall r, (r < 1 + 2 * n)%nat -> entry A r 0 = 0) by (intros r Hr; rewrite E, (proj2 (Nat.leb_gt (1 + 2 * n) r)) by exact Hr; reflexivity).
      rewrite edge_col_split. rewrite (Z 0%nat) by lia.
      rewrite (rsum_zero (fun i => entry A (S i) 0 * nth (S i) z 0)) by (intros i Hi; rewrite Z by lia; ring).
      rewrite (rsum_zero (fun i => entry A (n + S i) 0 * nth (n + S i) z 0)) by (intros i Hi; rewrite Z by lia; ring).
      rewrite (rsum_map_ext _ (fun t => -1 * nth (1 + 2 * n + t) z 0)); [rewrite rsum_map_mult; ring|].
      intros t Ht. apply in_seq in Ht. rewrite E, (proj2 (Nat.leb_le (1 + 2 * n) (1 + 2 * n + t))), (proj2 (Nat.ltb_lt (1 + 2 * n + t) (1 + 2 * n + T))) by lia. reflexivity.
    Qed.

    Lemma col_ex z i : (i < n)%nat -> col_dot A z (off + i) = nth 0 z 0 - nth (S i) z 0 + coef * nth (n + S i) z 0 + rsum (map (fun t => nth (1 + 2 * n + t) z 0 * marg conf y hs t i) (seq 0 T)).
    Proof.
      intros Hi. rewrite edge_col_split. rewrite (rsum_map_ext (fun j => entry A (S j) (off + i) * _) (fun j => colent (ex_col i) (S j) * nth (S j) z 0)) by (intros; rewrite entry_ex by exact Hi; reflexivity).
      rewrite (rsum_map_ext (fun j => entry A (n + S j) (off + i) * _) (fun j => colent (ex_col i) (n + S j) * nth (n + S j) z 0)) by (intros; rewrite entry_ex by exact Hi; reflexivity).
      rewrite (rsum_map_ext (fun t => entry A (1 + 2 * n + t) (off + i) * _) (fun t => nth (1 + 2 * n + t) z 0 * marg conf y hs t i)).
      2:{ intros t Ht. apply in_seq in Ht. rewrite entry_ex by exact Hi. rewrite ex_col_ent.
          rewrite (proj2 (Nat.eqb_neq 0 (1 + 2 * n + t))), (proj2 (Nat.eqb_neq (S i) (1 + 2 * n + t))), (proj2 (Nat.eqb_neq (n + S i) (1 + 2 * n + t))) by lia.
          rewrite (proj2 (Nat.leb_le (1 + 2 * n) (1 + 2 * n + t))), (proj2 (Nat.ltb_lt (1 + 2 * n + t) (1 + 2 * n + T))) by lia. cbn [andb].
          replace (1 + 2 * n + t - (1 + 2 * n))%nat with t by lia. ring. }
      rewrite entry_ex by exact Hi. assert (E0 : colent (ex_col i) 0 = 1) by (rewrite (ex_col_ent i 0), (proj2 (Nat.eqb_neq (n + S i) 0)) by lia; cbn [Nat.eqb Nat.leb Nat.add andb]; ring). rewrite E0.
      rewrite (rsum_pick (fun j => colent (ex_col i) (S j) * nth (S j) z 0) i n Hi).
      2:{ intros j Hj Hne. rewrite ex_col_ent. rewrite (proj2 (Nat.eqb_neq 0 (S j))), (proj2 (Nat.eqb_neq (S i) (S j))), (proj2 (Nat.eqb_neq (n + S i) (S j))), (proj2 (Nat.leb_gt (1 + 2 * n) (S j))) by lia. cbn [andb]. ring. }
      rewrite (rsum_pick (fun j => colent (ex_col i) (n + S j) * nth (n + S j) z 0) i n Hi).
      2:{ intros j Hj Hne. rewrite ex_col_ent. rewrite (proj2 (Nat.eqb_neq 0 (n + S j))), (proj2 (Nat.eqb_neq (S i) (n + S j))), (proj2 (Nat.eqb_neq (n + S i) (n + S j))), (proj2 (Nat.leb_gt (1 + 2 * n) (n + S j))) by lia. cbn [andb]. ring. }
      rewrite (ex_col_ent i (S i)), (ex_col_ent i (n + S i)), !Nat.eqb_refl. rewrite (proj2 (Nat.eqb_neq 0 (S i))), (proj2 (Nat.eqb_neq (n + S i) (S i))), (proj2 (Nat.leb_gt (1 + 2 * n) (S i))) by lia.
      rewrite (proj2 (Nat.eqb_neq 0 (n + S i))), (proj2 (Nat.eqb_neq (S i) (n + S i))), (proj2 (Nat.leb_gt (1 + 2 * n) (n + S i))) by lia. cbn [andb]. ring.
    Qed.

    Lemma edge_matrix_ok : csc_ok A.
    Proof.
      apply csc_of_ok. intros col Hc. unfold edge_cols in Hc. apply in_app_iff in Hc. destruct Hc as [Hc|Hc].
      - destruct lead; [|destruct Hc]. destruct Hc as [<-|[]]. unfold gam_col. split.
        + intros e He. apply range_col_in in He. rewrite repeat_length in He. lia.
        + intros k Hk. rewrite range_col_length in Hk. rewrite !range_col_nth by lia. cbn [fst]. lia.
      - apply in_map_iff in Hc. destruct Hc as [i [<- Hi]]. apply in_seq in Hi. unfold ex_col. split.
        + intros e [<-|[<-|[<-|He]]]; cbn [fst]; try lia. apply range_col_in in He. rewrite erow_length in He. fold T in He. lia.
        + intros k Hk. cbn [length] in Hk. rewrite range_col_length in Hk. destruct k as [|[|[|k]]]; cbn [nth fst]; try lia.
          * rewrite range_col_nth by lia. cbn [fst]. lia.
          * rewrite !range_col_nth by lia. cbn [fst]. lia.
    Qed.

    (** ** the program *)
    Variable P : csc.
    Variable q : list R.
    Variable cap g : R.
    Hypothesis Lq : length q = (off + n)%nat.
    Let p := mkConic P q A (edge_rhs cap g n T) (edge_sense n T).

    Lemma edge_b_length : length (k_b p) = (1 + 2 * n + T)%nat.
    Proof. cbn [p k_b edge_rhs length]. rewrite !app_length, !repeat_length. lia. Qed.

    Lemma edge_b0 : nth 0 (k_b p) 0 = 1.
    Proof. reflexivity. Qed.
    Lemma edge_b1 i : (i < n)%nat -> nth (S i) (k_b p) 0 = 0.
    Proof. intros Hi. cbn [p k_b edge_rhs nth]. rewrite app_nth1 by (rewrite repeat_length; exact Hi). apply nth_repeat_lt, Hi. Qed.
    Lemma edge_b2 i : (i < n)%nat -> nth (n + S i) (k_b p) 0 = cap.
    Proof.
      intros Hi. rewrite Nat.add_succ_r. cbn [p k_b edge_rhs nth]. rewrite app_nth2 by (rewrite repeat_length; lia). rewrite repeat_length. replace (n + i - n)%nat with i by lia.
      rewrite app_nth1 by (rewrite repeat_length; exact Hi). apply nth_repeat_lt, Hi.
    Qed.
    Lemma edge_b3 t : (t < T)%nat -> nth (1 + 2 * n + t) (k_b p) 0 = g.
    Proof.
      intros Ht. cbn [p k_b edge_rhs nth Nat.add]. rewrite app_nth2 by (rewrite repeat_length; lia). rewrite repeat_length.
      rewrite app_nth2 by (rewrite repeat_length; lia). rewrite repeat_length. apply nth_repeat_lt. lia.
    Qed.
    Lemma edge_senses r : (r < 1 + 2 * n + T)%nat -> nth r (senses (k_cones p)) false = Nat.eqb r 0.
    Proof. intros Hr. cbn [p k_cones edge_sense senses repeat app]. rewrite app_nil_r. destruct r as [|r]; cbn [nth Nat.eqb]; [reflexivity|]. apply nth_repeat_lt. lia. Qed.

    Lemma rows_cases (Q : nat -> Prop) : Q 0%nat -> (forall i, (i < n)%nat -> Q (S i)) -> (forall i, (i < n)%nat -> Q (n + S i)%nat) -> (forall t, (t < T)%nat -> Q (1 + 2 * n + t)%nat) ->
      forall r, (r < 1 + 2 * n + T)%nat -> Q r.
    Proof.
      intros Q0 Q1 Q2 Q3 r Hr. destruct r as [|r]; [exact Q0|]. destruct (Nat.lt_ge_cases r n) as [L|L]; [apply Q1, L|].
      destruct (Nat.lt_ge_cases r (2 * n)) as [L2|L2]; [replace (S r) with (n + S (r - n))%nat by lia; apply Q2; lia|]. replace (S r) with (1 + 2 * n + (r - 2 * n))%nat by lia. apply Q3. lia.
    Qed.

    Lemma edge_feasible x : feasible p x <-> length x = (off + n)%nat /\ rsum (map (fun i => nth (off + i) x 0) (seq 0 n)) = 1 /\
      (forall i, (i < n)%nat -> 0 <= nth (off + i) x 0) /\ (forall i, (i < n)%nat -> coef * nth (off + i) x 0 <= cap) /\
      (forall t, (t < T)%nat -> rsum (map (fun i => nth (off + i) x 0 * marg conf y hs t i) (seq 0 n)) <= g + gof x).
    Proof.
      unfold feasible. change (k_q p) with q. rewrite Lq, edge_b_length. unfold slack. change (k_A p) with A. split; intros [L F]; split; try exact L.
      - assert (F0 := F 0%nat ltac:(lia)). rewrite edge_senses, edge_b0, row_total in F0 by lia. cbn [Nat.eqb] in F0.
        split; [lra|]. split; [|split].
        + intros i Hi. specialize (F (S i) ltac:(lia)). rewrite edge_senses, edge_b1, row_pos in F by lia. cbn [Nat.eqb] in F. lra.
        + intros i Hi. specialize (F (n + S i)%nat ltac:(lia)). rewrite edge_senses, edge_b2, row_cap in F by lia. rewrite (proj2 (Nat.eqb_neq (n + S i) 0)) in F by lia. lra.
        + intros t Ht. specialize (F (1 + 2 * n + t)%nat ltac:(lia)). rewrite edge_senses, edge_b3, row_edge in F by lia. rewrite (proj2 (Nat.eqb_neq (1 + 2 * n + t) 0)) in F by lia. lra.
      - destruct F as [F0 [F1 [F2 F3]]]. apply rows_cases; intros; rewrite edge_senses by lia.
        + rewrite edge_b0, row_total. cbn [Nat.eqb]. lra.
        + rewrite edge_b1, row_pos by assumption. cbn [Nat.eqb]. specialize (F1 i ltac:(assumption)). lra.
        + rewrite edge_b2, row_cap by assumption. rewrite (proj2 (Nat.eqb_neq (n + S i) 0)) by lia. specialize (F2 i ltac:(assumption)). lra.
        + rewrite edge_b3, row_edge by assumption. rewrite (proj2 (Nat.eqb_neq (1 + 2 * n + t) 0)) by lia. specialize (F3 t ltac:(assumption)). lra.
    Qed.

    (** the KKT conditions in words *)
    Lemma edge_kkt x z : kkt p x z <->
      (feasible p x /\ length z = (1 + 2 * n + T)%nat /\
       (forall i, (i < n)%nat -> 0 <= nth (S i) z 0 /\ 0 <= nth (n + S i) z 0) /\ (forall t, (t < T)%nat -> 0 <= nth (1 + 2 * n + t) z 0) /\
       (forall i, (i < n)%nat -> nth (S i) z 0 * nth (off + i) x 0 = 0 /\ nth (n + S i) z 0 * (cap - coef * nth (off + i) x 0) = 0) /\
       (forall t, (t < T)%nat -> nth (1 + 2 * n + t) z 0 * (g + gof x - rsum (map (fun i => nth (off + i) x 0 * marg conf y hs t i) (seq 0 n))) = 0) /\
       (lead = true -> row_dot P x 0 + nth 0 q 0 = rsum (map (fun t => nth (1 + 2 * n + t) z 0) (seq 0 T))) /\
       (forall i, (i < n)%nat -> row_dot P x (off + i) + nth (off + i) q 0 + nth 0 z 0 - nth (S i) z 0 + coef * nth (n + S i) z 0
           + rsum (map (fun t => nth (1 + 2 * n + t) z 0 * marg conf y hs t i) (seq 0 T)) = 0)).
    Proof.
      unfold kkt. change (k_q p) with q. change (k_P p) with P. rewrite Lq, edge_b_length. unfold slack. change (k_A p) with A.
      split; intros [F [Lz K]]; (split; [exact F|]); (split; [exact Lz|]).
      - destruct K as [Zp [Cs St]]. split; [|split; [|split; [|split; [|split]]]].
        + intros i Hi. split; apply Zp; try lia; rewrite edge_senses by lia; apply Nat.eqb_neq; lia.
        + intros t Ht. apply Zp; try lia. rewrite edge_senses by lia. apply Nat.eqb_neq. lia.
        + intros i Hi. split.
          * specialize (Cs (S i) ltac:(lia)). rewrite edge_b1, row_pos in Cs by exact Hi. lra.
          * specialize (Cs (n + S i)%nat ltac:(lia)). rewrite edge_b2, row_cap in Cs by exact Hi. exact Cs.
        + intros t Ht. specialize (Cs (1 + 2 * n + t)%nat ltac:(lia)). rewrite edge_b3, row_edge in Cs by exact Ht. etransitivity; [|exact Cs]. ring.
        + intros El. specialize (St 0%nat ltac:(unfold offs; rewrite El; lia)). rewrite (col_gam z El) in St. lra.
        + intros i Hi. specialize (St (off + i)%nat ltac:(lia)). rewrite col_ex in St by exact Hi. lra.
      - destruct K as [Z1 [Z2 [C1 [C2 [S0 S1]]]]]. split; [|split].
        + apply (rows_cases (fun r => nth r (senses (k_cones p)) false = false -> 0 <= nth r z 0)).
          * rewrite edge_senses by lia. discriminate.
          * intros i Hi _. apply Z1, Hi.
          * intros i Hi _. apply Z1, Hi.
          * intros t Ht _. apply Z2, Ht.
        + apply (rows_cases (fun r => nth r z 0 * (nth r (k_b p) 0 - row_dot A x r) = 0)).
          * rewrite edge_b0, row_total. apply edge_feasible in F. destruct F as [_ [F _]]. rewrite F. ring.
          * intros i Hi. rewrite edge_b1, row_pos by exact Hi. destruct (C1 i Hi) as [C _]. lra.
          * intros i Hi. rewrite edge_b2, row_cap by exact Hi. destruct (C1 i Hi) as [_ C]. exact C.
          * intros t Ht. rewrite edge_b3, row_edge by exact Ht. specialize (C2 t Ht). etransitivity; [|exact C2]. ring.
        + intros c Hc. destruct (Nat.lt_ge_cases c off) as [L|L].
          * assert (lead = true /\ c = 0%nat) as [El ->] by (unfold offs in L; destruct lead; [split; [reflexivity|lia]|lia]). rewrite (col_gam z El), (S0 El). lra.
          * replace c with (off + (c - off))%nat by lia. rewrite col_ex by lia. specialize (S1 (c - off)%nat ltac:(lia)). lra.
    Qed.
  End Cols.

  Lemma gamma_matrix_ok coef hs : gamma_matrix coef n (length hs) (erows hs) = Ok (csc_of (1 + 2 * n + length hs) (edge_cols true coef hs)).
  Proof.
    unfold gamma_matrix. rewrite erows_length. replace (1 + 2 * n + length hs - (1 + 2 * n))%nat with (length hs) by lia.
    assert (E : mkBld [0%nat] (seq (1 + 2 * n) (length hs)) (repeat (-1) (length hs)) = bld_of [gam_col hs]).
    { unfold bld_of. simpl starts. simpl concat. rewrite app_nil_r. unfold gam_col, range_col. rewrite repeat_length. f_equal; generalize (1 + 2 * n)%nat as a, (length hs) as k; intros a k; revert a; induction k; intros; simpl; f_equal; auto. }
    rewrite E, fold_examples. apply csc_new_ok. rewrite (edge_cols_length true coef hs). reflexivity.
  Qed.

  Lemma plain_matrix_ok coef hs : plain_matrix coef n (length hs) (erows hs) = Ok (csc_of (1 + 2 * n + length hs) (edge_cols false coef hs)).
  Proof.
    unfold plain_matrix. rewrite erows_length. change (mkBld [] [] []) with (bld_of []). rewrite fold_examples. apply csc_new_ok. rewrite (edge_cols_length false coef hs). reflexivity.
  Qed.
End Edge.

(** ** diagonal quadratic parts *)
Section Diag.
  Variable off n : nat.
  Variable v : nat -> R.
  Definition diag_cols : list column := repeat [] off ++ map (fun i => [((off + i)%nat, v i)]) (seq 0 n).

  Lemma diag_cols_length : length diag_cols = (off + n)%nat.
  Proof. unfold diag_cols. rewrite app_length, repeat_length, map_length, seq_length. reflexivity. Qed.

  Lemma diag_row x i : (i < n)%nat -> row_dot (csc_of (off + n) diag_cols) x (off + i) = v i * nth (off + i) x 0.
  Proof.
    intros Hi. unfold row_dot. change (c_cols _) with (length diag_cols). rewrite diag_cols_length, rsum_split.
    assert (E : forall r c, (c < off + n)%nat -> entry (csc_of (off + n) diag_cols) r c = colent (nth c diag_cols []) r) by (intros; apply entry_csc_of; rewrite diag_cols_length; assumption).
    rewrite (rsum_zero (fun c => entry _ (off + i) c * nth c x 0)).
    2:{ intros c Hc. rewrite E by lia. unfold diag_cols. rewrite app_nth1 by (rewrite repeat_length; exact Hc). rewrite nth_repeat_lt by exact Hc. rewrite colent_nil. ring. }
    assert (N : forall j, (j < n)%nat -> nth (off + j) diag_cols [] = [((off + j)%nat, v j)]).
    { intros j Hj. unfold diag_cols. rewrite app_nth2 by (rewrite repeat_length; lia). rewrite repeat_length. replace (off + j - off)%nat with j by lia. apply (nth_map_seq (fun i => [((off + i)%nat, v i)])). exact Hj. }
    rewrite (rsum_pick (fun j => entry _ (off + i) (off + j) * nth (off + j) x 0) i n Hi).
    - rewrite E, N, colent_cons, colent_nil by lia. cbn [fst snd]. rewrite Nat.eqb_refl. ring.
    - intros j Hj Hne. rewrite E, N, colent_cons, colent_nil by lia. cbn [fst snd]. rewrite (proj2 (Nat.eqb_neq (off + j) (off + i))) by lia. ring.
  Qed.

  Lemma diag_row0 x r : (r < off)%nat -> row_dot (csc_of (off + n) diag_cols) x r = 0.
  Proof.
    intros Hr. unfold row_dot. change (c_cols _) with (length diag_cols). rewrite diag_cols_length. apply rsum_zero. intros c Hc.
    rewrite entry_csc_of by (rewrite diag_cols_length; exact Hc). unfold diag_cols. destruct (Nat.lt_ge_cases c off) as [L|L].
    - rewrite app_nth1 by (rewrite repeat_length; exact L). rewrite nth_repeat_lt by exact L. rewrite colent_nil. ring.
    - rewrite app_nth2 by (rewrite repeat_length; exact L). rewrite repeat_length. replace c with (off + (c - off))%nat at 1 by lia. replace (off + (c - off) - off)%nat with (c - off)%nat by lia.
      rewrite (nth_map_seq (fun i => [((off + i)%nat, v i)])) by lia. rewrite colent_cons, colent_nil. cbn [fst snd]. rewrite (proj2 (Nat.eqb_neq (off + (c - off)) r)) by lia. ring.
  Qed.

  Lemma diag_sum x x' : rsum (map (fun c => row_dot (csc_of (off + n) diag_cols) x c * nth c x' 0) (seq 0 (off + n))) = rsum (map (fun i => v i * nth (off + i) x 0 * nth (off + i) x' 0) (seq 0 n)).
  Proof.
    rewrite rsum_split. rewrite (rsum_zero (fun c => row_dot _ x c * nth c x' 0) off) by (intros c Hc; rewrite diag_row0 by exact Hc; ring). rewrite Rplus_0_l.
    apply rsum_map_ext. intros i Hi. apply in_seq in Hi. rewrite diag_row by lia. ring.
  Qed.

  Lemma convex_diag q A b cs : length q = (off + n)%nat -> (forall i, (i < n)%nat -> 0 <= v i) -> convex_quad (mkConic (csc_of (off + n) diag_cols) q A b cs).
  Proof.
    intros Lq Hv x x'. cbn [k_P k_q]. rewrite Lq.
    rewrite (rsum_map_ext (fun c => row_dot _ x c * (nth c x' 0 - nth c x 0)) (fun c => row_dot (csc_of (off + n) diag_cols) x c * nth c x' 0 - row_dot (csc_of (off + n) diag_cols) x c * nth c x 0)) by (intros; ring).
    rewrite rsum_map_minus, !diag_sum.
    assert (Q : 0 <= rsum (map (fun i => v i * (nth (off + i) x 0 - nth (off + i) x' 0) ^ 2) (seq 0 n))) by (apply rsum_nonneg_seq; intros i Hi; apply Rmult_le_pos; [apply Hv, Hi|apply pow2_ge_0]).
    rewrite (rsum_map_ext _ (fun i => v i * nth (off + i) x 0 * nth (off + i) x 0 + v i * nth (off + i) x' 0 * nth (off + i) x' 0 - 2 * (v i * nth (off + i) x 0 * nth (off + i) x' 0))) in Q by (intros; ring).
    rewrite rsum_map_minus, rsum_map_plus, rsum_map_mult in Q. lra.
  Qed.

  Lemma diag_ok : csc_ok (csc_of (off + n) diag_cols).
  Proof.
    apply csc_of_ok. intros col Hc. unfold diag_cols in Hc. apply in_app_iff in Hc. destruct Hc as [Hc|Hc].
    - apply repeat_spec in Hc. subst col. split; [intros e []|]. intros k Hk. cbn in Hk. lia.
    - apply in_map_iff in Hc. destruct Hc as [i [<- Hi]]. apply in_seq in Hi. split; [intros e [<-|[]]; cbn [fst]; lia|]. intros k Hk. cbn in Hk. lia.
  Qed.
End Diag.
