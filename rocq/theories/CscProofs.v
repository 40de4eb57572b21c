(** Sparse matrices given by their columns; Lagrangian facts of the conic programs. *)
From Verif Require Import Base Csc ConicSpec.
Open Scope R_scope.

Notation column := (list (nat * R)).

Fixpoint starts (k : nat) (cols : list column) : list nat :=
  match cols with [] => [] | c :: t => k :: starts (k + length c) t end.

Definition csc_of (m : nat) (cols : list column) : csc :=
  mkCsc m (length cols) (starts 0 cols ++ [length (concat cols)]) (map fst (concat cols)) (map snd (concat cols)).

Definition bld_of (cols : list column) : bld := mkBld (starts 0 cols) (map fst (concat cols)) (map snd (concat cols)).

(** what a column holds in row r *)
Definition colent (col : column) (r : nat) : R := rsum (map (fun e => if Nat.eqb (fst e) r then snd e else 0) col).

Lemma starts_length cols : forall k, length (starts k cols) = length cols.
Proof. induction cols; intros; simpl; [reflexivity|rewrite IHcols; reflexivity]. Qed.

Lemma starts_app a b : forall k, starts k (a ++ b) = starts k a ++ starts (k + length (concat a)) b.
Proof.
  induction a as [|c a IH]; intros k; simpl; [rewrite Nat.add_0_r; reflexivity|]. rewrite IH, app_length, Nat.add_assoc. reflexivity.
Qed.

Lemma starts_nth cols : forall k c, (c <= length cols)%nat ->
  nth c (starts k cols ++ [(k + length (concat cols))%nat]) 0%nat = (k + length (concat (firstn c cols)))%nat.
Proof.
  induction cols as [|col cols IH]; intros k c Hc; simpl in *.
  - assert (c = 0)%nat by lia. subst. reflexivity.
  - destruct c as [|c]; [simpl; lia|]. simpl. rewrite app_length. specialize (IH (k + length col)%nat c ltac:(lia)).
    replace (k + length col + length (concat cols))%nat with (k + (length col + length (concat cols)))%nat in IH by lia.
    rewrite IH, app_length. lia.
Qed.

Lemma ptr_nth m cols c : (c <= length cols)%nat -> nth c (c_ptr (csc_of m cols)) 0%nat = length (concat (firstn c cols)).
Proof. intros H. apply (starts_nth cols 0 c H). Qed.

Lemma push_ents_app l : forall b, push_ents l b = mkBld (b_ptr b) (b_row b ++ map fst l) (b_val b ++ map snd l).
Proof.
  induction l as [|e l IH]; intros [p r v]; simpl; [rewrite !app_nil_r; reflexivity|]. unfold push_ents in *. simpl. rewrite IH. simpl.
  rewrite <- !app_assoc. reflexivity.
Qed.

Lemma push_column cols col : push_ents col (push_col (bld_of cols)) = bld_of (cols ++ [col]).
Proof.
  rewrite push_ents_app. unfold push_col, bld_of; simpl. rewrite starts_app, concat_app, !map_app, map_length. simpl. rewrite !app_nil_r. reflexivity.
Qed.

Lemma fold_columns {A} (f : A -> column) l : forall cols,
  fold_left (fun b a => push_ents (f a) (push_col b)) l (bld_of cols) = bld_of (cols ++ map f l).
Proof.
  induction l as [|a l IH]; intros cols; simpl; [rewrite app_nil_r; reflexivity|]. rewrite push_column, IH, <- app_assoc. reflexivity.
Qed.

Lemma csc_new_ok m cols n : n = length cols ->
  csc_new m n (b_ptr (bld_of cols) ++ [length (b_row (bld_of cols))]) (b_row (bld_of cols)) (b_val (bld_of cols)) = Ok (csc_of m cols).
Proof.
  intros ->. unfold csc_new, bld_of; simpl. rewrite !map_length, Nat.eqb_refl. simpl.
  rewrite app_length, starts_length. simpl. rewrite Nat.eqb_refl. simpl.
  pose proof (starts_nth cols 0 (length cols) (le_n _)) as S. simpl in S. rewrite S, firstn_all, Nat.eqb_refl. reflexivity.
Qed.

Lemma concat_split {A} (cols : list (list A)) c : (c < length cols)%nat ->
  concat cols = concat (firstn c cols) ++ nth c cols [] ++ concat (skipn (S c) cols).
Proof.
  revert c. induction cols as [|col cols IH]; intros [|c] H; simpl in *; try lia; [reflexivity|]. rewrite (IH c) at 1 by lia. rewrite <- app_assoc. reflexivity.
Qed.

Lemma firstn_S_concat {A} (cols : list (list A)) c : (c < length cols)%nat ->
  length (concat (firstn (S c) cols)) = (length (concat (firstn c cols)) + length (nth c cols []))%nat.
Proof.
  revert c. induction cols as [|col cols IH]; intros [|c] H; simpl in *; try lia; [rewrite app_nil_r; reflexivity|].
  rewrite !app_length. specialize (IH c ltac:(lia)). destruct cols; simpl in *; lia.
Qed.

Lemma rsum_map_seq_list {A} (f : A -> R) (l : list A) (d : A) : rsum (map (fun k => f (nth k l d)) (seq 0 (length l))) = rsum (map f l).
Proof. rewrite <- (map_map (fun k => nth k l d) f). rewrite map_nth_seq. reflexivity. Qed.

Lemma rsum_seq_shift (f : nat -> R) a k : rsum (map f (seq a k)) = rsum (map (fun i => f (a + i)%nat) (seq 0 k)).
Proof.
  rewrite <- (map_map (fun i => (a + i)%nat) f). do 2 f_equal. induction a as [|a IH] in k |- *; [simpl; rewrite map_id; reflexivity|].
  rewrite <- seq_shift, (IH k), map_map. apply map_ext. intros; lia.
Qed.

Lemma entry_csc_of m cols r c : (c < length cols)%nat -> entry (csc_of m cols) r c = colent (nth c cols []) r.
Proof.
  intros H. unfold entry. rewrite !ptr_nth by lia. rewrite firstn_S_concat by exact H.
  replace (_ + _ - _)%nat with (length (nth c cols [])) by lia. rewrite rsum_seq_shift. unfold colent.
  rewrite <- (rsum_map_seq_list _ _ (0%nat, 0)). apply rsum_map_ext. intros k Hk. apply in_seq in Hk. simpl.
  rewrite (concat_split cols c H).
  rewrite (map_nth fst _ (0%nat, 0)), (map_nth snd _ (0%nat, 0)).
  rewrite app_nth2 by lia. replace (_ + k - _)%nat with k by lia. rewrite app_nth1 by lia. reflexivity.
Qed.

(** ** well-formedness *)
Definition col_ok (m : nat) (col : column) : Prop :=
  (forall e, In e col -> (fst e < m)%nat) /\ (forall k, (S k < length col)%nat -> (fst (nth k col (O, 0%R)) < fst (nth (S k) col (O, 0%R)))%nat).

Lemma csc_of_ok m cols : (forall col, In col cols -> col_ok m col) -> csc_ok (csc_of m cols).
Proof.
  intros H. unfold csc_ok. change (c_cols (csc_of m cols)) with (length cols). change (c_rows (csc_of m cols)) with m.
  split; [simpl; rewrite app_length, starts_length; simpl; lia|]. split; [rewrite ptr_nth by lia; reflexivity|].
  split; [rewrite ptr_nth, firstn_all by lia; simpl; rewrite map_length; reflexivity|]. split; [simpl; rewrite !map_length; reflexivity|].
  split; [intros c Hc; rewrite !ptr_nth, firstn_S_concat by lia; lia|]. split.
  - simpl. intros r Hr. apply in_map_iff in Hr. destruct Hr as [e [<- He]]. apply in_concat in He. destruct He as [col [Hc He]]. apply (H col Hc), He.
  - intros c k Hc. rewrite !ptr_nth, firstn_S_concat by lia. intros H1 H2. simpl. rewrite (concat_split cols c Hc).
    rewrite !(map_nth fst _ (0%nat, 0)). set (o := length (concat (firstn c cols))) in *.
    assert (E : forall j, (o <= j < o + length (nth c cols []))%nat ->
      nth j (concat (firstn c cols) ++ nth c cols [] ++ concat (skipn (S c) cols)) (0%nat, 0) = nth (j - o) (nth c cols []) (0%nat, 0)).
    { intros j Hj. rewrite app_nth2 by (fold o; lia). fold o. rewrite app_nth1 by lia. reflexivity. }
    rewrite !E by lia. replace (S k - o)%nat with (S (k - o)) by lia. apply (H (nth c cols [])); [apply nth_In, Hc|lia].
Qed.

(** ** columns that are ranges *)
Lemma colent_app a b r : colent (a ++ b) r = colent a r + colent b r.
Proof. unfold colent. rewrite map_app, rsum_app. reflexivity. Qed.

Lemma colent_cons e a r : colent (e :: a) r = (if Nat.eqb (fst e) r then snd e else 0) + colent a r.
Proof. reflexivity. Qed.

Lemma colent_nil r : colent [] r = 0.
Proof. reflexivity. Qed.

Definition range_col (a : nat) (l : list R) : column := combine (seq a (length l)) l.

Lemma colent_range l : forall a r, colent (range_col a l) r = if andb (Nat.leb a r) (Nat.ltb r (a + length l)) then nth (r - a) l 0 else 0.
Proof.
  unfold range_col. induction l as [|v l IH]; intros a r.
  - unfold colent; simpl. destruct (Nat.leb_spec a r), (Nat.ltb_spec r (a + 0)); simpl; try reflexivity; lia.
  - cbn [length seq combine]. rewrite colent_cons, IH. cbn [fst snd]. destruct (Nat.eqb_spec a r) as [->|E].
    + rewrite Nat.sub_diag. rewrite (proj2 (Nat.leb_gt (S r) r)), (proj2 (Nat.leb_le r r)), (proj2 (Nat.ltb_lt r (r + S (length l)))) by lia. cbn [andb nth]. ring.
    + destruct (Nat.leb_spec (S a) r), (Nat.leb_spec a r), (Nat.ltb_spec r (S a + length l)), (Nat.ltb_spec r (a + S (length l))); try lia; cbn [andb]; try ring.
      replace (r - a)%nat with (S (r - S a)) by lia. cbn [nth]. ring.
Qed.

Lemma range_col_length a l : length (range_col a l) = length l.
Proof. unfold range_col. rewrite combine_length, seq_length. lia. Qed.

Lemma range_col_nth a l k : (k < length l)%nat -> nth k (range_col a l) (0%nat, 0) = ((a + k)%nat, nth k l 0).
Proof. intros H. unfold range_col. rewrite combine_nth by (rewrite seq_length; reflexivity). rewrite seq_nth by exact H. reflexivity. Qed.

Lemma range_col_in a l e : In e (range_col a l) -> (a <= fst e < a + length l)%nat.
Proof. intros H. destruct e as [i v]. apply in_combine_l in H. apply in_seq in H. simpl. lia. Qed.

(** ** sums *)
Lemma rsum_swap_seq {A B} (f : A -> B -> R) l l' :
  rsum (map (fun a => rsum (map (f a) l')) l) = rsum (map (fun b => rsum (map (fun a => f a b) l)) l').
Proof.
  induction l as [|a l IH]; simpl; [rewrite rsum_map_const; ring|]. rewrite IH, <- rsum_map_plus. reflexivity.
Qed.

Lemma rsum_split (f : nat -> R) a b : rsum (map f (seq 0 (a + b))) = rsum (map f (seq 0 a)) + rsum (map (fun i => f (a + i)%nat) (seq 0 b)).
Proof. rewrite seq_app, map_app, rsum_app. simpl. rewrite (rsum_seq_shift f a b). reflexivity. Qed.

Lemma rsum_one (f : nat -> R) : rsum (map f (seq 0 1)) = f 0%nat.
Proof. simpl. ring. Qed.

Lemma rsum_pick (f : nat -> R) k m : (k < m)%nat -> (forall i, (i < m)%nat -> i <> k -> f i = 0) -> rsum (map f (seq 0 m)) = f k.
Proof.
  intros Hk Hz. replace m with (k + S (m - S k))%nat by lia. rewrite rsum_split. simpl. rewrite Nat.add_0_r.
  rewrite (rsum_map_ext _ (fun _ => 0)) by (intros i Hi; apply in_seq in Hi; apply Hz; lia). rewrite rsum_map_const.
  rewrite (rsum_map_ext _ (fun _ => 0)) by (intros i Hi; apply in_seq in Hi; apply Hz; lia). rewrite rsum_map_const. ring.
Qed.

Lemma rsum_zero (f : nat -> R) m : (forall i, (i < m)%nat -> f i = 0) -> rsum (map f (seq 0 m)) = 0.
Proof. intros H. rewrite (rsum_map_ext _ (fun _ => 0)) by (intros i Hi; apply in_seq in Hi; apply H; lia). rewrite rsum_map_const. ring. Qed.

(** ** z' (A x) = (A' z)' x *)
Lemma adjoint A x z : rsum (map (fun r => nth r z 0 * row_dot A x r) (seq 0 (c_rows A))) = rsum (map (fun c => col_dot A z c * nth c x 0) (seq 0 (c_cols A))).
Proof.
  unfold row_dot, col_dot.
  rewrite (rsum_map_ext _ (fun r => rsum (map (fun c => nth r z 0 * (entry A r c * nth c x 0)) (seq 0 (c_cols A)))))
    by (intros; rewrite rsum_map_mult; reflexivity).
  rewrite rsum_swap_seq. apply rsum_map_ext. intros c _.
  rewrite Rmult_comm, <- rsum_map_mult. apply rsum_map_ext. intros; ring.
Qed.

Lemma entry_zeros m n r c : (c < n)%nat -> entry (csc_zeros m n) r c = 0.
Proof.
  intros H. unfold entry. assert (Z : forall k, (k < n + 1)%nat -> nth k (c_ptr (csc_zeros m n)) 0%nat = 0%nat) by (intros; apply nth_repeat_lt; assumption).
  rewrite !Z by lia. reflexivity.
Qed.

Lemma row_dot_zeros m n x r : row_dot (csc_zeros m n) x r = 0.
Proof. unfold row_dot. apply rsum_zero. intros c Hc. rewrite entry_zeros by exact Hc. ring. Qed.

Lemma zeros_ok m n : csc_ok (csc_zeros m n).
Proof.
  unfold csc_ok, csc_zeros; simpl. rewrite repeat_length. split; [lia|]. assert (Z : forall c, (c < n + 1)%nat -> nth c (repeat 0%nat (n + 1)) 0%nat = 0%nat) by (intros; apply nth_repeat_lt; assumption).
  split; [apply Z; lia|]. split; [apply Z; lia|]. split; [reflexivity|]. split; [intros c Hc; rewrite !Z by lia; lia|]. split; [intros r []|].
  intros c k Hc. rewrite !Z by lia. lia.
Qed.
