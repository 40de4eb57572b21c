(** A stable sort (the model of [slice::sort_by]): insertion sort with a boolean "comes before or equal".
    Rust's [sort_by] is a stable merge sort; any two stable sorts agree, and the theorems that use a sort
    only rely on [isort_perm] and [isort_sorted] (or are stated for an arbitrary sorted permutation). *)
From Verif Require Import Base.

Section Sort.
  Context {A : Type}.
  Variable leb : A -> A -> bool.

  Fixpoint insert (a : A) (l : list A) : list A :=
    match l with
    | [] => [a]
    | b :: t => if leb a b then a :: l else b :: insert a t
    end.

  Definition isort (l : list A) : list A := fold_right insert [] l.

  Lemma insert_perm a l : Permutation (a :: l) (insert a l).
  Proof.
    induction l as [|b l IH]; simpl; [constructor; constructor|].
    destruct (leb a b); [apply Permutation_refl|].
    apply Permutation_trans with (b :: a :: l); [constructor|]. constructor; exact IH.
  Qed.

  Lemma isort_perm l : Permutation l (isort l).
  Proof.
    induction l as [|a l IH]; simpl; [constructor|].
    apply Permutation_trans with (a :: isort l); [constructor; exact IH|apply insert_perm].
  Qed.

  Lemma isort_length l : length (isort l) = length l.
  Proof. symmetry. apply Permutation_length, isort_perm. Qed.

  Hypothesis leb_total : forall a b, leb a b = true \/ leb b a = true.
  Hypothesis leb_trans : forall a b c, leb a b = true -> leb b c = true -> leb a c = true.

  Let le a b := leb a b = true.

  Lemma insert_sorted a l : StronglySorted le l -> StronglySorted le (insert a l).
  Proof.
    induction 1 as [|b l Hs IH Hb]; simpl; [constructor; constructor|].
    destruct (leb a b) eqn:E.
    - constructor; [constructor; assumption|].
      constructor; [exact E|]. eapply Forall_impl; [|exact Hb]. intros c Hc. eapply leb_trans; eassumption.
    - constructor; [exact IH|].
      assert (Hba : leb b a = true) by (destruct (leb_total a b); congruence).
      eapply Permutation_Forall; [apply insert_perm|]. constructor; assumption.
  Qed.

  Lemma isort_sorted l : StronglySorted le (isort l).
  Proof. induction l as [|a l IH]; simpl; [constructor|apply insert_sorted; exact IH]. Qed.
End Sort.

(** Sorting indices by a real key, descending / ascending. *)
Definition key_desc (x : list R) (i j : nat) : bool := Rleb (nth j x 0) (nth i x 0).
Definition key_asc (x : list R) (i j : nat) : bool := Rleb (nth i x 0) (nth j x 0).

Lemma key_desc_total x a b : key_desc x a b = true \/ key_desc x b a = true.
Proof.
  unfold key_desc. destruct (Rleb_spec (nth b x 0) (nth a x 0)); [left; reflexivity|].
  right. apply Rleb_true. lra.
Qed.
Lemma key_desc_trans x a b c : key_desc x a b = true -> key_desc x b c = true -> key_desc x a c = true.
Proof.
  unfold key_desc. destruct (Rleb_spec (nth b x 0) (nth a x 0)); [|discriminate].
  destruct (Rleb_spec (nth c x 0) (nth b x 0)); [|discriminate]. intros _ _. apply Rleb_true. lra.
Qed.
Lemma key_asc_total x a b : key_asc x a b = true \/ key_asc x b a = true.
Proof. apply (key_desc_total x b a). Qed.
Lemma key_asc_trans x a b c : key_asc x a b = true -> key_asc x b c = true -> key_asc x a c = true.
Proof. unfold key_asc. intros H1 H2. apply (key_desc_trans x c b a); assumption. Qed.

Lemma StronglySorted_nth {A} (Rel : A -> A -> Prop) (l : list A) d :
  StronglySorted Rel l ->
  forall i j, (i < j)%nat -> (j < length l)%nat -> Rel (nth i l d) (nth j l d).
Proof.
  induction 1 as [|a l Hs IH Ha]; simpl; intros i j Hij Hj; [lia|].
  destruct i as [|i]; destruct j as [|j]; try lia; simpl.
  - rewrite Forall_forall in Ha. apply Ha, nth_In. lia.
  - apply IH; lia.
Qed.
