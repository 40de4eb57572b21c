(** The check of the target column: lemmas. *)
From Verif Require Import Base Valid.
Open Scope R_scope.

Lemma is_integer_spec x : is_integer x = true <-> exists z, x = IZR z.
Proof.
  unfold is_integer. split.
  - destruct (Reqb_spec (IZR (truncZ x)) x) as [E|E]; [|discriminate]. intros _. exists (truncZ x). symmetry. exact E.
  - intros [z ->]. rewrite truncZ_IZR. apply Reqb_true. reflexivity.
Qed.

(** a list without repetitions has two elements iff it holds two different values and nothing else *)
Lemma two_elements {A} (l : list A) : NoDup l ->
  (length l = 2%nat <-> exists a b, a <> b /\ (forall v, In v l <-> v = a \/ v = b)).
Proof.
  intros N. split.
  - destruct l as [|a [|b [|c l]]]; try discriminate. intros _. exists a, b. inversion N as [|? ? Na N']; subst. split.
    + intros ->. apply Na. left. reflexivity.
    + intros v. simpl. split; [intros [H|[H|[]]]; subst; auto|intros [H|H]; subst; auto].
  - intros [a [b [D H]]]. assert (Ha : In a l) by (apply H; auto). assert (Hb : In b l) by (apply H; auto).
    assert (L1 : (length l <= 2)%nat) by (apply (NoDup_incl_length (l' := [a; b]) N); intros v Hv; apply H in Hv; simpl; intuition).
    assert (L2 : (length [a; b] <= length l)%nat).
    { apply NoDup_incl_length; [constructor; [simpl; intuition|constructor; [simpl; tauto|constructor]]|]. intros v [Hv|[Hv|[]]]; subst; assumption. }
    simpl in L2. lia.
Qed.

Lemma valid_cases y : is_valid_binary_instance y = Ok tt \/ is_valid_binary_instance y = Panic AssertFailed.
Proof. unfold is_valid_binary_instance. destruct (negb _); [auto|]. destruct (Nat.eqb _ _); auto. Qed.

Lemma valid_iff y : is_valid_binary_instance y = Ok tt <->
  (forall v, In v y -> exists z, v = IZR z) /\ exists a b, a <> b /\ (forall z, In z (map (as_int 32) y) <-> z = a \/ z = b).
Proof.
  unfold is_valid_binary_instance. destruct (forallb is_integer y) eqn:F; cbn [negb].
  - rewrite forallb_forall in F. destruct (Nat.eqb_spec (length (nodup Z.eq_dec (map (as_int 32) y))) 2) as [E|E].
    + split; [intros _|reflexivity]. split; [intros v Hv; apply is_integer_spec, F, Hv|].
      apply two_elements in E; [|apply NoDup_nodup]. destruct E as [a [b [D E]]]. exists a, b. split; [exact D|]. intros z. rewrite <- E. symmetry. apply nodup_In.
    + split; [discriminate|]. intros [_ [a [b [D H]]]]. exfalso. apply E. apply two_elements; [apply NoDup_nodup|]. exists a, b. split; [exact D|].
      intros z. rewrite nodup_In. apply H.
  - split; [discriminate|]. intros [H _]. exfalso. assert (F' : forallb is_integer y = true) by (apply forallb_forall; intros v Hv; apply is_integer_spec, H, Hv). congruence.
Qed.

Lemma valid_pm1 y : (forall v, In v y -> v = 1 \/ v = -1) -> In 1 y -> In (-1) y -> is_valid_binary_instance y = Ok tt.
Proof.
  intros H P M. apply valid_iff. split; [intros v Hv; destruct (H v Hv) as [->| ->]; [exists 1%Z|exists (-1)%Z]; reflexivity|].
  assert (E1 : as_int 32 1 = 1%Z) by (apply (as_int_IZR 32 1); simpl; lia). assert (E2 : as_int 32 (-1) = (-1)%Z) by (apply (as_int_IZR 32 (-1)); simpl; lia).
  exists 1%Z, (-1)%Z. split; [lia|]. intros z. rewrite in_map_iff. split.
  - intros [v [<- Hv]]. destruct (H v Hv) as [->| ->]; [left; exact E1|right; exact E2].
  - intros [->| ->]; [exists 1|exists (-1)]; auto.
Qed.

Lemma valid_nonempty y : is_valid_binary_instance y = Ok tt -> (0 < length y)%nat.
Proof. rewrite valid_iff. intros [_ [a [b [_ H]]]]. destruct y; [exfalso; apply (proj2 (H a)); auto|simpl; lia]. Qed.
