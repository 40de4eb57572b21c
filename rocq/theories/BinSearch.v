(** Model of core::slice::binary_search_by (used at src/sample/feature_struct.rs:560 and in the bins of the tree
    learners), the classical loop of the Rust standard library.
    [cmp i] is the answer of the comparison closure on element i.  Newer releases of the standard library use a
    branch-free variant; the lemmas used below hold for any correct binary search: on an ordered slice it finds a
    matching index, or reports the insertion point when there is none. *)
From Verif Require Import Base.

Inductive search_result := Found (i : nat) | Missing (i : nat).

Fixpoint bsearch_loop (cmp : nat -> comparison) (fuel left right : nat) : search_result :=
  match fuel with
  | O => Missing left
  | S fuel' =>
      if Nat.ltb left right then
        let mid := (left + (right - left) / 2)%nat in
        match cmp mid with
        | Eq => Found mid
        | Lt => bsearch_loop cmp fuel' (mid + 1) right
        | Gt => bsearch_loop cmp fuel' left mid
        end
      else Missing left
  end.

Definition binary_search (cmp : nat -> comparison) (len : nat) : search_result := bsearch_loop cmp len 0 len.

(** elements are ordered: once not Less never Less again, once Greater always Greater *)
Definition ordered_cmp (cmp : nat -> comparison) (len : nat) : Prop :=
  forall i j, (i < j < len)%nat -> (cmp j = Lt -> cmp i = Lt) /\ (cmp i = Gt -> cmp j = Gt).

Lemma bsearch_loop_spec cmp len : ordered_cmp cmp len ->
  forall fuel left right, (right - left <= fuel)%nat -> (left <= right <= len)%nat ->
  (forall i, (i < left)%nat -> cmp i = Lt) -> (forall i, (right <= i < len)%nat -> cmp i = Gt) ->
  match bsearch_loop cmp fuel left right with
  | Found i => (i < len)%nat /\ cmp i = Eq
  | Missing p => (p <= len)%nat /\ (forall i, (i < p)%nat -> cmp i = Lt) /\ (forall i, (p <= i < len)%nat -> cmp i = Gt)
  end.
Proof.
  intros Ho. induction fuel as [|fuel IH]; intros left right Hf Hlr Hl Hr; cbn [bsearch_loop]; cbv zeta.
  - assert (left = right) by lia. subst. split; [lia|]. split; assumption.
  - destruct (Nat.ltb_spec left right) as [Hlt|Hge].
    + assert (Hm : (left <= left + (right - left) / 2 < right)%nat).
      { assert ((right - left) / 2 < right - left)%nat by (apply Nat.div_lt; lia). lia. }
      set (mid := (left + (right - left) / 2)%nat) in *. destruct (cmp mid) eqn:E.
      * split; [lia|exact E].
      * apply IH; [lia|lia| |exact Hr]. intros i Hi. destruct (Nat.eq_dec i mid) as [->|Hne]; [exact E|].
        apply (Ho i mid); [lia|exact E].
      * apply IH; [lia|lia|exact Hl|]. intros i Hi. destruct (Nat.eq_dec i mid) as [->|Hne]; [exact E|].
        apply (Ho mid i); [lia|exact E].
    + assert (left = right) by lia. subst. split; [lia|]. split; assumption.
Qed.

Lemma binary_search_spec cmp len : ordered_cmp cmp len ->
  match binary_search cmp len with
  | Found i => (i < len)%nat /\ cmp i = Eq
  | Missing p => (p <= len)%nat /\ (forall i, (i < p)%nat -> cmp i = Lt) /\ (forall i, (p <= i < len)%nat -> cmp i = Gt)
  end.
Proof. intros Ho. apply bsearch_loop_spec; try exact Ho; try lia; intros; lia. Qed.
