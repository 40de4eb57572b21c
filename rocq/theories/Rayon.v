(** Model of the rayon operations used in the crate on exact reals:
    - [par_iter()...sum()]: the index range is split recursively at arbitrary points; every leaf is summed
      sequentially and the partial sums are added.  A [ptree] is one such schedule.
    - [par_iter_mut().for_each(|x| *x = f(x))]: the elements are updated in some order.
    Used at utils.rs:277-296, adaboost_algorithm.rs:210-238, smoothboost_algorithm.rs:327-335 etc. *)
From Verif Require Import Base Spec Utils.
Open Scope R_scope.

Inductive ptree :=
| PLeaf (chunk : list R)
| PNode (l r : ptree).

Fixpoint ptree_items (t : ptree) : list R :=
  match t with PLeaf c => c | PNode l r => ptree_items l ++ ptree_items r end.

Fixpoint ptree_sum (t : ptree) : R :=
  match t with PLeaf c => fold_left Rplus c 0 | PNode l r => ptree_sum l + ptree_sum r end.

Lemma ptree_sum_items t : ptree_sum t = rsum (ptree_items t).
Proof.
  induction t as [c|l IHl r IHr]; simpl; [apply rsum_fold_left|]. rewrite IHl, IHr, rsum_app. reflexivity.
Qed.

(** element-wise updates in the order [ix] *)
Definition par_update (f : R -> R) (ix : list nat) (v : list R) : list R :=
  fold_left (fun l i => upd i (f (nth i l 0)) l) ix v.

Lemma par_update_nth f ix v :
  NoDup ix -> (forall i, In i ix -> (i < length v)%nat) ->
  length (par_update f ix v) = length v /\
  (forall j, In j ix -> nth j (par_update f ix v) 0 = f (nth j v 0)) /\
  (forall j, ~ In j ix -> nth j (par_update f ix v) 0 = nth j v 0).
Proof.
  revert v; induction ix as [|i ix IH]; intros v Hnd Hr; cbn [par_update fold_left].
  - split; [reflexivity|]. split; [intros j []|reflexivity].
  - inversion Hnd as [|? ? Hni Hnd']; subst.
    destruct (IH (upd i (f (nth i v 0)) v) Hnd') as [H1 [H2 H3]].
    { intros j Hj. rewrite upd_length. apply Hr; right; exact Hj. }
    rewrite upd_length in H1. split; [exact H1|]. split.
    + intros j [<-|Hj].
      * unfold par_update in H3. rewrite H3 by exact Hni. apply upd_nth_same. apply Hr; left; reflexivity.
      * unfold par_update in H2. rewrite H2 by exact Hj.
        rewrite upd_nth_other; [reflexivity|]. intros ->; contradiction.
    + intros j Hj. unfold par_update in H3. rewrite H3 by (intros X; apply Hj; right; exact X).
      apply upd_nth_other. intros ->. apply Hj; left; reflexivity.
Qed.

Lemma par_update_map f ix v :
  Permutation ix (seq 0 (length v)) -> par_update f ix v = map f v.
Proof.
  intros Hp.
  destruct (par_update_nth f ix v) as [H1 [H2 _]].
  - eapply Permutation_NoDup; [apply Permutation_sym, Hp|apply seq_NoDup].
  - intros i Hi. eapply Permutation_in in Hi; [|exact Hp]. apply in_seq in Hi. lia.
  - apply (list_eq_nth 0); [rewrite map_length; exact H1|]. intros i Hi. rewrite H1 in Hi.
    rewrite H2.
    + symmetry. apply nth_map_in. exact Hi.
    + eapply Permutation_in; [apply Permutation_sym, Hp|]. apply in_seq; lia.
Qed.
