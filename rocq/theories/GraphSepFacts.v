(** Properties C19, C20, C21, C53: graph separation boosting and naive aggregation. *)
From Verif Require Import Base Spec Utils UtilsProofs WMajority WMajorityProofs Booster AdaBoost
  AdaBoostProofs AdaBoostMain AdaBoostMore GraphSpec GraphSep.
Open Scope R_scope.

(** ** Specification-independent facts about the loops *)
Lemma in_pairs n i j : In (i, j) (pairs n) <-> (i < j < n)%nat.
Proof.
  unfold pairs. rewrite in_flat_map. split.
  - intros [a [Ha Hb]]. apply in_seq in Ha. apply in_map_iff in Hb. destruct Hb as [b [E Hb]]. inversion E; subst. apply in_seq in Hb. lia.
  - intros Hij. exists i. split; [apply in_seq; lia|]. apply in_map_iff. exists j. split; [reflexivity|]. apply in_seq. lia.
Qed.

Lemma set_insert_in j l k : In k (set_insert j l) <-> k = j \/ In k l.
Proof.
  unfold set_insert. destruct (existsb (Nat.eqb j) l) eqn:E.
  - apply existsb_exists in E. destruct E as [x [Hx E]]. apply Nat.eqb_eq in E. subst. split; [auto|]. intros [->|]; assumption.
  - simpl. split; intros [->|]; auto.
Qed.
Lemma set_insert_nodup j l : NoDup l -> NoDup (set_insert j l).
Proof.
  intros Hl. unfold set_insert. destruct (existsb (Nat.eqb j) l) eqn:E; [exact Hl|]. constructor; [|exact Hl].
  intros Hj. assert (existsb (Nat.eqb j) l = true); [|congruence]. apply existsb_exists. exists j. split; [exact Hj|apply Nat.eqb_refl].
Qed.
Lemma set_remove_in j l k : In k (set_remove j l) <-> k <> j /\ In k l.
Proof.
  unfold set_remove. rewrite filter_In. split.
  - intros [A B]. split; [|exact A]. intros ->. rewrite Nat.eqb_refl in B. discriminate.
  - intros [A B]. split; [exact B|]. destruct (Nat.eqb_spec k j); [contradiction|reflexivity].
Qed.
Lemma set_remove_nodup j l : NoDup l -> NoDup (set_remove j l).
Proof. apply NoDup_filter. Qed.

Lemma both_length op e p : length (both op e p) = length e.
Proof. destruct p as [i j]. unfold both. rewrite !upd_length. reflexivity. Qed.

Lemma both_nth op e i j a : i <> j -> (i < length e)%nat -> (j < length e)%nat ->
  nth a (both op e (i, j)) [] = if Nat.eqb a i then op j (nth i e []) else if Nat.eqb a j then op i (nth j e []) else nth a e [].
Proof.
  intros Hij Hi Hj. unfold both. destruct (Nat.eqb_spec a j) as [->|Na].
  - rewrite upd_nth_same by (rewrite upd_length; exact Hj). destruct (Nat.eqb_spec j i); [congruence|].
    rewrite upd_nth_other by congruence. reflexivity.
  - rewrite upd_nth_other by congruence. destruct (Nat.eqb_spec a i) as [->|Ni].
    + rewrite upd_nth_same by exact Hi. reflexivity.
    + rewrite upd_nth_other by congruence. reflexivity.
Qed.

(** effect of the loops: e' in terms of e *)
Lemma pair_loop_insert c n e :
  length e = n -> (forall a, NoDup (nth a e [])) ->
  let e' := pair_loop set_insert c n e in
  length e' = n /\ (forall a, NoDup (nth a e' [])) /\
  forall a b, In b (nth a e' []) <-> In b (nth a e []) \/ (exists i j, (i < j < n)%nat /\ c i j = true /\ ((a = i /\ b = j) \/ (a = j /\ b = i))).
Proof.
  intros Hl Hnd. unfold pair_loop.
  assert (G : forall L e, (forall i j, In (i, j) L -> (i < j < n)%nat) -> length e = n -> (forall a, NoDup (nth a e [])) ->
    let e' := fold_left (fun e p => if c (fst p) (snd p) then both set_insert e p else e) L e in
    length e' = n /\ (forall a, NoDup (nth a e' [])) /\
    forall a b, In b (nth a e' []) <-> In b (nth a e []) \/ (exists i j, In (i, j) L /\ c i j = true /\ ((a = i /\ b = j) \/ (a = j /\ b = i)))).
  { clear e Hl Hnd. induction L as [|[i j] L IH]; intros e HL Hl Hnd; cbn [fold_left].
    - simpl. split; [exact Hl|]. split; [exact Hnd|]. intros a b. split; [auto|]. intros [|[? [? [[] _]]]]; assumption.
    - cbn [fst snd]. assert (Hij : (i < j < n)%nat) by (apply HL; left; reflexivity).
      assert (HL' : forall i0 j0, In (i0, j0) L -> (i0 < j0 < n)%nat) by (intros; apply HL; right; assumption).
      destruct (c i j) eqn:Ec.
      + assert (Hnth : forall a, nth a (both set_insert e (i, j)) [] = if Nat.eqb a i then set_insert j (nth i e []) else if Nat.eqb a j then set_insert i (nth j e []) else nth a e []).
        { intros a. apply both_nth; lia. }
        destruct (IH (both set_insert e (i, j)) HL') as [A [B C]].
        * rewrite both_length. exact Hl.
        * intros a. rewrite Hnth. destruct (Nat.eqb a i); [apply set_insert_nodup, Hnd|]. destruct (Nat.eqb a j); [apply set_insert_nodup, Hnd|apply Hnd].
        * split; [exact A|]. split; [exact B|]. intros a b. rewrite C, Hnth.
          destruct (Nat.eqb_spec a i) as [->|Ni]; [|destruct (Nat.eqb_spec a j) as [->|Nj]]; rewrite ?set_insert_in.
          -- split.
             ++ intros [[->|Hb]|[i' [j' [Q1 Q2]]]]; [right; exists i, j; split; [left; reflexivity|auto]|left; exact Hb|right; exists i', j'; split; [right; exact Q1|exact Q2]].
             ++ intros [Hb|[i' [j' [[E|Q1] [Q2 Q3]]]]]; [auto| |right; exists i', j'; auto].
                inversion E; subst. destruct Q3 as [[_ ->]|[E1 _]]; [auto|lia].
          -- split.
             ++ intros [[->|Hb]|[i' [j' [Q1 Q2]]]]; [right; exists i, j; split; [left; reflexivity|auto]|left; exact Hb|right; exists i', j'; split; [right; exact Q1|exact Q2]].
             ++ intros [Hb|[i' [j' [[E|Q1] [Q2 Q3]]]]]; [auto| |right; exists i', j'; auto].
                inversion E; subst. destruct Q3 as [[E1 _]|[_ ->]]; [lia|auto].
          -- split.
             ++ intros [Hb|[i' [j' [Q1 Q2]]]]; [left; exact Hb|right; exists i', j'; split; [right; exact Q1|exact Q2]].
             ++ intros [Hb|[i' [j' [[E|Q1] [Q2 Q3]]]]]; [auto| |right; exists i', j'; auto].
                inversion E; subst. destruct Q3 as [[E1 _]|[E1 _]]; congruence.
      + destruct (IH e HL' Hl Hnd) as [A [B C]]. split; [exact A|]. split; [exact B|]. intros a b. rewrite C. split.
        * intros [Hb|[i' [j' [Q1 Q2]]]]; [left; exact Hb|right; exists i', j'; split; [right; exact Q1|exact Q2]].
        * intros [Hb|[i' [j' [[E|Q1] [Q2 Q3]]]]]; [auto| |right; exists i', j'; auto]. inversion E; subst. congruence. }
  destruct (G (pairs n) e) as [A [B C]]; [intros i j Hij; apply in_pairs; exact Hij|exact Hl|exact Hnd|].
  split; [exact A|]. split; [exact B|]. intros a b. rewrite C. split; (intros [Hb|[i [j [Q1 Q2]]]]; [auto|right; exists i, j; split; [apply in_pairs; exact Q1|exact Q2]]).
Qed.

Lemma pair_loop_remove c n e :
  length e = n -> (forall a, NoDup (nth a e [])) ->
  let e' := pair_loop set_remove c n e in
  length e' = n /\ (forall a, NoDup (nth a e' [])) /\
  forall a b, In b (nth a e' []) <-> In b (nth a e []) /\ ~ (exists i j, (i < j < n)%nat /\ c i j = true /\ ((a = i /\ b = j) \/ (a = j /\ b = i))).
Proof.
  intros Hl Hnd. unfold pair_loop.
  assert (G : forall L e, (forall i j, In (i, j) L -> (i < j < n)%nat) -> length e = n -> (forall a, NoDup (nth a e [])) ->
    let e' := fold_left (fun e p => if c (fst p) (snd p) then both set_remove e p else e) L e in
    length e' = n /\ (forall a, NoDup (nth a e' [])) /\
    forall a b, In b (nth a e' []) <-> In b (nth a e []) /\ ~ (exists i j, In (i, j) L /\ c i j = true /\ ((a = i /\ b = j) \/ (a = j /\ b = i)))).
  { clear e Hl Hnd. induction L as [|[i j] L IH]; intros e HL Hl Hnd; cbn [fold_left].
    - simpl. split; [exact Hl|]. split; [exact Hnd|]. intros a b. split; [|intros []; assumption]. intros Hb. split; [exact Hb|]. intros [? [? [[] _]]].
    - cbn [fst snd]. assert (Hij : (i < j < n)%nat) by (apply HL; left; reflexivity).
      assert (HL' : forall i0 j0, In (i0, j0) L -> (i0 < j0 < n)%nat) by (intros; apply HL; right; assumption).
      destruct (c i j) eqn:Ec.
      + assert (Hnth : forall a, nth a (both set_remove e (i, j)) [] = if Nat.eqb a i then set_remove j (nth i e []) else if Nat.eqb a j then set_remove i (nth j e []) else nth a e []).
        { intros a. apply both_nth; lia. }
        destruct (IH (both set_remove e (i, j)) HL') as [A [B C]].
        * rewrite both_length. exact Hl.
        * intros a. rewrite Hnth. destruct (Nat.eqb a i); [apply set_remove_nodup, Hnd|]. destruct (Nat.eqb a j); [apply set_remove_nodup, Hnd|apply Hnd].
        * split; [exact A|]. split; [exact B|]. intros a b. rewrite C, Hnth.
          assert (Split : (~ (exists i0 j0, In (i0, j0) ((i, j) :: L) /\ c i0 j0 = true /\ ((a = i0 /\ b = j0) \/ (a = j0 /\ b = i0)))) <->
             (~ ((a = i /\ b = j) \/ (a = j /\ b = i)) /\ ~ (exists i0 j0, In (i0, j0) L /\ c i0 j0 = true /\ ((a = i0 /\ b = j0) \/ (a = j0 /\ b = i0))))).
          { split.
            - intros N. split; intros Q; apply N; [exists i, j; split; [left; reflexivity|auto]|].
              destruct Q as [i' [j' [Q1 Q2]]]. exists i', j'. split; [right; exact Q1|exact Q2].
            - intros [N1 N2] [i' [j' [[E|Q1] [Q2 Q3]]]]; [inversion E; subst; auto|]. apply N2. exists i', j'. auto. }
          rewrite Split.
          destruct (Nat.eqb_spec a i) as [->|Ni]; [|destruct (Nat.eqb_spec a j) as [->|Nj]]; rewrite ?set_remove_in.
          -- split.
             ++ intros [[N1 Hb] N2]. split; [exact Hb|]. split; [|exact N2]. intros [[_ E]|[E _]]; [congruence|lia].
             ++ intros [Hb [N1 N2]]. split; [split; [|exact Hb]|exact N2]. intros ->. apply N1. auto.
          -- split.
             ++ intros [[N1 Hb] N2]. split; [exact Hb|]. split; [|exact N2]. intros [[E _]|[_ E]]; [lia|congruence].
             ++ intros [Hb [N1 N2]]. split; [split; [|exact Hb]|exact N2]. intros ->. apply N1. auto.
          -- split.
             ++ intros [Hb N2]. split; [exact Hb|]. split; [|exact N2]. intros [[E _]|[E _]]; congruence.
             ++ intros [Hb [N1 N2]]. split; assumption.
      + destruct (IH e HL' Hl Hnd) as [A [B C]]. split; [exact A|]. split; [exact B|]. intros a b. rewrite C. split.
        * intros [Hb N]. split; [exact Hb|]. intros [i' [j' [[E|Q1] [Q2 Q3]]]]; [inversion E; subst; congruence|apply N; exists i', j'; auto].
        * intros [Hb N]. split; [exact Hb|]. intros [i' [j' [Q1 Q2]]]. apply N. exists i', j'. split; [right; exact Q1|exact Q2]. }
  destruct (G (pairs n) e) as [A [B C]]; [intros i j Hij; apply in_pairs; exact Hij|exact Hl|exact Hnd|].
  split; [exact A|]. split; [exact B|]. intros a b. rewrite C.
  split; (intros [Hb N]; split; [exact Hb|]; intros [i [j [Q1 Q2]]]; apply N; exists i, j; split; [apply in_pairs; exact Q1|exact Q2]).
Qed.

Lemma count_filter {A} (P : A -> bool) l : count P l = length (filter P l).
Proof. induction l as [|a l IH]; simpl; [reflexivity|]. destruct (P a); simpl; rewrite IH; reflexivity. Qed.

Lemma nodup_count (l : list nat) n (P : nat -> bool) :
  NoDup l -> (forall j, In j l <-> (j < n)%nat /\ P j = true) -> length l = count P (seq 0 n).
Proof.
  intros Hl Hi. rewrite count_filter. apply Permutation_length. apply NoDup_Permutation; [exact Hl|apply NoDup_filter, seq_NoDup|].
  intros j. rewrite filter_In, in_seq, Hi. split; intros [A B]; (split; [lia|exact B]).
Qed.

(** [e] is the adjacency structure of the relation [P] *)
Definition repr (n : nat) (e : list (list nat)) (P : nat -> nat -> bool) : Prop :=
  length e = n /\ (forall a, NoDup (nth a e [])) /\ forall a b, In b (nth a e []) <-> (a < n)%nat /\ (b < n)%nat /\ P a b = true.

Lemma repr_degree n e P i : repr n e P -> (i < n)%nat -> length (nth i e []) = count (P i) (seq 0 n).
Proof.
  intros [Hl [Hn Hi]] Hin. apply nodup_count; [apply Hn|]. intros j. rewrite Hi. tauto.
Qed.

Lemma repr_total n e P : repr n e P -> edge_total e = n_pairs n P.
Proof.
  intros Hr. unfold edge_total, n_pairs. f_equal. pose proof Hr as [Hl _].
  rewrite <- (map_nth_seq [] e) at 1. rewrite map_map, Hl. apply map_ext_in. intros i Hi. apply in_seq in Hi.
  apply repr_degree; [exact Hr|lia].
Qed.

  Lemma count_mono {A} (P Q : A -> bool) l : (forall a, P a = true -> Q a = true) -> (count P l <= count Q l)%nat.
  Proof.
    intros HPQ. induction l as [|a l IH]; simpl; [lia|]. destruct (P a) eqn:E; [rewrite (HPQ a E); lia|destruct (Q a); lia].
  Qed.
  Lemma list_sum_mono {A} (f g : A -> nat) l : (forall a, In a l -> (f a <= g a)%nat) -> (list_sum (map f l) <= list_sum (map g l))%nat.
  Proof.
    induction l as [|a l IH]; simpl; intros Hfg; [lia|]. pose proof (Hfg a (or_introl eq_refl)).
    assert (list_sum (map f l) <= list_sum (map g l))%nat by (apply IH; intros; apply Hfg; right; assumption). lia.
  Qed.

Section GS.
  Context {H X : Type}.
  Variable conf : H -> X -> R.
  Variable row : nat -> X.
  Variable y : list R.
  Variable produce : nat -> list R -> H.
  Let n := length y.
  Let answers := answers produce.
  Let gsr := graphsep conf row y produce.

  Lemma pred_label h x : pred conf h x = label conf h x.
  Proof. unfold pred, label, predict_of_confidence, sign_label. destruct (Rleb_spec 0 (conf h x)); destruct (Rle_dec 0 (conf h x)); try contradiction; reflexivity. Qed.

  Definition unsepb (hs : list H) (i j : nat) : bool :=
    negb (Reqb (nth i y 0) (nth j y 0)) && forallb (fun h => Reqb (label conf h (row i)) (label conf h (row j))) hs.

  Lemma unsepb_spec hs i j : unsepb hs i j = true <-> unseparated conf row y hs i j.
  Proof.
    unfold unsepb, unseparated. rewrite andb_true_iff. split; intros [A B]; split.
    - destruct (Reqb_spec (nth i y 0) (nth j y 0)); [discriminate|assumption].
    - unfold pattern. apply map_ext_in. intros h Hh. rewrite forallb_forall in B. specialize (B h Hh).
      destruct (Reqb_spec (label conf h (row i)) (label conf h (row j))); [assumption|discriminate].
    - rewrite Reqb_false by exact A. reflexivity.
    - apply forallb_forall. intros h Hh. apply Reqb_true. unfold pattern in B.
      clear A. induction hs as [|h' hs IH]; [destruct Hh|]. simpl in B. inversion B. destruct Hh as [->|Hh]; [assumption|]. apply IH; assumption.
  Qed.

  Lemma unsepb_sym hs i j : unsepb hs i j = unsepb hs j i.
  Proof.
    apply eq_true_iff_eq. rewrite !unsepb_spec. unfold unseparated. split; intros [A B]; split; auto.
  Qed.

  Lemma unsepb_app hs h i j : unsepb (hs ++ [h]) i j = unsepb hs i j && Reqb (label conf h (row i)) (label conf h (row j)).
  Proof. unfold unsepb. rewrite forallb_app. simpl. rewrite andb_true_r, andb_assoc. reflexivity. Qed.

  Definition total (hs : list H) : nat := n_pairs n (unsepb hs).

  Lemma gs_pre_repr : repr n (pair_loop set_insert (fun i j => negb (Reqb (nth i y 0) (nth j y 0))) n (repeat [] n)) (unsepb []).
  Proof.
    assert (Hnil : forall a, nth a (repeat (@nil nat) n) [] = []).
    { intros a. destruct (Nat.lt_ge_cases a n); [apply nth_repeat_lt; assumption|]. apply nth_overflow. rewrite repeat_length. assumption. }
    destruct (pair_loop_insert (fun i j => negb (Reqb (nth i y 0) (nth j y 0))) n (repeat [] n)) as [A [B C]].
    - apply repeat_length.
    - intros a. rewrite Hnil. constructor.
    - split; [exact A|]. split; [exact B|]. intros a b. rewrite C, Hnil. unfold unsepb. simpl. rewrite andb_true_r. split.
      + intros [[]|[i [j [Hij [Hc Q]]]]]. destruct Q as [[-> ->]|[-> ->]]; repeat split; try lia; [exact Hc|].
        destruct (Reqb_spec (nth i y 0) (nth j y 0)); [discriminate|]. rewrite Reqb_false by congruence. reflexivity.
      + intros [Ha [Hb Hc]]. right.
        destruct (lt_eq_lt_dec a b) as [[L|<-]|L].
        * exists a, b. auto.
        * rewrite Reqb_true in Hc by reflexivity. discriminate.
        * exists b, a. split; [lia|]. split; [|auto]. destruct (Reqb_spec (nth a y 0) (nth b y 0)); [discriminate|]. rewrite Reqb_false by congruence. reflexivity.
  Qed.

  Lemma gs_update_repr e hs h : repr n e (unsepb hs) -> repr n (gs_update conf row y e h) (unsepb (hs ++ [h])).
  Proof.
    intros [Hl [Hn Hi]]. unfold gs_update. fold n.
    destruct (pair_loop_remove (fun i j => negb (Reqb (pred conf h (row i)) (pred conf h (row j)))) n e Hl Hn) as [A [B C]].
    split; [exact A|]. split; [exact B|]. intros a b. rewrite C, Hi, unsepb_app, andb_true_iff. split.
    - intros [[Ha [Hb Hu]] N]. split; [exact Ha|]. split; [exact Hb|]. split; [exact Hu|].
      destruct (Reqb_spec (label conf h (row a)) (label conf h (row b))) as [E|E]; [reflexivity|exfalso]. apply N.
      destruct (lt_eq_lt_dec a b) as [[L|E1]|L].
      + exists a, b. split; [lia|]. split; [|auto]. rewrite !pred_label, Reqb_false by exact E. reflexivity.
      + subst. congruence.
      + exists b, a. split; [lia|]. split; [|auto]. rewrite !pred_label, Reqb_false by congruence. reflexivity.
    - intros [Ha [Hb [Hu E]]]. split; [auto|]. intros [i [j [Hij [Hc Q]]]]. rewrite !pred_label in Hc.
      destruct (Reqb_spec (label conf h (row a)) (label conf h (row b))) as [E1|]; [|discriminate].
      destruct Q as [[-> ->]|[-> ->]]; [rewrite Reqb_true in Hc by exact E1|rewrite Reqb_true in Hc by (symmetry; exact E1)]; discriminate.
  Qed.



  Lemma total_app_le hs h : (total (hs ++ [h]) <= total hs)%nat.
  Proof.
    unfold total, n_pairs. apply list_sum_mono. intros i _. apply count_mono. intros j Hj. rewrite unsepb_app in Hj.
    apply andb_true_iff in Hj. apply Hj.
  Qed.

  Lemma count_le_length {A} (P : A -> bool) l : (count P l <= length l)%nat.
  Proof. induction l as [|a l IH]; simpl; [lia|]. destruct (P a); lia. Qed.

  Lemma total_le_sq hs : (total hs <= n * n)%nat.
  Proof.
    unfold total, n_pairs. apply Nat.le_trans with (list_sum (map (fun _ => n) (seq 0 n))).
    - apply list_sum_mono. intros i _. eapply Nat.le_trans; [apply count_le_length|]. rewrite seq_length. lia.
    - assert (G : forall l : list nat, list_sum (map (fun _ => n) l) = (length l * n)%nat) by (induction l; simpl; lia).
      rewrite G, seq_length. lia.
  Qed.

  (** degree distribution *)
  Definition degree_dist (hs : list H) : list R := map (fun i => INR (count (unsepb hs i) (seq 0 n)) / INR (total hs)) (seq 0 n).

  Lemma INR_list_sum l : INR (list_sum l) = rsum (map INR l).
  Proof. induction l as [|a l IH]; [reflexivity|]. cbn [map rsum]. rewrite <- IH, <- plus_INR. reflexivity. Qed.

  Lemma degree_dist_is_dist hs : (0 < total hs)%nat -> is_dist (degree_dist hs).
  Proof.
    intros Ht. pose proof (INR_pos _ Ht) as HT. split.
    - intros x Hx. apply in_map_iff in Hx. destruct Hx as [i [<- _]]. apply Rmult_le_pos; [apply pos_INR|]. left. apply Rinv_0_lt_compat. exact HT.
    - unfold degree_dist. rewrite rsum_map_div. unfold total, n_pairs in *. rewrite INR_list_sum, map_map in *. field. lra.
  Qed.

  Definition good_gtrace (tr : trace) : Prop :=
    forall k, (k < length tr)%nat ->
      (0 < total (answers (firstn k tr)))%nat /\ nth k tr [] = degree_dist (answers (firstn k tr)).

  Lemma good_gtrace_app tr : good_gtrace tr -> (0 < total (answers tr))%nat -> good_gtrace (tr ++ [degree_dist (answers tr)]).
  Proof.
    intros Ht Hd k Hk. rewrite app_length in Hk. simpl in Hk.
    destruct (Nat.eq_dec k (length tr)) as [->|Hne].
    - rewrite firstn_app_le by lia. rewrite firstn_all, app_nth2, Nat.sub_diag by lia. split; [exact Hd|reflexivity].
    - rewrite firstn_app_le, app_nth1 by lia. apply Ht. lia.
  Qed.

  (** a strict decrease in every continued round *)
  Definition decreasing (tr : trace) : Prop :=
    forall k, (k < length tr)%nat -> (total (answers (firstn (S k) tr)) < total (answers (firstn k tr)))%nat.

  Definition GInv (t : nat) (s : @gs H) (tr : trace) : Prop :=
    is_valid_binary_instance y = Ok tt /\ t = S (length tr) /\ gs_hyps s = answers tr /\
    repr n (gs_edges s) (unsepb (answers tr)) /\ gs_n_edges s = total (answers tr) /\ good_gtrace tr /\ decreasing tr.

  Lemma gs_pre_inv s s0 : gs_pre y s = Ok s0 -> GInv 1 s0 [].
  Proof.
    unfold gs_pre. destruct (is_valid_binary_instance y) as [[]|p] eqn:E; simpl; [|discriminate].
    intros Hs. inversion Hs; subst; clear Hs. unfold GInv; simpl.
    split; [exact E|]. split; [reflexivity|]. split; [reflexivity|]. pose proof gs_pre_repr as Hr.
    split; [exact Hr|]. split; [apply (repr_total n _ _ Hr)|]. split; intros k Hk; simpl in Hk; lia.
  Qed.

  (** one round *)
  Lemma gs_boost_step t s tr :
    GInv t s tr ->
    (total (answers tr) = 0%nat /\ gs_boost conf row y produce t s = ([], Ok (s, Break t))) \/
    ((0 < total (answers tr))%nat /\
     let d := degree_dist (answers tr) in
     (total (answers (tr ++ [d])) = total (answers tr) /\ exists s',
        gs_boost conf row y produce t s = ([d], Ok (s', Break (t + 1))) /\ gs_hyps s' = answers (tr ++ [d])) \/
     ((total (answers (tr ++ [d])) < total (answers tr))%nat /\ exists s',
        gs_boost conf row y produce t s = ([d], Ok (s', Continue)) /\ GInv (S t) s' (tr ++ [d]))).
  Proof.
    intros [Hy [Ht [Hh [Hr [Hn [Hg Hd]]]]]]. unfold gs_boost. rewrite Hn.
    destruct (Nat.eqb_spec (total (answers tr)) 0) as [E|E]; [left; split; [exact E|reflexivity]|right].
    split; [lia|]. cbv zeta. set (d := degree_dist (answers tr)).
    assert (Ed : map (fun e => INR (length e) / INR (total (answers tr))) (gs_edges s) = d).
    { rewrite <- (map_nth_seq [] (gs_edges s)). rewrite map_map. destruct Hr as [Hl Hr']. rewrite Hl. unfold d, degree_dist.
      apply map_ext_in. intros i Hi. apply in_seq in Hi. rewrite (repr_degree n (gs_edges s) (unsepb (answers tr))) by (try split; auto; lia). reflexivity. }
    rewrite Ed. set (h := produce t d).
    assert (Ea : answers (tr ++ [d]) = answers tr ++ [h]).
    { unfold answers. rewrite answers_app. replace (S (length tr)) with t by lia. reflexivity. }
    pose proof (gs_update_repr (gs_edges s) (answers tr) h Hr) as Hr'. rewrite <- Ea in Hr'.
    rewrite (repr_total n _ _ Hr'). fold (total (answers (tr ++ [d]))).
    assert (Hle : (total (answers (tr ++ [d])) <= total (answers tr))%nat) by (rewrite Ea; apply total_app_le).
    destruct (Nat.eqb_spec (total (answers tr)) (total (answers (tr ++ [d])))) as [E2|E2].
    - left. split; [lia|]. eexists. split; [reflexivity|]. cbn [gs_hyps]. rewrite Ea, Hh. reflexivity.
    - right. split; [lia|]. eexists. split; [reflexivity|]. unfold GInv. cbn [gs_hyps gs_edges gs_n_edges].
      split; [exact Hy|]. split; [rewrite app_length; simpl; lia|]. split; [rewrite Ea, Hh; reflexivity|].
      split; [exact Hr'|]. split; [reflexivity|]. split; [apply good_gtrace_app; [exact Hg|lia]|].
      intros k Hk. rewrite app_length in Hk. simpl in Hk. destruct (Nat.eq_dec k (length tr)) as [->|Hne].
      + rewrite (firstn_app_le (length tr)) by lia. rewrite firstn_all, firstn_all2 by (rewrite app_length; simpl; lia). lia.
      + rewrite !firstn_app_le by lia. apply Hd. lia.
  Qed.

  Definition gs_result (tr : trace) (f : naive_agg H) : Prop :=
    f = na_new conf row y (answers tr) /\ good_gtrace tr /\ is_valid_binary_instance y = Ok tt /\
    ((total (answers tr) = 0%nat /\ decreasing tr) \/
     exists tr0 d, tr = tr0 ++ [d] /\ decreasing tr0 /\ total (answers tr) = total (answers tr0) /\ (0 < total (answers tr))%nat).

  (** either all rounds decreased, or all but the last *)
  Definition almost_decreasing (tr : trace) : Prop :=
    forall k, (S k < length tr)%nat -> (total (answers (firstn (S k) tr)) < total (answers (firstn k tr)))%nat.

  Lemma almost_app tr d : decreasing tr -> almost_decreasing (tr ++ [d]).
  Proof.
    intros Hd k Hk. rewrite app_length in Hk. simpl in Hk. rewrite !firstn_app_le by lia. apply Hd. lia.
  Qed.

  Lemma gs_run_spec fuel s :
    (good_gtrace (trace_of (run gsr fuel s)) /\ almost_decreasing (trace_of (run gsr fuel s))) /\
    (forall tr f, run gsr fuel s = Finished tr f -> gs_result tr f).
  Proof.
    apply (run_inv gsr GInv (fun tr => good_gtrace tr /\ almost_decreasing tr) gs_result).
    - split; intros k Hk; simpl in Hk; lia.
    - intros s0 E. exact (gs_pre_inv s s0 E).
    - intros t s' tr [_ [_ [_ [_ [_ [Hg Hd]]]]]]. split; [exact Hg|]. intros k Hk. apply Hd. lia.
    - intros t s' tr Hinv. pose proof Hinv as [Hy [Ht [Hh [Hr [Hn [Hg Hd]]]]]].
      destruct (gs_boost_step t s' tr Hinv) as [[H0 E]|[Hp [[Heq [s1 [E Eh]]]|[Hlt [s1 [E Hinv']]]]]];
        simpl b_boost; rewrite E.
      + rewrite app_nil_r. split; [split; [exact Hg|intros k Hk; apply Hd; lia]|]. simpl.
        split; [rewrite Hh; reflexivity|]. split; [exact Hg|]. split; [exact Hy|]. left. auto.
      + split; [split; [apply good_gtrace_app; assumption|apply almost_app; exact Hd]|]. simpl.
        split; [rewrite Eh; reflexivity|]. split; [apply good_gtrace_app; assumption|]. split; [exact Hy|]. right.
        exists tr, (degree_dist (answers tr)). split; [reflexivity|]. split; [exact Hd|]. split; [exact Heq|]. lia.
      + exact Hinv'.
  Qed.

  Lemma gs_run_from_terminates fuel t s tr :
    GInv t s tr -> (total (answers tr) < fuel)%nat -> exists tr' f, run_from gsr fuel t tr s = Finished tr' f.
  Proof.
    revert t s tr. induction fuel as [|fuel IH]; intros t s tr Hinv Hf; [lia|]. cbn [run_from].
    destruct (gs_boost_step t s tr Hinv) as [[H0 E]|[Hp [[Heq [s1 [E Eh]]]|[Hlt [s1 [E Hinv']]]]]]; simpl b_boost; rewrite E.
    - eexists. eexists. reflexivity.
    - eexists. eexists. reflexivity.
    - apply IH; [exact Hinv'|lia].
  Qed.

  (** *** the number of rounds *)
  Lemma decreasing_bound tr : decreasing tr -> (length tr + total (answers tr) <= total [])%nat.
  Proof.
    intros Hd. assert (G : forall k, (k <= length tr)%nat -> (k + total (answers (firstn k tr)) <= total [])%nat).
    { induction k as [|k IH]; intros Hk; [change (answers (firstn 0 tr)) with (@nil H); lia|]. specialize (Hd k). lia. }
    specialize (G (length tr) (le_n _)). rewrite firstn_all in G. exact G.
  Qed.

  Lemma total_zero hs : total hs = 0%nat -> forall i j, (i < n)%nat -> (j < n)%nat -> ~ unseparated conf row y hs i j.
  Proof.
    intros H0 i j Hi Hj Hu. apply unsepb_spec in Hu.
    assert (C : (0 < count (unsepb hs i) (seq 0 n))%nat).
    { rewrite count_filter. assert (In j (filter (unsepb hs i) (seq 0 n))) by (apply filter_In; split; [apply in_seq; lia|exact Hu]).
      destruct (filter (unsepb hs i) (seq 0 n)); [contradiction|simpl; lia]. }
    unfold total, n_pairs in H0.
    assert (G : forall l, In i l -> list_sum (map (fun i0 => count (unsepb hs i0) (seq 0 n)) l) <> 0%nat).
    { induction l as [|a l IH]; [intros []|]. intros [->|Hl]; simpl; [lia|]. specialize (IH Hl). lia. }
    apply (G (seq 0 n)); [apply in_seq; lia|exact H0].
  Qed.

  (** *** progress with a weak learner of edge g *)
  Definition b2R (b : bool) : R := if b then 1 else 0.

  Lemma count_b2R (P : nat -> bool) l : INR (count P l) = rsum (map (fun j => b2R (P j)) l).
  Proof.
    induction l as [|a l IH]; [reflexivity|]. cbn [count map rsum]. destruct (P a); [rewrite S_INR|]; rewrite IH; unfold b2R; lra.
  Qed.

  Lemma rsum_swap (f : nat -> nat -> R) l l' :
    rsum (map (fun i => rsum (map (f i) l')) l) = rsum (map (fun j => rsum (map (fun i => f i j) l)) l').
  Proof.
    induction l as [|a l IH]; cbn [map rsum].
    - rewrite (rsum_map_const 0). ring.
    - rewrite IH, <- rsum_map_plus. reflexivity.
  Qed.

  Definition totalR (hs : list H) : R := rsum (map (fun i => rsum (map (fun j => b2R (unsepb hs i j)) (seq 0 n))) (seq 0 n)).
  Lemma totalR_eq hs : INR (total hs) = totalR hs.
  Proof.
    unfold total, n_pairs, totalR. rewrite INR_list_sum, map_map. apply rsum_map_ext. intros i _. apply count_b2R.
  Qed.

  Lemma label_pm1 h x : label conf h x = 1 \/ label conf h x = -1.
  Proof. unfold label, sign_label. destruct (Rle_dec 0 (conf h x)); auto. Qed.

  Lemma separation_rate hs h :
    (forall i, (i < n)%nat -> pm1 (nth i y 0)) -> (0 < total hs)%nat ->
    INR (total (hs ++ [h])) <= (1 - edge_of y (degree_dist hs) (fun i => label conf h (row i))) * INR (total hs).
  Proof.
    intros Hpm Hp. pose proof (INR_pos _ Hp) as HT. set (lb := fun i => label conf h (row i)).
    set (S := rsum (map (fun i => rsum (map (fun j => b2R (unsepb hs i j) * (nth i y 0 * lb i)) (seq 0 n))) (seq 0 n))).
    assert (E1 : edge_of y (degree_dist hs) lb * INR (total hs) = S).
    { unfold edge_of, S. fold n. rewrite Rmult_comm, <- rsum_map_mult. apply rsum_map_ext. intros i Hi. apply in_seq in Hi.
      unfold degree_dist. rewrite nth_map_seq by lia. rewrite count_b2R.
      replace (INR (total hs) * (rsum (map (fun j => b2R (unsepb hs i j)) (seq 0 n)) / INR (total hs) * (nth i y 0 * lb i)))
        with ((nth i y 0 * lb i) * rsum (map (fun j => b2R (unsepb hs i j)) (seq 0 n))) by (field; lra).
      rewrite <- rsum_map_mult. apply rsum_map_ext. intros j _. ring. }
    assert (E2 : S = rsum (map (fun i => rsum (map (fun j => b2R (unsepb hs i j) * (nth j y 0 * lb j)) (seq 0 n))) (seq 0 n))).
    { unfold S. rewrite rsum_swap. apply rsum_map_ext. intros i _. apply rsum_map_ext. intros j _. rewrite unsepb_sym. reflexivity. }
    rewrite Rmult_minus_distr_r, Rmult_1_l, E1.
    assert (E3 : 2 * S = rsum (map (fun i => rsum (map (fun j => b2R (unsepb hs i j) * (nth i y 0 * lb i + nth j y 0 * lb j)) (seq 0 n))) (seq 0 n))).
    { replace (2 * S) with (S + S) by ring. rewrite E2 at 2. unfold S. rewrite <- rsum_map_plus. apply rsum_map_ext. intros i _.
      rewrite <- rsum_map_plus. apply rsum_map_ext. intros j _. ring. }
    assert (E4 : 2 * S <= 2 * (totalR hs - totalR (hs ++ [h]))).
    { rewrite E3. unfold totalR. rewrite <- rsum_map_minus, <- rsum_map_mult. apply rsum_map_le. intros i Hi. apply in_seq in Hi.
      rewrite <- rsum_map_minus, <- rsum_map_mult. apply rsum_map_le. intros j Hj. apply in_seq in Hj.
      rewrite unsepb_app. destruct (unsepb hs i j) eqn:Eu; [|unfold b2R; simpl; lra].
      apply unsepb_spec in Eu. destruct Eu as [Hne _].
      assert (Hi' : (i < n)%nat) by lia. assert (Hj' : (j < n)%nat) by lia.
      unfold lb. fold (lb i) (lb j).
      destruct (Hpm i Hi') as [Ei|Ei], (Hpm j Hj') as [Ej|Ej]; rewrite Ei, Ej in *; try congruence;
        destruct (label_pm1 h (row i)) as [Li|Li], (label_pm1 h (row j)) as [Lj|Lj]; unfold lb; rewrite Li, Lj;
        [rewrite Reqb_true by reflexivity|rewrite Reqb_false by lra|rewrite Reqb_false by lra|rewrite Reqb_true by reflexivity
        |rewrite Reqb_true by reflexivity|rewrite Reqb_false by lra|rewrite Reqb_false by lra|rewrite Reqb_true by reflexivity]; unfold b2R; simpl; lra. }
    rewrite !totalR_eq. lra.
  Qed.
End GS.

Section Facts.
  Context {H X : Type}.
  Variable conf : H -> X -> R.
  Variable row : nat -> X.
  Variable y : list R.
  Variable produce : nat -> list R -> H.

  Lemma n_pairs_ext n P Q : (forall i j, P i j = Q i j) -> n_pairs n P = n_pairs n Q.
  Proof.
    intros E. unfold n_pairs. f_equal. apply map_ext. intros i. rewrite !count_filter. f_equal. apply filter_ext. intros j. apply E.
  Qed.

  Lemma count_unseparated_total hs k : count_unseparated conf row y hs k <-> k = total conf row y hs.
  Proof.
    split.
    - intros [P [HP ->]]. apply n_pairs_ext. intros i j. apply eq_true_iff_eq. rewrite HP, unsepb_spec. reflexivity.
    - intros ->. exists (unsepb conf row y hs). split; [apply unsepb_spec|reflexivity].
  Qed.

  Lemma gtrace_bound tr : good_gtrace conf row y produce tr -> almost_decreasing conf row y produce tr ->
    (length tr <= total conf row y [])%nat.
  Proof.
    intros Hg Ha. destruct (Nat.eq_dec (length tr) 0) as [->|Hne]; [lia|].
    set (k := (length tr - 1)%nat).
    assert (Hd : decreasing conf row y produce (firstn k tr)).
    { intros j Hj. rewrite firstn_length in Hj. rewrite !firstn_firstn, !Nat.min_l by lia. apply Ha. unfold k in Hj. lia. }
    pose proof (decreasing_bound conf row y produce _ Hd) as B. rewrite firstn_length, Nat.min_l in B by (unfold k; lia).
    destruct (Hg k) as [P _]; [unfold k; lia|]. unfold k in *. lia.
  Qed.

  Lemma bits_eqb_spec a b : bits_eqb a b = true <-> a = b.
  Proof.
    revert b; induction a as [|x a IH]; intros [|z b]; simpl; split; intros E; try reflexivity; try discriminate.
    - apply andb_true_iff in E. destruct E as [E1 E2]. apply Bool.eqb_prop in E1. apply IH in E2. congruence.
    - inversion E; subst. rewrite Bool.eqb_reflx. simpl. apply IH. reflexivity.
  Qed.

  Lemma bits_pattern hs x x' :
    na_bits_train conf hs x = na_bits conf hs x' <-> pattern conf hs x = pattern conf hs x'.
  Proof.
    unfold na_bits_train, na_bits, pattern. induction hs as [|h hs IH]; simpl; [tauto|].
    rewrite !pred_label.
    assert (E : Rltb 0 (label conf h x) = Reqb (label conf h x') 1 <-> label conf h x = label conf h x').
    { destruct (label_pm1 conf h x) as [-> | ->], (label_pm1 conf h x') as [-> | ->];
        [rewrite Rltb_true, Reqb_true by lra|rewrite Rltb_true, Reqb_false by lra|rewrite Rltb_false, Reqb_true by lra|rewrite Rltb_false, Reqb_false by lra];
        split; intros E; try reflexivity; try discriminate; lra. }
    split; intros Q; injection Q as Q1 Q2; (f_equal; [apply E; exact Q1|apply IH; exact Q2]).
  Qed.

  Lemma na_confidence_spec hs x :
    na_confidence conf (na_new conf row y hs) x =
    if existsb (fun i => Rltb 0 (nth i y 0) && bits_eqb (na_bits_train conf hs (row i)) (na_bits conf hs x)) (seq 0 (length y)) then 1 else -1.
  Proof.
    unfold na_confidence, na_new. cbn [na_prediction na_hypotheses].
    match goal with |- (if ?a then _ else _) = (if ?b then _ else _) => assert (E : a = b); [|rewrite E; reflexivity] end.
    apply eq_true_iff_eq. rewrite !existsb_exists. split.
    - intros [p [Hp Eb]]. apply in_map_iff in Hp. destruct Hp as [i [<- Hi]]. apply in_map_iff in Hi. destruct Hi as [[i' yi] [Ei Hi]].
      cbn [fst] in Ei. subst i'. apply filter_In in Hi. destruct Hi as [Hc Hpos]. cbn [snd] in Hpos.
      assert (Hi : (i < length y)%nat /\ yi = nth i y 0).
      { apply (In_nth _ _ (0%nat, 0)) in Hc. destruct Hc as [k [Hk Ek]]. rewrite combine_length, seq_length in Hk.
        rewrite combine_nth in Ek by apply seq_length. rewrite seq_nth in Ek by lia. inversion Ek. subst. split; [lia|reflexivity]. }
      destruct Hi as [Hi ->]. exists i. split; [apply in_seq; lia|]. rewrite Hpos, Eb. reflexivity.
    - intros [i [Hi E]]. apply in_seq in Hi. apply andb_true_iff in E. destruct E as [E1 E2].
      exists (na_bits_train conf hs (row i)). split; [|exact E2]. apply in_map_iff. exists i. split; [reflexivity|].
      apply in_map_iff. exists (i, nth i y 0). split; [reflexivity|]. apply filter_In. split; [|exact E1].
      assert (E : (i, nth i y 0) = nth i (combine (seq 0 (length y)) y) (0%nat, 0)).
      { rewrite combine_nth by apply seq_length. rewrite seq_nth by lia. reflexivity. }
      rewrite E. apply nth_In. rewrite combine_length, seq_length. lia.
  Qed.

  Lemma na_recall hs x :
    (na_confidence conf (na_new conf row y hs) x = 1 <->
       exists i, (i < length y)%nat /\ 0 < nth i y 0 /\ pattern conf hs (row i) = pattern conf hs x) /\
    (na_confidence conf (na_new conf row y hs) x = 1 \/ na_confidence conf (na_new conf row y hs) x = -1).
  Proof.
    rewrite na_confidence_spec. destruct (existsb _ _) eqn:E.
    - split; [|auto]. split; [intros _|reflexivity]. apply existsb_exists in E. destruct E as [i [Hi E]]. apply in_seq in Hi.
      apply andb_true_iff in E. destruct E as [E1 E2]. exists i. split; [lia|].
      split; [destruct (Rltb_spec 0 (nth i y 0)); [assumption|discriminate]|]. apply bits_pattern, bits_eqb_spec. exact E2.
    - split; [|auto]. split; [lra|]. intros [i [Hi [Hp Hpat]]]. exfalso.
      assert (existsb (fun i => Rltb 0 (nth i y 0) && bits_eqb (na_bits_train conf hs (row i)) (na_bits conf hs x)) (seq 0 (length y)) = true); [|congruence].
      apply existsb_exists. exists i. split; [apply in_seq; lia|]. rewrite Rltb_true by exact Hp. simpl. apply bits_eqb_spec, bits_pattern. exact Hpat.
  Qed.

  Lemma na_zero_error hs :
    (forall i, (i < length y)%nat -> pm1 (nth i y 0)) ->
    (forall i j, (i < length y)%nat -> (j < length y)%nat -> ~ unseparated conf row y hs i j) ->
    forall i, (i < length y)%nat -> na_confidence conf (na_new conf row y hs) (row i) = nth i y 0.
  Proof.
    intros Hpm Hs i Hi. destruct (na_recall hs (row i)) as [R1 R2]. destruct (Hpm i Hi) as [E|E].
    - rewrite E. apply R1. exists i. split; [exact Hi|]. split; [rewrite E; lra|reflexivity].
    - rewrite E. destruct R2 as [R2|R2]; [|exact R2]. exfalso. apply R1 in R2. destruct R2 as [j [Hj [Hp Hpat]]].
      apply (Hs j i Hj Hi). split; [rewrite E; lra|exact Hpat].
  Qed.

  (** geometric decrease *)
  Lemma rate_tr g tr :
    0 < g -> (forall i, (i < length y)%nat -> pm1 (nth i y 0)) -> good_gtrace conf row y produce tr ->
    (forall k, (k < length tr)%nat -> g <= edge_of y (nth k tr []) (fun i => label conf (produce (S k) (nth k tr [])) (row i))) ->
    forall k, (k <= length tr)%nat -> INR (total conf row y (answers produce (firstn k tr))) <= exp (- g * INR k) * INR (total conf row y []).
  Proof.
    intros Hg Hpm Hgt He. induction k as [|k IH]; intros Hk.
    - simpl. rewrite Rmult_0_r, exp_0. change (answers produce []) with (@nil H). lra.
    - destruct (Hgt k) as [Hp Hd]; [lia|]. pose proof (He k Hk) as Hek.
      set (d := nth k tr []) in *. 
      assert (Ef : firstn (S k) tr = firstn k tr ++ [d]).
      { clear -Hk. subst d. revert tr Hk. induction k as [|k IH]; intros [|q tr] Hk; simpl in *; try lia; [reflexivity|].
        f_equal. apply IH. lia. }
      assert (Ea : answers produce (firstn (S k) tr) = answers produce (firstn k tr) ++ [produce (S k) d]).
      { rewrite Ef, answers_app, firstn_length, Nat.min_l by lia. reflexivity. }
      rewrite Ea. pose proof (separation_rate conf row y (answers produce (firstn k tr)) (produce (S k) d) Hpm Hp) as Rt.
      rewrite <- Hd in Rt. fold d in Rt.
      set (e := edge_of y d (fun i => label conf (produce (S k) d) (row i))) in *.
      assert (He1 : 1 - e <= exp (- g)) by (pose proof (exp_ge_1x (- g)); lra).
      pose proof (pos_INR (total conf row y (answers produce (firstn k tr)))) as Hpos.
      assert (IH' := IH (Nat.lt_le_incl _ _ Hk)).
      rewrite S_INR. replace (- g * (INR k + 1)) with (- g + - g * INR k) by ring. rewrite exp_plus.
      pose proof (exp_pos (- g)). nra.
  Qed.
End Facts.

(** ** C21: what a naive aggregation answers, on any instance (of the training sample or not) *)
Lemma P_C21_naive_aggregation_recall :
  forall (H X : Type) (conf : H -> X -> R) (row : nat -> X) (y : list R) (hs : list H) (x : X),
  let c := na_confidence conf (na_new conf row y hs) x in
  (c = 1 <-> exists i, (i < length y)%nat /\ 0 < nth i y 0 /\ pattern conf hs (row i) = pattern conf hs x) /\
  (c = 1 \/ c = -1).
Proof. intros. apply na_recall. Qed.

(** ** C20: the distribution shown to the weak learner *)
Lemma P_C20_graphsep_distribution :
  forall (H X : Type) (conf : H -> X -> R) (row : nat -> X) (y : list R) (produce : nat -> list R -> H) (s : gs) (fuel : nat) tr k,
  trace_of (run (graphsep conf row y produce) fuel s) = tr -> (k < length tr)%nat ->
  exists P, (forall i j, P i j = true <-> unseparated conf row y (answers produce (firstn k tr)) i j) /\
    (0 < n_pairs (length y) P)%nat /\
    nth k tr [] = map (fun i => INR (count (P i) (seq 0 (length y))) / INR (n_pairs (length y) P)) (seq 0 (length y)) /\
    is_dist (nth k tr []).
Proof.
  intros H X conf row y produce s fuel tr k E Hk.
  destruct (gs_run_spec conf row y produce fuel s) as [[Hg _] _]. rewrite E in Hg. destruct (Hg k Hk) as [Hp Hd].
  exists (unsepb conf row y (answers produce (firstn k tr))). split; [apply unsepb_spec|]. split; [exact Hp|].
  split; [exact Hd|]. rewrite Hd. apply degree_dist_is_dist. exact Hp.
Qed.

(** ... and zero training error once no opposite-label pair is left unseparated *)
Lemma P_C20_graphsep_zero_error :
  forall (H X : Type) (conf : H -> X -> R) (row : nat -> X) (y : list R) (produce : nat -> list R -> H) (s : gs) (fuel : nat) tr f,
  run (graphsep conf row y produce) fuel s = Finished tr f ->
  (forall i, (i < length y)%nat -> pm1 (nth i y 0)) ->
  (forall i j, (i < length y)%nat -> (j < length y)%nat -> ~ unseparated conf row y (answers produce tr) i j) ->
  forall i, (i < length y)%nat -> na_confidence conf f (row i) = nth i y 0.
Proof.
  intros H X conf row y produce s fuel tr f Hr Hpm Hs i Hi.
  destruct (gs_run_spec conf row y produce fuel s) as [_ HF]. destruct (HF tr f Hr) as [-> _].
  apply na_zero_error; assumption.
Qed.

(** how a run can end: everything is separated, or the last hypothesis separated nothing new *)
Lemma P_C20_graphsep_end :
  forall (H X : Type) (conf : H -> X -> R) (row : nat -> X) (y : list R) (produce : nat -> list R -> H) (s : gs) (fuel : nat) tr f,
  run (graphsep conf row y produce) fuel s = Finished tr f ->
  na_hypotheses f = answers produce tr /\
  ((forall i j, (i < length y)%nat -> (j < length y)%nat -> ~ unseparated conf row y (answers produce tr) i j) \/
   (exists tr0 d, tr = tr0 ++ [d] /\
      forall i j, (i < length y)%nat -> (j < length y)%nat ->
        unseparated conf row y (answers produce tr0) i j -> unseparated conf row y (answers produce tr) i j)).
Proof.
  intros H X conf row y produce s fuel tr f Hr.
  destruct (gs_run_spec conf row y produce fuel s) as [_ HF]. destruct (HF tr f Hr) as [-> [_ [_ He]]].
  split; [reflexivity|]. destruct He as [[H0 _]|[tr0 [d [-> [_ [Heq _]]]]]].
  - left. intros i j Hi Hj. apply total_zero; assumption.
  - right. exists tr0, d. split; [reflexivity|]. intros i j Hi Hj Hu. apply unsepb_spec in Hu. apply unsepb_spec.
    rewrite answers_app in *. set (h := produce (S (length tr0)) d) in *.
    destruct (unsepb conf row y (answers produce tr0 ++ [h]) i j) eqn:E; [reflexivity|exfalso].
    assert (L : (total conf row y (answers produce tr0 ++ [h]) < total conf row y (answers produce tr0))%nat); [|lia].
    unfold total, n_pairs.
    assert (Gc : forall i0 l, (count (unsepb conf row y (answers produce tr0 ++ [h]) i0) l <= count (unsepb conf row y (answers produce tr0) i0) l)%nat).
    { intros i0 l. apply count_mono. intros j0 Hj0. rewrite unsepb_app in Hj0. apply andb_true_iff in Hj0. apply Hj0. }
    assert (G1 : forall l, In j l -> (count (unsepb conf row y (answers produce tr0 ++ [h]) i) l < count (unsepb conf row y (answers produce tr0) i) l)%nat).
    { induction l as [|a l IH]; [intros []|]. intros [->|Hl]; simpl.
      - rewrite E, Hu. pose proof (Gc i l). lia.
      - specialize (IH Hl). destruct (unsepb conf row y (answers produce tr0 ++ [h]) i a) eqn:E1.
        + assert (E2 : unsepb conf row y (answers produce tr0) i a = true) by (rewrite unsepb_app in E1; apply andb_true_iff in E1; apply E1).
          rewrite E2. lia.
        + destruct (unsepb conf row y (answers produce tr0) i a); lia. }
    assert (G2 : forall l, In i l -> (list_sum (map (fun i0 => count (unsepb conf row y (answers produce tr0 ++ [h]) i0) (seq 0 (length y))) l)
                                  < list_sum (map (fun i0 => count (unsepb conf row y (answers produce tr0) i0) (seq 0 (length y))) l))%nat).
    { assert (Gj : In j (seq 0 (length y))) by (apply in_seq; lia).
      induction l as [|a l IH]; [intros []|]. intros [->|Hl]; simpl.
      - pose proof (G1 _ Gj). assert (list_sum (map (fun i0 => count (unsepb conf row y (answers produce tr0 ++ [h]) i0) (seq 0 (length y))) l)
           <= list_sum (map (fun i0 => count (unsepb conf row y (answers produce tr0) i0) (seq 0 (length y))) l))%nat by (apply list_sum_mono; intros; apply Gc). lia.
      - specialize (IH Hl). pose proof (Gc a (seq 0 (length y))). lia. }
    apply G2. apply in_seq. lia.
Qed.

(** ** C19: termination, whatever the weak learner does *)
Lemma P_C19_graphsep_terminates :
  forall (H X : Type) (conf : H -> X -> R) (row : nat -> X) (y : list R) (produce : nat -> list R -> H) (s : gs) (fuel : nat),
  let n := length y in
  (length (trace_of (run (graphsep conf row y produce) fuel s)) <= n * n)%nat /\
  (is_valid_binary_instance y = Ok tt -> (n * n < fuel)%nat ->
   exists tr f, run (graphsep conf row y produce) fuel s = Finished tr f).
Proof.
  intros H X conf row y produce s fuel n. split.
  - destruct (gs_run_spec conf row y produce fuel s) as [[Hg Ha] _].
    eapply Nat.le_trans; [apply (gtrace_bound conf row y produce _ Hg Ha)|apply total_le_sq].
  - intros Hy Hf. unfold run. simpl b_pre. destruct (gs_pre y s) as [s0|p] eqn:E.
    + apply (gs_run_from_terminates conf row y produce); [apply (gs_pre_inv conf row y produce s s0 E)|].
      pose proof (total_le_sq conf row y (answers produce [])). unfold n in Hf. lia.
    + unfold gs_pre in E. rewrite Hy in E. discriminate.
Qed.

(** every round but the last strictly decreases the number of unseparated pairs *)
Lemma P_C19_graphsep_strict_progress :
  forall (H X : Type) (conf : H -> X -> R) (row : nat -> X) (y : list R) (produce : nat -> list R -> H) (s : gs) (fuel : nat) tr k a b,
  trace_of (run (graphsep conf row y produce) fuel s) = tr -> (S k < length tr)%nat ->
  count_unseparated conf row y (answers produce (firstn k tr)) a ->
  count_unseparated conf row y (answers produce (firstn (S k) tr)) b ->
  (b < a)%nat.
Proof.
  intros H X conf row y produce s fuel tr k a b E Hk Ha Hb. apply count_unseparated_total in Ha, Hb. subst a b.
  destruct (gs_run_spec conf row y produce fuel s) as [[_ Hd] _]. rewrite E in Hd. apply Hd. exact Hk.
Qed.

(** ** C53: with a weak learner of edge at least g, at most 1 + 2 ln(n)/g rounds and zero training error *)
Lemma P_C53_graphsep_rate :
  forall (H X : Type) (conf : H -> X -> R) (row : nat -> X) (y : list R) (produce : nat -> list R -> H) (s : gs) (fuel : nat) (g : R),
  0 < g -> is_valid_binary_instance y = Ok tt ->
  (forall i, (i < length y)%nat -> pm1 (nth i y 0)) ->
  (length y * length y < fuel)%nat ->
  let queries := trace_of (run (graphsep conf row y produce) fuel s) in
  (forall k, (k < length queries)%nat ->
     g <= edge_of y (nth k queries []) (fun i => label conf (produce (S k) (nth k queries [])) (row i))) ->
  exists tr f, run (graphsep conf row y produce) fuel s = Finished tr f /\
    INR (length tr) <= 1 + 2 * ln (INR (length y)) / g /\
    forall i, (i < length y)%nat -> na_confidence conf f (row i) = nth i y 0.
Proof.
  intros H X conf row y produce s fuel g Hg Hy Hpm Hf queries He.
  destruct (P_C19_graphsep_terminates H X conf row y produce s fuel) as [_ T]. destruct (T Hy Hf) as [tr [f Hr]].
  exists tr, f. split; [exact Hr|]. unfold queries in He. rewrite Hr in He. cbn [trace_of] in He.
  destruct (gs_run_spec conf row y produce fuel s) as [_ HF]. destruct (HF tr f Hr) as [-> [Hgt [_ Hend]]].
  pose proof (valid_instance_nonempty y Hy) as Hn. pose proof (INR_pos _ Hn) as HnR.
  pose proof (rate_tr conf row y produce g tr Hg Hpm Hgt He) as Rt.
  split.
  - destruct (Nat.eq_dec (length tr) 0) as [E0|E0].
    + rewrite E0. simpl. assert (0 <= ln (INR (length y))). { rewrite <- ln_1. apply ln_le; [lra|]. apply (le_INR 1). lia. }
      assert (0 <= 2 * ln (INR (length y)) / g) by (apply Rmult_le_pos; [lra|left; apply Rinv_0_lt_compat; exact Hg]). lra.
    + set (k := (length tr - 1)%nat). destruct (Hgt k) as [Hp _]; [unfold k; lia|].
      specialize (Rt k ltac:(unfold k; lia)).
      assert (H1 : 1 <= exp (- g * INR k) * (INR (length y) * INR (length y))).
      { apply Rle_trans with (INR (total conf row y (answers produce (firstn k tr)))); [apply (le_INR 1); lia|].
        eapply Rle_trans; [exact Rt|]. apply Rmult_le_compat_l; [left; apply exp_pos|]. rewrite <- mult_INR. apply le_INR. apply total_le_sq. }
      assert (H2 : 0 <= - g * INR k + 2 * ln (INR (length y))).
      { apply exp_le_inv. rewrite exp_0, exp_plus. replace (2 * ln (INR (length y))) with (ln (INR (length y)) + ln (INR (length y))) by ring.
        rewrite exp_plus, exp_ln by exact HnR. exact H1. }
      assert (H3 : INR k <= 2 * ln (INR (length y)) / g) by (apply Rle_div_iff; lra).
      assert (INR (length tr) = INR k + 1) by (rewrite <- S_INR; f_equal; unfold k; lia). lra.
  - apply na_zero_error; [exact Hpm|]. destruct Hend as [[H0 _]|[tr0 [d [-> [_ [Heq Hpos]]]]]].
    + intros i j Hi Hj. apply total_zero; assumption.
    + exfalso. rewrite app_length in *. simpl in *.
      destruct (Hgt (length tr0)) as [Hp Hd]; [rewrite app_length; simpl; lia|].
      specialize (He (length tr0) ltac:(lia)). rewrite app_nth2, Nat.sub_diag in He, Hd by lia. cbn [nth] in He, Hd.
      rewrite firstn_app_le, firstn_all in Hp, Hd by lia.
      rewrite answers_app in Heq, Hpos. set (h := produce (S (length tr0)) d) in *.
      pose proof (separation_rate conf row y (answers produce tr0) h Hpm Hp) as Rs. rewrite <- Hd, Heq in Rs.
      pose proof (INR_pos _ Hp). nra.
Qed.

(** the hypotheses are satisfiable: labels (1,-1), the weak learner always answers with the perfect hypothesis *)
Example C53_nonvacuous :
  let conf := fun (h : nat -> R) (x : nat) => h x in
  let produce := fun (_ : nat) (_ : list R) (x : nat) => nth x y2 0 in
  forall k, let queries := trace_of (run (graphsep conf (fun i => i) y2 produce) 5 gs_init) in
  (k < length queries)%nat ->
  1 <= edge_of y2 (nth k queries []) (fun i => label conf (produce (S k) (nth k queries [])) i).
Proof.
  intros conf produce k queries Hk.
  destruct (P_C20_graphsep_distribution _ _ conf (fun i => i) y2 produce gs_init 5 queries k eq_refl Hk) as [P [_ [_ [E [_ Hs]]]]].
  set (d := nth k queries []) in *.
  assert (Hl : length d = 2%nat) by (rewrite E, map_length, seq_length; reflexivity).
  destruct d as [|a [|b [|c d]]]; simpl in Hl; try lia. simpl in Hs.
  unfold edge_of, label, sign_label, conf, produce, y2. simpl.
  destruct (Rle_dec 0 1); [|lra]. destruct (Rle_dec 0 (-1)); lra.
Qed.

Lemma run_from_prefix {St Out} (b : booster St Out) : forall fuel t tr s, exists l, trace_of (run_from b fuel t tr s) = tr ++ l.
Proof.
  induction fuel as [|fuel IH]; intros t tr s; [exists []; simpl; rewrite app_nil_r; reflexivity|].
  cbn [run_from]. destruct (b_boost _ t s) as [q [[s' [|it]]|p]].
  - destruct (IH (S t) (tr ++ q) s') as [l E]. exists (q ++ l). rewrite E, app_assoc. reflexivity.
  - destruct (b_post _ s'); exists q; reflexivity.
  - exists q. reflexivity.
Qed.

Example C53_run_asks : trace_of (run (graphsep (fun (h : nat -> R) (x : nat) => h x) (fun i => i) y2 (fun _ _ x => nth x y2 0)) 5 gs_init) <> [].
Proof.
  change 5%nat with (S 4)%nat. generalize 4%nat as fu. intros fu. unfold run. simpl b_pre. unfold gs_pre. rewrite y2_valid. cbn [bind].
  set (e := pair_loop _ _ _ _).
  assert (Ee : e = [[1%nat]; [0%nat]]).
  { unfold e, pair_loop. change (pairs (length y2)) with [(0%nat, 1%nat)]. cbn [fold_left fst snd nth y2]. rewrite Reqb_false by lra. reflexivity. }
  rewrite Ee. cbn [run_from graphsep b_boost]. unfold gs_boost. cbn [gs_n_edges edge_total list_sum map length fold_right Nat.add Nat.eqb].
  match goal with |- context[gs_update ?a ?b ?c ?d ?e] => set (u := gs_update a b c d e) end.
  change (fold_right Nat.add 0%nat [1%nat; 1%nat]) with 2%nat. cbn [Nat.eqb].
  intros X.
  match type of X with context[if ?c then _ else _] => destruct c end.
  - cbn in X. discriminate.
  - match type of X with trace_of (run_from ?b ?f ?t ?tr ?s) = _ => destruct (run_from_prefix b f t tr s) as [l E] end.
    rewrite E in X. discriminate.
Qed.
