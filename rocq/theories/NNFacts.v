(** Facts about the neural network: C48, C57. *)
From Verif Require Import Base Spec SortLib Utils UtilsProofs AdaBoost AdaBoostMore Feature Sample Task TaskFacts NN NNSpec.
Open Scope R_scope.

(** ** softmax *)
Definition softmax (x : list R) : list R := map (fun v => exp v / rsum (map exp x)) x.

Lemma expsum_pos' x : x <> [] -> 0 < rsum (map exp x).
Proof. intros H. apply rsum_pos; [destruct x; [congruence|discriminate]|]. intros v Hv. apply in_map_iff in Hv. destruct Hv as [w [<- _]]. apply exp_pos. Qed.

Lemma project_softmax x : x <> [] -> project 1 x = Ok (softmax x).
Proof.
  intros Hx. assert (Hn : 1 <= INR (length x)) by (destruct x; [congruence|]; change (length (r :: x)) with (S (length x)); rewrite S_INR; pose proof (pos_INR (length x)); lra).
  destruct (project_with_spec (sorted_indices x) 1 x (sorted_indices_ok x) ltac:(lra)) as [xi [d [E [Hxi [Ld [Hd Sd]]]]]].
  unfold project. rewrite E. f_equal. replace (1 / 1) with 1 in Hd by lra.
  assert (Hpos : forall i, (i < length x)%nat -> 0 < nth i d 0).
  { intros i Hi. rewrite Hd by exact Hi. apply Rmin_glb_lt; [lra|]. apply Rmult_lt_0_compat; [exact Hxi|apply exp_pos]. }
  destruct x as [|x0 [|x1 x]]; [congruence| |].
  - destruct d as [|d0 [|d1 d]]; simpl in Ld; try lia. simpl in Sd. unfold softmax. simpl. f_equal. 
    rewrite Rplus_0_r. unfold Rdiv. rewrite Rinv_r; [lra|]. pose proof (exp_pos x0). lra.
  - set (x' := x0 :: x1 :: x) in *.
    assert (Hlt : forall i, (i < length x')%nat -> nth i d 0 < 1).
    { intros i Hi. rewrite <- Sd. rewrite <- (rsum_nth d). rewrite Ld.
      assert (Hj : exists j, (j < length x')%nat /\ j <> i) by (destruct i; [exists 1%nat|exists 0%nat]; simpl; lia). destruct Hj as [j [Hj Hij]].
      assert (Z : forall l, NoDup l -> (forall k, In k l -> (k < length x')%nat) -> In i l -> In j l -> nth i d 0 + nth j d 0 <= rsum (map (fun k => nth k d 0) l)).
      { induction l as [|a l IH]; intros Hnd Hl Hi' Hj'; [destruct Hi'|]. inversion Hnd; subst. cbn [map rsum].
        assert (Hnn : 0 <= rsum (map (fun k => nth k d 0) l)).
        { apply rsum_nonneg. intros v Hv. apply in_map_iff in Hv. destruct Hv as [k [<- Hk]]. left. apply Hpos, Hl. right. exact Hk. }
        assert (Hone : forall q, In q l -> nth q d 0 <= rsum (map (fun k => nth k d 0) l)).
        { intros q Hq. apply rsum_in_le; [|apply in_map_iff; exists q; auto]. intros v Hv. apply in_map_iff in Hv. destruct Hv as [k [<- Hk]]. left. apply Hpos, Hl. right. exact Hk. }
        destruct Hi' as [->|Hi'], Hj' as [Hj'|Hj'].
        - congruence.
        - specialize (Hone j Hj'). lra.
        - subst a. specialize (Hone i Hi'). lra.
        - assert (0 < nth a d 0) by (apply Hpos, Hl; left; reflexivity). specialize (IH H2 (fun k Hk => Hl k (or_intror Hk)) Hi' Hj'). lra. }
      specialize (Z (seq 0 (length x')) (seq_NoDup _ _)). assert (0 < nth j d 0) by (apply Hpos; exact Hj).
      assert (nth i d 0 + nth j d 0 <= rsum (map (fun k => nth k d 0) (seq 0 (length x')))).
      { apply Z; [intros k Hk; apply in_seq in Hk; lia|apply in_seq; lia|apply in_seq; lia]. } lra. }
    assert (Hd' : forall i, (i < length x')%nat -> nth i d 0 = xi * exp (nth i x' 0)).
    { intros i Hi. specialize (Hlt i Hi). rewrite Hd in * by exact Hi. unfold Rmin in *. destruct (Rle_dec 1 (xi * exp (nth i x' 0))); lra. }
    assert (Hsum : xi * rsum (map exp x') = 1).
    { rewrite <- Sd, <- (rsum_nth d), Ld. rewrite (rsum_map_ext _ (fun i => xi * exp (nth i x' 0))) by (intros i Hi; apply in_seq in Hi; apply Hd'; lia).
      rewrite rsum_map_mult. f_equal. rewrite <- (map_nth_seq 0 x') at 1. rewrite map_map. reflexivity. }
    pose proof (expsum_pos' x' Hx) as Hp.
    apply (list_eq_nth 0); [unfold softmax; rewrite map_length; exact Ld|]. intros i Hi. rewrite Ld in Hi. rewrite Hd' by exact Hi.
    unfold softmax. rewrite (nth_map_in _ x' i 0) by exact Hi. apply (Rmult_eq_reg_r (rsum (map exp x'))); [|lra].
    replace (exp (nth i x' 0) / rsum (map exp x') * rsum (map exp x')) with (exp (nth i x' 0)) by (field; lra).
    replace (xi * exp (nth i x' 0) * rsum (map exp x')) with (xi * rsum (map exp x') * exp (nth i x' 0)) by ring. rewrite Hsum. ring.
Qed.

(** ** C48: softmax returns exp(eta x_k) / sum exp(eta x), a distribution; it panics on an empty vector only *)
Lemma P_C48_softmax :
  forall eta x, match act_eval (SoftMax eta) x with
  | Ok p => is_pos_dist p /\ length p = length x /\ forall k, (k < length x)%nat ->
      nth k p 0 = exp (eta * nth k x 0) / rsum (map (fun j => exp (eta * nth j x 0)) (seq 0 (length x)))
  | Panic _ => x = []
  end.
Proof.
  intros eta x. unfold act_eval. destruct x as [|x0 x].
  - simpl. unfold project, project_with. rewrite Rleb_false by lra. simpl. unfold check_capped_simplex_condition, check_nu, bind, assert_. simpl.
    rewrite (Rleb_false 1 0) by lra. rewrite andb_false_r. reflexivity.
  - set (x' := x0 :: x). assert (Hne : map (fun v => eta * v) x' <> []) by discriminate. rewrite project_softmax by exact Hne.
    pose proof (expsum_pos' _ Hne) as Hp. set (S := rsum (map exp (map (fun v => eta * v) x'))) in *.
    assert (Es : S = rsum (map (fun j => exp (eta * nth j x' 0)) (seq 0 (length x')))).
    { unfold S. rewrite map_map. rewrite <- (map_nth_seq 0 x') at 1. rewrite map_map. reflexivity. }
    split; [|split].
    + split.
      * intros v Hv. unfold softmax in Hv. apply in_map_iff in Hv. destruct Hv as [w [<- _]]. apply Rdiv_lt_0_compat; [apply exp_pos|exact Hp].
      * unfold softmax. rewrite rsum_map_div. fold S. unfold Rdiv. apply Rinv_r. lra.
    + unfold softmax. rewrite !map_length. reflexivity.
    + intros k Hk. unfold softmax. fold S. rewrite (nth_map_in _ (map (fun v => eta * v) x') k 0) by (rewrite map_length; exact Hk).
      rewrite (nth_map_in _ x' k 0) by exact Hk. rewrite Es. reflexivity.
Qed.

(** ** derivatives of the activations *)
Lemma dlim_id x : derivable_pt_lim (fun t => t) x 1.
Proof. apply derivable_pt_lim_id. Qed.

Lemma dlim_relu th x : x <> th -> derivable_pt_lim (fun t => if Rleb t th then 0 else t) x (if Rltb x th then 0 else 1).
Proof.
  intros Hne. destruct (Rltb_spec x th) as [L|L].
  - apply (derivable_pt_lim_locally_ext (fun _ => 0) _ x (x - 1) th); [lra| |apply derivable_pt_lim_const].
    intros z Hz. rewrite Rleb_true by lra. reflexivity.
  - apply (derivable_pt_lim_locally_ext (fun t => t) _ x th (x + 1)); [lra| |apply derivable_pt_lim_id].
    intros z Hz. rewrite Rleb_false by lra. reflexivity.
Qed.

Lemma dlim_sum (ks : list nat) (f : nat -> R -> R) (d : nat -> R) x : (forall k, In k ks -> derivable_pt_lim (f k) x (d k)) ->
  derivable_pt_lim (fun t => rsum (map (fun k => f k t) ks)) x (rsum (map d ks)).
Proof.
  induction ks as [|k ks IH]; intros H; simpl; [apply derivable_pt_lim_const|].
  apply (derivable_pt_lim_plus (f k) (fun t => rsum (map (fun k => f k t) ks))); [apply H; left; reflexivity|apply IH; intros; apply H; right; assumption].
Qed.

Lemma dlim_scal c f x d : derivable_pt_lim f x d -> derivable_pt_lim (fun t => c * f t) x (c * d).
Proof. intros H. apply (derivable_pt_lim_scal f c x d H). Qed.
Lemma dlim_exp f x d : derivable_pt_lim f x d -> derivable_pt_lim (fun t => exp (f t)) x (exp (f x) * d).
Proof. intros H. apply (derivable_pt_lim_comp f exp x d (exp (f x)) H). apply derivable_pt_lim_exp. Qed.
Lemma dlim_ln f x d : derivable_pt_lim f x d -> 0 < f x -> derivable_pt_lim (fun t => ln (f t)) x (/ f x * d).
Proof. intros H Hp. apply (derivable_pt_lim_comp f ln x d (/ f x) H). apply derivable_pt_lim_ln. exact Hp. Qed.
Lemma dlim_plus f g x d e : derivable_pt_lim f x d -> derivable_pt_lim g x e -> derivable_pt_lim (fun t => f t + g t) x (d + e).
Proof. apply (derivable_pt_lim_plus f g). Qed.
Lemma dlim_minus f g x d e : derivable_pt_lim f x d -> derivable_pt_lim g x e -> derivable_pt_lim (fun t => f t - g t) x (d - e).
Proof. apply (derivable_pt_lim_minus f g). Qed.
Lemma dlim_mult f g x d e : derivable_pt_lim f x d -> derivable_pt_lim g x e -> derivable_pt_lim (fun t => f t * g t) x (d * g x + f x * e).
Proof. apply (derivable_pt_lim_mult f g). Qed.
Lemma dlim_div f g x d e : derivable_pt_lim f x d -> derivable_pt_lim g x e -> g x <> 0 -> derivable_pt_lim (fun t => f t / g t) x ((d * g x - e * f x) / (g x) ^ 2).
Proof. intros A B C. pose proof (derivable_pt_lim_div f g x d e A B C) as D. unfold div_fct, Rsqr in D. replace (g x ^ 2) with (g x * g x) by ring. exact D. Qed.
Lemma dlim_comp f g x d e : derivable_pt_lim f x d -> derivable_pt_lim g (f x) e -> derivable_pt_lim (fun t => g (f t)) x (e * d).
Proof. intros A B. apply (derivable_pt_lim_comp f g x d e A B). Qed.
Lemma dlim_eq f x d e : derivable_pt_lim f x d -> d = e -> derivable_pt_lim f x e.
Proof. intros H <-. exact H. Qed.
Lemma dlim_ext f g x d : (forall t, f t = g t) -> derivable_pt_lim f x d -> derivable_pt_lim g x d.
Proof. apply derivable_pt_lim_ext. Qed.

Lemma upd_self {A} k (x : A) l d : (k < length l)%nat -> nth k l d = x -> upd k x l = l.
Proof. revert k; induction l as [|a l IH]; intros [|k] H E; simpl in *; try lia; [congruence|]. f_equal. apply IH; [lia|exact E]. Qed.

(** for every activation but the sigmoid, and every vector: the reported derivative is the derivative of output k
    with respect to input k (for a ReLU, away from its threshold; at the threshold there is none unless it is 0) *)
Lemma P_C48_derivative_partial :
  forall a u k d, (k < length u)%nat -> act_diff a u = Ok d ->
  match a with Sigmoid _ => False | ReLu th => nth k u 0 <> th | _ => True end ->
  derivable_pt_lim (fun t => match act_eval a (upd k t u) with Ok v => nth k v 0 | Panic _ => 0 end) (nth k u 0) (nth k d 0).
Proof.
  intros a u k d Hk Ed Ha. destruct a as [eta|eta|th|]; [| contradiction | |].
  - assert (Hne : u <> []) by (intros ->; simpl in Hk; lia).
    cbn [act_diff act_eval] in Ed. rewrite project_softmax in Ed by (destruct u; [congruence|discriminate]). cbn [bind] in Ed. inversion Ed; subst d; clear Ed.
    set (E := fun j t => exp (eta * nth j (upd k t u) 0)).
    set (dE := fun j => if Nat.eqb j k then eta * exp (eta * nth k u 0) else 0).
    assert (HE : forall j, derivable_pt_lim (E j) (nth k u 0) (dE j)).
    { intros j. unfold E, dE. destruct (Nat.eqb_spec j k) as [->|Hj].
      - apply (dlim_ext (fun t => exp (eta * t))); [intros t; rewrite upd_nth_same by exact Hk; reflexivity|].
        eapply dlim_eq; [apply dlim_exp, dlim_scal, dlim_id|]. lra.
      - apply (dlim_ext (fun _ => exp (eta * nth j u 0))); [intros t; rewrite upd_nth_other by (intros ->; congruence); reflexivity|]. apply derivable_pt_lim_const. }
    set (T := fun t => rsum (map (fun j => E j t) (seq 0 (length u)))).
    assert (HT : derivable_pt_lim T (nth k u 0) (rsum (map dE (seq 0 (length u))))) by (apply dlim_sum; intros; apply HE).
    assert (Hpos : forall t, 0 < T t).
    { intros t. apply rsum_pos; [destruct u; [congruence|discriminate]|]. intros v Hv. apply in_map_iff in Hv. destruct Hv as [j [<- _]]. apply exp_pos. }
    apply (dlim_ext (fun t => E k t / T t)).
    + intros t. pose proof (P_C48_softmax eta (upd k t u)) as P. destruct (act_eval (SoftMax eta) (upd k t u)) as [p|].
      * destruct P as [_ [_ P]]. rewrite P by (rewrite upd_length; exact Hk). rewrite upd_length. reflexivity.
      * apply (f_equal (@length R)) in P. rewrite upd_length in P. simpl in P. lia.
    + eapply dlim_eq; [apply dlim_div; [apply HE|exact HT|pose proof (Hpos (nth k u 0)); lra]|].
      assert (Hself : upd k (nth k u 0) u = u) by (apply (upd_self k _ u 0 Hk eq_refl)).
      assert (EE : E k (nth k u 0) = exp (eta * nth k u 0)) by (unfold E; rewrite Hself; reflexivity).
      assert (Hd : rsum (map dE (seq 0 (length u))) = eta * exp (eta * nth k u 0)).
      { assert (Z : forall n a0, rsum (map dE (seq a0 n)) = if andb (Nat.leb a0 k) (Nat.ltb k (a0 + n)) then eta * exp (eta * nth k u 0) else 0).
        { induction n as [|n IH]; intros a0; simpl.
          - destruct (Nat.leb_spec a0 k), (Nat.ltb_spec k (a0 + 0)); simpl; try reflexivity; lia.
          - rewrite IH. unfold dE at 1. destruct (Nat.eqb_spec a0 k) as [->|Hne'].
            + destruct (Nat.leb_spec (S k) k); [lia|]. destruct (Nat.leb_spec k k); [|lia]. destruct (Nat.ltb_spec k (k + S n)); [|lia]. simpl. lra.
            + destruct (Nat.leb_spec (S a0) k), (Nat.leb_spec a0 k); try lia; destruct (Nat.ltb_spec k (S a0 + n)), (Nat.ltb_spec k (a0 + S n)); try lia; simpl; lra. }
        rewrite Z. destruct (Nat.leb_spec 0 k); [|lia]. destruct (Nat.ltb_spec k (0 + length u)); [reflexivity|lia]. }
      assert (EdE : dE k = eta * exp (eta * nth k u 0)) by (unfold dE; rewrite Nat.eqb_refl; reflexivity).
      rewrite EE, Hd, EdE. unfold softmax.
      set (S := rsum (map exp (map (fun xi => eta * xi) u))).
      assert (ET : T (nth k u 0) = S).
      { unfold T, E, S. rewrite Hself, map_map. transitivity (rsum (map (fun xi => exp (eta * xi)) (map (fun j => nth j u 0) (seq 0 (length u))))); [rewrite map_map; reflexivity|rewrite map_nth_seq; reflexivity]. }
      pose proof (Hpos (nth k u 0)) as Hp. rewrite ET in *.
      rewrite (nth_map_in _ _ k 0) by (rewrite !map_length; exact Hk).
      rewrite (nth_map_in _ _ k 0) by (rewrite map_length; exact Hk).
      rewrite (nth_map_in _ u k 0) by exact Hk. field. lra.
  - cbn [act_diff] in Ed. inversion Ed; subst; clear Ed. rewrite (nth_map_in _ u k 0) by exact Hk.
    apply (dlim_ext (fun t => if Rleb t th then 0 else t)); [|apply dlim_relu; exact Ha].
    intros t. cbn [act_eval]. rewrite (nth_map_in _ (upd k t u) k 0) by (rewrite upd_length; exact Hk). rewrite upd_nth_same by exact Hk. reflexivity.
  - cbn [act_diff] in Ed. inversion Ed; subst; clear Ed. rewrite nth_repeat_lt by exact Hk.
    apply (dlim_ext (fun t => t)); [|apply dlim_id]. intros t. cbn [act_eval]. rewrite upd_nth_same by exact Hk. reflexivity.
Qed.

(** the sigmoid's reported derivative is too large by the factor 1 + exp(-eta x): it is never the derivative
    (unless eta = 0) *)
Lemma P_C48_sigmoid_derivative_refuted :
  forall eta x, eta <> 0 -> exists d d', act_diff (Sigmoid eta) [x] = Ok [d] /\
    derivable_pt_lim (fun t => match act_eval (Sigmoid eta) [t] with Ok v => nth 0 v 0 | Panic _ => 0 end) x d' /\
    d = (1 + exp (- eta * x)) * d' /\ d <> d'.
Proof.
  intros eta x He. simpl. set (e := exp (- eta * x)). assert (Hp : 0 < e) by apply exp_pos.
  exists (eta * e / (1 + e)), (eta * e / (1 + e) ^ 2). split; [reflexivity|]. split; [|split].
  - eapply dlim_eq.
    + apply (dlim_div (fun _ => 1) (fun t => 1 + exp (- eta * t)) x 0 (0 + exp (- eta * x) * (- eta * 1))).
      * apply derivable_pt_lim_const.
      * apply dlim_plus; [apply derivable_pt_lim_const|]. apply (dlim_exp (fun t => - eta * t)). apply (dlim_scal (- eta) (fun t => t)). apply dlim_id.
      * fold e. lra.
    + cbv beta. fold e. field. lra.
  - field. lra.
  - intros E. apply He. apply (f_equal (fun z => z * (1 + e) ^ 2)) in E. field_simplify in E; [|lra|lra].
    assert (eta * e * e = 0) by nra. destruct (Rmult_integral _ _ H) as [H1|H1]; [|lra]. destruct (Rmult_integral _ _ H1); lra.
Qed.

(** a ReLU whose threshold is not zero jumps at its threshold *)
Lemma P_C48_relu_threshold_refuted :
  forall th d, th <> 0 -> ~ derivable_pt_lim (fun t => match act_eval (ReLu th) [t] with Ok v => nth 0 v 0 | Panic _ => 0 end) th d.
Proof.
  intros th d Hth H.
  assert (D : derivable_pt (fun t => match act_eval (ReLu th) [t] with Ok v => nth 0 v 0 | Panic _ => 0 end) th) by (exists d; exact H).
  apply derivable_continuous_pt in D. simpl in D.
  destruct (D (Rabs th / 2)) as [alp [Ha Hd]]; [apply Rabs_pos_lt in Hth; lra|].
  set (h := Rmin (alp / 2) (Rabs th / 4)). assert (Hab : 0 < Rabs th) by (apply Rabs_pos_lt; exact Hth).
  assert (Hh : 0 < h) by (unfold h; apply Rmin_glb_lt; lra).
  assert (Hh1 : h <= alp / 2) by apply Rmin_l. assert (Hh2 : h <= Rabs th / 4) by apply Rmin_r.
  specialize (Hd (th + h)). simpl in Hd. unfold R_dist in Hd.
  assert (X : Rabs ((if Rleb (th + h) th then 0 else th + h) - (if Rleb th th then 0 else th)) < Rabs th / 2).
  { apply Hd. split; [split; [exact I|lra]|]. replace (th + h - th) with h by lra. rewrite Rabs_pos_eq; lra. }
  rewrite Rleb_false in X by lra. rewrite Rleb_true in X by lra. rewrite Rminus_0_r in X.
  assert (Rabs th <= Rabs (th + h) + h).
  { replace th with ((th + h) + - h) at 1 by lra. eapply Rle_trans; [apply Rabs_triang|]. rewrite Rabs_Ropp, (Rabs_pos_eq h); lra. }
  lra.
Qed.
