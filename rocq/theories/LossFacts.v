(** Facts about the losses: C30, C31. *)
From Verif Require Import Base SortLib Spec LossSpec Losses.
Open Scope R_scope.

Lemma deriv_sq y p : derivable_pt_lim (fun q => (q - y) ^ 2) p (2 * (p - y)).
Proof.
  replace (2 * (p - y)) with (INR 2 * (p - y) ^ pred 2 * 1) by (simpl; ring).
  apply (derivable_pt_lim_comp (fun q => q - y) (fun z => z ^ 2)).
  - replace 1 with (1 - 0) by ring. apply (derivable_pt_lim_minus id (fct_cte y)); [apply derivable_pt_lim_id|apply derivable_pt_lim_const].
  - apply derivable_pt_lim_pow.
Qed.

Lemma deriv_abs_pos y p : y < p -> derivable_pt_lim (fun q => Rabs (q - y)) p 1.
Proof.
  intros Hp eps He. exists (mkposreal (p - y) ltac:(lra)). simpl. intros h Hh Hd.
  assert (- (p - y) < h) by (apply Rabs_def2 in Hd; lra).
  rewrite (Rabs_right (p + h - y)), (Rabs_right (p - y)) by lra.
  replace ((p + h - y - (p - y)) / h - 1) with 0 by (field; exact Hh). rewrite Rabs_R0. exact He.
Qed.

Lemma deriv_abs_neg y p : p < y -> derivable_pt_lim (fun q => Rabs (q - y)) p (-1).
Proof.
  intros Hp eps He. exists (mkposreal (y - p) ltac:(lra)). simpl. intros h Hh Hd.
  assert (h < y - p) by (apply Rabs_def2 in Hd; lra).
  rewrite (Rabs_left1 (p + h - y)), (Rabs_left1 (p - y)) by lra.
  replace ((- (p + h - y) - - (p - y)) / h - -1) with 0 by (field; exact Hh). rewrite Rabs_R0. exact He.
Qed.

Lemma gradient_nth l p y g i :
  gradient l p y = Ok g -> (i < length p)%nat ->
  length p = length y /\ length g = length p /\
  nth i g 0 = match l with L1 => rsignum (nth i y 0 - nth i p 0) | L2 => nth i p 0 - nth i y 0 end.
Proof.
  unfold gradient, bind, assert_. destruct (Nat.eqb_spec (length p) (length y)) as [E|]; [|discriminate].
  intros G Hi. inversion G; clear G. split; [exact E|]. split.
  - rewrite map_length, combine_length. lia.
  - rewrite (combine_nth_map _ y p 0 0) by lia. rewrite nth_map_seq by lia. reflexivity.
Qed.

(** ** C30: gradients.
    For the squared loss the reported gradient is half the derivative of the reported loss (it is the
    derivative of (p - y)^2 / 2); the reported Hessian is the derivative of the reported gradient *)
Lemma P_C30_l2_gradient_partial :
  forall p y g h i, gradient L2 p y = Ok g -> hessian L2 p y = Ok h -> (i < length p)%nat ->
  derivable_pt_lim (fun q => eval_at_point L2 q (nth i y 0)) (nth i p 0) (2 * nth i g 0) /\
  derivable_pt_lim (fun q => eval_at_point L2 q (nth i y 0) / 2) (nth i p 0) (nth i g 0) /\
  derivable_pt_lim (fun q => nth 0 (match gradient L2 [q] [nth i y 0] with Ok l => l | Panic _ => [] end) 0) (nth i p 0) (nth i h 0).
Proof.
  intros p y g h i Hg Hh Hi. destruct (gradient_nth _ _ _ _ _ Hg Hi) as [E [_ ->]].
  assert (D : derivable_pt_lim (fun q => eval_at_point L2 q (nth i y 0)) (nth i p 0) (2 * (nth i p 0 - nth i y 0))) by (simpl; apply deriv_sq).
  split; [exact D|]. split.
  - replace (nth i p 0 - nth i y 0) with (/ 2 * (2 * (nth i p 0 - nth i y 0))) by lra.
    pose proof (derivable_pt_lim_scal _ (/ 2) _ _ D) as D2. unfold mult_real_fct in D2.
    intros eps He. destruct (D2 eps He) as [d Hd]. exists d. intros z Hz Hz2. specialize (Hd z Hz Hz2).
    unfold Rdiv in *. rewrite !(Rmult_comm (/ 2)) in Hd. rewrite (Rmult_comm (/2)). exact Hd.
  - unfold hessian, bind, assert_ in Hh. destruct (Nat.eqb (length p) (length y)); [|discriminate]. inversion Hh.
    rewrite nth_repeat_lt by exact Hi. unfold gradient. simpl.
    replace 1 with (1 - 0) by ring. apply (derivable_pt_lim_minus id (fct_cte (nth i y 0))); [apply derivable_pt_lim_id|apply derivable_pt_lim_const].
Qed.

(** for the absolute loss the reported gradient is minus the derivative, at every point where it exists *)
Lemma P_C30_l1_gradient_refuted :
  forall p y g i, gradient L1 p y = Ok g -> (i < length p)%nat -> nth i p 0 <> nth i y 0 ->
  derivable_pt_lim (fun q => eval_at_point L1 q (nth i y 0)) (nth i p 0) (- nth i g 0) /\
  ~ derivable_pt_lim (fun q => eval_at_point L1 q (nth i y 0)) (nth i p 0) (nth i g 0).
Proof.
  intros p y g i Hg Hi Hne. destruct (gradient_nth _ _ _ _ _ Hg Hi) as [E [_ ->]]. simpl. unfold rsignum.
  assert (G : forall a, derivable_pt_lim (fun q => Rabs (q - nth i y 0)) (nth i p 0) (- a) -> a <> 0 ->
     derivable_pt_lim (fun q => Rabs (q - nth i y 0)) (nth i p 0) (- a) /\
     ~ derivable_pt_lim (fun q => Rabs (q - nth i y 0)) (nth i p 0) a).
  { intros a Ha Hz. split; [exact Ha|]. intros Ha'. pose proof (uniqueness_limite _ _ _ _ Ha Ha'). lra. }
  destruct (Rltb_spec (nth i y 0 - nth i p 0) 0).
  - apply G; [|lra]. replace (- -1) with 1 by lra. apply deriv_abs_pos. lra.
  - apply G; [|lra]. apply deriv_abs_neg. lra.
Qed.

(** ** C30: the reported loss is the mean absolute (squared) error, and it is reported iff the lengths agree and there is an example *)
Lemma P_C30_loss_value_partial :
  forall l p y, (0 < length y)%nat -> length p = length y ->
  loss_eval l p y = Ok (match l with L1 => abs_error y p 1 | L2 => sq_error y p 1 end / INR (length y)).
Proof.
  intros l p y Hn E. unfold loss_eval, bind, assert_. rewrite E, Nat.eqb_refl. destruct (Nat.eqb_spec (length y) 0) as [Z|_]; [lia|].
  f_equal. f_equal. destruct l; unfold abs_error, sq_error, eval_at_point; rewrite <- E; clear Hn; revert y E; induction p as [|a p IH]; intros [|b y] E; try discriminate; try reflexivity;
    cbn [combine map rsum length seq nth fst snd]; rewrite <- seq_shift, map_map; cbn [nth]; rewrite (IH y) by (simpl in E; congruence); f_equal; [rewrite Rabs_minus_sym; f_equal; ring|ring].
Qed.

Lemma P_C30_loss_panics_partial :
  forall l p y, (length p <> length y <-> loss_eval l p y = Panic AssertFailed) /\ (length p = length y -> length y = 0%nat -> loss_eval l p y = Panic NonFinite).
Proof.
  intros l p y. unfold loss_eval, bind, assert_. destruct (Nat.eqb_spec (length p) (length y)) as [E|E]; split; try (intros; contradiction).
  - split; [intros; contradiction|]. destruct (Nat.eqb (length p) 0); discriminate.
  - intros _ Z. rewrite E, Z. reflexivity.
  - split; intros; [reflexivity|exact E].
Qed.

(** gradients and Hessians are total on vectors of equal length and panic otherwise *)
Lemma P_C30_gradient_panics_iff_partial :
  forall l p y, (length p = length y <-> exists g h, gradient l p y = Ok g /\ hessian l p y = Ok h) /\
                (length p <> length y <-> gradient l p y = Panic AssertFailed).
Proof.
  intros l p y. unfold gradient, hessian, bind, assert_. destruct (Nat.eqb_spec (length p) (length y)) as [E|E]; split; split; intros H.
  - eexists; eexists; split; reflexivity.
  - exact E.
  - contradiction.
  - discriminate.
  - contradiction.
  - destruct H as [g [h [H _]]]. discriminate.
  - reflexivity.
  - exact E.
Qed.

Example C30_nonvacuous : gradient L1 [2; 0] [1; 3] = Ok [rsignum (1 - 2); rsignum (3 - 0)] /\ gradient L2 [2; 0] [1; 3] = Ok [2 - 1; 0 - 3].
Proof. split; reflexivity. Qed.

(** weighted medians *)
Definition wdev (items : list (R * R)) (c : R) : R := rsum (map (fun q => fst q * Rabs (snd q - c)) items).

Lemma median_scan_split : forall items half acc m,
  median_scan half acc items = Ok m -> acc < half ->
  exists a w b, items = a ++ (w, m) :: b /\ acc + rsum (map fst a) < half /\ half <= acc + rsum (map fst a) + w.
Proof.
  induction items as [|[w x] items IH]; intros half acc m E Ha; [discriminate|]. simpl in E.
  destruct (Rleb_spec half (acc + w)).
  - inversion E; subst. exists [], w, items. simpl. split; [reflexivity|]. lra.
  - destruct (IH _ _ _ E ltac:(lra)) as [a [w' [b [-> [H1 H2]]]]]. exists ((w, x) :: a), w', b.
    simpl. split; [reflexivity|]. lra.
Qed.

Lemma median_scan_ok : forall items half acc,
  (items <> [] \/ half <= acc) -> half <= acc + rsum (map fst items) -> items <> [] -> exists m, median_scan half acc items = Ok m.
Proof.
  induction items as [|[w x] items IH]; intros half acc _ H Hne; [congruence|]. simpl in *.
  destruct (Rleb_spec half (acc + w)); [eexists; reflexivity|].
  assert (items <> []) by (intros ->; simpl in *; lra). apply IH; [left; assumption| |assumption]. lra.
Qed.

Lemma wdev_app a b c : wdev (a ++ b) c = wdev a c + wdev b c.
Proof. unfold wdev. rewrite map_app, rsum_app. reflexivity. Qed.

Lemma wdev_shift_ge (l : list (R * R)) m c :
  (forall q, In q l -> 0 <= fst q) -> wdev l m - Rabs (c - m) * rsum (map fst l) <= wdev l c.
Proof.
  unfold wdev. induction l as [|[w x] l IH]; simpl; intros H; [lra|].
  pose proof (H (w, x) (or_introl eq_refl)) as Hw. simpl in Hw. specialize (IH (fun q Hq => H q (or_intror Hq))).
  assert (Rabs (x - m) - Rabs (c - m) <= Rabs (x - c)).
  { replace (x - m) with ((x - c) + (c - m)) by ring. pose proof (Rabs_triang (x - c) (c - m)). lra. }
  nra.
Qed.

Lemma wdev_shift_low (l : list (R * R)) m c :
  (forall q, In q l -> snd q <= m) -> m <= c -> wdev l c = wdev l m + (c - m) * rsum (map fst l).
Proof.
  unfold wdev. induction l as [|[w x] l IH]; simpl; intros H Hc; [lra|].
  pose proof (H (w, x) (or_introl eq_refl)) as Hw. simpl in Hw. rewrite IH by (intros; auto).
  rewrite !(Rabs_left1 (x - _)) by lra. lra.
Qed.

Lemma wdev_shift_high (l : list (R * R)) m c :
  (forall q, In q l -> m <= snd q) -> c <= m -> wdev l c = wdev l m + (m - c) * rsum (map fst l).
Proof.
  unfold wdev. induction l as [|[w x] l IH]; simpl; intros H Hc; [lra|].
  pose proof (H (w, x) (or_introl eq_refl)) as Hw. simpl in Hw. rewrite IH by (intros; auto).
  rewrite !(Rabs_right (x - _)) by lra. lra.
Qed.

Lemma wdev_perm a b c : Permutation a b -> wdev a c = wdev b c.
Proof. intros P. unfold wdev. apply rsum_perm, Permutation_map, P. Qed.

Lemma SS_app_inv {A} (Rel : A -> A -> Prop) a x b :
  StronglySorted Rel (a ++ x :: b) -> (forall q, In q a -> Rel q x) /\ (forall q, In q b -> Rel x q).
Proof.
  induction a as [|z a IH]; simpl; intros S.
  - split; [intros q []|]. inversion S; subst. apply Forall_forall. assumption.
  - inversion S as [|? ? S' F]; subst. destruct (IH S') as [H1 H2]. split; [|exact H2].
    intros q [<-|Hq]; [|auto]. rewrite Forall_forall in F. apply F. apply in_or_app. right. left. reflexivity.
Qed.

Lemma weighted_median_minimises items m :
  (forall q, In q items -> 0 < fst q) -> weighted_median items = Ok m -> forall c, wdev items m <= wdev items c.
Proof.
  intros Hp E c. unfold weighted_median, bind, assert_ in E.
  destruct (Nat.ltb_spec 0 (length items)) as [Hl|]; [|discriminate].
  assert (Eg : (exists w, items = [(w, m)]) \/
     median_scan ((1 / 2) * rsum (map fst (isort (fun a b : R * R => Rleb (snd a) (snd b)) items))) 0 (isort (fun a b : R * R => Rleb (snd a) (snd b)) items) = Ok m).
  { destruct items as [|[w x] [|q2 items]]; [simpl in Hl; lia| |right; exact E]. left. exists w. inversion E. reflexivity. }
  destruct Eg as [[w ->]|Eg].
  - unfold wdev. simpl. pose proof (Hp (w, m) (or_introl eq_refl)). simpl in *.
    unfold Rminus at 1. rewrite Rplus_opp_r, Rabs_R0. pose proof (Rabs_pos (m - c)). nra.
  - clear E. set (leb := fun a b : R * R => Rleb (snd a) (snd b)) in *.
    assert (Ps : Permutation items (isort leb items)) by apply isort_perm.
    assert (Ss : StronglySorted (fun a b => leb a b = true) (isort leb items)).
    { apply isort_sorted.
      - intros a b. unfold leb. destruct (Rleb_spec (snd a) (snd b)); [auto|right; apply Rleb_true; lra].
      - intros a b d. unfold leb. destruct (Rleb_spec (snd a) (snd b)); [|discriminate]. destruct (Rleb_spec (snd b) (snd d)); [|discriminate].
        intros _ _. apply Rleb_true. lra. }
    rewrite !(wdev_perm _ _ _ Ps). set (s := isort leb items) in *.
    assert (Hps : forall q, In q s -> 0 < fst q) by (intros q Hq; apply Hp, (Permutation_in _ (Permutation_sym Ps)), Hq).
    assert (Hpos : 0 < rsum (map fst s)).
    { apply rsum_pos. { intros E. apply map_eq_nil in E. rewrite E in Ps. apply Permutation_sym, Permutation_nil in Ps. rewrite Ps in Hl. simpl in Hl. lia. }
      intros x Hx. apply in_map_iff in Hx. destruct Hx as [q [<- Hq]]. apply Hps, Hq. }
    destruct (median_scan_split _ _ _ _ Eg ltac:(lra)) as [a [w [b [Es [H1 H2]]]]].
    rewrite Es in Ss. destruct (SS_app_inv _ _ _ _ Ss) as [Sa Sb].
    assert (Ha : forall q, In q a -> snd q <= m).
    { intros q Hq. specialize (Sa q Hq). unfold leb in Sa. simpl in Sa. destruct (Rleb_spec (snd q) m); [assumption|discriminate]. }
    assert (Hb : forall q, In q b -> m <= snd q).
    { intros q Hq. specialize (Sb q Hq). unfold leb in Sb. simpl in Sb. destruct (Rleb_spec m (snd q)); [assumption|discriminate]. }
    rewrite Es, map_app, rsum_app in H1, H2. cbn [map rsum fst] in H1, H2. rewrite Rplus_0_l in H1, H2.
    rewrite Es. destruct (Rle_dec m c) as [Hc|Hc].
    + change ((w, m) :: b) with ([(w, m)] ++ b). rewrite app_assoc, !(wdev_app (a ++ [(w, m)])).
      rewrite (wdev_shift_low (a ++ [(w, m)]) m c); [|intros q Hq; apply in_app_or in Hq; destruct Hq as [Hq|[<-|[]]]; [apply Ha, Hq|simpl; lra]|exact Hc].
      pose proof (wdev_shift_ge b m c) as Gb. rewrite Rabs_right in Gb by lra.
      specialize (Gb ltac:(intros q Hq; left; apply Hps; rewrite Es; apply in_or_app; right; right; exact Hq)).
      rewrite map_app, rsum_app. cbn [map rsum fst]. nra.
    + rewrite !(wdev_app a). rewrite (wdev_shift_high ((w, m) :: b) m c); [|intros q [<-|Hq]; [simpl; lra|apply Hb, Hq]|lra].
      pose proof (wdev_shift_ge a m c) as Gb. rewrite Rabs_left1 in Gb by lra.
      specialize (Gb ltac:(intros q Hq; left; apply Hps; rewrite Es; apply in_or_app; left; exact Hq)).
      cbn [map rsum fst]. nra.
Qed.

Lemma weighted_median_total items :
  (forall q, In q items -> 0 < fst q) -> (items = [] -> weighted_median items = Panic AssertFailed) /\ (items <> [] -> exists m, weighted_median items = Ok m).
Proof.
  intros Hp. split; [intros ->; reflexivity|]. intros Hne. unfold weighted_median, bind, assert_.
  destruct (Nat.ltb_spec 0 (length items)) as [_|Hl]; [|destruct items; [congruence|simpl in Hl; lia]].
  assert (G : exists m, median_scan ((1 / 2) * rsum (map fst (isort (fun a b : R * R => Rleb (snd a) (snd b)) items))) 0 (isort (fun a b : R * R => Rleb (snd a) (snd b)) items) = Ok m).
  { set (leb := fun a b : R * R => Rleb (snd a) (snd b)). pose proof (isort_perm leb items) as Ps. set (s := isort leb items) in *.
    assert (Hs : s <> []) by (intros E; rewrite E in Ps; apply Permutation_sym, Permutation_nil in Ps; contradiction).
    apply median_scan_ok; [left; exact Hs| |exact Hs].
    assert (0 <= rsum (map fst s)); [|lra]. apply rsum_nonneg. intros x Hx. apply in_map_iff in Hx. destruct Hx as [q [<- Hq]].
    left. apply Hp, (Permutation_in _ (Permutation_sym Ps)), Hq. }
  destruct items as [|[w x] [|q2 items]]; [congruence|eexists; reflexivity|exact G].
Qed.

Definition l1_items (y p : list R) : list (R * R) :=
  map (fun q => (Rabs (snd q), fst q / snd q)) (filter (fun q => negb (Reqb (snd q) 0)) (combine y p)).

Lemma l1_items_pos y p q : In q (l1_items y p) -> 0 < fst q.
Proof.
  unfold l1_items. intros H. apply in_map_iff in H. destruct H as [[a b] [<- H]]. apply filter_In in H. destruct H as [_ H]. simpl in *.
  destruct (Reqb_spec b 0); [discriminate|]. apply Rabs_pos_lt. assumption.
Qed.

Lemma abs_error_items : forall y p, length y = length p -> exists k, forall c, abs_error y p c = wdev (l1_items y p) c + k.
Proof.
  unfold abs_error, l1_items, wdev. induction y as [|a y IH]; intros [|b p] E; try discriminate.
  - exists 0. intros c. simpl. lra.
  - destruct (IH p) as [k Hk]; [simpl in E; lia|]. simpl in E. cbn [combine filter]. cbn [snd].
    destruct (Reqb_spec b 0) as [->|Hb]; simpl negb; cbn [filter].
    + exists (k + Rabs a). intros c. simpl. rewrite <- seq_shift, map_map. specialize (Hk c). simpl in Hk.
      rewrite Hk. replace (a - c * 0) with a by ring. lra.
    + exists k. intros c. simpl. rewrite <- seq_shift, map_map. specialize (Hk c). simpl in Hk. rewrite Hk.
      replace (a - c * b) with (b * (a / b - c)) by (field; exact Hb). rewrite Rabs_mult. lra.
Qed.

(** ** C31: the coefficient of gradient boosting.
    For the absolute loss: a minimiser of the total error over all coefficients *)
Lemma P_C31_l1_coefficient :
  forall y p c, length y = length p -> best_coefficient L1 y p = Ok c -> minimiser (abs_error y p) c.
Proof.
  intros y p c E H c'. destruct (abs_error_items y p E) as [k Hk]. rewrite !Hk.
  apply Rplus_le_compat_r. apply (weighted_median_minimises (l1_items y p)); [intros q; apply l1_items_pos|exact H].
Qed.

(** ... and it is found except when every prediction is zero; the [unreachable!] branch is never taken *)
Lemma P_C31_l1_total :
  forall y p, length y = length p ->
  ((exists i, (i < length p)%nat /\ nth i p 0 <> 0) -> exists c, best_coefficient L1 y p = Ok c) /\
  ((forall i, (i < length p)%nat -> nth i p 0 = 0) -> best_coefficient L1 y p = Panic AssertFailed).
Proof.
  intros y p E. pose proof (weighted_median_total (l1_items y p) (l1_items_pos y p)) as [T1 T2]. split.
  - intros [i [Hi Hn]]. apply T2. intros En.
    assert (In (Rabs (nth i p 0), nth i y 0 / nth i p 0) (l1_items y p)); [|rewrite En in *; contradiction].
    unfold l1_items. apply in_map_iff. exists (nth i y 0, nth i p 0). split; [reflexivity|]. apply filter_In. split.
    + rewrite <- combine_nth by exact E. apply nth_In. rewrite combine_length. lia.
    + simpl. rewrite Reqb_false by exact Hn. reflexivity.
  - intros Hz. apply T1. unfold l1_items.
    assert (G : filter (fun q => negb (Reqb (snd q) 0)) (combine y p) = []).
    { clear T1 T2. revert p E Hz. induction y as [|a y IH]; intros [|b p] E Hz; try discriminate; [reflexivity|].
      pose proof (Hz 0%nat ltac:(simpl; lia)) as Hb. simpl in Hb. subst b. simpl. rewrite Reqb_true by reflexivity. simpl.
      apply IH; [simpl in E; lia|]. intros i Hi. apply (Hz (S i)). simpl. lia. }
    rewrite G. reflexivity.
Qed.

(** for the squared loss the coefficient only makes the residuals sum to zero; it is a minimiser when the
    predictions are constant *)
Lemma P_C31_l2_coefficient_partial :
  forall y p c, length y = length p -> best_coefficient L2 y p = Ok c ->
  rsum (map (fun i => nth i y 0 - c * nth i p 0) (seq 0 (length y))) = 0 /\
  ((exists a, forall i, (i < length p)%nat -> nth i p 0 = a) -> minimiser (sq_error y p) c).
Proof.
  intros y p c E H. unfold best_coefficient, bind, assert_ in H. destruct (Reqb_spec (rsum p) 0) as [|Hp]; [discriminate|].
  simpl in H. inversion H as [Hc]. clear H.
  assert (Hs : rsum (map (fun i => nth i y 0 - c * nth i p 0) (seq 0 (length y))) = 0).
  { rewrite (rsum_map_minus (fun i => nth i y 0) (fun i => c * nth i p 0)), (rsum_map_mult c (fun i => nth i p 0)), (rsum_nth y).
    rewrite E, rsum_nth, <- Hc. field. exact Hp. }
  rewrite Hc. split; [exact Hs|].
  intros [a Ha] c'. unfold sq_error.
  assert (G : rsum (map (fun i => (nth i y 0 - c' * nth i p 0) ^ 2) (seq 0 (length y)))
            = rsum (map (fun i => (nth i y 0 - c * nth i p 0) ^ 2) (seq 0 (length y))) + (2 * ((c - c') * a)) * rsum (map (fun i => nth i y 0 - c * nth i p 0) (seq 0 (length y)))
              + rsum (map (fun i => ((c - c') * a) ^ 2) (seq 0 (length y)))).
  { rewrite <- rsum_map_mult, <- !rsum_map_plus. apply rsum_map_ext. intros i Hi. apply in_seq in Hi. rewrite !(Ha i) by lia. ring. }
  rewrite G, Hs. assert (0 <= rsum (map (fun i : nat => ((c - c') * a) ^ 2) (seq 0 (length y)))).
  { apply rsum_nonneg. intros x Hx. apply in_map_iff in Hx. destruct Hx as [i [<- _]]. apply pow2_ge_0. }
  lra.
Qed.

(** it is not a minimiser in general *)
Lemma P_C31_l2_coefficient_refuted :
  exists y p c, length y = length p /\ best_coefficient L2 y p = Ok c /\ ~ minimiser (sq_error y p) c.
Proof.
  exists [0; 3], [1; 2], 1. split; [reflexivity|]. split.
  - unfold best_coefficient, bind, assert_. cbn [rsum]. rewrite Reqb_false by lra. simpl. f_equal. field.
  - intros M. specialize (M (6 / 5)). unfold sq_error in M. simpl in M. lra.
Qed.

(** the squared loss panics exactly when the predictions sum to zero *)
Lemma P_C31_l2_panics_partial :
  forall y p, (rsum p = 0 <-> best_coefficient L2 y p = Panic AssertFailed) /\
              (rsum p <> 0 <-> exists c, best_coefficient L2 y p = Ok c).
Proof.
  intros y p. unfold best_coefficient, bind, assert_. destruct (Reqb_spec (rsum p) 0) as [E|E]; simpl; split; split; intros H; auto; try discriminate; try contradiction.
  - destruct H; discriminate.
  - eexists; reflexivity.
Qed.

Example C31_nonvacuous : best_coefficient L1 [1; 6; 4] [1; 2; 0] = Ok 3.
Proof.
  unfold best_coefficient. cbn [combine filter snd]. rewrite (Reqb_false 1), (Reqb_false 2), (Reqb_true 0) by lra. cbn [negb filter map fst snd].
  rewrite !Rabs_right by lra. unfold weighted_median, bind, assert_. cbn [length Nat.ltb Nat.leb isort fold_right insert snd].
  rewrite Rleb_true by lra. cbn [map fst rsum median_scan]. rewrite Rleb_false by lra. rewrite Rleb_true by lra. f_equal. lra.
Qed.
