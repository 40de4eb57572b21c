(** Analysis used for the Frank-Wolfe boosters: Hoeffding's lemma, the variational bound of the relative entropy, and
    the smoothness of the entropy-regularised edge. *)
From Verif Require Import Base Spec SortLib Utils UtilsProofs.
Open Scope R_scope.

Lemma incr_from_deriv (f f' : R -> R) : (forall c, derivable_pt_lim f c (f' c)) -> (forall c, 0 <= c -> 0 <= f' c) -> f 0 = 0 ->
  forall c, 0 <= c -> 0 <= f c.
Proof.
  intros Hd Hp H0 c Hc. destruct (Rle_lt_or_eq_dec 0 c Hc) as [L|<-]; [|lra].
  destruct (MVT_cor2 f f' 0 c L) as [x [E [H1 H2]]]; [intros; apply Hd|].
  rewrite H0 in E. rewrite Rminus_0_r in E. rewrite E. rewrite Rminus_0_r. apply Rmult_le_pos; [apply Hp; lra|lra].
Qed.

Section TwoPoint.
  Variables p q : R.
  Hypothesis Hp : 0 <= p.
  Hypothesis Hq : 0 <= q.
  Hypothesis Hs : p + q = 1.
  Let A c := p * exp c + q * exp (- c).
  Let B c := p * exp c - q * exp (- c).

  Lemma tp_pos c : 0 < A c.
  Proof.
    unfold A. pose proof (exp_pos c). pose proof (exp_pos (- c)).
    destruct (Rle_lt_or_eq_dec 0 p Hp) as [L|E].
    - apply Rplus_lt_le_0_compat; [apply Rmult_lt_0_compat; lra|apply Rmult_le_pos; lra].
    - apply Rplus_le_lt_0_compat; [apply Rmult_le_pos; lra|apply Rmult_lt_0_compat; lra].
  Qed.
  Lemma d_expn c : derivable_pt_lim (fun x => exp (- x)) c (- exp (- c)).
  Proof.
    replace (- exp (- c)) with (exp (- c) * (-1)) by ring.
    apply (derivable_pt_lim_comp (fun x => - x) exp c (-1) (exp (- c))).
    - replace (-1) with (- (1)) by lra. apply (derivable_pt_lim_opp id c 1). apply derivable_pt_lim_id.
    - apply derivable_pt_lim_exp.
  Qed.
  Lemma d_A c : derivable_pt_lim A c (B c).
  Proof.
    unfold A, B. replace (p * exp c - q * exp (- c)) with (p * exp c + q * (- exp (- c))) by ring.
    apply (derivable_pt_lim_plus (fun x => p * exp x) (fun x => q * exp (- x))).
    - apply (derivable_pt_lim_scal exp p). apply derivable_pt_lim_exp.
    - apply (derivable_pt_lim_scal (fun x => exp (- x)) q). apply d_expn.
  Qed.
  Lemma d_B c : derivable_pt_lim B c (A c).
  Proof.
    unfold A, B. replace (p * exp c + q * exp (- c)) with (p * exp c - q * (- exp (- c))) by ring.
    apply (derivable_pt_lim_minus (fun x => p * exp x) (fun x => q * exp (- x))).
    - apply (derivable_pt_lim_scal exp p). apply derivable_pt_lim_exp.
    - apply (derivable_pt_lim_scal (fun x => exp (- x)) q). apply d_expn.
  Qed.

  (** the first derivative of the gap: it starts at 0 and has derivative (B/A)^2 *)
  Lemma gap1 c : 0 <= c -> 0 <= (p - q) + c - B c / A c.
  Proof.
    apply (incr_from_deriv (fun c => (p - q) + c - B c / A c) (fun c => (B c / A c) ^ 2)).
    - intros x. pose proof (tp_pos x) as HA.
      replace ((B x / A x) ^ 2) with (0 + 1 - (A x * A x - B x * B x) / Rsqr (A x)) by (unfold Rsqr; field; lra).
      apply (derivable_pt_lim_minus (fun c => (p - q) + c) (fun c => B c / A c)).
      + apply (derivable_pt_lim_plus (fun _ => p - q) id); [apply derivable_pt_lim_const|apply derivable_pt_lim_id].
      + apply (derivable_pt_lim_div B A); [apply d_B|apply d_A|lra].
    - intros x _. apply pow2_ge_0.
    - unfold A, B. rewrite Ropp_0, exp_0. rewrite !Rmult_1_r, Hs. lra.
  Qed.
  Lemma gap0 c : 0 <= c -> 0 <= (p - q) * c + c ^ 2 / 2 - ln (A c).
  Proof.
    apply (incr_from_deriv (fun c => (p - q) * c + c ^ 2 / 2 - ln (A c)) (fun c => (p - q) + c - B c / A c)).
    - intros x. pose proof (tp_pos x) as HA.
      apply (derivable_pt_lim_minus (fun c => (p - q) * c + c ^ 2 / 2) (fun c => ln (A c))).
      + apply (derivable_pt_lim_plus (fun c => (p - q) * c) (fun c => c ^ 2 / 2)).
        * assert (E : derivable_pt_lim (fun c => (p - q) * c) x ((p - q) * 1)) by (apply (derivable_pt_lim_scal id); apply derivable_pt_lim_id). rewrite Rmult_1_r in E. exact E.
        * assert (E : derivable_pt_lim (fun c => / 2 * c ^ 2) x (/ 2 * (INR 2 * x ^ pred 2))) by (apply (derivable_pt_lim_scal (fun c => c ^ 2)); apply derivable_pt_lim_pow).
          replace (/ 2 * (INR 2 * x ^ pred 2)) with x in E by (simpl; field).
          intros eps He. destruct (E eps He) as [dl HH]. exists dl. intros h Hh Hh2. specialize (HH h Hh Hh2). replace ((x + h) ^ 2 / 2 - x ^ 2 / 2) with (/ 2 * (x + h) ^ 2 - / 2 * x ^ 2) by (field). exact HH.
      + replace (B x / A x) with (/ A x * B x) by (unfold Rdiv; ring).
        apply (derivable_pt_lim_comp A ln); [apply d_A|apply derivable_pt_lim_ln; exact HA].
    - intros x Hx. apply gap1, Hx.
    - unfold A. rewrite Ropp_0, exp_0. rewrite !Rmult_1_r, Hs, ln_1. simpl. lra.
  Qed.
  Lemma two_point c : 0 <= c -> p * exp c + q * exp (- c) <= exp ((p - q) * c + c ^ 2 / 2).
  Proof.
    intros Hc. pose proof (gap0 c Hc) as G. pose proof (tp_pos c) as P. fold (A c). rewrite <- (exp_ln (A c) P). apply exp_le_exp. lra.
  Qed.
End TwoPoint.

(** exp lies below its chord on [-c, c] *)
Lemma chord c v : 0 < c -> - c <= v <= c -> exp v <= (1 + v / c) / 2 * exp c + (1 - v / c) / 2 * exp (- c).
Proof.
  intros Hc Hv.
  assert (T1 : exp v * (1 + (c - v)) <= exp c).
  { replace (exp c) with (exp v * exp (c - v)) by (rewrite <- exp_plus; f_equal; ring). apply Rmult_le_compat_l; [left; apply exp_pos|apply exp_ge_1x]. }
  assert (T2 : exp v * (1 + (- c - v)) <= exp (- c)).
  { replace (exp (- c)) with (exp v * exp (- c - v)) by (rewrite <- exp_plus; f_equal; ring). apply Rmult_le_compat_l; [left; apply exp_pos|apply exp_ge_1x]. }
  assert (Hm : -1 <= v / c <= 1) by (split; [apply Rle_div_iff; lra|apply Rdiv_le_iff; lra]).
  apply Rle_trans with ((1 + v / c) / 2 * (exp v * (1 + (c - v))) + (1 - v / c) / 2 * (exp v * (1 + (- c - v)))).
  - right. field. lra.
  - apply Rplus_le_compat; apply Rmult_le_compat_l; lra.
Qed.

(** Hoeffding's lemma for a finite distribution *)
Lemma hoeffding {T} (l : list T) (w v : T -> R) c : 0 <= c -> (forall i, In i l -> 0 <= w i) -> rsum (map w l) = 1 -> (forall i, In i l -> - c <= v i <= c) ->
  rsum (map (fun i => w i * exp (v i)) l) <= exp (rsum (map (fun i => w i * v i) l) + c ^ 2 / 2).
Proof.
  intros Hc Hw Hs Hv. destruct (Rle_lt_or_eq_dec 0 c Hc) as [L|E].
  - set (mu := rsum (map (fun i => w i * v i) l)).
    assert (Hmu : - c <= mu <= c).
    { unfold mu. split.
      - apply Rle_trans with (rsum (map (fun i => - c * w i) l)); [rewrite rsum_map_mult, Hs; lra|]. apply rsum_map_le. intros i Hi. specialize (Hw i Hi). specialize (Hv i Hi). nra.
      - apply Rle_trans with (rsum (map (fun i => c * w i) l)); [|rewrite rsum_map_mult, Hs; lra]. apply rsum_map_le. intros i Hi. specialize (Hw i Hi). specialize (Hv i Hi). nra. }
    assert (Hm : -1 <= mu / c <= 1) by (split; [apply Rle_div_iff; lra|apply Rdiv_le_iff; lra]).
    apply Rle_trans with ((1 + mu / c) / 2 * exp c + (1 - mu / c) / 2 * exp (- c)).
    + apply Rle_trans with (rsum (map (fun i => (exp c + exp (- c)) / 2 * w i + (exp c - exp (- c)) / (2 * c) * (w i * v i)) l)).
      * apply rsum_map_le. intros i Hi. pose proof (chord c (v i) L (Hv i Hi)) as C. apply (Rmult_le_compat_l (w i)) in C; [|apply Hw, Hi].
        eapply Rle_trans; [exact C|]. right. field. lra.
      * rewrite rsum_map_plus, !rsum_map_mult, Hs. fold mu. right. field. lra.
    + pose proof (two_point ((1 + mu / c) / 2) ((1 - mu / c) / 2) ltac:(lra) ltac:(lra) ltac:(lra) c Hc) as TP.
      replace (((1 + mu / c) / 2 - (1 - mu / c) / 2) * c) with mu in TP by (field; lra). exact TP.
  - subst c. rewrite (rsum_map_ext _ w).
    + rewrite Hs. rewrite (rsum_map_ext _ (fun _ => 0)).
      * rewrite rsum_map_const. replace (INR (length l) * 0 + 0 ^ 2 / 2) with 0 by (simpl; field). rewrite exp_0. lra.
      * intros i Hi. specialize (Hv i Hi). replace (v i) with 0 by lra. ring.
    + intros i Hi. specialize (Hv i Hi). replace (v i) with 0 by lra. rewrite exp_0. ring.
Qed.

(** the relative entropy of [c] to [d] *)
Definition kl (n : nat) (c d : list R) : R := rsum (map (fun i => xlnx (nth i c 0) - nth i c 0 * ln (nth i d 0)) (seq 0 n)).

(** the variational bound *)
Lemma kl_variational n c d (v : nat -> R) :
  (0 < n)%nat -> (forall i, (i < n)%nat -> 0 <= nth i c 0) -> rsum (map (fun i => nth i c 0) (seq 0 n)) = 1 -> (forall i, (i < n)%nat -> 0 < nth i d 0) ->
  rsum (map (fun i => nth i c 0 * v i) (seq 0 n)) - ln (rsum (map (fun i => nth i d 0 * exp (v i)) (seq 0 n))) <= kl n c d.
Proof.
  intros Hn Hc Hs Hd. set (Z := rsum (map (fun i => nth i d 0 * exp (v i)) (seq 0 n))).
  assert (HZ : 0 < Z).
  { apply rsum_pos; [destruct n; [lia|discriminate]|]. intros x Hx. apply in_map_iff in Hx. destruct Hx as [i [<- Hi]]. apply in_seq in Hi. apply Rmult_lt_0_compat; [apply Hd; lia|apply exp_pos]. }
  assert (K : forall i, In i (seq 0 n) -> nth i c 0 - / Z * (nth i d 0 * exp (v i)) <= xlnx (nth i c 0) - nth i c 0 * ln (nth i d 0) - nth i c 0 * v i + ln Z * nth i c 0).
  { intros i Hi. apply in_seq in Hi. assert (Q : 0 < nth i d 0 * exp (v i)) by (apply Rmult_lt_0_compat; [apply Hd; lia|apply exp_pos]).
    pose proof (xlnx_ge (nth i c 0) (/ Z * (nth i d 0 * exp (v i))) (Hc i ltac:(lia))) as G. specialize (G ltac:(apply Rmult_lt_0_compat; [apply Rinv_0_lt_compat; exact HZ|exact Q])).
    rewrite ln_mult in G by (try apply Rinv_0_lt_compat; assumption). rewrite ln_Rinv in G by exact HZ. rewrite ln_mult in G by (try apply exp_pos; apply Hd; lia). rewrite ln_exp in G. lra. }
  apply rsum_map_le in K. rewrite rsum_map_minus, rsum_map_mult in K. fold Z in K. rewrite Hs, Rinv_l in K by lra.
  rewrite rsum_map_plus, rsum_map_minus, rsum_map_mult, Hs in K. unfold kl. lra.
Qed.

(** KL >= <c - d, v> - C^2/2 for every v bounded by C *)
Lemma kl_linear n c d (v : nat -> R) C :
  (0 < n)%nat -> (forall i, (i < n)%nat -> 0 <= nth i c 0) -> rsum (map (fun i => nth i c 0) (seq 0 n)) = 1 -> (forall i, (i < n)%nat -> 0 < nth i d 0) -> rsum (map (fun i => nth i d 0) (seq 0 n)) = 1 ->
  0 <= C -> (forall i, (i < n)%nat -> - C <= v i <= C) ->
  rsum (map (fun i => nth i c 0 * v i) (seq 0 n)) - rsum (map (fun i => nth i d 0 * v i) (seq 0 n)) - C ^ 2 / 2 <= kl n c d.
Proof.
  intros Hn Hc Hs Hd Hsd HC Hv. pose proof (kl_variational n c d v Hn Hc Hs Hd) as K.
  pose proof (hoeffding (seq 0 n) (fun i => nth i d 0) v C HC) as H. specialize (H ltac:(intros i Hi; apply in_seq in Hi; left; apply Hd; lia) Hsd ltac:(intros i Hi; apply in_seq in Hi; apply Hv; lia)).
  apply ln_le in H.
  - rewrite ln_exp in H. lra.
  - apply rsum_pos; [destruct n; [lia|discriminate]|]. intros x Hx. apply in_map_iff in Hx. destruct Hx as [i [<- Hi]]. apply in_seq in Hi. apply Rmult_lt_0_compat; [apply Hd; lia|apply exp_pos].
Qed.

(** ** The entropy-regularised edge of a margin vector [m]: phi d m = <d, m> + (1/eta) (sum d ln d + ln n) *)
Section Smooth.
  Variables (n : nat) (eta nu : R).
  Hypothesis Hn : (0 < n)%nat.
  Hypothesis Heta : 0 < eta.
  Hypothesis Hnu : 1 <= nu <= INR n.

  Definition phi (d m : list R) : R :=
    rsum (map (fun i => nth i d 0 * nth i m 0) (seq 0 n)) + (rsum (map (fun i => xlnx (nth i d 0)) (seq 0 n)) + ln (INR n)) / eta.

  (** [d] is the distribution the code computes for the margins [m] *)
  Definition best (d m : list R) : Prop :=
    length d = n /\ length m = n /\ exists xi, 0 < xi /\ (forall i, (i < n)%nat -> nth i d 0 = Rmin (1 / nu) (xi * exp (- eta * nth i m 0))) /\ rsum d = 1.

  Lemma best_project m : length m = n -> exists d, exp_distribution_from_margins eta nu m = Ok d /\ best d m.
  Proof.
    intros Hm. unfold exp_distribution_from_margins, project. set (x := map (fun yf => - eta * yf) m).
    assert (Hx : length x = n) by (unfold x; rewrite map_length; exact Hm).
    destruct (project_with_spec (sorted_indices x) nu x (sorted_indices_ok x)) as [xi [d [E [Hxi [Hl [Hd Hs]]]]]]; [rewrite Hx; exact Hnu|].
    exists d. split; [exact E|]. split; [lia|]. split; [exact Hm|]. exists xi. split; [exact Hxi|]. split; [|exact Hs].
    intros i Hi. rewrite Hd by lia. unfold x. rewrite (nth_map_in (fun yf => - eta * yf) m i 0 0) by lia. reflexivity.
  Qed.

  Lemma best_facts d m : best d m -> in_capped_simplex nu d /\ (forall i, (i < n)%nat -> 0 < nth i d 0) /\ rsum (map (fun i => nth i d 0) (seq 0 n)) = 1.
  Proof.
    intros [Hd [Hm [xi [Hxi [Hv Hs]]]]]. assert (Hp : forall i, (i < n)%nat -> 0 < nth i d 0).
    { intros i Hi. rewrite Hv by exact Hi. apply Rmin_glb_lt; [apply Rdiv_lt_0_compat; lra|]. apply Rmult_lt_0_compat; [exact Hxi|apply exp_pos]. }
    split; [|split; [exact Hp|]].
    - split; [|exact Hs]. intros x Hx. apply (In_nth _ _ 0) in Hx. destruct Hx as [i [Hi <-]]. split; [left; apply Hp; lia|]. rewrite Hv by lia. apply Rmin_l.
    - rewrite <- Hd, rsum_nth. exact Hs.
  Qed.

  (** the three-point inequality of the entropy projection *)
  Lemma three_point d m c : best d m -> length c = n -> in_capped_simplex nu c -> phi d m + kl n c d / eta <= phi c m.
  Proof.
    intros Hb Hc [Hcb Hcs]. destruct (best_facts d m Hb) as [_ [Hp Hsd]]. destruct Hb as [Hd [Hm [xi [Hxi [Hv Hs]]]]].
    assert (Hsc : rsum (map (fun i => nth i c 0) (seq 0 n)) = 1) by (rewrite <- Hc, rsum_nth; exact Hcs).
    assert (K : forall i, In i (seq 0 n) -> ln xi * (nth i c 0 - nth i d 0) <= eta * (nth i c 0 * nth i m 0) - eta * (nth i d 0 * nth i m 0) + nth i c 0 * ln (nth i d 0) - xlnx (nth i d 0)).
    { intros i Hi. apply in_seq in Hi. specialize (Hv i ltac:(lia)). specialize (Hp i ltac:(lia)).
      assert (Hci : 0 <= nth i c 0 <= 1 / nu) by (apply Hcb, nth_In; lia).
      unfold xlnx. destruct (Req_EM_T (nth i d 0) 0); [lra|].
      assert (He : 0 < xi * exp (- eta * nth i m 0)) by (apply Rmult_lt_0_compat; [exact Hxi|apply exp_pos]).
      assert (El : ln (xi * exp (- eta * nth i m 0)) = ln xi - eta * nth i m 0) by (rewrite ln_mult by (try apply exp_pos; lra); rewrite ln_exp; lra).
      unfold Rmin in Hv. destruct (Rle_dec (1 / nu) (xi * exp (- eta * nth i m 0))) as [L|L].
      - apply ln_le in L; [|apply Rdiv_lt_0_compat; lra]. rewrite El in L. rewrite <- Hv in L, Hci.
        assert (0 <= (nth i d 0 - nth i c 0) * (ln xi - eta * nth i m 0 - ln (nth i d 0))) by (apply Rmult_le_pos; lra). nra.
      - assert (Eld : ln (nth i d 0) = ln xi - eta * nth i m 0) by (rewrite Hv; exact El). rewrite Eld. right. ring. }
    apply rsum_map_le in K. rewrite rsum_map_mult, rsum_map_minus, Hsc, Hsd in K.
    rewrite rsum_map_minus, rsum_map_plus, rsum_map_minus, !rsum_map_mult in K.
    unfold phi, kl. rewrite rsum_map_minus. apply (Rmult_le_reg_l eta); [exact Heta|]. 
    match goal with |- eta * (?a + (?b + ?l) / eta + ?k / eta) <= eta * (?a2 + (?b2 + ?l) / eta) => replace (eta * (a + (b + l) / eta + k / eta)) with (eta * a + b + l + k) by (field; lra); replace (eta * (a2 + (b2 + l) / eta)) with (eta * a2 + b2 + l) by (field; lra) end. lra.
  Qed.

  Lemma kl_nonneg c d : (forall i, (i < n)%nat -> 0 <= nth i c 0) -> rsum (map (fun i => nth i c 0) (seq 0 n)) = 1 -> (forall i, (i < n)%nat -> 0 < nth i d 0) -> rsum (map (fun i => nth i d 0) (seq 0 n)) = 1 -> 0 <= kl n c d.
  Proof.
    intros H1 H2 H3 H4. pose proof (kl_linear n c d (fun _ => 0) 0 Hn H1 H2 H3 H4 (Rle_refl 0)) as K. specialize (K ltac:(intros; lra)).
    rewrite (rsum_map_ext (fun i => nth i c 0 * 0) (fun _ => 0)) in K by (intros; ring). rewrite (rsum_map_ext (fun i => nth i d 0 * 0) (fun _ => 0)) in K by (intros; ring). rewrite rsum_map_const in K. simpl in K. lra.
  Qed.

  Lemma capped_facts c : length c = n -> in_capped_simplex nu c -> (forall i, (i < n)%nat -> 0 <= nth i c 0) /\ rsum (map (fun i => nth i c 0) (seq 0 n)) = 1.
  Proof.
    intros Hc [H1 H2]. split; [intros i Hi; apply H1, nth_In; lia|]. rewrite <- Hc, rsum_nth. exact H2.
  Qed.

  Lemma phi_min d m c : best d m -> length c = n -> in_capped_simplex nu c -> phi d m <= phi c m.
  Proof.
    intros Hb Hc Hcc. pose proof (three_point d m c Hb Hc Hcc) as T. destruct (capped_facts c Hc Hcc) as [C1 C2]. destruct (best_facts d m Hb) as [_ [D1 D2]].
    pose proof (kl_nonneg c d C1 C2 D1 D2). assert (0 <= kl n c d / eta) by (unfold Rdiv; apply Rmult_le_pos; [assumption|left; apply Rinv_0_lt_compat; exact Heta]). lra.
  Qed.

  (** smoothness: moving the margins by at most D costs at most (eta/2) D^2 over the linear prediction *)
  Lemma smooth d m d' m' D : best d m -> best d' m' -> 0 <= D -> (forall i, (i < n)%nat -> Rabs (nth i m' 0 - nth i m 0) <= D) ->
    phi d m + rsum (map (fun i => nth i d 0 * (nth i m' 0 - nth i m 0)) (seq 0 n)) - eta / 2 * D ^ 2 <= phi d' m'.
  Proof.
    intros Hb Hb' HD Hm. destruct (best_facts d m Hb) as [_ [D1 D2]]. destruct (best_facts d' m' Hb') as [Hc [E1 E2]].
    pose proof (three_point d m d' Hb (proj1 Hb') Hc) as T.
    pose proof (kl_linear n d' d (fun i => - eta * (nth i m' 0 - nth i m 0)) (eta * D) Hn) as K.
    specialize (K ltac:(intros i Hi; left; apply E1, Hi) E2 D1 D2 ltac:(apply Rmult_le_pos; lra)).
    assert (Hbd : forall i, (i < n)%nat -> - (eta * D) <= - eta * (nth i m' 0 - nth i m 0) <= eta * D).
    { intros i Hi. specialize (Hm i Hi). unfold Rabs in Hm. destruct (Rcase_abs (nth i m' 0 - nth i m 0)); nra. }
    specialize (K Hbd).
    rewrite (rsum_map_ext (fun i => nth i d' 0 * (- eta * (nth i m' 0 - nth i m 0))) (fun i => - eta * (nth i d' 0 * (nth i m' 0 - nth i m 0)))) in K by (intros; ring).
    rewrite (rsum_map_ext (fun i => nth i d 0 * (- eta * (nth i m' 0 - nth i m 0))) (fun i => - eta * (nth i d 0 * (nth i m' 0 - nth i m 0)))) in K by (intros; ring).
    rewrite !rsum_map_mult in K.
    set (a := rsum (map (fun i => nth i d' 0 * (nth i m' 0 - nth i m 0)) (seq 0 n))) in *. set (b := rsum (map (fun i => nth i d 0 * (nth i m' 0 - nth i m 0)) (seq 0 n))) in *.
    assert (Ea : phi d' m' = phi d' m + a).
    { unfold phi, a. rewrite (rsum_map_ext (fun i => nth i d' 0 * (nth i m' 0 - nth i m 0)) (fun i => nth i d' 0 * nth i m' 0 - nth i d' 0 * nth i m 0)) by (intros; ring). rewrite rsum_map_minus. ring. }
    rewrite Ea.
    assert (K2 : b - a - eta / 2 * D ^ 2 <= kl n d' d / eta).
    { apply Rle_div_iff; [exact Heta|]. nra. }
    lra.
  Qed.

  (** the entropy term lies between 0 and ln(n/nu) / eta *)
  Lemma phi_edge c m : length c = n -> in_capped_simplex nu c ->
    rsum (map (fun i => nth i c 0 * nth i m 0) (seq 0 n)) <= phi c m <= rsum (map (fun i => nth i c 0 * nth i m 0) (seq 0 n)) + ln (INR n / nu) / eta.
  Proof.
    intros Hc Hcc.
    assert (Ex : rsum (map (fun i => xlnx (nth i c 0)) (seq 0 n)) = entropy c).
    { rewrite entropy_xlnx. rewrite <- Hc. rewrite <- (map_map (fun i => nth i c 0) xlnx). rewrite map_nth_seq. reflexivity. }
    unfold phi. rewrite Ex.
    assert (Hd : is_dist c) by (destruct Hcc as [A B]; split; [intros x Hx; apply A, Hx|exact B]).
    pose proof (entropy_lower c Hd) as L. rewrite Hc in L. pose proof (entropy_upper_cap nu c (proj1 Hnu) Hcc) as U.
    assert (Eln : ln (INR n / nu) = ln (INR n) - ln nu) by (unfold Rdiv; rewrite ln_mult by (try apply Rinv_0_lt_compat; lra); rewrite ln_Rinv by lra; lra).
    rewrite Eln. split.
    - assert (0 <= (entropy c + ln (INR n)) / eta) by (unfold Rdiv; apply Rmult_le_pos; [lra|left; apply Rinv_0_lt_compat; exact Heta]). lra.
    - apply Rplus_le_compat_l. unfold Rdiv. apply Rmult_le_compat_r; [left; apply Rinv_0_lt_compat; exact Heta|]. lra.
  Qed.
End Smooth.
