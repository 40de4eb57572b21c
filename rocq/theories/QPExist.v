(** Exact answers of quadratic programs exist: a feasible program whose objective can be minimised inside a bounded
    box has a minimiser (compactness), and a minimiser has multipliers (LP duality, Solvable.v). *)
From Verif Require Import Base Csc ConicSpec CscProofs Duality Solvable.
Require Import Coq.Logic.ClassicalEpsilon.
Open Scope R_scope.

(** *** convergent subsequences of bounded sequences of vectors *)
Definition incr (phi : nat -> nat) : Prop := forall k, (phi k < phi (S k))%nat.
Lemma incr_ge phi : incr phi -> forall k, (k <= phi k)%nat.
Proof. intros H k. induction k as [|k IH]; [lia|]. specialize (H k). lia. Qed.
Lemma incr_mono phi : incr phi -> forall a b, (a < b)%nat -> (phi a < phi b)%nat.
Proof. intros H a b L. induction L as [|b L IH]; [apply H|]. specialize (H b). lia. Qed.
Lemma cv_sub u l phi : incr phi -> Un_cv u l -> Un_cv (fun k => u (phi k)) l.
Proof. intros Hi H e He. destruct (H e He) as [N HN]. exists N. intros k Hk. apply HN. pose proof (incr_ge phi Hi k). lia. Qed.

Lemma sub1 (u : nat -> R) B : (forall k, - B <= u k <= B) -> exists phi l, incr phi /\ Un_cv (fun k => u (phi k)) l.
Proof.
  intros Hb. destruct (Bolzano_Weierstrass u (fun c => - B <= c <= B) (compact_P3 _ _) Hb) as [l Hl].
  assert (P : forall k N, exists p, (N <= p)%nat /\ Rabs (u p - l) < / INR (S k)).
  { intros k N. assert (Hk : 0 < / INR (S k)) by (apply Rinv_0_lt_compat, lt_0_INR; lia). destruct (Hl (disc l (mkposreal _ Hk)) N) as [p [Hp Vp]]; [exists (mkposreal _ Hk); intros z Hz; exact Hz|].
    exists p. split; [exact Hp|exact Vp]. }
  set (pick := fun k N => proj1_sig (constructive_indefinite_description _ (P k N))).
  assert (Hpick : forall k N, (N <= pick k N)%nat /\ Rabs (u (pick k N) - l) < / INR (S k)) by (intros k N; unfold pick; apply proj2_sig).
  set (phi := fix phi k := match k with O => pick 0%nat 0%nat | S k' => pick (S k') (S (phi k')) end).
  exists phi, l. split.
  - intros k. cbn [phi]. change (fix phi k := match k with O => pick 0%nat 0%nat | S k' => pick (S k') (S (phi k')) end) with phi. destruct (Hpick (S k) (S (phi k))) as [Q _]. lia.
  - assert (Hc : forall k, Rabs (u (phi k) - l) < / INR (S k)) by (intros [|k]; apply Hpick).
    intros e He. destruct (archimed_cor1 e He) as [N [HN HN0]]. exists N. intros k Hk. unfold R_dist. eapply Rlt_trans; [apply Hc|]. eapply Rle_lt_trans; [|exact HN]. apply Rinv_le_contravar; [apply lt_0_INR; exact HN0|apply le_INR; lia].
Qed.

Lemma subn n : forall (u : nat -> nat -> R) B, (forall k c, (c < n)%nat -> - B <= u k c <= B) ->
  exists phi l, incr phi /\ forall c, (c < n)%nat -> Un_cv (fun k => u (phi k) c) (l c).
Proof.
  induction n as [|n IH]; intros u B Hb.
  - exists (fun k => k), (fun _ => 0). split; [intros k; lia|intros; lia].
  - destruct (IH u B) as [phi [l [Hi Hl]]]; [intros; apply Hb; lia|].
    destruct (sub1 (fun k => u (phi k) n) B) as [psi [ln [Hj Hln]]]; [intros; apply Hb; lia|].
    exists (fun k => phi (psi k)), (fun c => if Nat.eqb c n then ln else l c). split.
    + intros k. apply incr_mono; [exact Hi|apply Hj].
    + intros c Hc. destruct (Nat.eqb_spec c n) as [->|N]; [exact Hln|]. apply (cv_sub (fun k => u (phi k) c)); [exact Hj|apply Hl; lia].
Qed.

(** *** limits of sums *)
Lemma cv_const c : Un_cv (fun _ => c) c.
Proof. intros e He. exists 0%nat. intros. unfold R_dist. rewrite Rminus_diag_eq by reflexivity. rewrite Rabs_R0. exact He. Qed.
Lemma cv_ext u v l : (forall k, u k = v k) -> Un_cv u l -> Un_cv v l.
Proof. intros E H e He. destruct (H e He) as [N HN]. exists N. intros k Hk. rewrite <- E. apply HN, Hk. Qed.
Lemma cv_rsum (f : nat -> nat -> R) (g : nat -> R) l : (forall c, In c l -> Un_cv (fun k => f k c) (g c)) -> Un_cv (fun k => rsum (map (f k) l)) (rsum (map g l)).
Proof.
  induction l as [|a l IH]; intros H; [exact (cv_const 0)|]. cbn [map rsum]. apply (CV_plus (fun k => f k a) (fun k => rsum (map (f k) l))); [apply H; left; reflexivity|]. apply IH. intros c Hc. apply H. right. exact Hc.
Qed.
Lemma cv_nonneg u l : (forall k, 0 <= u k) -> Un_cv u l -> 0 <= l.
Proof. intros H Hl. apply (Rle_cv_lim (Un := fun _ => 0) (Vn := u)); [exact H|apply cv_const|exact Hl]. Qed.
Lemma cv_le u l v : (forall k, u k <= v + / INR (S k)) -> Un_cv u l -> l <= v.
Proof.
  intros H Hl. apply Rnot_lt_le. intros L. destruct (Hl ((l - v) / 2) ltac:(lra)) as [N HN]. destruct (archimed_cor1 ((l - v) / 2) ltac:(lra)) as [M [HM HM0]].
  specialize (HN (N + M)%nat ltac:(lia)). specialize (H (N + M)%nat). unfold R_dist in HN. apply Rabs_def2 in HN.
  assert (/ INR (S (N + M)) <= / INR M) by (apply Rinv_le_contravar; [apply lt_0_INR; exact HM0|apply le_INR; lia]). lra.
Qed.

Section QP.
  Variable p : conic.
  Hypothesis D : dims p.
  Hypothesis DP : c_cols (k_P p) = length (k_q p).
  Notation n := (length (k_q p)).

  Definition boxed (B : R) (x : list R) : Prop := forall c, (c < n)%nat -> - B <= nth c x 0 <= B.

  Lemma objective_bound B : 0 <= B -> exists K, forall x, boxed B x -> - K <= objective p x.
  Proof.
    intros HB. set (K1 := fun c => rsum (map (fun c' => Rabs (entry (k_P p) c c') * B) (seq 0 n))).
    exists (rsum (map (fun c => K1 c * B) (seq 0 n)) / 2 + rsum (map (fun c => Rabs (nth c (k_q p) 0) * B) (seq 0 n))). intros x Hx.
    assert (A : forall c, (c < n)%nat -> Rabs (nth c x 0) <= B) by (intros c Hc; specialize (Hx c Hc); apply Rabs_le; lra).
    assert (AS : forall (f g : nat -> R) l, (forall c, In c l -> Rabs (f c) <= g c) -> Rabs (rsum (map f l)) <= rsum (map g l)).
    { intros f g l. induction l as [|a l IH]; intros H; [cbn; rewrite Rabs_R0; lra|]. cbn [map rsum]. eapply Rle_trans; [apply Rabs_triang|]. apply Rplus_le_compat; [apply H; left; reflexivity|apply IH; intros; apply H; right; assumption]. }
    assert (Q1 : Rabs (rsum (map (fun c => row_dot (k_P p) x c * nth c x 0) (seq 0 n))) <= rsum (map (fun c => K1 c * B) (seq 0 n))).
    { apply AS. intros c Hc. apply in_seq in Hc. rewrite Rabs_mult. apply Rmult_le_compat; try apply Rabs_pos; [|apply A; lia]. unfold row_dot, K1. rewrite DP. apply AS. intros c' Hc'. apply in_seq in Hc'. rewrite Rabs_mult. apply Rmult_le_compat_l; [apply Rabs_pos|apply A; lia]. }
    assert (Q2 : Rabs (rsum (map (fun c => nth c (k_q p) 0 * nth c x 0) (seq 0 n))) <= rsum (map (fun c => Rabs (nth c (k_q p) 0) * B) (seq 0 n))).
    { apply AS. intros c Hc. apply in_seq in Hc. rewrite Rabs_mult. apply Rmult_le_compat_l; [apply Rabs_pos|apply A; lia]. }
    unfold objective. assert (W : forall a b, Rabs a <= b -> - b <= a) by (intros a b H; unfold Rabs in H; destruct (Rcase_abs a); lra).
    apply W in Q1. apply W in Q2. lra.
  Qed.

  Lemma qp_min B : 0 <= B -> (exists x, feasible p x) -> (forall x, feasible p x -> exists x', feasible p x' /\ boxed B x' /\ objective p x' <= objective p x) ->
    exists x, feasible p x /\ forall x', feasible p x' -> objective p x <= objective p x'.
  Proof.
    intros HB [x0 Hx0] Hdom. destruct (objective_bound B HB) as [K HK].
    set (E := fun v => exists x, feasible p x /\ boxed B x /\ v = - objective p x).
    destruct (completeness E) as [s [Hub Hleast]].
    - exists K. intros v [x [_ [Hx ->]]]. specialize (HK x Hx). lra.
    - destruct (Hdom x0 Hx0) as [x1 [F1 [B1 _]]]. exists (- objective p x1), x1. auto.
    - assert (Seq : forall k, exists x, feasible p x /\ boxed B x /\ objective p x <= - s + / INR (S k)).
      { intros k. apply Classical_Prop.NNPP. intros Hno. assert (Hk : 0 < / INR (S k)) by (apply Rinv_0_lt_compat, lt_0_INR; lia).
        assert (Q : s <= s - / INR (S k)); [|lra]. apply Hleast. intros v [x [F [Bx ->]]]. apply Rnot_lt_le. intros L. apply Hno. exists x. split; [exact F|]. split; [exact Bx|]. lra. }
      set (u := fun k => proj1_sig (constructive_indefinite_description _ (Seq k))).
      assert (Hu : forall k, feasible p (u k) /\ boxed B (u k) /\ objective p (u k) <= - s + / INR (S k)) by (intros k; unfold u; apply proj2_sig).
      destruct (subn n (fun k c => nth c (u k) 0) B) as [phi [l [Hi Hl]]]; [intros k c Hc; apply (proj1 (proj2 (Hu k)) c Hc)|].
      set (x := map l (seq 0 n)). assert (Lx : length x = n) by (unfold x; rewrite map_length, seq_length; reflexivity).
      assert (Nx : forall c, (c < n)%nat -> nth c x 0 = l c) by (intros c Hc; unfold x; apply nth_map_seq, Hc).
      assert (Cx : forall c, (c < n)%nat -> Un_cv (fun k => nth c (u (phi k)) 0) (nth c x 0)) by (intros c Hc; rewrite Nx by exact Hc; apply Hl, Hc).
      assert (Rd : forall M r, c_cols M = n -> Un_cv (fun k => row_dot M (u (phi k)) r) (row_dot M x r)).
      { intros M r EM. unfold row_dot. rewrite EM. apply (cv_rsum (fun k c => entry M r c * nth c (u (phi k)) 0)). intros c Hc. apply in_seq in Hc. apply CV_mult; [apply cv_const|apply Cx; lia]. }
      assert (Ob : Un_cv (fun k => objective p (u (phi k))) (objective p x)).
      { unfold objective. apply CV_plus.
        - unfold Rdiv. apply CV_mult; [|apply cv_const]. apply (cv_rsum (fun k c => row_dot (k_P p) (u (phi k)) c * nth c (u (phi k)) 0)). intros c Hc. apply in_seq in Hc. apply CV_mult; [apply Rd, DP|apply Cx; lia].
        - apply (cv_rsum (fun k c => nth c (k_q p) 0 * nth c (u (phi k)) 0)). intros c Hc. apply in_seq in Hc. apply CV_mult; [apply cv_const|apply Cx; lia]. }
      assert (Fx : feasible p x).
      { split; [exact Lx|]. intros r Hr. assert (Sl : Un_cv (fun k => slack p (u (phi k)) r) (slack p x r)) by (unfold slack; apply CV_minus; [apply cv_const|apply Rd, D]).
        destruct (nth r (senses (k_cones p)) false) eqn:Es.
        - assert (Z : forall k, slack p (u (phi k)) r = 0) by (intros k; destruct (Hu (phi k)) as [[_ F] _]; specialize (F r Hr); rewrite Es in F; exact F).
          apply (UL_sequence (fun k => slack p (u (phi k)) r)); [exact Sl|]. apply (cv_ext (fun _ => 0)); [intros k; symmetry; apply Z|apply cv_const].
        - apply (cv_nonneg (fun k => slack p (u (phi k)) r)); [|exact Sl]. intros k. destruct (Hu (phi k)) as [[_ F] _]. specialize (F r Hr). rewrite Es in F. exact F. }
      exists x. split; [exact Fx|]. intros x' Fx'. destruct (Hdom x' Fx') as [x2 [F2 [B2 O2]]].
      assert (Ox : objective p x <= - s).
      { apply (cv_le (fun k => objective p (u (phi k)))); [|exact Ob]. intros k. destruct (Hu (phi k)) as [_ [_ Q]]. eapply Rle_trans; [exact Q|]. apply Rplus_le_compat_l, Rinv_le_contravar; [apply lt_0_INR; lia|apply le_INR; pose proof (incr_ge phi Hi k); lia]. }
      assert (- objective p x2 <= s) by (apply Hub; exists x2; auto). lra.
  Qed.

  Hypothesis Sym : forall c c', (c < n)%nat -> (c' < n)%nat -> entry (k_P p) c c' = entry (k_P p) c' c.

  Definition bil (x x' : list R) : R := rsum (map (fun c => row_dot (k_P p) x c * nth c x' 0) (seq 0 n)).
  Lemma bil_sym x x' : bil x x' = bil x' x.
  Proof.
    unfold bil, row_dot. rewrite DP.
    rewrite (rsum_map_ext _ (fun c => rsum (map (fun c' => entry (k_P p) c c' * nth c' x 0 * nth c x' 0) (seq 0 n)))) by (intros c _; rewrite Rmult_comm, <- rsum_map_mult; apply rsum_map_ext; intros; ring).
    rewrite (rsum_swap_seq (fun c c' => entry (k_P p) c c' * nth c' x 0 * nth c x' 0)). apply rsum_map_ext. intros c Hc. apply in_seq in Hc. rewrite Rmult_comm, <- rsum_map_mult. apply rsum_map_ext. intros c' Hc'. apply in_seq in Hc'. rewrite (Sym c' c) by lia. ring.
  Qed.

  Lemma first_order x : feasible p x -> (forall x', feasible p x' -> objective p x <= objective p x') -> forall x', feasible p x' -> lin p x x <= lin p x x'.
  Proof.
    intros Fx Hmin x' Fx'. set (w := fun t => map (fun c => nth c x 0 + t * (nth c x' 0 - nth c x 0)) (seq 0 n)).
    assert (Nw : forall t c, (c < n)%nat -> nth c (w t) 0 = nth c x 0 + t * (nth c x' 0 - nth c x 0)) by (intros t c Hc; unfold w; apply (nth_map_seq (fun c => nth c x 0 + t * (nth c x' 0 - nth c x 0)) n c 0 Hc)).
    assert (Rw : forall M t r, c_cols M = n -> row_dot M (w t) r = row_dot M x r + t * (row_dot M x' r - row_dot M x r)).
    { intros M t r EM. unfold row_dot. rewrite EM. rewrite (rsum_map_ext _ (fun c => entry M r c * nth c x 0 + t * (entry M r c * nth c x' 0 + -1 * (entry M r c * nth c x 0)))) by (intros c Hc; apply in_seq in Hc; rewrite Nw by lia; ring).
      rewrite rsum_map_plus, rsum_map_mult, rsum_map_plus, rsum_map_mult. ring. }
    assert (Fw : forall t, 0 <= t <= 1 -> feasible p (w t)).
    { intros t Ht. split; [unfold w; rewrite map_length, seq_length; reflexivity|]. intros r Hr. destruct Fx as [_ Fx], Fx' as [_ Fx']. specialize (Fx r Hr). specialize (Fx' r Hr).
      unfold slack in *. rewrite Rw by apply D. destruct (nth r _ false); nra. }
    set (d := fun c => nth c x' 0 - nth c x 0).
    set (Q := bil x' x' - 2 * bil x x' + bil x x). set (G := lin p x x' - lin p x x).
    assert (Ow : forall t, objective p (w t) = objective p x + t * G + t * t / 2 * Q).
    { intros t. unfold objective.
      assert (E1 : rsum (map (fun c => row_dot (k_P p) (w t) c * nth c (w t) 0) (seq 0 n)) = bil x x + t * (bil x x' - bil x x) + t * (bil x' x - bil x x) + t * t * (bil x' x' - bil x x' - bil x' x + bil x x)).
      { rewrite (rsum_map_ext _ (fun c => row_dot (k_P p) x c * nth c x 0 + (t * (row_dot (k_P p) x c * nth c x' 0 + -1 * (row_dot (k_P p) x c * nth c x 0)) + (t * (row_dot (k_P p) x' c * nth c x 0 + -1 * (row_dot (k_P p) x c * nth c x 0)) +
            t * t * ((row_dot (k_P p) x' c * nth c x' 0 + -1 * (row_dot (k_P p) x c * nth c x' 0)) + (-1 * (row_dot (k_P p) x' c * nth c x 0) + row_dot (k_P p) x c * nth c x 0))))))
          by (intros c Hc; apply in_seq in Hc; rewrite Nw by lia; rewrite Rw by exact DP; ring).
        repeat (rewrite ?rsum_map_plus, ?rsum_map_mult). unfold bil. ring. }
      assert (E2 : rsum (map (fun c => nth c (k_q p) 0 * nth c (w t) 0) (seq 0 n)) = rsum (map (fun c => nth c (k_q p) 0 * nth c x 0) (seq 0 n)) + t * (rsum (map (fun c => nth c (k_q p) 0 * nth c x' 0) (seq 0 n)) - rsum (map (fun c => nth c (k_q p) 0 * nth c x 0) (seq 0 n)))).
      { rewrite (rsum_map_ext _ (fun c => nth c (k_q p) 0 * nth c x 0 + t * (nth c (k_q p) 0 * nth c x' 0 + -1 * (nth c (k_q p) 0 * nth c x 0)))) by (intros c Hc; apply in_seq in Hc; rewrite Nw by lia; ring).
        rewrite rsum_map_plus, rsum_map_mult, rsum_map_plus, rsum_map_mult. ring. }
      rewrite E1, E2. fold (bil x x).
      assert (L : forall v, lin p x v = bil x v + rsum (map (fun c => nth c (k_q p) 0 * nth c v 0) (seq 0 n))).
      { intros v. unfold lin, dotn, grad, bil. rewrite (rsum_map_ext _ (fun c => row_dot (k_P p) x c * nth c v 0 + nth c (k_q p) 0 * nth c v 0)) by (intros; ring). apply rsum_map_plus. }
      unfold G, Q. rewrite !L, (bil_sym x' x). field. }
    assert (Hg : 0 <= G).
    { apply Rnot_lt_le. intros Lg. set (t := Rmin 1 (- G / (Rabs Q + 1))). assert (HQ : 0 < Rabs Q + 1) by (pose proof (Rabs_pos Q); lra).
      assert (Ht0 : 0 < - G / (Rabs Q + 1)) by (apply Rdiv_lt_0_compat; lra). assert (Ht : 0 < t <= 1) by (unfold t; split; [apply Rmin_glb_lt; lra|apply Rmin_l]).
      assert (Ht2 : t * (Rabs Q + 1) <= - G) by (assert (t <= - G / (Rabs Q + 1)) by apply Rmin_r; apply (proj1 (Rle_div_iff _ _ _ HQ)) in H; lra).
      specialize (Hmin (w t) (Fw t ltac:(lra))). rewrite Ow in Hmin. pose proof (Rle_abs Q). assert (t * Q <= t * Rabs Q) by nra. nra. }
    unfold G in Hg. lra.
  Qed.

  (** a feasible program whose objective can be lowered into a box has an exact answer *)
  Lemma qp_solvable B : 0 <= B -> (exists x, feasible p x) -> (forall x, feasible p x -> exists x', feasible p x' /\ boxed B x' /\ objective p x' <= objective p x) -> exists a, solves p a.
  Proof.
    intros HB Hf Hd. destruct (qp_min B HB Hf Hd) as [x [Fx Hmin]]. destruct (kkt_exists p D x Fx (first_order x Fx Hmin)) as [z Kz].
    exists (mkAnswer x z (objective p x) Solved). split; [exact Kz|]. split; reflexivity.
  Qed.
End QP.
