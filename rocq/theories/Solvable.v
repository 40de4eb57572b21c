(** Existence of exact answers: KKT multipliers at every point that minimises the linearised objective, and an exact
    answer for every feasible and bounded linear program. *)
From Verif Require Import Base Csc ConicSpec CscProofs Duality.
Open Scope R_scope.

(** the dimensions that the solver's constructor checks *)
Definition dims (p : conic) : Prop := c_cols (k_A p) = length (k_q p) /\ c_rows (k_A p) = length (k_b p).

Section Conic.
  Variable p : conic.
  Hypothesis D : dims p.
  Notation n := (length (k_q p)).
  Notation m := (length (k_b p)).
  Definition eqrow (r : nat) : bool := nth r (senses (k_cones p)) false.

  Definition rows : list row :=
    map (fun r => mkRow (entry (k_A p) r) (nth r (k_b p) 0) false) (seq 0 m) ++
    map (fun r => if eqrow r then mkRow (fun c => - entry (k_A p) r c) (- nth r (k_b p) 0) false else row0) (seq 0 m).

  Lemma rows_length : length rows = (m + m)%nat.
  Proof. unfold rows. rewrite app_length, !map_length, !seq_length. reflexivity. Qed.

  Lemma rows_nth1 r : (r < m)%nat -> nth r rows row0 = mkRow (entry (k_A p) r) (nth r (k_b p) 0) false.
  Proof.
    intros H. unfold rows. rewrite app_nth1 by (rewrite map_length, seq_length; exact H).
    rewrite (nth_map_in _ _ _ 0%nat) by (rewrite seq_length; exact H). rewrite nth_seq0 by exact H. reflexivity.
  Qed.

  Lemma rows_nth2 r : (r < m)%nat -> nth (m + r) rows row0 = if eqrow r then mkRow (fun c => - entry (k_A p) r c) (- nth r (k_b p) 0) false else row0.
  Proof.
    intros H. unfold rows. rewrite app_nth2 by (rewrite map_length, seq_length; lia). rewrite map_length, seq_length. replace (m + r - m)%nat with r by lia.
    rewrite (nth_map_in _ _ _ 0%nat) by (rewrite seq_length; exact H). rewrite nth_seq0 by exact H. reflexivity.
  Qed.

  Lemma rows_soft r : In r rows -> rs r = false.
  Proof.
    unfold rows. intros H. apply in_app_or in H. destruct H as [H|H]; apply in_map_iff in H; destruct H as [k [<- _]]; [reflexivity|]. destruct (eqrow k); reflexivity.
  Qed.

  Lemma row_dotn x r : row_dot (k_A p) x r = dotn n (entry (k_A p) r) (fun c => nth c x 0).
  Proof. unfold row_dot, dotn. destruct D as [-> _]. reflexivity. Qed.

  Lemma feas_iff x : length x = n -> (feasible p x <-> feas n rows (fun c => nth c x 0)).
  Proof.
    intros L. unfold feasible, feas. split.
    - intros [_ F] r Hr. apply (In_nth _ _ row0) in Hr. destruct Hr as [k [Hk <-]]. rewrite rows_length in Hk. destruct (Nat.lt_ge_cases k m) as [Lk|Lk].
      + rewrite rows_nth1 by exact Lk. cbn [ra rb]. specialize (F k Lk). unfold slack in F. rewrite row_dotn in F. destruct (nth k _ false); lra.
      + replace k with (m + (k - m))%nat by lia. rewrite rows_nth2 by lia. specialize (F (k - m)%nat ltac:(lia)). fold (eqrow (k - m)) in F. destruct (eqrow (k - m)); cbn [ra rb].
        * unfold slack in F. rewrite row_dotn in F. unfold dotn in *. rewrite (rsum_map_ext _ (fun c => -1 * (entry (k_A p) (k - m) c * nth c x 0))) by (intros; ring). rewrite rsum_map_mult. lra.
        * unfold dotn. rewrite rsum_zero by (intros; ring). lra.
    - intros F. split; [exact L|]. intros r Hr. assert (F1 := F (nth r rows row0) ltac:(apply nth_In; rewrite rows_length; lia)). assert (F2 := F (nth (m + r) rows row0) ltac:(apply nth_In; rewrite rows_length; lia)).
      rewrite rows_nth1 in F1 by exact Hr. rewrite rows_nth2 in F2 by exact Hr. cbn [ra rb] in F1. fold (eqrow r). unfold slack. rewrite row_dotn. destruct (eqrow r); cbn [ra rb] in F2; [|lra].
      unfold dotn in F2. rewrite (rsum_map_ext _ (fun c => -1 * (entry (k_A p) r c * nth c x 0))) in F2 by (intros; ring). rewrite rsum_map_mult in F2. unfold dotn in *. lra.
  Qed.

  Definition grad (x : list R) (c : nat) : R := row_dot (k_P p) x c + nth c (k_q p) 0.
  Definition lin (x x' : list R) : R := dotn n (grad x) (fun c => nth c x' 0).

  (** multipliers exist at a feasible point that minimises its linearised objective *)
  Lemma kkt_exists x : feasible p x -> (forall x', feasible p x' -> lin x x <= lin x x') -> exists z, kkt p x z.
  Proof.
    intros Fx Hmin. assert (L : length x = n) by apply Fx.
    destruct (dual_attained n rows (grad x) rows_soft (lin x x)) as [u [U1 [U2 U3]]].
    - exists (fun c => nth c x 0). apply feas_iff; assumption.
    - intros f Hf. set (x' := map f (seq 0 n)). assert (Lx : length x' = n) by (unfold x'; rewrite map_length, seq_length; reflexivity).
      assert (Ex : forall c, (c < n)%nat -> nth c x' 0 = f c) by (intros c Hc; unfold x'; apply nth_map_seq, Hc).
      assert (Fx' : feasible p x'). { apply feas_iff; [exact Lx|]. intros r Hr. rewrite (dotn_ext n (ra r) _ f) by exact Ex. apply Hf, Hr. }
      specialize (Hmin x' Fx'). unfold lin in Hmin at 2. rewrite (dotn_ext n _ _ f) in Hmin by exact Ex. exact Hmin.
    - rewrite rows_length in *. set (z := map (fun r => u r - (if eqrow r then u (m + r)%nat else 0)) (seq 0 m)).
      assert (Lz : length z = m) by (unfold z; rewrite map_length, seq_length; reflexivity).
      assert (Nz : forall r, (r < m)%nat -> nth r z 0 = u r - (if eqrow r then u (m + r)%nat else 0)) by (intros r Hr; unfold z; rewrite nth_map_seq by exact Hr; reflexivity).
      assert (Split : forall g : row -> R, (forall r, (r < m)%nat -> eqrow r = true -> g (nth (m + r) rows row0) = - g (nth r rows row0)) -> g row0 = 0 ->
        rsum (map (fun k => u k * g (nth k rows row0)) (seq 0 (m + m))) = rsum (map (fun r => nth r z 0 * g (nth r rows row0)) (seq 0 m))).
      { intros g Hg H0. rewrite rsum_split, <- rsum_map_plus. apply rsum_map_ext. intros r Hr. apply in_seq in Hr. rewrite Nz by lia. specialize (Hg r ltac:(lia)).
        destruct (eqrow r) eqn:E; [rewrite (Hg eq_refl); ring|]. rewrite (rows_nth2 r ltac:(lia)), E, H0. ring. }
      assert (Stat : forall c, (c < n)%nat -> grad x c + col_dot (k_A p) z c = 0).
      { intros c Hc. specialize (U2 c Hc). rewrite (Split (fun r => ra r c)) in U2.
        - etransitivity; [|exact U2]. f_equal. unfold col_dot. destruct D as [_ ->]. apply rsum_map_ext. intros r Hr. apply in_seq in Hr. rewrite rows_nth1 by lia. cbn [ra]. ring.
        - intros r Hr E. rewrite rows_nth2, rows_nth1, E by exact Hr. reflexivity.
        - reflexivity. }
      rewrite (Split rb) in U3; [|intros r Hr E; rewrite rows_nth2, rows_nth1, E by exact Hr; reflexivity|reflexivity].
      assert (Sg : forall r, (r < m)%nat -> eqrow r = false -> 0 <= nth r z 0).
      { intros r Hr E. rewrite Nz, E by exact Hr. specialize (U1 r ltac:(lia)). lra. }
      assert (Tot : rsum (map (fun r => nth r z 0 * slack p x r) (seq 0 m)) <= 0).
      { unfold slack. rewrite (rsum_map_ext _ (fun r => nth r z 0 * nth r (k_b p) 0 - nth r z 0 * row_dot (k_A p) x r)) by (intros; ring). rewrite rsum_map_minus.
        pose proof (adjoint (k_A p) x z) as Ad. destruct D as [D1 D2]. rewrite D1, D2 in Ad. rewrite Ad.
        assert (E1 : rsum (map (fun c => col_dot (k_A p) z c * nth c x 0) (seq 0 n)) = - lin x x).
        { unfold lin, dotn. rewrite <- (Rmult_1_l (rsum (map (fun c => grad x c * nth c x 0) (seq 0 n)))), Ropp_mult_distr_l, <- rsum_map_mult. apply rsum_map_ext. intros c Hc. apply in_seq in Hc.
          specialize (Stat c ltac:(lia)). replace (col_dot _ _ _) with (- grad x c) by lra. ring. }
        rewrite E1. rewrite (rsum_map_ext _ (fun r => nth r z 0 * rb (nth r rows row0))) by (intros r Hr; apply in_seq in Hr; rewrite rows_nth1 by lia; reflexivity). lra. }
      assert (Nn : forall r, (r < m)%nat -> 0 <= nth r z 0 * slack p x r).
      { intros r Hr. destruct Fx as [_ F]. specialize (F r Hr). fold (eqrow r) in F. destruct (eqrow r) eqn:E; [rewrite F; lra|]. apply Rmult_le_pos; [apply Sg; assumption|exact F]. }
      exists z. split; [exact Fx|]. split; [exact Lz|]. split; [exact Sg|]. split; [|exact Stat].
      intros r Hr. apply (rsum_nonneg_zero (map (fun r => nth r z 0 * slack p x r) (seq 0 m))).
      + intros v Hv. apply in_map_iff in Hv. destruct Hv as [k [<- Hk]]. apply in_seq in Hk. apply Nn. lia.
      + apply Rle_antisym; [exact Tot|]. apply rsum_nonneg. intros v Hv. apply in_map_iff in Hv. destruct Hv as [k [<- Hk]]. apply in_seq in Hk. apply Nn. lia.
      + apply in_map_iff. exists r. split; [reflexivity|apply in_seq; lia].
  Qed.

  (** every feasible and bounded linear program has an exact answer *)
  Lemma lp_solvable : (forall x c, row_dot (k_P p) x c = 0) -> (exists x, feasible p x) -> (exists v, forall x, feasible p x -> v <= objective p x) -> exists a, solves p a.
  Proof.
    intros HP [x0 Hx0] [v Hv].
    assert (Ob : forall x, objective p x = dotn n (fun c => nth c (k_q p) 0) (fun c => nth c x 0)).
    { intros x. unfold objective, dotn. rewrite rsum_zero by (intros; rewrite HP; ring). field. }
    destruct (primal_attained n rows (fun c => nth c (k_q p) 0) rows_soft v) as [f [Ff Mf]].
    - exists (fun c => nth c x0 0). apply feas_iff; [apply Hx0|exact Hx0].
    - intros f Hf. set (x' := map f (seq 0 n)). assert (Lx : length x' = n) by (unfold x'; rewrite map_length, seq_length; reflexivity).
      assert (Ex : forall c, (c < n)%nat -> nth c x' 0 = f c) by (intros c Hc; unfold x'; apply nth_map_seq, Hc).
      assert (Fx' : feasible p x'). { apply feas_iff; [exact Lx|]. intros r Hr. rewrite (dotn_ext n (ra r) _ f) by exact Ex. apply Hf, Hr. }
      specialize (Hv x' Fx'). rewrite Ob, (dotn_ext n _ _ f) in Hv by exact Ex. exact Hv.
    - set (x := map f (seq 0 n)). assert (Lx : length x = n) by (unfold x; rewrite map_length, seq_length; reflexivity).
      assert (Ex : forall c, (c < n)%nat -> nth c x 0 = f c) by (intros c Hc; unfold x; apply nth_map_seq, Hc).
      assert (Fx : feasible p x). { apply feas_iff; [exact Lx|]. intros r Hr. rewrite (dotn_ext n (ra r) _ f) by exact Ex. apply Ff, Hr. }
      destruct (kkt_exists x Fx) as [z Kz].
      + intros x' Fx'. assert (Lx' : length x' = n) by apply Fx'. specialize (Mf (fun c => nth c x' 0) (proj1 (feas_iff x' Lx') Fx')).
        rewrite <- (dotn_ext n _ (fun c => nth c x 0) f Ex) in Mf.
        assert (El : forall w, lin x w = dotn n (fun c => nth c (k_q p) 0) (fun c => nth c w 0)). { intros w. unfold lin, dotn, grad. apply rsum_map_ext. intros c _. rewrite HP. ring. }
        rewrite !El. exact Mf.
      + exists (mkAnswer x z (objective p x) Solved). split; [exact Kz|]. split; reflexivity.
  Qed.
End Conic.
