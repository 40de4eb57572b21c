(** Linear inequalities over the reals: Fourier-Motzkin elimination with strict rows, and the duality of linear
    programs.  Used to show that every linear program posed by a booster has an exact answer. *)
From Verif Require Import Base.
Require Import Coq.micromega.Lra Coq.micromega.Lia.
Open Scope R_scope.

(** a row [a . x <= b], or [a . x < b] if strict *)
Record row := mkRow { ra : nat -> R; rb : R; rs : bool }.

Definition dotn (n : nat) (a x : nat -> R) : R := rsum (map (fun c => a c * x c) (seq 0 n)).
Definition sat (n : nat) (x : nat -> R) (r : row) : Prop := if rs r then dotn n (ra r) x < rb r else dotn n (ra r) x <= rb r.

(** nonnegative combinations of rows *)
Inductive cone_of (L : list row) : row -> Prop :=
| cone_in r : In r L -> cone_of L r
| cone_add p q c d : cone_of L p -> cone_of L q -> 0 < c -> 0 < d ->
    cone_of L (mkRow (fun i => c * ra p i + d * ra q i) (c * rb p + d * rb q) (rs p || rs q)).

Definition contradictory (n : nat) (r : row) : Prop := (forall c, (c < n)%nat -> ra r c = 0) /\ (rb r < 0 \/ (rs r = true /\ rb r <= 0)).

Lemma cone_trans L L' r : (forall r, In r L' -> cone_of L r) -> cone_of L' r -> cone_of L r.
Proof. intros H. induction 1; [apply H; assumption|apply cone_add; assumption]. Qed.

Lemma cone_zero L r c : (forall r, In r L -> ra r c = 0) -> cone_of L r -> ra r c = 0.
Proof. intros H. induction 1 as [r Hr|p q x z _ IHp _ IHq _ _]; [apply H, Hr|]. simpl. rewrite IHp, IHq. ring. Qed.

Lemma dotn_S n a x : dotn (S n) a x = dotn n a x + a n * x n.
Proof. unfold dotn. rewrite seq_S, map_app, rsum_app. simpl. ring. Qed.

Lemma dotn_comb n c d a b x : dotn n (fun i => c * a i + d * b i) x = c * dotn n a x + d * dotn n b x.
Proof. unfold dotn. rewrite (rsum_map_ext _ (fun i => c * (a i * x i) + d * (b i * x i))) by (intros; ring). rewrite rsum_map_plus, !rsum_map_mult. reflexivity. Qed.

Lemma dotn_ext n a x x' : (forall i, (i < n)%nat -> x i = x' i) -> dotn n a x = dotn n a x'.
Proof. intros H. unfold dotn. apply rsum_map_ext. intros i Hi. apply in_seq in Hi. rewrite H by lia. reflexivity. Qed.

Lemma max_exists (l : list R) : l <> [] -> exists m, In m l /\ forall x, In x l -> x <= m.
Proof.
  induction l as [|a t IH]; [congruence|]. intros _. destruct t as [|b t]; [exists a; split; [left; reflexivity|intros x [<-|[]]; lra]|].
  destruct (IH ltac:(congruence)) as [m [Hm Hx]]. destruct (Rle_dec a m) as [L|L].
  - exists m. split; [right; exact Hm|]. intros x [<-|Hx']; [exact L|apply Hx, Hx'].
  - exists a. split; [left; reflexivity|]. intros x [<-|Hx']; [lra|specialize (Hx x Hx'); lra].
Qed.

Lemma min_exists (l : list R) : l <> [] -> exists m, In m l /\ forall x, In x l -> m <= x.
Proof.
  intros Hl. destruct (max_exists (map Ropp l)) as [m [Hm Hx]]; [destruct l; [congruence|discriminate]|].
  apply in_map_iff in Hm. destruct Hm as [a [<- Ha]]. exists a. split; [exact Ha|]. intros x H. specialize (Hx (- x) (in_map _ _ _ H)). lra.
Qed.

(** a point between lower and upper bounds, some of them strict *)
Lemma between (lo hi : list (R * bool)) :
  (forall l h, In l lo -> In h hi -> if (snd l || snd h)%bool then fst l < fst h else fst l <= fst h) ->
  exists t, (forall l, In l lo -> if snd l then fst l < t else fst l <= t) /\ (forall h, In h hi -> if snd h then t < fst h else t <= fst h).
Proof.
  intros H. destruct lo as [|l0 lo0] eqn:El.
  - destruct hi as [|h0 hi0] eqn:Eh; [exists 0; split; intros ? []|]. rewrite <- Eh in *.
    destruct (min_exists (map fst hi)) as [m [Hm Hx]]; [subst; discriminate|]. exists (m - 1). split; [intros ? []|].
    intros h Hh. specialize (Hx (fst h) (in_map _ _ _ Hh)). destruct (snd h); lra.
  - rewrite <- El in *. destruct (max_exists (map fst lo)) as [m [Hm Hx]]; [subst; discriminate|].
    destruct hi as [|h0 hi0] eqn:Eh.
    + exists (m + 1). split; [|intros ? []]. intros l Hl. specialize (Hx (fst l) (in_map _ _ _ Hl)). destruct (snd l); lra.
    + rewrite <- Eh in *. destruct (min_exists (map fst hi)) as [m' [Hm' Hx']]; [subst; discriminate|].
      apply in_map_iff in Hm. destruct Hm as [lm [Elm Ilm]]. apply in_map_iff in Hm'. destruct Hm' as [hm [Ehm Ihm]].
      assert (M : m <= m') by (specialize (H lm hm Ilm Ihm); destruct (snd lm || snd hm)%bool; lra).
      exists ((m + m') / 2). split.
      * intros l Hl. specialize (Hx (fst l) (in_map _ _ _ Hl)). specialize (H l hm Hl Ihm). destruct (snd l); simpl in H; lra.
      * intros h Hh. specialize (Hx' (fst h) (in_map _ _ _ Hh)). specialize (H lm h Ilm Hh). destruct (snd h); [rewrite Bool.orb_true_r in H; lra|lra].
Qed.

(** Fourier-Motzkin: a system of rows has a solution or a contradictory nonnegative combination *)
Theorem fourier_motzkin : forall n (L : list row), (exists x, forall r, In r L -> sat n x r) \/ (exists r, cone_of L r /\ contradictory n r).
Proof.
  induction n as [|n IH]; intros L.
  - destruct (Exists_dec (contradictory 0) L) as [X|X].
    + intros r. destruct (Rlt_dec (rb r) 0) as [A|A]; [left; split; [intros; lia|left; exact A]|].
      destruct (rs r) eqn:E; [|right; intros [_ [B|[B _]]]; [lra|congruence]]. destruct (Rle_dec (rb r) 0) as [B|B]; [left; split; [intros; lia|right; auto]|].
      right. intros [_ [C|[_ C]]]; lra.
    + right. apply Exists_exists in X. destruct X as [r [Hr C]]. exists r. split; [apply cone_in, Hr|exact C].
    + left. exists (fun _ => 0). intros r Hr. unfold sat, dotn. simpl. assert (N : ~ contradictory 0 r) by (intros C; apply X, Exists_exists; exists r; auto).
      unfold contradictory in N. destruct (rs r).
      * destruct (Rlt_dec 0 (rb r)); [assumption|]. exfalso. apply N. split; [intros; lia|]. right. split; [reflexivity|lra].
      * destruct (Rle_dec 0 (rb r)); [assumption|]. exfalso. apply N. split; [intros; lia|]. left. lra.
  - set (P := filter (fun r => Rltb 0 (ra r n)) L). set (Q := filter (fun r => Rltb (ra r n) 0) L). set (Z := filter (fun r => Reqb (ra r n) 0) L).
    set (comb := fun pq : row * row => let '(p, q) := pq in
      mkRow (fun i => / ra p n * ra p i + / - ra q n * ra q i) (/ ra p n * rb p + / - ra q n * rb q) (rs p || rs q)).
    assert (HP : forall r, In r P <-> In r L /\ 0 < ra r n) by (intros r; unfold P; rewrite filter_In; destruct (Rltb_spec 0 (ra r n)); intuition (try discriminate; try lra)).
    assert (HQ : forall r, In r Q <-> In r L /\ ra r n < 0) by (intros r; unfold Q; rewrite filter_In; destruct (Rltb_spec (ra r n) 0); intuition (try discriminate; try lra)).
    assert (HZ : forall r, In r Z <-> In r L /\ ra r n = 0) by (intros r; unfold Z; rewrite filter_In; destruct (Reqb_spec (ra r n) 0); intuition (try discriminate; try lra)).
    set (L' := Z ++ map comb (list_prod P Q)).
    assert (Hc : forall r, In r L' -> cone_of L r /\ ra r n = 0).
    { intros r Hr. unfold L' in Hr. apply in_app_or in Hr. destruct Hr as [Hr|Hr]; [apply HZ in Hr; split; [apply cone_in|]; apply Hr|].
      apply in_map_iff in Hr. destruct Hr as [[p q] [<- Hpq]]. apply in_prod_iff in Hpq. destruct Hpq as [Hp Hq]. apply HP in Hp. apply HQ in Hq. split.
      - apply cone_add; [apply cone_in, Hp|apply cone_in, Hq|apply Rinv_0_lt_compat, Hp|apply Rinv_0_lt_compat; lra].
      - simpl. field. lra. }
    destruct (IH L') as [[x Hx]|[r [Hr [C1 C2]]]].
    + left. set (lo := map (fun q => ((dotn n (ra q) x - rb q) / - ra q n, rs q)) Q). set (hi := map (fun p => ((rb p - dotn n (ra p) x) / ra p n, rs p)) P).
      destruct (between lo hi) as [t [T1 T2]].
      * intros l h Hl Hh. unfold lo in Hl. unfold hi in Hh. apply in_map_iff in Hl. destruct Hl as [q [<- Hq]]. apply in_map_iff in Hh. destruct Hh as [p [<- Hp]]. cbn [fst snd].
        specialize (Hx (comb (p, q)) ltac:(unfold L'; apply in_or_app; right; apply in_map, in_prod; assumption)). unfold sat in Hx. simpl in Hx. rewrite dotn_comb in Hx.
        apply HP in Hp. apply HQ in Hq. rewrite Bool.orb_comm. unfold Rdiv. destruct (rs p || rs q)%bool; nra.
      * exists (fun i => if Nat.eqb i n then t else x i). intros r Hr.
        assert (Ed : dotn (S n) (ra r) (fun i => if Nat.eqb i n then t else x i) = dotn n (ra r) x + ra r n * t).
        { rewrite dotn_S, Nat.eqb_refl. f_equal. apply dotn_ext. intros i Hi. destruct (Nat.eqb_spec i n); [lia|reflexivity]. }
        unfold sat. rewrite Ed. clear Ed. destruct (Rtotal_order (ra r n) 0) as [N|[N|N]].
        -- specialize (T1 ((dotn n (ra r) x - rb r) / - ra r n, rs r) ltac:(apply in_map_iff; exists r; split; [reflexivity|apply HQ; auto])). cbn [fst snd] in T1.
           destruct (rs r); [apply Rdiv_lt_iff in T1; lra|apply Rdiv_le_iff in T1; lra].
        -- specialize (Hx r ltac:(unfold L'; apply in_or_app; left; apply HZ; auto)). unfold sat in Hx. rewrite N. destruct (rs r); lra.
        -- specialize (T2 ((rb r - dotn n (ra r) x) / ra r n, rs r) ltac:(apply in_map_iff; exists r; split; [reflexivity|apply HP; auto])). cbn [fst snd] in T2.
           destruct (rs r); [apply Rlt_div_iff in T2; lra|apply Rle_div_iff in T2; lra].
    + right. exists r. split; [apply (cone_trans L L' r); [intros; apply Hc; assumption|exact Hr]|]. split; [|exact C2].
      intros c Hlt. destruct (Nat.eq_dec c n) as [->|N]; [apply (cone_zero L' r n); [intros; apply Hc; assumption|exact Hr]|apply C1; lia].
Qed.

(** the multipliers behind a combination; a strict row was used if the combination is strict *)
Lemma cone_multipliers L r : cone_of L r -> exists z : nat -> R, (forall k, (k < length L)%nat -> 0 <= z k) /\
  (forall c, ra r c = rsum (map (fun k => z k * ra (nth k L (mkRow (fun _ => 0) 0 false)) c) (seq 0 (length L)))) /\
  rb r = rsum (map (fun k => z k * rb (nth k L (mkRow (fun _ => 0) 0 false))) (seq 0 (length L))) /\
  (rs r = true -> exists k, (k < length L)%nat /\ 0 < z k /\ rs (nth k L (mkRow (fun _ => 0) 0 false)) = true).
Proof.
  set (d := mkRow (fun _ => 0) 0 false). induction 1 as [r Hr|p q c e _ [zp [P1 [P2 [P3 P4]]]] _ [zq [Q1 [Q2 [Q3 Q4]]]] Hc He].
  - destruct (In_nth L r d Hr) as [j [Hj Ej]]. exists (fun k => if Nat.eqb k j then 1 else 0).
    assert (G : forall f : row -> R, f r = rsum (map (fun k => (if Nat.eqb k j then 1 else 0) * f (nth k L d)) (seq 0 (length L)))).
    { intros f. clear Hr. revert j Hj Ej. induction L as [|a l IH]; intros j Hj Ej; [simpl in Hj; lia|]. cbn [length seq map]. rewrite <- seq_shift, map_map. destruct j as [|j].
      - simpl in Ej. subst a. cbn [rsum nth Nat.eqb]. rewrite rsum_map_mult. ring.
      - cbn [rsum Nat.eqb]. simpl in Hj, Ej. rewrite (IH j ltac:(lia) Ej). cbn [nth]. ring. }
    split; [intros k _; destruct (Nat.eqb k j); lra|]. split; [intros c; apply (G (fun r => ra r c))|]. split; [apply (G rb)|].
    intros E. exists j. split; [exact Hj|]. rewrite Nat.eqb_refl, Ej. split; [lra|exact E].
  - exists (fun k => c * zp k + e * zq k). split; [intros k Hk; specialize (P1 k Hk); specialize (Q1 k Hk); nra|]. split; [|split].
    + intros i. simpl. rewrite P2, Q2, <- !rsum_map_mult, <- rsum_map_plus. apply rsum_map_ext. intros; ring.
    + simpl. rewrite P3, Q3, <- !rsum_map_mult, <- rsum_map_plus. apply rsum_map_ext. intros; ring.
    + simpl. intros E. apply Bool.orb_true_iff in E. destruct E as [E|E]; [destruct (P4 E) as [k [Hk [Zk Sk]]]|destruct (Q4 E) as [k [Hk [Zk Sk]]]]; exists k; (split; [exact Hk|]); (split; [|exact Sk]);
        specialize (P1 k Hk); specialize (Q1 k Hk); nra.
Qed.

Notation row0 := (mkRow (fun _ => 0) 0 false).

Lemma rsum_swap_rows {A B} (f : A -> B -> R) l l' :
  rsum (map (fun a => rsum (map (f a) l')) l) = rsum (map (fun b => rsum (map (fun a => f a b) l)) l').
Proof.
  induction l as [|a l IH]; simpl; [rewrite (rsum_map_ext (fun _ => 0) (fun _ => 0 * 0)), rsum_map_mult by (intros; ring); ring|].
  rewrite IH, <- rsum_map_plus. reflexivity.
Qed.

Lemma dot_rows n m (z : nat -> R) (a : nat -> nat -> R) x :
  rsum (map (fun k => z k * dotn n (a k) x) (seq 0 m)) = dotn n (fun c => rsum (map (fun k => z k * a k c) (seq 0 m))) x.
Proof.
  unfold dotn. rewrite (rsum_map_ext (fun k => z k * rsum (map (fun c => a k c * x c) (seq 0 n))) (fun k => rsum (map (fun c => z k * a k c * x c) (seq 0 n)))).
  - rewrite rsum_swap_rows. apply rsum_map_ext. intros c _. rewrite (rsum_map_ext _ (fun k => x c * (z k * a k c))) by (intros; ring). rewrite rsum_map_mult. ring.
  - intros k _. rewrite <- rsum_map_mult. apply rsum_map_ext. intros; ring.
Qed.

Lemma rsum_S0 (f : nat -> R) m : rsum (map f (seq 0 (S m))) = f 0%nat + rsum (map (fun k => f (S k)) (seq 0 m)).
Proof. cbn [seq map rsum]. rewrite <- seq_shift, map_map. reflexivity. Qed.

Section LP.
  Variable n : nat.
  Variable L : list row.
  Variable q : nat -> R.
  Hypothesis Hs : forall r, In r L -> rs r = false.
  Definition feas (x : nat -> R) : Prop := forall r, In r L -> dotn n (ra r) x <= rb r.

  Lemma sat_feas x : (forall r, In r L -> sat n x r) -> feas x.
  Proof. intros H r Hr. specialize (H r Hr). unfold sat in H. rewrite (Hs r Hr) in H. exact H. Qed.

  (** a combination of the rows bounds itself at every feasible point *)
  Lemma comb_bound (z : nat -> R) x : (forall k, (k < length L)%nat -> 0 <= z k) -> feas x ->
    dotn n (fun c => rsum (map (fun k => z k * ra (nth k L row0) c) (seq 0 (length L)))) x <= rsum (map (fun k => z k * rb (nth k L row0)) (seq 0 (length L))).
  Proof.
    intros Hz Hx. rewrite <- (dot_rows n (length L) z (fun k => ra (nth k L row0)) x). apply rsum_map_le. intros k Hk. apply in_seq in Hk.
    assert (Hk' : (k < length L)%nat) by lia. specialize (Hz k Hk'). specialize (Hx (nth k L row0) (nth_In _ _ Hk')). nra.
  Qed.

  (** what an infeasible extra row gives *)
  Lemma extra_row a c b : (exists x, feas x) -> (forall x, feas x -> ~ sat n x (mkRow a c b)) ->
    exists z, (forall k, (k < length L)%nat -> 0 <= z k) /\
      (forall i, (i < n)%nat -> a i + rsum (map (fun k => z k * ra (nth k L row0) i) (seq 0 (length L))) = 0) /\
      (c + rsum (map (fun k => z k * rb (nth k L row0)) (seq 0 (length L))) < 0 \/
       (b = true /\ c + rsum (map (fun k => z k * rb (nth k L row0)) (seq 0 (length L))) <= 0)).
  Proof.
    intros [x0 Hx0] Hno. destruct (fourier_motzkin n (mkRow a c b :: L)) as [[x Hx]|[r [Hr [C1 C2]]]].
    - exfalso. apply (Hno x); [apply sat_feas; intros r Hr; apply Hx; right; exact Hr|apply Hx; left; reflexivity].
    - destruct (cone_multipliers _ _ Hr) as [z [Z1 [Z2 [Z3 Z4]]]]. cbn [length] in *. rewrite rsum_S0 in Z3. cbn [nth rb] in Z3.
      set (w := fun k => z (S k)). assert (W : forall k, (k < length L)%nat -> 0 <= w k) by (intros k Hk; apply Z1; lia).
      assert (Z2' : forall i, (i < n)%nat -> z 0%nat * a i + rsum (map (fun k => w k * ra (nth k L row0) i) (seq 0 (length L))) = 0).
      { intros i Hi. etransitivity; [|exact (C1 i Hi)]. rewrite (Z2 i), rsum_S0. reflexivity. }
      assert (Z3' : rb r = z 0%nat * c + rsum (map (fun k => w k * rb (nth k L row0)) (seq 0 (length L)))) by (rewrite Z3; reflexivity).
      pose proof (comb_bound w x0 W Hx0) as B. set (bw := rsum (map (fun k => w k * rb (nth k L row0)) (seq 0 (length L)))) in *.
      assert (P0 : 0 < z 0%nat).
      { destruct (Rle_lt_or_eq_dec 0 (z 0%nat) (Z1 0%nat ltac:(lia))) as [P|P]; [exact P|]. exfalso. rewrite <- P in *.
        assert (D : dotn n (fun i => rsum (map (fun k => w k * ra (nth k L row0) i) (seq 0 (length L)))) x0 = 0).
        { unfold dotn. rewrite (rsum_map_ext _ (fun i => 0 * 0)); [rewrite rsum_map_mult; ring|]. intros i Hi. apply in_seq in Hi. specialize (Z2' i ltac:(lia)). replace (rsum _) with 0 by lra. ring. }
        rewrite D in B. destruct C2 as [C2|[S C2]]; [lra|]. destruct (Z4 S) as [k [Hk [Pk Sk]]]. destruct k as [|k]; [lra|]. cbn [nth] in Sk.
        rewrite (Hs (nth k L row0)) in Sk; [discriminate|]. apply nth_In. lia. }
      exists (fun k => / z 0%nat * w k). split; [intros k Hk; apply Rmult_le_pos; [apply Rlt_le, Rinv_0_lt_compat, P0|apply W, Hk]|]. split.
      + intros i Hi. rewrite (rsum_map_ext _ (fun k => / z 0%nat * (w k * ra (nth k L row0) i))) by (intros; ring). rewrite rsum_map_mult.
        specialize (Z2' i Hi). replace (rsum _) with (- (z 0%nat * a i)) by lra. field. lra.
      + rewrite (rsum_map_ext _ (fun k => / z 0%nat * (w k * rb (nth k L row0)))) by (intros; ring). rewrite rsum_map_mult. fold bw.
        replace (c + / z 0%nat * bw) with (/ z 0%nat * rb r) by (rewrite Z3'; field; lra). pose proof (Rinv_0_lt_compat _ P0). destruct C2 as [C2|[S C2]]; [left; nra|].
        right. split; [|nra]. destruct (Z4 S) as [k [Hk [Pk Sk]]]. destruct k as [|k]; [exact Sk|]. cbn [nth] in Sk. rewrite (Hs (nth k L row0)) in Sk; [discriminate|]. apply nth_In. lia.
  Qed.

  (** a lower bound on the objective is certified by nonnegative multipliers *)
  Lemma dual_attained v : (exists x, feas x) -> (forall x, feas x -> v <= dotn n q x) ->
    exists z, (forall k, (k < length L)%nat -> 0 <= z k) /\
      (forall i, (i < n)%nat -> q i + rsum (map (fun k => z k * ra (nth k L row0) i) (seq 0 (length L))) = 0) /\
      v + rsum (map (fun k => z k * rb (nth k L row0)) (seq 0 (length L))) <= 0.
  Proof.
    intros Hf Hb. destruct (extra_row q v true Hf) as [z [Z1 [Z2 Z3]]].
    - intros x Hx S. unfold sat in S. simpl in S. specialize (Hb x Hx). lra.
    - exists z. split; [exact Z1|]. split; [exact Z2|]. destruct Z3 as [Z3|[_ Z3]]; lra.
  Qed.

  (** a bounded linear program attains its minimum *)
  Lemma primal_attained v : (exists x, feas x) -> (forall x, feas x -> v <= dotn n q x) -> exists x, feas x /\ forall x', feas x' -> dotn n q x <= dotn n q x'.
  Proof.
    intros [x0 Hx0] Hb. destruct (completeness (fun t => exists x, feas x /\ t = - dotn n q x)) as [s [S1 S2]].
    - exists (- v). intros t [x [Hx ->]]. specialize (Hb x Hx). lra.
    - exists (- dotn n q x0), x0. auto.
    - destruct (fourier_motzkin n (mkRow q (- s) false :: L)) as [[x Hx]|[r [Hr C]]].
      + exists x. split; [apply sat_feas; intros r Hr; apply Hx; right; exact Hr|]. intros x' Hx'. specialize (S1 (- dotn n q x') (ex_intro _ x' (conj Hx' eq_refl))).
        specialize (Hx _ (or_introl eq_refl)). unfold sat in Hx. simpl in Hx. lra.
      + exfalso. assert (No : forall x, feas x -> ~ sat n x (mkRow q (- s) false)).
        { intros x Hx S. clear S1 S2. assert (Sx : forall r', In r' (mkRow q (- s) false :: L) -> sat n x r') by (intros r' [<-|Hr']; [exact S|unfold sat; rewrite (Hs r' Hr'); apply Hx, Hr']).
          destruct (cone_multipliers _ _ Hr) as [z [Z1 [Z2 [Z3 Z4]]]]. set (LL := mkRow q (- s) false :: L) in *. destruct C as [C1 C2].
          assert (D : dotn n (fun c => rsum (map (fun k => z k * ra (nth k LL row0) c) (seq 0 (length LL)))) x <= rsum (map (fun k => z k * rb (nth k LL row0)) (seq 0 (length LL)))).
          { rewrite <- (dot_rows n (length LL) z (fun k => ra (nth k LL row0)) x). apply rsum_map_le. intros k Hk. apply in_seq in Hk. assert (Hk' : (k < length LL)%nat) by lia. specialize (Z1 k Hk').
            pose proof (Sx (nth k LL row0) (nth_In _ _ Hk')) as Sk. unfold sat in Sk. apply Rmult_le_compat_l; [exact Z1|]. destruct (rs (nth k LL row0)); lra. }
          assert (D0 : dotn n (fun c => rsum (map (fun k => z k * ra (nth k LL row0) c) (seq 0 (length LL)))) x = 0).
          { unfold dotn. rewrite (rsum_map_ext _ (fun i => 0 * 0)); [rewrite rsum_map_mult; ring|]. intros i Hi. apply in_seq in Hi. rewrite <- Z2, C1 by lia. ring. }
          rewrite D0, <- Z3 in D. destruct C2 as [C2|[C2 _]]; [lra|]. destruct (Z4 C2) as [k [Hk [_ Sk]]]. destruct k as [|k]; [discriminate|]. unfold LL in Sk. cbn [nth] in Sk.
          rewrite (Hs (nth k L row0)) in Sk; [discriminate|]. apply nth_In. unfold LL in Hk. simpl in Hk. lia. }
        destruct (extra_row q (- s) false (ex_intro _ x0 Hx0) No) as [z [Z1 [Z2 [Z3|[Z3 _]]]]]; [|discriminate].
        set (bz := rsum (map (fun k => z k * rb (nth k L row0)) (seq 0 (length L)))) in *.
        assert (U : is_upper_bound (fun t => exists x, feas x /\ t = - dotn n q x) bz).
        { intros t [x [Hx ->]]. pose proof (comb_bound z x Z1 Hx) as B. fold bz in B.
          replace (dotn n (fun c => rsum (map (fun k => z k * ra (nth k L row0) c) (seq 0 (length L)))) x) with (- dotn n q x) in B; [exact B|].
          unfold dotn. rewrite <- (Rmult_1_l (rsum (map (fun c => q c * x c) (seq 0 n)))), Ropp_mult_distr_l, <- rsum_map_mult. apply rsum_map_ext. intros i Hi. apply in_seq in Hi.
          specialize (Z2 i ltac:(lia)). replace (rsum _) with (- q i) by lra. ring. }
        specialize (S2 bz U). lra.
  Qed.
End LP.
