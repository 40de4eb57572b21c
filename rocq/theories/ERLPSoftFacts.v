(** Property C80: the soft margin of the vote that ERLPBoost returns. *)
From Verif Require Import Base Spec RegSpec LPSpec Utils UtilsProofs UtilsFacts WMajority WMajorityProofs Booster Reach AdaBoost AdaBoostProofs
  AdaBoostMain AdaBoostMore Num BinsProofs FrankWolfeProofs CERLPProofs Csc ConicSpec CscProofs LPBoost LPBoostProofs LPBoostFacts EdgeLP EdgeProofs ERLP ERLPProofs ERLPFacts
  Duality Solvable SolverFacts QPExist SolverQPFacts.
Open Scope R_scope.

(** *** numbers *)
Lemma exp_pow x k : exp x ^ k = exp (INR k * x).
Proof. induction k as [|k IH]; [simpl; rewrite Rmult_0_l, exp_0; reflexivity|]. rewrite S_INR. simpl pow. rewrite IH, <- exp_plus. f_equal. ring. Qed.
Lemma ln2_upper : ln 2 <= 7 / 10.
Proof.
  assert (E : 2 <= exp (7 / 10)); [|rewrite <- (ln_exp (7 / 10)); apply ln_le; lra].
  replace (7 / 10) with (INR 64 * (7 / 640)) by (simpl; lra). rewrite <- exp_pow. pose proof (exp_ge_1x (7 / 640)) as H.
  apply Rle_trans with ((1 + 7 / 640) ^ 64); [|apply pow_incr; lra]. lra.
Qed.
Lemma ln2_lower : 1 / 2 <= ln 2.
Proof. rewrite <- (ln_exp (1 / 2)). apply ln_le; [apply exp_pos|]. pose proof exp_le_3 as E. pose proof (exp_pos (1 / 2)) as P. assert (Q : exp (1 / 2) * exp (1 / 2) = exp 1) by (rewrite <- exp_plus; f_equal; lra). nra. Qed.
Lemma ln4 : 1 <= ln 4 <= 14 / 10.
Proof. replace 4 with (2 * 2) by lra. rewrite ln_mult by lra. pose proof ln2_upper. pose proof ln2_lower. lra. Qed.
Lemma ln10 : 2 <= ln 10 <= 3.
Proof.
  split.
  - rewrite <- (ln_exp 2). apply ln_le; [apply exp_pos|]. replace 2 with (1 + 1) by lra. rewrite exp_plus. pose proof exp_le_3. pose proof (exp_pos 1). nra.
  - rewrite <- (ln_exp 3). apply ln_le; [lra|]. replace 3 with (INR 3 * 1) by (simpl; lra). rewrite <- exp_pow. assert (E : 5 / 2 <= exp 1).
    { replace 1 with (INR 16 * (1 / 16)) by (simpl; lra). rewrite <- exp_pow. pose proof (exp_ge_1x (1 / 16)). apply Rle_trans with ((1 + 1 / 16) ^ 16); [lra|apply pow_incr; lra]. }
    apply Rle_trans with ((5 / 2) ^ 3); [lra|apply pow_incr; lra].
Qed.
Lemma eps_small : 0 < QP_EPS <= / 10 ^ 99 /\ - ln QP_EPS = 100 * ln 10.
Proof.
  unfold QP_EPS. assert (P : 0 < 10 ^ 100) by (apply pow_lt; lra). assert (Q : 0 < 10 ^ 99) by (apply pow_lt; lra). split; [split; [apply Rinv_0_lt_compat, P|]|].
  - apply Rinv_le_contravar; [exact Q|]. apply Rle_pow; [lra|lia].
  - rewrite ln_Rinv by exact P. rewrite ln_pow by lra. rewrite Ropp_involutive. f_equal. simpl. lra.
Qed.
Lemma eps_t : exists t, 0 < t <= / 1000000000000000 /\ 1000 * QP_EPS <= t * t.
Proof.
  exists (/ 10 ^ 48). assert (P : forall k, 0 < 10 ^ k) by (intros; apply pow_lt; lra). split; [split; [apply Rinv_0_lt_compat, P|]|].
  - apply Rinv_le_contravar; [lra|]. replace 1000000000000000 with (10 ^ 15) by lra. apply Rle_pow; [lra|lia].
  - destruct eps_small as [[_ E] _]. rewrite <- Rinv_mult. rewrite <- pow_add. replace (/ 10 ^ (48 + 48)) with (1000 * / 10 ^ 99); [lra|].
    replace 99%nat with (3 + 96)%nat by lia. rewrite (pow_add 10 3 96). replace (48 + 48)%nat with 96%nat by lia. generalize (P 96%nat). generalize (10 ^ 96). intros z Hz. rewrite Rinv_mult. simpl. lra.
Qed.

(** *** the three programs of one call of the inner loop, at a vertex: [x] is the weight of the vertex, [r1 r2 r3] the other
    weights, [mk] the margin at the vertex *)
Lemma v1 eta q x r1 r2 r3 g mk : 0 <= x -> 0 <= r1 -> 0 <= r2 -> 0 <= r3 -> x + r1 + r2 + r3 = 1 -> 0 < q -> 0 < eta -> 4 < q * eta ->
  mk + (1 - x) / 4 <= g ->
  g + 1 / eta * (1 / (2 * q) * (x ^ 2 + r1 ^ 2 + r2 ^ 2 + r3 ^ 2) + ln q) <= mk + 1 / eta * (1 / (2 * q) + ln q) -> x = 1.
Proof.
  intros Hx H1 H2 H3 Hs Hq He Hqe Hg Ho.
  assert (A : (g - mk) * (2 * (q * eta)) <= 1 - (x ^ 2 + r1 ^ 2 + r2 ^ 2 + r3 ^ 2)).
  { apply (Rmult_le_compat_r (2 * (q * eta))) in Ho; [|nra].
    replace ((g + 1 / eta * (1 / (2 * q) * (x ^ 2 + r1 ^ 2 + r2 ^ 2 + r3 ^ 2) + ln q)) * (2 * (q * eta))) with (g * (2 * (q * eta)) + (x ^ 2 + r1 ^ 2 + r2 ^ 2 + r3 ^ 2) + 2 * q * ln q) in Ho by (field; lra).
    replace ((mk + 1 / eta * (1 / (2 * q) + ln q)) * (2 * (q * eta))) with (mk * (2 * (q * eta)) + 1 + 2 * q * ln q) in Ho by (field; lra). lra. }
  assert (B : (1 - x) / 4 * (2 * (q * eta)) <= (1 - x) * 2) by (assert (0 <= r1 ^ 2 /\ 0 <= r2 ^ 2 /\ 0 <= r3 ^ 2) by (repeat split; apply pow2_ge_0); nra).
  destruct (Rle_lt_or_eq_dec x 1) as [L|E]; [nra| |exact E]. exfalso. nra.
Qed.

Lemma ln1e e : 0 < e -> 0 <= ln (1 + e) <= e.
Proof. intros H. split; [rewrite <- ln_1; apply ln_le; lra|]. pose proof (ln_le_sub (1 + e) ltac:(lra)). lra. Qed.

Lemma v2 eta x r1 r2 r3 g mk t : 0 <= x -> 0 <= r1 -> 0 <= r2 -> 0 <= r3 -> x + r1 + r2 + r3 = 1 -> 0 < eta ->
  0 < t <= / 1000000000000000 -> 1000 * QP_EPS <= t * t -> mk <= g ->
  g + 1 / eta * (1 / (2 * (1 + QP_EPS)) * x ^ 2 + ln (1 + QP_EPS) * x + (1 / (2 * QP_EPS) * (r1 ^ 2 + r2 ^ 2 + r3 ^ 2) + ln QP_EPS * (r1 + r2 + r3)))
    <= mk + 1 / eta * (1 / (2 * (1 + QP_EPS)) + ln (1 + QP_EPS)) ->
  r1 <= t /\ r2 <= t /\ r3 <= t.
Proof.
  intros Hx H1 H2 H3 Hs He Ht Hte Hg Ho. destruct eps_small as [[E0 _] El]. pose proof ln10 as L10. assert (EL : ln QP_EPS = - (100 * ln 10)) by lra. rewrite EL in Ho. set (L := 100 * ln 10) in *. assert (HL : 200 <= L <= 300) by (unfold L; lra). clearbody L.
  pose proof (ln1e QP_EPS E0) as E1. set (l := ln (1 + QP_EPS)) in *. clearbody l. set (e := QP_EPS) in *. clearbody e.
  assert (A : 1 / (2 * (1 + e)) * x ^ 2 + l * x + (1 / (2 * e) * (r1 ^ 2 + r2 ^ 2 + r3 ^ 2) + - L * (r1 + r2 + r3)) <= 1 / (2 * (1 + e)) + l).
  { apply (Rmult_le_reg_l (1 / eta)); [apply Rdiv_lt_0_compat; lra|]. lra. }
  assert (A1 : 0 <= 1 / (2 * (1 + e)) <= 1 / 2) by (split; [apply Rlt_le, Rdiv_lt_0_compat; lra|apply Rdiv_le_iff; lra]). set (c := 1 / (2 * (1 + e))) in *. clearbody c.
  assert (A2 : 0 <= x ^ 2) by apply pow2_ge_0. assert (Hlt : l <= 1) by nra.
  assert (B : 1 / (2 * e) * (r1 ^ 2 + r2 ^ 2 + r3 ^ 2) <= 302) by nra.
  assert (C : r1 ^ 2 + r2 ^ 2 + r3 ^ 2 <= 604 * e).
  { apply (Rmult_le_compat_r (2 * e)) in B; [|lra]. replace (1 / (2 * e) * (r1 ^ 2 + r2 ^ 2 + r3 ^ 2) * (2 * e)) with (r1 ^ 2 + r2 ^ 2 + r3 ^ 2) in B by (field; lra). lra. }
  assert (0 <= r1 ^ 2 /\ 0 <= r2 ^ 2 /\ 0 <= r3 ^ 2) by (repeat split; apply pow2_ge_0).
  split; [|split]; apply Rnot_lt_le; intros F; nra.
Qed.

Lemma sq_term q r L : 0 < q -> 0 <= - ln q <= L -> - (q * (L * L) / 2) <= 1 / (2 * q) * r ^ 2 + ln q * r.
Proof.
  intros Hq Hl. set (l := - ln q) in *. replace (ln q) with (- l) by (unfold l; ring).
  apply Rle_trans with (- (q * (l * l) / 2)); [assert (l * l <= L * L) by nra; nra|].
  assert (E : 1 / (2 * q) * r ^ 2 + - l * r - - (q * (l * l) / 2) = 1 / (2 * q) * (r - q * l) ^ 2) by (field; lra).
  assert (0 <= 1 / (2 * q) * (r - q * l) ^ 2) by (apply Rmult_le_pos; [apply Rlt_le, Rdiv_lt_0_compat; lra|apply pow2_ge_0]). lra.
Qed.

Lemma v3 eta x q1 q2 q3 x' r1 r2 r3 g mk t : 1 - 3 * t <= x <= 1 -> 0 <= q1 <= t -> 0 <= q2 <= t -> 0 <= q3 <= t ->
  0 <= x' -> 0 <= r1 -> 0 <= r2 -> 0 <= r3 -> x' + r1 + r2 + r3 = 1 -> 4 <= eta ->
  0 < t <= / 1000000000000000 -> 1000 * QP_EPS <= t * t -> mk + (1 - x') / 4 <= g ->
  mk + 1 / eta * (1 / 2) - / 1000000000 / 2 <=
  g + 1 / eta * (1 / (2 * (x + QP_EPS)) * x' ^ 2 + ln (x + QP_EPS) * x' + ((1 / (2 * (q1 + QP_EPS)) * r1 ^ 2 + ln (q1 + QP_EPS) * r1) + (1 / (2 * (q2 + QP_EPS)) * r2 ^ 2 + ln (q2 + QP_EPS) * r2) + (1 / (2 * (q3 + QP_EPS)) * r3 ^ 2 + ln (q3 + QP_EPS) * r3))).
Proof.
  intros Hx Q1 Q2 Q3 Hx' H1 H2 H3 Hs He Ht Hte Hg. destruct eps_small as [[E0 _] El]. pose proof ln10 as L10.
  assert (Het : QP_EPS <= t / 1000) by nra.
  assert (T : forall q r, 0 <= q <= t -> - (90000 * t) <= 1 / (2 * (q + QP_EPS)) * r ^ 2 + ln (q + QP_EPS) * r).
  { intros q r Hq. eapply Rle_trans; [|apply (sq_term (q + QP_EPS) r 300); [lra|split]].
    - nra.
    - assert (ln (q + QP_EPS) <= ln 1) by (apply ln_le; lra). rewrite ln_1 in *. lra.
    - assert (ln QP_EPS <= ln (q + QP_EPS)) by (apply ln_le; lra). lra. }
  pose proof (T q1 r1 Q1) as T1. pose proof (T q2 r2 Q2) as T2. pose proof (T q3 r3 Q3) as T3.
  set (a1 := 1 / (2 * (q1 + QP_EPS)) * r1 ^ 2 + ln (q1 + QP_EPS) * r1) in *. set (a2 := 1 / (2 * (q2 + QP_EPS)) * r2 ^ 2 + ln (q2 + QP_EPS) * r2) in *. set (a3 := 1 / (2 * (q3 + QP_EPS)) * r3 ^ 2 + ln (q3 + QP_EPS) * r3) in *. clearbody a1 a2 a3.
  assert (Hl : - (6 * t) <= ln (x + QP_EPS)).
  { pose proof (ln_le_sub (/ (x + QP_EPS)) ltac:(apply Rinv_0_lt_compat; lra)) as Ll. rewrite ln_Rinv in Ll by lra.
    assert (/ (x + QP_EPS) <= 1 + 6 * t); [|lra]. apply (Rmult_le_reg_l (x + QP_EPS)); [lra|]. rewrite Rinv_r by lra. nra. }
  assert (Hc : (1 - t) / 2 <= 1 / (2 * (x + QP_EPS))). { apply Rle_div_iff; [lra|]. nra. }
  set (c := 1 / (2 * (x + QP_EPS))) in *. set (l := ln (x + QP_EPS)) in *. clearbody c l.
  assert (X2 : 1 - 2 * (1 - x') <= x' ^ 2 <= 1) by nra.
  assert (K : 1 / 2 - (1 - x') - 300000 * t <= c * x' ^ 2 + l * x' + (a1 + a2 + a3)).
  { assert (P1 : (1 - t) / 2 * x' ^ 2 <= c * x' ^ 2) by (apply Rmult_le_compat_r; [apply pow2_ge_0|lra]). assert (P2 : - (6 * t) <= l * x') by nra. assert (P3 : t * x' ^ 2 <= t * 1) by (apply Rmult_le_compat_l; lra). lra. }
  set (z := c * x' ^ 2 + l * x' + (a1 + a2 + a3)) in *. clearbody z.
  assert (I : 0 < 1 / eta <= 1 / 4) by (split; [apply Rdiv_lt_0_compat; lra|apply Rdiv_le_iff; lra]). set (i := 1 / eta) in *. clearbody i. nra.
Qed.

(** *** the sample *)
Definition exy : list R := [1; 1; 1; -1].
Definition exm (h : bool) : list R := if h then [0; -1 / 2; 1; 1] else [0; 1; -1 / 2; -1 / 2].
Definition exc (h : bool) (i : nat) : R := nth i exy 0 * nth i (exm h) 0.
Definition ve (k : bool) : list R := if k then [0; 1; 0; 0] else [1; 0; 0; 0].

Lemma ex_edge_a a b c d : edge_of exy [a; b; c; d] (exc true) = - b / 2 + c + d.
Proof. unfold edge_of, exc, exm, exy. cbn [length seq map rsum nth]. lra. Qed.
Lemma ex_edge_b a b c d : edge_of exy [a; b; c; d] (exc false) = b - c / 2 - d / 2.
Proof. unfold edge_of, exc, exm, exy. cbn [length seq map rsum nth]. lra. Qed.

Lemma ex_marg h i : (i < length exy)%nat -> nth i exy 0 * exc h i = nth i (exm h) 0.
Proof. intros Hi. unfold exc, exy. destruct i as [|[|[|[|i]]]]; [| | | |cbn in Hi; lia]; cbn [nth]; destruct h; cbn [exm nth]; lra. Qed.
Lemma ex_marg1 h i : (i < length exy)%nat -> -1 <= nth i exy 0 * exc h i <= 1.
Proof. intros Hi. rewrite ex_marg by exact Hi. destruct i as [|[|[|[|i]]]]; [| | | |cbn in Hi; lia]; destruct h; cbn [exm nth]; lra. Qed.

Lemma ex_capped d : capped 1 exy d -> exists a b c e, d = [a; b; c; e] /\ 0 <= a /\ 0 <= b /\ 0 <= c /\ 0 <= e /\ a + b + c + e = 1.
Proof.
  intros [L [C1 C2]]. destruct d as [|a [|b [|c [|e [|? ?]]]]]; cbn in L; try lia. exists a, b, c, e. split; [reflexivity|]. cbn in C2.
  repeat split; try (apply C1; cbn; auto 6); lra.
Qed.

Lemma ex_sqp eta q0 q1 q2 q3 g a b c d : sqp_objective eta [q0; q1; q2; q3] g [a; b; c; d] =
  g + 1 / eta * ((1 / (2 * q0) * a ^ 2 + ln q0 * a) + (1 / (2 * q1) * b ^ 2 + ln q1 * b) + (1 / (2 * q2) * c ^ 2 + ln q2 * c) + (1 / (2 * q3) * d ^ 2 + ln q3 * d)).
Proof. unfold sqp_objective. cbn [length seq map rsum nth]. ring. Qed.

(** a set of hypotheses whose largest edge is least at a vertex *)
Definition sharp (hs : list bool) (k : bool) (mk : R) : Prop :=
  hs <> [] /\ (forall h, In h hs -> edge_of exy (ve k) (exc h) <= mk) /\
  forall a b c e g, 0 <= a -> 0 <= b -> 0 <= c -> 0 <= e -> a + b + c + e = 1 -> (forall h, In h hs -> edge_of exy [a; b; c; e] (exc h) <= g) -> mk + (1 - (if k then b else a)) / 4 <= g.

Lemma sharp_a : sharp [true] true (-1 / 2).
Proof.
  split; [discriminate|]. split.
  - intros h [<-|[]]. unfold ve. rewrite ex_edge_a. lra.
  - intros a b c e g Ha Hb Hc He Hs Hg. specialize (Hg true (or_introl eq_refl)). rewrite ex_edge_a in Hg. lra.
Qed.
Lemma sharp_ab : sharp [true; false] false 0.
Proof.
  split; [discriminate|]. split.
  - intros h [<-|[<-|[]]]; unfold ve; rewrite ?ex_edge_a, ?ex_edge_b; lra.
  - intros a b c e g Ha Hb Hc He Hs Hg. pose proof (Hg true (or_introl eq_refl)) as G1. pose proof (Hg false (or_intror (or_introl eq_refl))) as G2. rewrite ex_edge_a in G1. rewrite ex_edge_b in G2. lra.
Qed.

Section Vertex.
  Variables (eta : R) (hs : list bool) (k : bool) (mk : R).
  Hypothesis Heta : 40 <= eta <= 56.
  Hypothesis Hsharp : sharp hs k mk.
  Notation P q := (er_conic exc exy 1 eta hs q).
  Lemma n4 : (0 < length exy)%nat. Proof. cbn. lia. Qed.
  Lemma nu4 : 1 <= 1 <= INR (length exy). Proof. cbn. lra. Qed.
  Lemma hs_pos : (0 < length hs)%nat. Proof. destruct Hsharp as [Hne _]. destruct hs; [congruence|cbn; lia]. Qed.

  Lemma vertex_feasible q : length q = 4%nat -> feasible (P q) (mk :: ve k).
  Proof.
    intros Lq. apply (edge_feasible exc exy true 1 hs _ _ (1 / 1) 0 (er_q_length exy eta q Lq)). cbn [offs gof exy length]. unfold ve.
    split; [destruct k; reflexivity|]. split; [destruct k; cbn; lra|]. split; [|split].
    - intros i Hi. destruct k; destruct i as [|[|[|[|i]]]]; cbn; try lra; lia.
    - intros i Hi. destruct k; destruct i as [|[|[|[|i]]]]; cbn; try lra; lia.
    - intros t Ht. destruct (nth_error hs t) as [h|] eqn:Et; [|apply nth_error_None in Et; lia]. cbn [nth Nat.add].
      pose proof (edge_marg exc exy hs (ve k) t h ltac:(destruct k; reflexivity) Et) as Em. cbn [exy length] in Em. unfold ve in Em. 
      destruct Hsharp as [_ [Hs _]]. specialize (Hs h (nth_error_In _ _ Et)). rewrite Rplus_0_l. eapply Rle_trans; [right|exact Hs]. symmetry. exact Em.
  Qed.

  Lemma ex_answer q a : length q = 4%nat -> (forall v, In v q -> 0 <= v) -> solves (P q) a ->
    exists g x0 x1 x2 x3, skipn 1 (a_x a) = [x0; x1; x2; x3] /\ 0 <= x0 /\ 0 <= x1 /\ 0 <= x2 /\ 0 <= x3 /\ x0 + x1 + x2 + x3 = 1 /\
      mk + (1 - (if k then x1 else x0)) / 4 <= g /\ a_obj a = sqp_objective eta (map (fun v => v + QP_EPS) q) g [x0; x1; x2; x3] /\
      a_obj a <= sqp_objective eta (map (fun v => v + QP_EPS) q) mk (ve k).
  Proof.
    intros Lq Hq Ha. destruct (er_solved exc exy 1 eta n4 ltac:(lra) hs q a hs_pos Lq Hq Ha) as [_ [_ [Cd [_ [_ [Eg [_ [_ [Eo Op]]]]]]]]].
    destruct (ex_capped _ Cd) as [x0 [x1 [x2 [x3 [Ed [H0 [H1 [H2 [H3 Hs]]]]]]]]]. exists (nth 0 (a_x a) 0), x0, x1, x2, x3. rewrite Ed in *.
    split; [reflexivity|]. repeat (split; [assumption|]). split; [|split; [exact Eo|]].
    - destruct Hsharp as [_ [_ Hg]]. apply (Hg x0 x1 x2 x3); assumption.
    - specialize (Op _ (vertex_feasible q Lq)). rewrite (er_objective exc exy 1 eta n4 ltac:(lra) hs q _ Lq Hq) in Op. exact Op.
  Qed.

  Lemma turn1 a : solves (P (repeat (1 / 4) 4)) a -> skipn 1 (a_x a) = ve k /\ mk + 1 / eta * (1 / (2 * (1 / 4 + QP_EPS)) + ln (1 / 4 + QP_EPS)) <= a_obj a.
  Proof.
    intros Ha. destruct (ex_answer (repeat (1 / 4) 4) a eq_refl ltac:(intros v Hv; apply repeat_spec in Hv; lra) Ha) as [g [x0 [x1 [x2 [x3 [Ed [H0 [H1 [H2 [H3 [Hs [Hg [Eo Op]]]]]]]]]]]]].
    cbn [repeat map] in Eo, Op. rewrite Eo in Op. rewrite ex_sqp in Eo. pose proof (proj1 eps_small) as [E0 _].
    assert (X : (if k then x1 else x0) = 1).
    { unfold ve in Op. destruct k.
      - rewrite !ex_sqp in Op. apply (v1 eta (1 / 4 + QP_EPS) x1 x0 x2 x3 g mk); try assumption; try lra; try nra.
      - rewrite !ex_sqp in Op. apply (v1 eta (1 / 4 + QP_EPS) x0 x1 x2 x3 g mk); try assumption; try lra; try nra. }
    assert (Z : x2 = 0 /\ x3 = 0 /\ (if k then x0 else x1) = 0) by (destruct k; lra). destruct Z as [Z2 [Z3 Z1]].
    split; [rewrite Ed; unfold ve; destruct k; congruence|]. rewrite X in Hg. rewrite Eo.
    destruct k; rewrite X, Z1, Z2, Z3;
      replace (1 / (2 * (1 / 4 + QP_EPS)) * 0 ^ 2 + ln (1 / 4 + QP_EPS) * 0) with 0 by ring;
      replace (1 / (2 * (1 / 4 + QP_EPS)) * 1 ^ 2 + ln (1 / 4 + QP_EPS) * 1) with (1 / (2 * (1 / 4 + QP_EPS)) + ln (1 / 4 + QP_EPS)) by ring; rewrite ?Rplus_0_l, ?Rplus_0_r; lra.
  Qed.

  Lemma turn2_obj a : solves (P (ve k)) a -> a_obj a <= mk + 1 / eta * (1 / 2 + QP_EPS).
  Proof.
    intros Ha. destruct (ex_answer (ve k) a ltac:(destruct k; reflexivity) ltac:(intros v Hv; unfold ve in Hv; destruct k; cbn in Hv; decompose [or] Hv; subst; try lra; tauto) Ha) as [g [x0 [x1 [x2 [x3 [Ed [H0 [H1 [H2 [H3 [Hs [Hg [Eo Op]]]]]]]]]]]]].
    pose proof (proj1 eps_small) as [E0 _]. pose proof (ln1e QP_EPS E0) as El. eapply Rle_trans; [exact Op|].
    assert (I : 0 < 1 / eta) by (apply Rdiv_lt_0_compat; lra).
    assert (C : 1 / (2 * (1 + QP_EPS)) <= 1 / 2) by (apply Rdiv_le_iff; lra).
    unfold ve. destruct k; cbn [map]; rewrite ex_sqp; apply Rplus_le_compat_l, Rmult_le_compat_l; try lra; rewrite ?Rplus_0_l; lra.
  Qed.

  Lemma turn2 a t : solves (P (ve k)) a -> 0 < t <= / 1000000000000000 -> 1000 * QP_EPS <= t * t ->
    exists x0 x1 x2 x3, skipn 1 (a_x a) = [x0; x1; x2; x3] /\ 0 <= x0 /\ 0 <= x1 /\ 0 <= x2 /\ 0 <= x3 /\ x0 + x1 + x2 + x3 = 1 /\ (if k then x0 else x1) <= t /\ x2 <= t /\ x3 <= t.
  Proof.
    intros Ha Ht Hte. destruct (ex_answer (ve k) a ltac:(destruct k; reflexivity) ltac:(intros v Hv; unfold ve in Hv; destruct k; cbn in Hv; decompose [or] Hv; subst; try lra; tauto) Ha) as [g [x0 [x1 [x2 [x3 [Ed [H0 [H1 [H2 [H3 [Hs [Hg [Eo Op]]]]]]]]]]]]].
    exists x0, x1, x2, x3. split; [exact Ed|]. repeat (split; [assumption|]). rewrite Eo in Op. unfold ve in Op.
    destruct k; cbn [map] in Op; rewrite !ex_sqp, !Rplus_0_l in Op.
    - apply (v2 eta x1 x0 x2 x3 g mk t); try assumption; try lra.
    - apply (v2 eta x0 x1 x2 x3 g mk t); try assumption; try lra.
  Qed.

  Lemma turn3 a t x0 x1 x2 x3 : 0 <= x0 -> 0 <= x1 -> 0 <= x2 -> 0 <= x3 -> x0 + x1 + x2 + x3 = 1 -> (if k then x0 else x1) <= t -> x2 <= t -> x3 <= t ->
    0 < t <= / 1000000000000000 -> 1000 * QP_EPS <= t * t -> solves (P [x0; x1; x2; x3]) a -> mk + 1 / eta * (1 / 2) - / 1000000000 / 2 <= a_obj a.
  Proof.
    intros H0 H1 H2 H3 Hs T1 T2 T3 Ht Hte Ha.
    destruct (ex_answer [x0; x1; x2; x3] a eq_refl ltac:(intros v Hv; cbn in Hv; decompose [or] Hv; subst; tauto) Ha) as [g [z0 [z1 [z2 [z3 [Ed [Z0 [Z1 [Z2 [Z3 [Zs [Hg [Eo Op]]]]]]]]]]]]].
    rewrite Eo. cbn [map]. rewrite ex_sqp. destruct k.
    - eapply Rle_trans; [apply (v3 eta x1 x0 x2 x3 z1 z0 z2 z3 g mk t); try assumption; lra|]. right. ring.
    - eapply Rle_trans; [apply (v3 eta x0 x1 x2 x3 z0 z1 z2 z3 g mk t); try assumption; lra|]. right. ring.
  Qed.

  Variable solve : conic -> answer.
  (** one call of [update]: two programs are accepted, the answer to the third is discarded *)
  Lemma ex_update inner m h hs0 t : hs = hs0 ++ [h] -> qpm_ok exc exy 1 eta hs0 m -> (3 <= inner)%nat -> 0 < t <= / 1000000000000000 -> 1000 * QP_EPS <= t * t ->
    (forall m1 old p, qm_turns solve (qm_start exc exy m h) 1000 m1 old -> qm_program m1 = Ok p -> solves p (solve p)) ->
    exists m' x0 x1 x2 x3, qm_update exc solve exy inner m h = Ok m' /\ qpm_ok exc exy 1 eta hs m' /\ qm_dist m' = [x0; x1; x2; x3] /\
      0 <= x0 /\ 0 <= x1 /\ 0 <= x2 /\ 0 <= x3 /\ x0 + x1 + x2 + x3 = 1 /\ (if k then x0 else x1) <= t /\ x2 <= t /\ x3 <= t /\
      exists a, solves (P (ve k)) a /\ qm_dist m' = skipn 1 (a_x a) /\ qm_weights m' = map (fun wi => Rmax wi 0) (skipn (1 + 2 * 4) (a_z a)).
  Proof.
    intros Ehs Om Hin Ht Hte Hex. destruct (start_ok exc exy 1 eta n4 nu4 hs0 m h Om) as [O1 D1]. rewrite <- Ehs in O1. cbn [exy length] in D1. replace (1 / INR 4) with (1 / 4) in D1 by (simpl; lra).
    set (m1 := qm_start exc exy m h) in *. unfold qm_update. fold m1. destruct inner as [|[|[|inner]]]; try lia. cbn [qm_loop].
    pose proof (qm_first solve m1 1000) as T1. pose proof (program_ok exc exy 1 eta n4 hs m1 O1) as Ep1. rewrite Ep1. cbn [bind]. pose proof (Hex m1 1000 _ T1 Ep1) as S1. rewrite D1 in *.
    set (a1 := solve (P (repeat (1 / 4) 4))) in *. assert (Es1 : a_status a1 = Solved) by apply S1. rewrite Es1. cbn [status_accepted status_stuck assert_ bind]. rewrite orb_false_r.
    assert (B1 : a_obj a1 <= 4). { apply (er_first exc exy 1 eta n4 nu4 ltac:(lra) ex_marg1 hs a1 hs_pos). cbn [exy length]. replace (1 / INR 4) with (1 / 4) by (simpl; lra). exact S1. }
    pose proof QP_EPS_pos as QE. assert (L1 : Rltb (1000 - a_obj a1) QP_TOLERANCE = false) by (apply Rltb_false; unfold QP_TOLERANCE; lra). rewrite L1.
    assert (O1' := O1). rewrite <- D1 in S1. destruct (accept_ok exc exy 1 eta n4 ltac:(lra) hs m1 a1 hs_pos O1 S1) as [m2 [Ea1 [O2 _]]]. rewrite D1 in S1. rewrite Ea1. cbn [bind].
    destruct (turn1 a1 S1) as [X1 V1].
    assert (D2 : qm_dist m2 = ve k).
    { unfold qm_accept in Ea1. destruct (slice_from 1 (a_x a1)) as [d|] eqn:Sd; cbn [bind] in Ea1; [|discriminate]. destruct (slice_from (1 + 2 * qm_n m1) (a_z a1)) as [w|] eqn:Sw; cbn [bind] in Ea1; [|discriminate].
      injection Ea1 as <-. cbn [qm_dist]. unfold slice_from in Sd. destruct (Nat.leb _ _); [|discriminate]. assert (Sd' : skipn 1 (a_x a1) = d) by congruence. rewrite <- Sd', X1. unfold ve. destruct k; cbn [map]; rewrite ?(Rmax_left 1 0), ?(Rmax_left 0 0) by lra; reflexivity. }
    assert (T2 : qm_turns solve m1 1000 m2 (a_obj a1)).
    { apply (qm_next solve m1 1000 m1 1000 (P (repeat (1 / 4) 4)) m2); fold a1; rewrite ?Es1; auto. rewrite L1. reflexivity. }
    pose proof (program_ok exc exy 1 eta n4 hs m2 O2) as Ep2. rewrite Ep2. cbn [bind]. pose proof (Hex m2 _ _ T2 Ep2) as S2. rewrite D2 in *.
    set (a2 := solve (P (ve k))) in *. assert (Es2 : a_status a2 = Solved) by apply S2. rewrite Es2. cbn [status_accepted status_stuck assert_ bind]. rewrite orb_false_r.
    pose proof (turn2_obj a2 S2) as B2. destruct eps_small as [[E0 E1] _]. assert (E1' : QP_EPS <= / 1000000) by nra.
    assert (I : / 56 <= 1 / eta <= / 40) by (split; [apply Rle_div_iff; lra|apply Rdiv_le_iff; lra]).
    assert (L2 : Rltb (a_obj a1 - a_obj a2) QP_TOLERANCE = false).
    { apply Rltb_false. unfold QP_TOLERANCE. pose proof ln4 as L4.
      assert (Q1 : 2 - 8 * QP_EPS <= 1 / (2 * (1 / 4 + QP_EPS))) by (apply Rle_div_iff; nra).
      assert (Q2 : - (14 / 10) <= ln (1 / 4 + QP_EPS)). { assert (ln (/ 4) <= ln (1 / 4 + QP_EPS)) by (apply ln_le; lra). rewrite ln_Rinv in * by lra. lra. }
      set (i := 1 / eta) in *. clearbody i. set (c1 := 1 / (2 * (1 / 4 + QP_EPS))) in *. set (c2 := ln (1 / 4 + QP_EPS)) in *. clearbody c1 c2. 
      assert (W : i * (9 / 100) <= i * (c1 + c2) - i * (1 / 2 + QP_EPS)) by nra. lra. }
    rewrite L2. rewrite <- D2 in S2. destruct (accept_ok exc exy 1 eta n4 ltac:(lra) hs m2 a2 hs_pos O2 S2) as [m3 [Ea2 [O3 [C3 _]]]]. rewrite D2 in S2. rewrite Ea2. cbn [bind].
    assert (Wd : qm_dist m3 = skipn 1 (a_x a2) /\ qm_weights m3 = map (fun wi => Rmax wi 0) (skipn (1 + 2 * 4) (a_z a2))).
    { assert (C2 : forall v, In v (skipn 1 (a_x a2)) -> 0 <= v). { destruct (turn2 a2 t S2 Ht Hte) as [x0 [x1 [x2 [x3 [-> [H0 [H1 [H2 [H3 _]]]]]]]]]. intros v Hv. cbn in Hv. decompose [or] Hv; subst; tauto. }
      unfold qm_accept in Ea2. destruct (slice_from 1 (a_x a2)) as [d|] eqn:Sd; cbn [bind] in Ea2; [|discriminate]. destruct (slice_from (1 + 2 * qm_n m2) (a_z a2)) as [w|] eqn:Sw; cbn [bind] in Ea2; [|discriminate].
      injection Ea2 as <-. cbn [qm_dist qm_weights]. unfold slice_from in Sd, Sw. destruct (Nat.leb _ _) in Sd; [|discriminate]. assert (Sd' : skipn 1 (a_x a2) = d) by congruence. destruct (Nat.leb _ _) in Sw; [|discriminate]. assert (Sw' : skipn (1 + 2 * qm_n m2) (a_z a2) = w) by congruence. rewrite <- Sd', <- Sw'.
      rewrite map_rmax0 by exact C2. replace (qm_n m2) with 4%nat by (symmetry; apply O2). split; reflexivity. }
    destruct Wd as [D3 W3]. destruct (turn2 a2 t S2 Ht Hte) as [x0 [x1 [x2 [x3 [Ed [H0 [H1 [H2 [H3 [Hs [T1' [T2' T3']]]]]]]]]]]].
    assert (T3 : qm_turns solve m1 1000 m3 (a_obj a2)).
    { apply (qm_next solve m1 1000 m2 (a_obj a1) (P (ve k)) m3); fold a2; rewrite ?Es2; auto. rewrite L2. reflexivity. }
    pose proof (program_ok exc exy 1 eta n4 hs m3 O3) as Ep3. rewrite Ep3. cbn [bind]. pose proof (Hex m3 _ _ T3 Ep3) as S3. rewrite D3, Ed in S3 |- *.
    set (a3 := solve (P [x0; x1; x2; x3])) in *. assert (Es3 : a_status a3 = Solved) by apply S3. rewrite Es3. cbn [status_accepted status_stuck assert_ bind]. rewrite orb_false_r.
    pose proof (turn3 a3 t x0 x1 x2 x3 H0 H1 H2 H3 Hs T1' T2' T3' Ht Hte S3) as B3.
    assert (L3 : Rltb (a_obj a2 - a_obj a3) QP_TOLERANCE = true).
    { apply Rltb_true. unfold QP_TOLERANCE. set (i := 1 / eta) in *. clearbody i. assert (QP_EPS <= / 1000000000000) by nra. nra. }
    rewrite L3. exists m3, x0, x1, x2, x3. split; [reflexivity|]. split; [exact O3|]. split; [rewrite D3; exact Ed|]. repeat (split; [assumption|]). exists a2. auto.
  Qed.
End Vertex.

(** *** at the second vertex all weight goes to the first hypothesis *)
Lemma ex_weights eta t a x0 x1 x2 x3 : 40 <= eta <= 56 -> 0 < t <= / 1000000000000000 ->
  solves (er_conic exc exy 1 eta [true; false] (ve false)) a -> skipn 1 (a_x a) = [x0; x1; x2; x3] -> x0 + x1 + x2 + x3 = 1 -> 0 <= x0 -> 0 <= x1 <= t -> 0 <= x2 <= t -> 0 <= x3 <= t ->
  map (fun wi => Rmax wi 0) (skipn (1 + 2 * 4) (a_z a)) = [1; 0].
Proof.
  intros Heta Ht [K _] Ed Hs H0 H1 H2 H3. assert (Lq : length (ve false) = length exy) by reflexivity.
  apply (edge_kkt exc exy true 1 [true; false] _ _ (1 / 1) 0 (er_q_length exy eta (ve false) Lq)) in K. cbn [exy length offs gof] in K. destruct K as [F [Lz [Z1 [Z2 [C1 [C2 [S0 S1]]]]]]].
  apply (edge_feasible exc exy true 1 [true; false] _ _ (1 / 1) 0 (er_q_length exy eta (ve false) Lq)) in F. cbn [exy length offs gof] in F. destruct F as [Lx [_ [_ [_ F3]]]].
  destruct (a_x a) as [|g [|X0 [|X1 [|X2 [|X3 [|? ?]]]]]]; cbn in Lx; try lia. cbn [skipn] in Ed. injection Ed as -> -> -> ->.
  destruct (a_z a) as [|c [|l0 [|l1 [|l2 [|l3 [|u0 [|u1 [|u2 [|u3 [|wa [|wb [|? ?]]]]]]]]]]]]; cbn in Lz; try lia. cbn [skipn Nat.add Nat.mul map].
  specialize (S0 eq_refl). rewrite diag_row0 in S0 by lia. 
  assert (M : forall i, (i < 4)%nat -> marg exc exy [true; false] 0 i = nth i (exm true) 0 /\ marg exc exy [true; false] 1 i = nth i (exm false) 0).
  { intros i Hi. unfold marg. cbn [map nth]. split; rewrite margins_nth by exact Hi; apply ex_marg; exact Hi. }
  assert (S1' : forall i, (i < 4)%nat -> er_diag eta (ve false) i * nth i [x0; x1; x2; x3] 0 + ln (nth i (ve false) 0 + QP_EPS) / eta + c - nth i [l0; l1; l2; l3] 0 + nth i [u0; u1; u2; u3] 0
     + (wa * nth i (exm true) 0 + wb * nth i (exm false) 0) = 0).
  { intros i Hi. specialize (S1 i Hi). rewrite (diag_row 1 4) in S1 by exact Hi. rewrite (er_linear_nth exy eta n4 (ve false) i Lq Hi) in S1. cbn [seq map rsum] in S1.
    rewrite (proj1 (M i Hi)), (proj2 (M i Hi)) in S1.
    destruct i as [|[|[|[|i]]]]; [| | | |lia]; cbn [nth Nat.add Nat.mul] in S1 |- *; lra. }
  pose proof (C2 0%nat ltac:(lia)) as Ca. pose proof (C2 1%nat ltac:(lia)) as Cb. pose proof (F3 0%nat ltac:(lia)) as Fa. pose proof (F3 1%nat ltac:(lia)) as Fb.
  cbn [seq map rsum] in Ca, Cb, Fa, Fb.
  rewrite (proj1 (M 0%nat ltac:(lia))), (proj1 (M 1%nat ltac:(lia))), (proj1 (M 2%nat ltac:(lia))), (proj1 (M 3%nat ltac:(lia))) in Ca, Fa.
  rewrite (proj2 (M 0%nat ltac:(lia))), (proj2 (M 1%nat ltac:(lia))), (proj2 (M 2%nat ltac:(lia))), (proj2 (M 3%nat ltac:(lia))) in Cb, Fb.
  cbn [nth exm Nat.add Nat.mul] in Ca, Cb, Fa, Fb. cbn [seq map rsum nth Nat.add Nat.mul er_linear] in S0.
  pose proof (Z2 0%nat ltac:(lia)) as Wa. pose proof (Z2 1%nat ltac:(lia)) as Wb. cbn [nth Nat.add Nat.mul] in Wa, Wb.
  pose proof (Z1 0%nat ltac:(lia)) as Za. pose proof (Z1 1%nat ltac:(lia)) as Zb. pose proof (Z1 2%nat ltac:(lia)) as Zc. pose proof (Z1 3%nat ltac:(lia)) as Zd. cbn [nth Nat.add Nat.mul] in Za, Zb, Zc, Zd.
  pose proof (C1 0%nat ltac:(lia)) as Da. pose proof (C1 1%nat ltac:(lia)) as Db. pose proof (C1 2%nat ltac:(lia)) as Dc. pose proof (C1 3%nat ltac:(lia)) as Dd. cbn [nth Nat.add Nat.mul] in Da, Db, Dc, Dd.
  pose proof (S1' 0%nat ltac:(lia)) as Ta. pose proof (S1' 1%nat ltac:(lia)) as Tb. pose proof (S1' 2%nat ltac:(lia)) as Tc. pose proof (S1' 3%nat ltac:(lia)) as Td.
  unfold er_diag in Ta, Tb, Tc, Td. cbn [nth exm ve Nat.add Nat.mul] in Ta, Tb, Tc, Td. rewrite Rplus_0_l in Tb, Tc, Td.
  destruct eps_small as [[E0 _] El]. pose proof ln10 as L10. pose proof (ln1e QP_EPS E0) as E1.
  clear S1 S1' M C1 C2 Z1 Z2 F3 Lx Lz Lq.
  assert (Bwb : wb = 0).
  { assert (U1 : u1 = 0) by (destruct (Rmult_integral _ _ (proj2 Db)); lra). assert (U2 : u2 = 0) by (destruct (Rmult_integral _ _ (proj2 Dc)); lra). assert (U3 : u3 = 0) by (destruct (Rmult_integral _ _ (proj2 Dd)); lra).
    assert (L0 : l0 = 0) by (destruct (Rmult_integral _ _ (proj1 Da)); lra).
    assert (Hc : c <= 0).
    { assert (0 <= 1 / ((1 + QP_EPS) * eta) * x0) by (apply Rmult_le_pos; [apply Rlt_le, Rdiv_lt_0_compat; nra|lra]).
      assert (0 <= ln (1 + QP_EPS) / eta) by (apply Rmult_le_pos; [lra|apply Rlt_le, Rinv_0_lt_compat; lra]). lra. }
    set (L := 100 * ln 10) in *. assert (HL : 200 <= L) by (unfold L; lra). clearbody L. replace (ln QP_EPS) with (- L) in Tb, Tc, Td by lra.
    assert (G : forall x l m, 1 / (QP_EPS * eta) * x + - L / eta + c - l + 0 + m = 0 -> l * x = 0 -> 0 <= l -> m <= 1 -> l = 0 /\ x = QP_EPS * (L - eta * c - eta * m)).
    { intros x l m Q1 Q2 Q3 Q4.
      assert (X : x = QP_EPS * (L - eta * c + eta * l - eta * m)).
      { assert (Q : 1 / (QP_EPS * eta) * x = L / eta - c + l - m) by lra. apply (f_equal (Rmult (QP_EPS * eta))) in Q.
        replace (QP_EPS * eta * (1 / (QP_EPS * eta) * x)) with x in Q by (field; lra). rewrite Q. field. lra. }
      assert (l = 0).
      { destruct (Rmult_integral _ _ Q2) as [Z|Z]; [exact Z|]. exfalso. rewrite Z in X. assert (0 < L - eta * c + eta * l - eta * m) by nra. nra. }
      subst l. split; [reflexivity|]. rewrite X. ring. }
    assert (Sw : wa + wb = 1) by lra.
    rewrite U1 in Tb. rewrite U2 in Tc. rewrite U3 in Td.
    destruct (G x1 l1 (wa * (-1 / 2) + wb * 1) Tb (proj1 Db) (proj1 Zb) ltac:(lra)) as [_ X1].
    destruct (G x2 l2 (wa * 1 + wb * (-1 / 2)) Tc (proj1 Dc) (proj1 Zc) ltac:(lra)) as [_ X2].
    destruct (G x3 l3 (wa * 1 + wb * (-1 / 2)) Td (proj1 Dd) (proj1 Zd) ltac:(lra)) as [_ X3].
    destruct (Rle_lt_or_eq_dec 0 wb ltac:(lra)) as [P|P]; [exfalso|symmetry; exact P].
    assert (Ee : x2 + x3 <= x1) by (destruct (Rmult_integral _ _ Cb); lra). rewrite X1, X2, X3 in Ee.
    assert (L - eta * c - eta * (wa * 1 + wb * (-1 / 2)) + (L - eta * c - eta * (wa * 1 + wb * (-1 / 2))) <= L - eta * c - eta * (wa * (-1 / 2) + wb * 1)) by (apply (Rmult_le_reg_l QP_EPS); lra).
    nra. }
  rewrite Bwb in *. assert (wa = 1) by lra. subst wa. rewrite (Rmax_left 1 0), (Rmax_left 0 0) by lra. reflexivity.
Qed.

(** *** the run *)
Definition ex_learn (t : nat) (d : list R) : bool := Rleb (edge_of exy d (exc false)) (edge_of exy d (exc true)).
Definition ex_s : @erlp bool := mkErlp [] 1 0 1 (1 / 40) None [] 1 0.

Lemma ex_best t d h : edge_of exy d (exc h) <= edge_of exy d (exc (ex_learn t d)).
Proof. unfold ex_learn. destruct (Rleb_spec (edge_of exy d (exc false)) (edge_of exy d (exc true))) as [L|L]; destruct h; lra. Qed.

Lemma ex_eta : 40 <= erlp_eta (1 / 40) 1 (length exy) <= 56.
Proof. unfold erlp_eta. cbn [exy length]. replace (INR 4 / 1) with 4 by (simpl; lra). pose proof ln4. rewrite Rmax_right by lra. lra. Qed.

Lemma ex_valid : is_valid_binary_instance exy = Ok tt.
Proof.
  apply valid_pm1; [|simpl; auto 20|simpl; auto 20]. intros v Hv. simpl in Hv. repeat (destruct Hv as [<-|Hv]; [auto|]). destruct Hv.
Qed.


Section ExRun.
  Variables (solve : conic -> answer) (inner : nat).
  Notation b := (erlpboost exc solve ex_learn exy inner).
  Notation eta := (erlp_eta (1 / 40) 1 (length exy)).
  Hypothesis Hin : (3 <= inner)%nat.
  Hypothesis Hex : forall p, erlp_asks exc solve ex_learn exy inner ex_s p -> solves p (solve p).

  Lemma ex_maxloop : (100 <= erlp_max_loop (1 / 40) 1 (length exy))%nat.
  Proof.
    unfold erlp_max_loop. cbn [exy length]. replace (INR 4 / 1) with 4 by (simpl; lra). pose proof ln4 as L4.
    match goal with |- context [ceil_usize ?x] => pose proof (ceil_usize_ge x) as C end.
    match type of C with Rmax ?a ?c <= _ => pose proof (Rmax_r a c) as M; set (mx := Rmax a c) in *; clearbody mx end. apply INR_le. replace (INR 100) with 100 by (rewrite INR_IZR_INZ; reflexivity).
    replace (8 * ln 4 / (1 / 40) ^ 2) with (12800 * ln 4) in M by field. lra.
  Qed.

  Lemma ex_ent d : capped 1 exy d -> 0 <= entropy_from_uni_distribution d / eta <= 1 / 40.
  Proof. intros C. apply P_C35_regularisation; [lra|exact nu4|exact C]. Qed.

  Lemma ex_cap4 x0 x1 x2 x3 : 0 <= x0 -> 0 <= x1 -> 0 <= x2 -> 0 <= x3 -> x0 + x1 + x2 + x3 = 1 -> capped 1 exy [x0; x1; x2; x3].
  Proof. intros. split; [reflexivity|]. split; [intros v Hv; cbn in Hv; decompose [or] Hv; subst; try tauto; lra|cbn; lra]. Qed.

  Lemma ex_steps : exists s1 s2 s3 d1 d2, b_pre b ex_s = Ok s1 /\ er_dist s1 = [1 / 4; 1 / 4; 1 / 4; 1 / 4] /\
    b_boost b 1 s1 = ([[1 / 4; 1 / 4; 1 / 4; 1 / 4]], Ok (s2, Continue)) /\ er_dist s2 = d1 /\
    b_boost b 2 s2 = ([d1], Ok (s3, Continue)) /\ er_dist s3 = d2 /\
    (exists it s4, b_boost b 3 s3 = ([d2], Ok (s4, Break it)) /\ er_model s4 = er_model s3 /\ er_hyps s4 = er_hyps s3) /\
    (er_hyps s3 = [true; false] /\ ex_learn 2 d1 = false) /\ (exists m, er_model s3 = Some m /\ qm_weights m = [1; 0]) /\
    (forall d, In d [[1 / 4; 1 / 4; 1 / 4; 1 / 4]; d1; d2] -> capped 1 exy d /\ 0 <= edge_of exy d (exc (ex_learn 0 d))).
  Proof.
    pose proof ex_eta as He. pose proof ex_maxloop as HN. destruct eps_t as [t [Ht Hte]].
    assert (Epre : erlp_pre exy ex_s = Ok (mkErlp [1 / 4; 1 / 4; 1 / 4; 1 / 4] 1 (-1) eta (1 / 40) (Some (qm_init eta 4 (1 / 1))) [] 1 (erlp_max_loop (1 / 40) 1 (length exy)))).
    { unfold erlp_pre. rewrite ex_valid. cbn [bind ex_s er_half_tol er_nu]. rewrite (Rleb_true 0 (1 / 40)), (Rltb_true (1 / 40) 1) by lra. cbn [andb assert_ bind]. rewrite Reqb_false by lra.
      unfold check_nu. cbn [exy length]. rewrite (Rleb_true 1 1), (Rleb_true 1 (INR 4)) by (simpl; lra). cbn [andb assert_ bind]. replace (1 / INR 4) with (1 / 4) by (simpl; lra). reflexivity. }
    set (u := [1 / 4; 1 / 4; 1 / 4; 1 / 4]) in *. set (s1 := mkErlp _ _ _ _ _ _ _ _ _) in Epre.
    assert (R1 : reach b ex_s 1 s1) by (constructor; exact Epre).
    assert (O0 : qpm_ok exc exy 1 eta [] (qm_init eta 4 (1 / 1))).
    { unfold qm_init, qpm_ok. cbn [qm_n qm_T qm_margins qm_cap qm_eta qm_dist]. repeat split. intros d Hd. apply repeat_spec in Hd. simpl in Hd. lra. }
    assert (Cu : capped 1 exy u) by (apply ex_cap4; lra). pose proof (ex_ent u Cu) as Eu.
    assert (Lu : ex_learn 1 u = true) by (unfold ex_learn, u; rewrite ex_edge_a, ex_edge_b; apply Rleb_true; lra).
    assert (Gh1 : er_new_gamma_hat exc exy s1 true = 3 / 8 + 0 \/ 3 / 8 <= er_new_gamma_hat exc exy s1 true).
    { right. unfold er_new_gamma_hat. cbn [s1 er_dist er_gamma_hat er_eta]. rewrite edge_of_hypothesis_spec by reflexivity. unfold u. rewrite ex_edge_a. fold u. apply Rmin_glb; lra. }
    assert (Gh1' : 3 / 8 <= er_new_gamma_hat exc exy s1 true) by (destruct Gh1; lra). clear Gh1.
    assert (St1 : er_stops exc exy s1 true = false) by (unfold er_stops; apply Rleb_false; cbn [s1 er_gamma_star er_half_tol]; lra).
    destruct (ex_update eta [true] true (-1 / 2) He sharp_a solve inner (qm_init eta 4 (1 / 1)) true [] t eq_refl O0 Hin Ht Hte) as [m1 [x0 [x1 [x2 [x3 [Um1 [O1 [D1 [H0 [H1 [H2 [H3 [Hs [T0 [T2 [T3 _]]]]]]]]]]]]]]]].
    { intros m1 old p Tu Ep. apply Hex. exists 1%nat, s1, (qm_init eta 4 (1 / 1)), m1, old. cbn [s1 er_dist er_max_iter]. fold u. rewrite Lu. split; [exact R1|]. split; [reflexivity|]. split; [lia|]. split; [exact St1|]. split; assumption. }
    set (d1 := [x0; x1; x2; x3]) in *. assert (Cd1 : capped 1 exy d1) by (apply ex_cap4; assumption). pose proof (ex_ent d1 Cd1) as Ed1.
    set (gs1 := edge_of exy d1 (exc true) + entropy_from_uni_distribution d1 / eta).
    assert (Gs1 : er_new_gamma_star exc exy d1 eta [true] = Ok gs1) by (unfold er_new_gamma_star; cbn [map reduce_max fold_left]; rewrite edge_of_hypothesis_spec by reflexivity; reflexivity).
    set (s2 := mkErlp d1 (er_new_gamma_hat exc exy s1 true) gs1 eta (1 / 40) (Some m1) [true] 1 (erlp_max_loop (1 / 40) 1 (length exy))).
    assert (B1 : b_boost b 1 s1 = ([u], Ok (s2, Continue))).
    { change (b_boost b 1 s1) with (erlp_boost exc solve ex_learn exy inner 1 s1). unfold erlp_boost. rewrite (proj2 (Nat.ltb_ge (er_max_iter s1) 1)) by (cbn [s1 er_max_iter]; lia).
      change (er_dist s1) with u. rewrite Lu, St1. cbn [s1 er_model]. rewrite Um1. cbn [bind]. rewrite D1. change (er_hyps _ ++ [true]) with [true]. change (er_eta s1) with eta. rewrite Gs1. reflexivity. }
    assert (R2 : reach b ex_s 2 s2) by (econstructor; eassumption).
    assert (Ea1 : edge_of exy d1 (exc true) = - x1 / 2 + x2 + x3) by apply ex_edge_a. assert (Eb1 : edge_of exy d1 (exc false) = x1 - x2 / 2 - x3 / 2) by apply ex_edge_b.
    assert (L1 : ex_learn 2 d1 = false) by (unfold ex_learn; rewrite Ea1, Eb1; apply Rleb_false; lra).
    assert (Gh2 : 3 / 8 <= er_new_gamma_hat exc exy s2 false).
    { unfold er_new_gamma_hat. cbn [s2 er_dist er_gamma_hat er_eta]. rewrite edge_of_hypothesis_spec by reflexivity. rewrite Eb1. apply Rmin_glb; lra. }
    assert (St2 : er_stops exc exy s2 false = false) by (unfold er_stops; apply Rleb_false; cbn [s2 er_gamma_star er_half_tol]; unfold gs1; rewrite Ea1; lra).
    destruct (ex_update eta [true; false] false 0 He sharp_ab solve inner m1 false [true] t eq_refl O1 Hin Ht Hte) as [m2 [z0 [z1 [z2 [z3 [Um2 [O2 [D2 [Z0 [Z1 [Z2 [Z3 [Zs [U1 [U2 [U3 [a [Sa [Da Wa]]]]]]]]]]]]]]]]]]].
    { intros m2 old p Tu Ep. apply Hex. exists 2%nat, s2, m1, m2, old. cbn [s2 er_dist er_max_iter]. rewrite L1. split; [exact R2|]. split; [reflexivity|]. split; [lia|]. split; [exact St2|]. split; assumption. }
    rewrite (ex_weights eta t a z0 z1 z2 z3 He Ht Sa ltac:(rewrite <- Da; exact D2) Zs Z0 ltac:(lra) ltac:(lra) ltac:(lra)) in Wa.
    set (d2 := [z0; z1; z2; z3]) in *. assert (Cd2 : capped 1 exy d2) by (apply ex_cap4; assumption). pose proof (ex_ent d2 Cd2) as Ed2.
    set (gs2 := Rmax (edge_of exy d2 (exc true)) (edge_of exy d2 (exc false)) + entropy_from_uni_distribution d2 / eta).
    assert (Gs2 : er_new_gamma_star exc exy d2 eta [true; false] = Ok gs2) by (unfold er_new_gamma_star; cbn [map reduce_max fold_left]; rewrite !edge_of_hypothesis_spec by reflexivity; reflexivity).
    set (s3 := mkErlp d2 (er_new_gamma_hat exc exy s2 false) gs2 eta (1 / 40) (Some m2) [true; false] 1 (erlp_max_loop (1 / 40) 1 (length exy))).
    assert (B2 : b_boost b 2 s2 = ([d1], Ok (s3, Continue))).
    { change (b_boost b 2 s2) with (erlp_boost exc solve ex_learn exy inner 2 s2). unfold erlp_boost. rewrite (proj2 (Nat.ltb_ge (er_max_iter s2) 2)) by (cbn [s2 er_max_iter]; lia).
      change (er_dist s2) with d1. rewrite L1, St2. cbn [s2 er_model]. rewrite Um2. cbn [bind]. rewrite D2. change (er_eta s2) with eta. change (er_hyps s2 ++ [false]) with [true; false]. rewrite Gs2. reflexivity. }
    set (h3 := ex_learn 3 d2).
    assert (St3 : er_stops exc exy s3 h3 = true).
    { unfold er_stops, er_new_gamma_hat. apply Rleb_true. cbn [s3 er_dist er_gamma_hat er_eta er_gamma_star er_half_tol]. rewrite edge_of_hypothesis_spec by reflexivity.
      match goal with |- Rmin ?p ?q - _ <= _ => pose proof (Rmin_r p q) as Mr end. unfold gs2. pose proof (Rmax_l (edge_of exy d2 (exc true)) (edge_of exy d2 (exc false))). pose proof (Rmax_r (edge_of exy d2 (exc true)) (edge_of exy d2 (exc false))). destruct h3; lra. }
    exists s1, s2, s3, d1, d2. split; [exact Epre|]. split; [reflexivity|]. split; [exact B1|]. split; [reflexivity|]. split; [exact B2|]. split; [reflexivity|]. split; [|split; [split; [reflexivity|exact L1]|split]].
    - eexists _, _. split.
      + change (b_boost b 3 s3) with (erlp_boost exc solve ex_learn exy inner 3 s3). unfold erlp_boost. rewrite (proj2 (Nat.ltb_ge (er_max_iter s3) 3)) by (cbn [s3 er_max_iter]; lia).
        change (er_dist s3) with d2. fold h3. rewrite St3. reflexivity.
      + split; reflexivity.
    - exists m2. split; [reflexivity|exact Wa].
    - assert (G : forall y0 y1 y2 y3, 0 <= y0 -> 0 <= y1 -> 0 <= y2 -> 0 <= y3 -> 0 <= edge_of exy [y0; y1; y2; y3] (exc (ex_learn 0 [y0; y1; y2; y3]))).
      { intros y0 y1 y2' y3 ? ? ? ?. pose proof (ex_best 0 [y0; y1; y2'; y3] true) as P1. pose proof (ex_best 0 [y0; y1; y2'; y3] false) as P2. rewrite ex_edge_a in P1. rewrite ex_edge_b in P2. lra. }
      intros d [<-|[<-|[<-|[]]]]; (split; [assumption|]); apply G; assumption || lra.
  Qed.
End ExRun.

(** ** C80: an exact solver and a weak learner that always returns a hypothesis of largest edge do not make ERLPBoost's answer
    good: it stops early, every edge it received is at least 0, the vote with weights 1/2, 1/2 has soft margin 0, and the
    vote it returns has soft margin -1/2 although the tolerance is 1/20 *)
Lemma P_C80_soft_margin_refuted :
  exists (conf : bool -> nat -> R) (produce : nat -> list R -> bool) (y : list R) (s : @erlp bool),
    is_valid_binary_instance y = Ok tt /\ er_nu s = 1 /\ 2 * er_half_tol s = 1 / 20 /\
    (forall h i, (i < length y)%nat -> -1 <= nth i y 0 * conf h i <= 1) /\
    (forall t d h, edge_of y d (conf h) <= edge_of y d (conf (produce t d))) /\
    soft_margin (er_nu s) y (vote conf [(1 / 2, true); (1 / 2, false)]) 0 /\
    (exists solve, forall inner p, erlp_asks conf solve produce y inner s p -> solves p (solve p)) /\
    forall solve inner fuel, (3 <= inner)%nat -> (3 <= fuel)%nat ->
      (forall p, erlp_asks conf solve produce y inner s p -> solves p (solve p)) ->
      exists tr f, run (erlpboost conf solve produce y inner) fuel s = Finished tr f /\
        (length tr < erlp_max_loop (er_half_tol s) (er_nu s) (length y))%nat /\
        (forall d, In d tr -> capped (er_nu s) y d) /\ (forall e, In e (edges conf produce y tr) -> 0 <= e) /\
        incl [true; false] (answers produce tr) /\
        soft_margin (er_nu s) y (wm_confidence conf f) (-1 / 2).
Proof.
  exists exc, ex_learn, exy, ex_s. split; [exact ex_valid|]. split; [reflexivity|]. split; [cbn; lra|]. split; [exact ex_marg1|]. split; [exact ex_best|].
  split; [|split].
  - split.
    + exists [1; 0; 0; 0]. split; [apply ex_cap4; lra|]. unfold edge_of, vote, exc, exm, exy. cbn [length seq map rsum nth fst snd]. lra.
    + intros d C. destruct (ex_capped d C) as [a [b [c [e [-> [H0 [H1 [H2 [H3 Hs]]]]]]]]]. unfold edge_of, vote, exc, exm, exy. cbn [length seq map rsum nth fst snd]. lra.
  - destruct P_C35_exact_solver_exists as [solve Hs]. exists solve. intros inner p Ha. apply (Hs bool exc ex_learn exy inner ex_s p Ha).
  - intros solve inner fuel Hin Hf Hex. destruct (ex_steps solve inner Hin Hex) as [s1 [s2 [s3 [d1 [d2 [E0 [D0 [E1 [D1 [E2 [D2 [[it [s4 [E3 [Em4 Eh4]]]] [[Eh El1] [[m [Em Wm]] Hall]]]]]]]]]]]]]].
    destruct fuel as [|[|[|fuel]]]; try lia. unfold run. rewrite E0. cbn [run_from]. rewrite E1. cbn [app]. rewrite E2. cbn [app]. rewrite E3. cbn [app].
    cbn [b_post erlpboost]. unfold erlp_post. rewrite Em4, Eh4, Em, Eh, Wm.
    assert (F : from_slices [1; 0] [true; false] = Ok (mkWM [1] [true])).
    { unfold from_slices, kept. cbn [combine filter fst]. rewrite (Rltb_true 0 1), (Rltb_false 0 0) by lra. cbn [map fst snd]. unfold normalize. cbn [map rsum].
      rewrite Rabs_pos_eq by lra. rewrite Reqb_false by lra. cbn [bind map]. replace (1 / (1 + 0)) with 1 by field. reflexivity. }
    rewrite F. eexists _, _. split; [reflexivity|]. split; [|split; [|split; [|split]]].
    + cbn [length ex_s er_half_tol er_nu]. pose proof ex_maxloop. cbn [exy length] in *. lia.
    + intros d Hd. apply Hall, Hd.
    + intros e He. unfold edges in He. cbn [length seq combine map fst snd] in He.
      destruct He as [<-|[<-|[<-|[]]]]; [apply (Hall _ (or_introl eq_refl))|apply (Hall _ (or_intror (or_introl eq_refl)))|apply (Hall _ (or_intror (or_intror (or_introl eq_refl))))].
    + intros h Hh. unfold answers. cbn [length seq combine map fst snd]. rewrite El1. destruct Hh as [<-|[<-|[]]]; [left|right; left; reflexivity].
      unfold ex_learn. rewrite ex_edge_a, ex_edge_b. apply Rleb_true. lra.
    + split.
      * exists [0; 1; 0; 0]. split; [apply ex_cap4; lra|]. unfold edge_of, wm_confidence, exc, exm, exy. cbn [length seq map rsum nth fst snd combine wm_weights wm_hypotheses]. lra.
      * intros d C. destruct (ex_capped d C) as [a [b [c [e [-> [H0 [H1 [H2 [H3 Hs]]]]]]]]]. unfold edge_of, wm_confidence, exc, exm, exy. cbn [length seq map rsum nth fst snd combine wm_weights wm_hypotheses]. lra.
Qed.

(** *** the largest nu: only one distribution is capped *)
Lemma capped_only y d : (0 < length y)%nat -> capped (INR (length y)) y d -> d = repeat (1 / INR (length y)) (length y).
Proof.
  intros Hn [L [C1 C2]]. pose proof (lt_0_INR _ Hn) as Hp. apply (list_eq_nth 0); [rewrite repeat_length; exact L|]. intros i Hi. rewrite L in Hi. rewrite nth_repeat_lt by exact Hi.
  assert (Z : rsum (map (fun i => 1 / INR (length y) - nth i d 0) (seq 0 (length y))) = 0).
  { rewrite rsum_map_minus, rsum_map_const, seq_length. rewrite <- L at 3. rewrite map_nth_seq, C2. field. lra. }
  assert (N : forall v, In v (map (fun i => 1 / INR (length y) - nth i d 0) (seq 0 (length y))) -> v = 0).
  { intros v Hv. apply (rsum_nonneg_zero (map (fun i => 1 / INR (length y) - nth i d 0) (seq 0 (length y)))); [|exact Z|exact Hv].
    intros w Hw. apply in_map_iff in Hw. destruct Hw as [k [<- Hk]]. apply in_seq in Hk. assert (nth k d 0 <= 1 / INR (length y)) by (apply C1, nth_In; lia). lra. }
  specialize (N (1 / INR (length y) - nth i d 0)). lapply N; [lra|]. apply in_map_iff. exists i. split; [reflexivity|apply in_seq; lia].
Qed.

(** ** C80, what holds: with nu = n (the soft margin is the mean margin) the returned vote does reach every level that all
    received edges reach, minus the tolerance; for smaller nu this is known at the last distribution only (C35) *)
Lemma P_C80_mean_margin : forall (H : Type) (conf : H -> nat -> R) solve produce y inner (s : @erlp H) fuel tr f g,
  (forall p, erlp_asks conf solve produce y inner s p -> solves p (solve p)) ->
  (forall h i, (i < length y)%nat -> -1 <= nth i y 0 * conf h i <= 1) ->
  (1001 + ln (INR (length y)) / erlp_eta (er_half_tol s) (er_nu s) (length y)) * 1000000000 + 1 < INR inner ->
  er_nu s = INR (length y) ->
  run (erlpboost conf solve produce y inner) fuel s = Finished tr f ->
  (length tr < erlp_max_loop (er_half_tol s) (er_nu s) (length y))%nat ->
  (forall e, In e (edges conf produce y tr) -> g <= e) ->
  exists v, soft_margin (er_nu s) y (wm_confidence conf f) v /\ g - 2 * er_half_tol s <= v.
Proof.
  intros H conf solve produce y inner s fuel tr f g Hex Hm Hin Hn Er Hlen Hg.
  destruct (criterion_capped H conf solve produce y inner s fuel tr f g Hex Hm Hin Er Hlen Hg) as [tr' [d [E [Cd [Hnu G]]]]].
  assert (Hl : (0 < length y)%nat) by (destruct y; [simpl in Hnu; lra|cbn; lia]).
  exists (edge_of y d (wm_confidence conf f)). split; [|exact G]. rewrite Hn in *. split; [exists d; auto|].
  intros d' Cd'. rewrite (capped_only y d Hl Cd), (capped_only y d' Hl Cd'). lra.
Qed.

Lemma erx_short inner : (1001 + ln (INR (length y2)) / (1 / 2)) * 1000000000 + 1 < INR inner ->
  forall fuel, match run (erlpboost erx_conf erx_solve erx_produce y2 inner) fuel erx_state with Finished tr _ => (length tr <= 2)%nat | _ => True end.
Proof.
  intros Hi. refine (run_reach (erlpboost erx_conf erx_solve erx_produce y2 inner) erx_state (fun t s tr => (length tr < t)%nat /\ (t <= 2)%nat)
    (fun o => match o with Finished tr _ => (length tr <= 2)%nat | _ => True end) _ _ _ _); [| |intros; exact Logic.I|intros; exact Logic.I].
  - intros s _. cbn. lia.
  - intros t s tr Hr [L1 L2]. pose proof (erx_reach inner Hi t s Hr) as St.
    change (b_boost (erlpboost erx_conf erx_solve erx_produce y2 inner) t s) with (erlp_boost erx_conf erx_solve erx_produce y2 inner t s). unfold erlp_boost.
    destruct (Nat.ltb _ _). { rewrite app_nil_r. destruct (b_post _ s); [lia|exact Logic.I]. }
    destruct (er_stops _ _ _ _) eqn:Es. { destruct (b_post _ _); [|exact Logic.I]. rewrite app_length. cbn [length]. lia. }
    destruct St as [[-> _]|St]; [|discriminate]. destruct (er_model s); [|exact Logic.I]. destruct (qm_update _ _ _ _ _ _); cbn [bind]; [|exact Logic.I]. destruct (er_new_gamma_star _ _ _ _ _); cbn [bind]; [|exact Logic.I].
    rewrite app_length. cbn [length]. lia.
Qed.

(** ** the hypotheses of [C80_mean_margin] are met: the run of [C35_hypotheses_met] *)
Example C80_hypotheses_met : exists inner, let y := y2 in let s := erx_state in
  (forall p, erlp_asks erx_conf erx_solve erx_produce y inner s p -> solves p (erx_solve p)) /\
  (forall h i, (i < length y)%nat -> -1 <= nth i y 0 * erx_conf h i <= 1) /\ er_nu s = INR (length y) /\
  (1001 + ln (INR (length y)) / erlp_eta (er_half_tol s) (er_nu s) (length y)) * 1000000000 + 1 < INR inner /\
  exists fuel tr f, run (erlpboost erx_conf erx_solve erx_produce y inner) fuel s = Finished tr f /\
    (length tr < erlp_max_loop (er_half_tol s) (er_nu s) (length y))%nat.
Proof.
  destruct C35_hypotheses_met as [inner [A [B [_ [_ [_ [C [fuel [tr [f [D _]]]]]]]]]]]. exists inner. cbv zeta. split; [exact A|]. split; [exact B|]. split; [cbn; lra|]. split; [exact C|]. exists fuel, tr, f. split; [exact D|].
  cbn [erx_state er_half_tol er_nu] in C |- *. rewrite erx_eta in C. pose proof (erx_short inner C fuel) as S. rewrite D in S.
  assert (3 <= erlp_max_loop (1 / 10) 2 (length y2))%nat; [|lia]. unfold erlp_max_loop. match goal with |- context [ceil_usize ?x] => pose proof (ceil_usize_ge x) as Cu end.
  match type of Cu with Rmax ?a ?c <= _ => pose proof (Rmax_l a c) as M; set (mx := Rmax a c) in *; clearbody mx end. apply INR_le. replace (INR 3) with 3 by (simpl; lra). lra.
Qed.
