(** Property C10: the number of rounds that AdaBoost's [max_loop] allows. *)
From Verif Require Import Base Spec Utils WMajority WMajorityProofs Booster Reach AdaBoost AdaBoostProofs AdaBoostMain AdaBoostMore AdaBoostFacts.
Open Scope R_scope.

(** *** a weak learner for four examples whose hypotheses have edge at least 3/5 under every distribution *)
Definition aly : list R := [1; 1; 1; -1].
Definition alm (x : R) : R := if Rle_dec x (1 / 5) then -1 else 1 - 2 / 5 / x.
Definition all_ (t : nat) (d : list R) (i : nat) : R := match i with O => alm (nth 0 d 0) | _ => nth i aly 0 end.

Lemma aly_valid : is_valid_binary_instance aly = Ok tt.
Proof.
  apply valid_pm1; [|simpl; auto 20|simpl; auto 20]. intros v Hv. simpl in Hv. repeat (destruct Hv as [<-|Hv]; [auto|]). destruct Hv.
Qed.

Lemma al_edge4 t a b c e : edge_of aly [a; b; c; e] (all_ t [a; b; c; e]) = a * alm a + b + c + e.
Proof. unfold edge_of, all_, aly. cbn [length seq map rsum nth]. lra. Qed.

Lemma alm_bounds x : 0 <= x <= 1 -> -1 <= alm x <= 1.
Proof.
  intros H. unfold alm. destruct (Rle_dec x (1 / 5)) as [L|L]; [lra|]. assert (0 < x) by lra.
  assert (0 <= 2 / 5 / x) by (apply Rlt_le, Rdiv_lt_0_compat; lra). assert (2 / 5 / x <= 2) by (apply Rdiv_le_iff; lra). lra.
Qed.

Lemma al_edge t d : length d = length aly -> is_dist d -> 3 / 5 <= edge_of aly d (all_ t d) /\ (0 < nth 0 d 0 -> edge_of aly d (all_ t d) < 1) /\ (1 / 5 < nth 0 d 0 -> edge_of aly d (all_ t d) = 3 / 5) /\
  forall i, (i < length aly)%nat -> -1 <= all_ t d i <= 1.
Proof.
  intros L [D1 D2]. destruct d as [|a [|b [|c [|e [|? ?]]]]]; cbn in L; try lia. rewrite al_edge4. cbn in D2.
  assert (Ha : 0 <= a) by (apply D1; cbn; auto). assert (Hb : 0 <= b) by (apply D1; cbn; auto). assert (Hc : 0 <= c) by (apply D1; cbn; auto 6). assert (He : 0 <= e) by (apply D1; cbn; auto 6).
  cbn [nth].
  assert (V : (a <= 1 / 5 /\ a * alm a = - a) \/ (1 / 5 < a /\ a * alm a = a - 2 / 5)).
  { unfold alm. destruct (Rle_dec a (1 / 5)) as [Q|Q]; [left; split; lra|right; split; [lra|field; lra]]. }
  split; [lra|]. split; [lra|]. split; [lra|]. intros i Hi. destruct i as [|i]; cbn [all_ nth]; [apply alm_bounds; lra|].
  unfold aly. destruct i as [|[|[|i]]]; cbn [nth]; try lra. cbn in Hi. lia.
Qed.

(** *** numbers *)
Lemma ln4_bounds : 108 / 100 <= ln 4 < 144 / 100.
Proof.
  replace 4 with (2 * 2) by lra. rewrite ln_mult by lra. split.
  - assert (54 / 100 <= ln 2); [|lra]. rewrite <- (ln_exp (54 / 100)). apply ln_le; [apply exp_pos|].
    assert (E : exp (54 / 100) ^ 50 = exp 1 ^ 27). { assert (P : forall x k, exp x ^ k = exp (INR k * x)) by (intros x k; induction k as [|k IH]; [simpl; rewrite Rmult_0_l, exp_0; reflexivity|rewrite S_INR; simpl pow; rewrite IH, <- exp_plus; f_equal; ring]). rewrite !P. f_equal. simpl. lra. }
    apply Rnot_lt_le. intros F. assert (X : 2 ^ 50 <= exp (54 / 100) ^ 50) by (apply pow_incr; lra). rewrite E in X.
    assert (Y : exp 1 ^ 27 <= 3 ^ 27) by (apply pow_incr; pose proof (exp_pos 1); pose proof exp_le_3; lra). lra.
  - assert (ln 2 < 72 / 100); [|lra]. rewrite <- (ln_exp (72 / 100)). apply ln_increasing; [lra|].
    assert (P : forall x k, exp x ^ k = exp (INR k * x)) by (intros x k; induction k as [|k IH]; [simpl; rewrite Rmult_0_l, exp_0; reflexivity|rewrite S_INR; simpl pow; rewrite IH, <- exp_plus; f_equal; ring]).
    replace (72 / 100) with (INR 32 * (72 / 3200)) by (simpl; lra). rewrite <- P. pose proof (exp_ineq1_le (72 / 3200)) as H.
    apply Rlt_le_trans with ((1 + 72 / 3200) ^ 32); [lra|apply pow_incr; lra].
Qed.

Definition al_s : @ada (nat -> R) := ada_tolerance (ada_init aly) (3 / 5).
Lemma al_loop : ada_max_loop aly al_s = 3%nat.
Proof.
  unfold ada_max_loop, al_s, ada_tolerance. cbn [a_tolerance aly length]. replace (INR 4) with 4 by (simpl; lra). replace (ln 4 / (3 / 5) ^ 2) with (25 / 9 * ln 4) by field. pose proof ln4_bounds as B.
  pose proof (as_usize_ge (25 / 9 * ln 4) 3 ltac:(simpl; lra)) as G. pose proof (as_usize_le (25 / 9 * ln 4) ltac:(lra)) as L.
  assert (INR (as_usize (25 / 9 * ln 4)) < INR 4) by (simpl; lra). apply INR_lt in H. lia.
Qed.

(** 2^x for the three exponents that occur *)
Lemma p2_bounds : 329 / 1000 <= exp (- (ln 2 * (8 / 5))) <= 1 / 3 /\ 18 / 100 <= exp (- (ln 2 * (12 / 5))).
Proof.
  assert (P : forall x k, exp x ^ k = exp (INR k * x)) by (intros x k; induction k as [|k IH]; [simpl; rewrite Rmult_0_l, exp_0; reflexivity|rewrite S_INR; simpl pow; rewrite IH, <- exp_plus; f_equal; ring]).
  assert (Q : forall m, exp (- (ln 2 * (INR m / 5))) ^ 5 * 2 ^ m = 1).
  { intros m. rewrite P. rewrite <- (exp_ln (2 ^ m)) by (apply pow_lt; lra). rewrite ln_pow by lra. rewrite <- exp_plus. rewrite <- exp_0. f_equal. simpl (INR 5). field. }
  pose proof (Q 8%nat) as Q8. pose proof (Q 12%nat) as Q12. replace (INR 8) with 8 in Q8 by (simpl; lra). replace (INR 12) with 12 in Q12 by (simpl; lra).
  pose proof (exp_pos (- (ln 2 * (8 / 5)))) as P8. pose proof (exp_pos (- (ln 2 * (12 / 5)))) as P12.
  set (a := exp (- (ln 2 * (8 / 5)))) in *. set (b := exp (- (ln 2 * (12 / 5)))) in *. clearbody a b.
  split; [split|]; apply Rnot_lt_le; intros F.
  - assert (a ^ 5 <= (329 / 1000) ^ 5) by (apply pow_incr; lra). lra.
  - assert ((1 / 3) ^ 5 <= a ^ 5) by (apply pow_incr; lra). lra.
  - assert (b ^ 5 <= (18 / 100) ^ 5) by (apply pow_incr; lra). lra.
Qed.

Lemma al_alpha : ln ((1 + 3 / 5) / (1 - 3 / 5)) / 2 = ln 2.
Proof. replace ((1 + 3 / 5) / (1 - 3 / 5)) with (2 * 2) by field. rewrite ln_mult by lra. lra. Qed.

Lemma alm_exp S : 0 <= S -> alm (exp (- (ln 2 * S - ln 2 * S)) / (exp (- (ln 2 * S - ln 2 * S)) + 3 * exp (- (ln 2 * S)))) = 3 / 5 - 6 / 5 * exp (- (ln 2 * S)).
Proof.
  intros HS. replace (- (ln 2 * S - ln 2 * S)) with 0 by ring. rewrite exp_0. assert (L : 0 <= ln 2) by (rewrite <- ln_1; apply ln_le; lra).
  assert (E : 0 < exp (- (ln 2 * S)) <= 1) by (split; [apply exp_pos|rewrite <- exp_0; destruct (Req_dec (ln 2 * S) 0) as [->|N]; [rewrite Ropp_0; lra|left; apply exp_increasing; nra]]).
  set (e := exp (- (ln 2 * S))) in *. clearbody e. unfold alm. destruct (Rle_dec (1 / (1 + 3 * e)) (1 / 5)) as [Q|Q].
  - exfalso. assert (1 / 4 <= 1 / (1 + 3 * e)) by (apply Rle_div_iff; lra). lra.
  - field. lra.
Qed.

(** the value of the first weight: [a] and [b] are the votes on example 0 and on the others, over ln 2 *)
Lemma al_first a b : exp (- (1 * (ln 2 * a))) / (exp (- (1 * (ln 2 * a))) + 3 * exp (- (ln 2 * b))) = exp (- (ln 2 * (b - a) - ln 2 * (b - a))) / (exp (- (ln 2 * (b - a) - ln 2 * (b - a))) + 3 * exp (- (ln 2 * (b - a)))).
Proof.
  replace (- (ln 2 * (b - a) - ln 2 * (b - a))) with 0 by ring. rewrite exp_0. replace (- (1 * (ln 2 * a))) with (- (ln 2 * a)) by ring.
  replace (- (ln 2 * (b - a))) with (- (ln 2 * b) - - (ln 2 * a)) by ring. unfold Rminus at 1. rewrite exp_plus, (exp_Ropp (- (ln 2 * a))).
  pose proof (exp_pos (- (ln 2 * a))). pose proof (exp_pos (- (ln 2 * b))). field. split; lra.
Qed.

Section AlRun.
  Variable fuel : nat.
  Notation b := (adaboost (fun (h : nat -> R) i => h i) all_ aly).
  Notation edg := (edges (fun (h : nat -> R) i => h i) all_ aly).
  Variable tr : list (list R).
  Hypothesis Htr : trace_of (run b fuel al_s) = tr.

  Lemma al_dist k : (k < length tr)%nat -> length (nth k tr []) = length aly /\ is_dist (nth k tr []) /\ 0 < nth 0 (nth k tr []) 0.
  Proof.
    intros Hk. destruct (P_C04_adaboost_queries_are_distributions (nat -> R) (fun h i => h i) all_ aly al_s fuel (nth k tr [])) as [L [P1 P2]]; [rewrite Htr; apply nth_In; exact Hk|].
    split; [exact L|]. split; [split; [intros v Hv; left; apply P1, Hv|exact P2]|]. apply P1, nth_In. rewrite L. cbn. lia.
  Qed.

  (** the first weight in round k, if all edges so far were 3/5 *)
  Lemma al_weight k : (k < length tr)%nat -> Forall (fun e => e = 3 / 5) (edg (firstn k tr)) ->
    let a := rsum (map (fun h => h 0%nat) (answers all_ (firstn k tr))) in
    a <= INR k -> alm (nth 0 (nth k tr []) 0) = 3 / 5 - 6 / 5 * exp (- (ln 2 * (INR k - a))) /\ 1 / 5 < nth 0 (nth k tr []) 0.
  Proof.
    intros Hk He a Ha. destruct (P_C05_adaboost_exponential_distribution (nat -> R) (fun h i => h i) all_ aly al_s fuel tr k Htr Hk) as [_ D]. cbv zeta in D.
    set (F := vote _ _) in D.
    assert (Lk : length (firstn k tr) = k) by (rewrite firstn_length; lia).
    assert (Fv : forall i, F i = ln 2 * rsum (map (fun h => h i) (answers all_ (firstn k tr)))).
    { intros i. unfold F, vote. assert (LE : length (edg (firstn k tr)) = length (answers all_ (firstn k tr))) by (rewrite edges_length, answers_length; reflexivity).
      revert He LE. generalize (edg (firstn k tr)) (answers all_ (firstn k tr)). clear. induction l as [|e l IH]; intros [|h hs] He LE; cbn in LE; try lia; [cbn; lra|].
      inversion He as [|? ? E1 E2]; subst. cbn [map combine rsum fst snd]. rewrite al_alpha, (IH hs E2 ltac:(lia)). ring. }
    assert (F0 : F 0%nat = ln 2 * a) by apply Fv.
    assert (Fi : forall i, (1 <= i < 4)%nat -> nth i aly 0 * F i = ln 2 * INR k).
    { intros i Hi. rewrite Fv. rewrite <- (answers_length all_ (firstn k tr)) in Lk. unfold answers in *. rewrite map_map. rewrite map_length in Lk. revert Lk. generalize (combine (seq 1 (length (firstn k tr))) (firstn k tr)). intros l Lk.
      rewrite (rsum_map_ext _ (fun _ => nth i aly 0)); [|intros [t d] _; cbn [fst snd]; destruct i; [lia|reflexivity]]. rewrite rsum_map_const, Lk.
      assert (nth i aly 0 * nth i aly 0 = 1) by (unfold aly; destruct i as [|[|[|[|i]]]]; cbn [nth]; try lra; lia). replace (nth i aly 0 * (ln 2 * (INR k * nth i aly 0))) with (nth i aly 0 * nth i aly 0 * (ln 2 * INR k)) by ring. rewrite H. ring. }
    specialize (D 0%nat ltac:(cbn; lia)). cbn [aly length seq map rsum] in D. change [1; 1; 1; -1] with aly in D. rewrite (Fi 1%nat), (Fi 2%nat), (Fi 3%nat), F0 in D by lia. change (nth 0 aly 0) with 1 in D.
    replace (exp (- (1 * (ln 2 * a))) + (exp (- (ln 2 * INR k)) + (exp (- (ln 2 * INR k)) + (exp (- (ln 2 * INR k)) + 0)))) with (exp (- (1 * (ln 2 * a))) + 3 * exp (- (ln 2 * INR k))) in D by ring.
    rewrite al_first in D. rewrite D. split; [apply alm_exp; lra|].
    replace (- (ln 2 * (INR k - a) - ln 2 * (INR k - a))) with 0 by ring. rewrite exp_0.
    assert (E : 0 < exp (- (ln 2 * (INR k - a))) <= 1).
    { split; [apply exp_pos|]. assert (L : 0 <= ln 2) by (rewrite <- ln_1; apply ln_le; lra). rewrite <- exp_0. destruct (Req_dec (ln 2 * (INR k - a)) 0) as [->|N]; [rewrite Ropp_0; lra|left; apply exp_increasing; nra]. }
    set (e := exp (- (ln 2 * (INR k - a)))) in *. clearbody e. assert (1 / 4 <= 1 / (1 + 3 * e)) by (apply Rle_div_iff; lra). lra.
  Qed.
End AlRun.

(** ** C10: [max_loop()] rounds do not suffice (its formula lacks a factor 2): four examples, tolerance 3/5, a weak learner whose
    edges are at least 3/5 under every distribution.  AdaBoost runs its max_loop() = 3 rounds and misclassifies example 0 *)
Lemma P_C10_max_loop_too_small_refuted :
  exists (produce : nat -> list R -> (nat -> R)) (y : list R) (tol : R),
    is_valid_binary_instance y = Ok tt /\ (forall i, (i < length y)%nat -> pm1 (nth i y 0)) /\ 0 < tol < 1 /\
    (forall t d, length d = length y -> is_dist d -> tol <= edge_of y d (produce t d) /\ forall i, (i < length y)%nat -> -1 <= produce t d i <= 1) /\
    let s := ada_tolerance (ada_init y) tol in
    ada_max_loop y s = 3%nat /\
    forall fuel, (3 < fuel)%nat -> exists tr f, run (adaboost (fun h i => h i) produce y) fuel s = Finished tr f /\
      length tr = ada_max_loop y s /\ wm_predict (fun (h : nat -> R) i => h i) f 0 <> nth 0 y 0.
Proof.
  exists all_, aly, (3 / 5). split; [exact aly_valid|]. split; [intros i Hi; unfold pm1, aly; destruct i as [|[|[|[|i]]]]; cbn [nth]; try lra; cbn in Hi; lia|]. split; [lra|].
  split; [intros t d L D; destruct (al_edge t d L D) as [E1 [_ [_ E2]]]; auto|]. cbv zeta. fold al_s. split; [exact al_loop|].
  intros fuel Hf. set (b := adaboost (fun (h : nat -> R) i => h i) all_ aly).
  destruct (P_C08_adaboost_round_limit (nat -> R) (fun h i => h i) all_ aly al_s fuel) as [_ T]. cbn [al_s ada_tolerance a_force_quit ada_init] in T. fold al_s in T.
  change (ada_max_loop aly _) with (ada_max_loop aly al_s) in T. rewrite al_loop in T. specialize (T Hf). fold b in T.
  assert (Ed : forall tr, trace_of (run b fuel al_s) = tr -> Forall (fun e => 3 / 5 <= e < 1) (edges (fun (h : nat -> R) i => h i) all_ aly tr)).
  { intros tr Htr. apply Forall_forall. intros e He. unfold edges in He. apply in_map_iff in He. destruct He as [[t d] [<- Hin]]. cbn [fst snd]. apply in_combine_r in Hin.
    apply (In_nth _ _ []) in Hin. destruct Hin as [k [Hk <-]]. destruct (al_dist fuel tr Htr k Hk) as [L [D P]]. destruct (al_edge t _ L D) as [E1 [E2 _]]. split; [exact E1|apply E2, P]. }
  destruct (run b fuel al_s) as [tr f|tr p|tr] eqn:Er; [|exfalso|destruct T].
  2: { apply (P_C08_adaboost_no_crash (nat -> R) (fun h i => h i) all_ aly al_s fuel tr p); [exact aly_valid| |specialize (Ed tr eq_refl); eapply Forall_impl; [|exact Ed]; cbv beta; intros; lra|exact Er].
       cbn [al_s ada_tolerance a_force_quit ada_init]. change (0 < ada_max_loop aly al_s)%nat. rewrite al_loop. lia. }
  exists tr, f. split; [reflexivity|]. specialize (Ed tr eq_refl). assert (Htr : trace_of (run b fuel al_s) = tr) by (rewrite Er; reflexivity).
  assert (L3 : length tr = 3%nat).
  { destruct (ada_run_spec (fun (h : nat -> R) i => h i) all_ aly fuel al_s) as [_ S]. destruct (S tr f Er) as [_ [[L _]|[tr0 [d [E [_ [_ [G _]]]]]]]].
    - rewrite L. apply al_loop.
    - exfalso. rewrite E, edges_app in Ed. apply Forall_app in Ed. destruct Ed as [_ Ed]. pose proof (Forall_inv Ed) as [_ Q]. rewrite E, app_length in G. cbn [length] in G. rewrite Nat.add_1_r in G. lra. }
  split; [rewrite L3; symmetry; exact al_loop|].
  rewrite (P_C14_adaboost_returns_its_vote_partial (nat -> R) (fun h i => h i) all_ aly al_s fuel tr f Er) by (eapply Forall_impl; [|exact Ed]; cbv beta; intros; lra).
  destruct tr as [|d0 [|d1 [|d2 [|? ?]]]]; cbn in L3; try lia.
  pose proof (al_dist fuel _ Htr 0%nat ltac:(cbn; lia)) as [A0 [B0 _]]. pose proof (al_dist fuel _ Htr 1%nat ltac:(cbn; lia)) as [A1 [B1 _]]. pose proof (al_dist fuel _ Htr 2%nat ltac:(cbn; lia)) as [A2 [B2 _]]. cbn [nth] in A0, B0, A1, B1, A2, B2.
  pose proof (al_weight fuel _ Htr 0%nat ltac:(cbn; lia)) as W0. cbn [firstn] in W0. specialize (W0 ltac:(constructor)). cbv zeta in W0. cbn [answers length seq combine map rsum nth INR] in W0. specialize (W0 ltac:(lra)).
  destruct W0 as [W0 P0]. replace (- (ln 2 * (0 - 0))) with 0 in W0 by ring. rewrite exp_0 in W0. destruct (al_edge 1 d0 A0 B0) as [_ [_ [E0 _]]]. specialize (E0 P0).
  pose proof (al_weight fuel _ Htr 1%nat ltac:(cbn; lia)) as W1. cbn [firstn] in W1. unfold edges, answers in W1. cbn [length seq combine map rsum nth fst snd] in W1. cbv zeta in W1. specialize (W1 ltac:(constructor; [exact E0|constructor])).
  change (all_ 1 d0 0%nat) with (alm (nth 0 d0 0)) in W1. rewrite W0 in W1. replace (INR 1) with 1 in W1 by reflexivity. specialize (W1 ltac:(lra)).
  destruct W1 as [W1 P1]. replace (1 - (3 / 5 - 6 / 5 * 1 + 0)) with (8 / 5) in W1 by lra. destruct p2_bounds as [X1 X2]. set (x := exp (- (ln 2 * (8 / 5)))) in *. 
  destruct (al_edge 2 d1 A1 B1) as [_ [_ [E1 _]]]. specialize (E1 P1).
  pose proof (al_weight fuel _ Htr 2%nat ltac:(cbn; lia)) as W2. cbn [firstn] in W2. unfold edges, answers in W2. cbn [length seq combine map rsum nth fst snd] in W2. cbv zeta in W2. specialize (W2 ltac:(constructor; [exact E0|constructor; [exact E1|constructor]])).
  change (all_ 1 d0 0%nat) with (alm (nth 0 d0 0)) in W2. change (all_ 2 d1 0%nat) with (alm (nth 0 d1 0)) in W2. rewrite W0, W1 in W2. replace (INR 2) with 2 in W2 by (simpl; lra). specialize (W2 ltac:(lra)).
  destruct W2 as [W2 P2]. destruct (al_edge 3 d2 A2 B2) as [_ [_ [E2 _]]]. specialize (E2 P2).
  unfold vote, edges, answers. cbn [length seq combine map rsum fst snd].
  change (edge_of aly d0 (fun i => all_ 1 d0 i)) with (edge_of aly d0 (all_ 1 d0)). change (edge_of aly d1 (fun i => all_ 2 d1 i)) with (edge_of aly d1 (all_ 2 d1)). change (edge_of aly d2 (fun i => all_ 3 d2 i)) with (edge_of aly d2 (all_ 3 d2)).
  rewrite E0, E1, E2, al_alpha.
  change (all_ 1 d0 0%nat) with (alm (nth 0 d0 0)). change (all_ 2 d1 0%nat) with (alm (nth 0 d1 0)). change (all_ 3 d2 0%nat) with (alm (nth 0 d2 0)). rewrite W0, W1, W2.
  assert (L2 : 0 < ln 2) by (rewrite <- ln_1; apply ln_increasing; lra).
  set (z := exp (- (ln 2 * (2 - (3 / 5 - 6 / 5 * 1 + (3 / 5 - 6 / 5 * x + 0)))))).
  assert (Z : 18 / 100 <= z). { eapply Rle_trans; [exact X2|]. unfold z. destruct (Req_dec x (1 / 3)) as [->|N]; [right; f_equal; lra|]. left. apply exp_increasing. nra. }
  unfold sign_label. destruct (Rle_dec 0 _) as [Q|Q]; [exfalso; nra|cbn; lra].
Qed.

Lemma ada_small_last {H} (conf : H -> nat -> R) produce y M t s1 tr1 : AInv conf produce y M t s1 tr1 ->
  tr1 <> [] -> edge_of y (last tr1 []) (conf (produce (length tr1) (last tr1 []))) < 1.
Proof.
  intros HI. pose proof HI as [_ [_ [_ [_ [_ [_ [_ [Hsm _]]]]]]]]. intros Hne. destruct tr1 as [|d1 tr1 _] using rev_ind; [congruence|]. rewrite last_last, app_length. cbn [length]. rewrite Nat.add_1_r.
  rewrite edges_app in Hsm. apply Forall_app in Hsm. destruct Hsm as [_ Hsm]. apply Forall_inv in Hsm. unfold small in Hsm. lra.
Qed.

(** ** C09: a round whose hypothesis has edge at least 1 ends the run, and the run returns that hypothesis *)
Lemma P_C09_adaboost_perfect_run :
  forall (H : Type) (conf : H -> nat -> R) (produce : nat -> list R -> H) (y : list R) (s : ada) (fuel k : nat) tr,
  trace_of (run (adaboost conf produce y) fuel s) = tr -> (k < length tr)%nat -> 1 <= nth k (edges conf produce y tr) 0 ->
  length tr = S k /\ exists h, nth_error (answers produce tr) k = Some h /\
  run (adaboost conf produce y) fuel s = Finished tr (mkWM [1] [h]).
Proof.
  intros H conf produce y s fuel k tr Htr Hk He.
  assert (L : length tr = S k) by (apply (P_C09_adaboost_stops_at_perfect_hypothesis H conf produce y s fuel k tr Htr Hk); rewrite Rabs_pos_eq; lra).
  split; [exact L|]. destruct tr as [|d tr _] using rev_ind; [cbn in Hk; lia|]. rewrite app_length in L. cbn [length] in L. assert (k = length tr) by lia. subst k.
  exists (produce (S (length tr)) d). split.
  { rewrite answers_app, nth_error_app2, answers_length, Nat.sub_diag by (rewrite answers_length; lia). reflexivity. }
  rewrite edges_app, app_nth2, edges_length, Nat.sub_diag in He by (rewrite edges_length; lia). cbn [nth] in He.
  assert (F : match run (adaboost conf produce y) fuel s with
    | Finished tr' f => 1 <= edge_of y (last tr' []) (conf (produce (length tr') (last tr' []))) -> tr' <> [] -> f = mkWM [1] [produce (length tr') (last tr' [])]
    | Crashed tr' p => tr' <> [] -> edge_of y (last tr' []) (conf (produce (length tr') (last tr' []))) < 1
    | Unfinished tr' => tr' <> [] -> edge_of y (last tr' []) (conf (produce (length tr') (last tr' []))) < 1 end).
  { refine (run_reach (adaboost conf produce y) s (fun t s1 tr1 => AInv conf produce y (ada_limit y s) t s1 tr1) (fun o => match o with
    | Finished tr' f => 1 <= edge_of y (last tr' []) (conf (produce (length tr') (last tr' []))) -> tr' <> [] -> f = mkWM [1] [produce (length tr') (last tr' [])]
    | Crashed tr' p => tr' <> [] -> edge_of y (last tr' []) (conf (produce (length tr') (last tr' []))) < 1
    | Unfinished tr' => tr' <> [] -> edge_of y (last tr' []) (conf (produce (length tr') (last tr' []))) < 1 end) _ _ _ _ fuel).
    - intros s1 E. apply ada_pre_inv. exact E.
    - intros t s1 tr1 _ HI. pose proof (ada_small_last conf produce y _ _ _ _ HI) as Sm.
      destruct (ada_boost_step conf produce y _ _ _ _ HI) as [[HL E]|[[HL [Hed [Hs [s2 [E [Ew Eh]]]]]]|[HL [Hs [s2 [E HI']]]]]]; simpl b_boost; rewrite E; [| |exact HI'].
      + rewrite app_nil_r. simpl b_post. destruct (ada_post s1); [intros G Hne; exfalso; specialize (Sm Hne); lra|exact Sm].
      + assert (Et : t = S (length tr1)) by apply HI. simpl b_post. unfold ada_post. rewrite Ew, Eh, Et in *. rewrite last_last, app_length. cbn [length]. rewrite Nat.add_1_r.
        unfold rsignum. destruct (Rle_dec 0 (edge_of y (a_dist s1) (conf (produce (S (length tr1)) (a_dist s1))))) as [P|P].
        * rewrite Rltb_false by exact P. rewrite from_slices_single. reflexivity.
        * rewrite Rltb_true by lra. rewrite from_slices_single_neg. intros _. lra.
    - intros t s1 tr1 _ HI. apply (ada_small_last conf produce y _ _ _ _ HI).
    - intros p _ Hne. congruence. }
  destruct (run (adaboost conf produce y) fuel s) as [tr' f|tr' p|tr']; cbn in Htr; subst tr'; rewrite last_last, app_length in F; cbn [length] in F; rewrite Nat.add_1_r in F.
  - f_equal. apply F; [exact He|destruct tr; discriminate].
  - specialize (F ltac:(destruct tr; discriminate)). lra.
  - specialize (F ltac:(destruct tr; discriminate)). lra.
Qed.
