(** AdaBoost in binary64: the weight of a hypothesis, the invariant of a run *)
From Coq Require Import ZArith List Bool Reals Lia Lra Psatz Permutation Sorting.
From Flocq Require Import Core.Core IEEE754.BinarySingleNaN Relative Plus_error.
From Verif Require AdaBoostProofs.
From Verif Require Import Base SortLib Float FloatSpec FloatProofs FloatFacts FloatCheckFacts FloatProject FloatProjectSpec FloatProjectProofs ExpBounds FloatEdge FloatEdgeSpec FloatEdgeFacts FloatAda FloatAdaSpec FloatAdaProofs FloatAdaStep.
Import ListNotations.
Open Scope R_scope.

Lemma ln_near k : Rabs k <= / 2 -> Rabs (ln (1 + k)) <= 2 * Rabs k.
Proof.
  intros H. assert (B := H). apply Rabs_le_inv in B. apply Rabs_le. split.
  - assert (L : ln (/ (1 + k)) <= / (1 + k) - 1) by (apply ln_le_sub, Rinv_0_lt_compat; lra). rewrite ln_Rinv in L by lra.
    assert (Q : / (1 + k) - 1 <= 2 * Rabs k). { replace (/ (1 + k) - 1) with (- k / (1 + k)) by (field; lra). unfold Rdiv. apply Rle_trans with (Rabs k * / (1 + k)).
      - apply Rmult_le_compat_r; [left; apply Rinv_0_lt_compat; lra|]. rewrite <- Rabs_Ropp. apply RRle_abs.
      - rewrite Rmult_comm. apply Rmult_le_compat_r; [apply Rabs_pos|]. rewrite <- (Rinv_inv 2). apply Rinv_le_contravar; lra. }
    lra.
  - eapply Rle_trans; [apply ln_le_sub; lra|]. pose proof (RRle_abs k). pose proof (Rabs_pos k). lra.
Qed.

Lemma bigp a : a <= 2 ^ 40 -> a <= 2 ^ 1000.
Proof. intros H. eapply Rle_trans; [exact H|]. apply Rle_pow; [lra|lia]. Qed.

Section Platform.
  Variables (fexp fln : f64 -> f64).
  Hypothesis Hexp : precise_exp fexp.
  Hypothesis Hln : precise_ln fln.

  Lemma ulp_facts : 0 < / 2 ^ 53 <= / 10 ^ 15. Proof. split; [apply Rinv_0_lt_compat, pow_lt; lra|simpl; lra]. Qed.

  (** ** the weight of a hypothesis *)
  Lemma ratio_ok (e : f64) : fin e -> Rabs (val e) <= 1 - / 2 ^ 10 -> let Q := fdiv (fadd f1 e) (fsub f1 e) in
    fin Q /\ exists k, Rabs k <= 6 * / 2 ^ 53 /\ val Q = (1 + val e) / (1 - val e) * (1 + k).
  Proof.
    intros Fe Be. cbv zeta. destruct f1_spec as [F1 V1]. pose proof ulp_facts as UF. pose proof uu53 as U53. apply Rabs_le_inv in Be. set (x := val e) in *.
    assert (S10 : / 2 ^ 10 = / 1024) by (simpl; lra). rewrite S10 in Be.
    destruct (fadd_rnd f1 e F1 Fe) as [Fa [_ [e1 [He1 E1]]]]; [rewrite V1; fold x; apply bigp; rewrite Rabs_pos_eq by lra; simpl; lra|].
    destruct (fsub_rnd f1 e F1 Fe) as [Fb [_ [e2 [He2 E2]]]]; [rewrite V1; fold x; apply bigp; rewrite Rabs_pos_eq by lra; simpl; lra|].
    rewrite V1 in E1, E2. fold x in E1, E2. set (A := fadd f1 e) in *. set (B := fsub f1 e) in *. rewrite U53 in He1, He2. assert (He1' := He1). assert (He2' := He2). apply Rabs_le_inv in He1'. apply Rabs_le_inv in He2'.
    set (u := / 2 ^ 53) in *.
    assert (PA : 0 < val A) by (rewrite E1; apply Rmult_lt_0_compat; lra). assert (PB : 0 < val B) by (rewrite E2; apply Rmult_lt_0_compat; lra).
    assert (R : val A / val B = (1 + x) / (1 - x) * ((1 + e1) / (1 + e2))) by (rewrite E1, E2; field; split; lra).
    assert (R0 : / 2048 <= (1 + x) / (1 - x) <= 2048). { split; [apply Rle_div_iff; lra|apply Rdiv_le_iff; lra]. }
    assert (K1 : exists k1, Rabs k1 <= 3 * u /\ (1 + e1) / (1 + e2) = 1 + k1).
    { exists ((e1 - e2) / (1 + e2)). split; [|field; lra]. unfold Rdiv. rewrite Rabs_mult, (Rabs_pos_eq (/ (1 + e2))) by (left; apply Rinv_0_lt_compat; lra).
      assert (Rabs (e1 - e2) <= 2 * u) by (apply Rabs_le; lra). assert (/ (1 + e2) <= 3 / 2). { rewrite <- (Rinv_inv (3 / 2)). apply Rinv_le_contravar; [lra|]. lra. }
      apply Rle_trans with (2 * u * (3 / 2)); [apply Rmult_le_compat; [apply Rabs_pos|left; apply Rinv_0_lt_compat; lra|assumption|assumption]|lra]. }
    destruct K1 as [k1 [Hk1 Ek1]]. rewrite Ek1 in R. assert (Hk1' := Hk1). apply Rabs_le_inv in Hk1'. set (r := (1 + x) / (1 - x)) in *.
    assert (RB : Rabs (val A / val B) < 2 ^ 1023). { rewrite R. apply Rle_lt_trans with 4096; [rewrite Rabs_pos_eq; nra|]. apply Rlt_le_trans with (2 ^ 13); [simpl; lra|apply Rle_pow; [lra|lia]]. }
    destruct (fdiv_spec A B Fa ltac:(lra) RB) as [Fq Vq]. split; [exact Fq|]. destruct (err_mult (val A / val B)) as [e3 [h [He3 [Hh E3]]]]. fold eta0 in Hh. rewrite Vq, E3, R.
    fold uu in He3. rewrite U53 in He3. fold u in He3. exists (k1 + e3 + k1 * e3 + h / r). split; [|field; lra].
    assert (Hr : Rabs (h / r) <= u). { unfold Rdiv. rewrite Rabs_mult, (Rabs_pos_eq (/ r)) by (left; apply Rinv_0_lt_compat; lra). pose proof eta0_small. apply Rle_trans with (/ 2 ^ 100 * 2048).
      - apply Rmult_le_compat; [apply Rabs_pos|left; apply Rinv_0_lt_compat; lra|lra|]. rewrite <- (Rinv_inv 2048). apply Rinv_le_contravar; lra.
      - unfold u. simpl. lra. }
    assert (He3' := He3). apply Rabs_le_inv in He3'. apply Rabs_le_inv in Hr. assert (- u <= k1 * e3 <= u) by (split; nra). apply Rabs_le. lra.
  Qed.

  Lemma weight_ok (e : f64) : fin e -> Rabs (val e) <= 1 - / 2 ^ 10 ->
    fin (f_ada_weight fln e) /\ Rabs (val (f_ada_weight fln e) - ln ((1 + val e) / (1 - val e)) / 2) <= / 2 ^ 46 /\ Rabs (val (f_ada_weight fln e)) <= 8.
  Proof.
    intros Fe Be. unfold f_ada_weight. destruct (ratio_ok e Fe Be) as [FQ [k [Hk EQ]]]. set (Q := fdiv (fadd f1 e) (fsub f1 e)) in *. pose proof ulp_facts as UF. pose proof uu53 as U53. pose proof tiny1075 as T75.
    apply Rabs_le_inv in Be. assert (S10 : / 2 ^ 10 = / 1024) by (simpl; lra). rewrite S10 in Be. set (x := val e) in *. set (r := (1 + x) / (1 - x)) in *.
    assert (R0 : / 2048 <= r <= 2048). { unfold r. split; [apply Rle_div_iff; lra|apply Rdiv_le_iff; lra]. }
    assert (L0 : Rabs (ln r) <= 8). { pose proof ln2_upper as L2. assert (L3 : ln 2048 = 11 * ln 2) by (replace 2048 with (2 ^ 11) by (simpl; lra); rewrite ln_pow by lra; simpl (INR 11); lra). apply Rabs_le. split.
      - apply Rle_trans with (ln (/ 2048)); [rewrite ln_Rinv by lra; lra|apply ln_le; lra]. - apply Rle_trans with (ln 2048); [apply ln_le; lra|lra]. }
    assert (Hk' := Hk). apply Rabs_le_inv in Hk'. assert (PQ : 0 < val Q) by (rewrite EQ; apply Rmult_lt_0_compat; lra).
    destruct (Hln Q FQ PQ) as [FL [_ EL]]. assert (LQ : ln (val Q) = ln r + ln (1 + k)) by (rewrite EQ; apply ln_mult; lra).
    assert (LK : Rabs (ln (1 + k)) <= 12 * / 2 ^ 53) by (eapply Rle_trans; [apply ln_near; apply Rabs_le; lra|]; lra).
    assert (BLQ : Rabs (ln (val Q)) <= 9) by (rewrite LQ; eapply Rle_trans; [apply Rabs_triang|]; lra).
    assert (S52 : / 2 ^ 52 = 2 * / 2 ^ 53) by (simpl; lra). assert (S100 : / 2 ^ 100 <= / 2 ^ 53) by (simpl; lra). set (u := / 2 ^ 53) in *. rewrite S52 in EL.
    assert (EL' : Rabs (val (fln Q) - ln r) <= 31 * u). { replace (val (fln Q) - ln r) with ((val (fln Q) - ln (val Q)) + ln (1 + k)) by (rewrite LQ; ring). eapply Rle_trans; [apply Rabs_triang|]. assert (2 * u * Rabs (ln (val Q)) <= 2 * u * 9) by (apply Rmult_le_compat_l; lra). lra. }
    destruct (of_usize_spec 2) as [F2 V2]; [simpl; lra|]. change (INR 2) with (1 + 1) in V2. replace (1 + 1) with 2 in V2 by ring.
    assert (BL : Rabs (val (fln Q)) <= 9) by (apply Rabs_le; apply Rabs_le_inv in EL'; apply Rabs_le_inv in L0; lra).
    assert (BD : Rabs (val (fln Q) / val (f_of_usize 2)) <= 9 / 2) by (rewrite V2; unfold Rdiv; rewrite Rabs_mult, (Rabs_pos_eq (/ 2)) by lra; lra).
    destruct (fdiv_spec (fln Q) (f_of_usize 2) FL ltac:(lra)) as [FW VW]; [eapply Rle_lt_trans; [exact BD|]; apply Rlt_le_trans with (2 ^ 4); [simpl; lra|apply Rle_pow; [lra|lia]]|].
    split; [exact FW|]. destruct (err_mult (val (fln Q) / val (f_of_usize 2))) as [e3 [h [He3 [Hh E3]]]]. fold eta0 in Hh. fold uu in He3. rewrite U53 in He3. pose proof eta0_small as E0. rewrite VW, E3, V2. rewrite V2 in BD.
    set (m := val (fln Q)) in *. assert (C1 : Rabs (m / 2 * (1 + e3) + h - ln r / 2) <= 25 * u).
    { replace (m / 2 * (1 + e3) + h - ln r / 2) with ((m - ln r) / 2 + (m / 2) * e3 + h) by field. eapply Rle_trans; [apply Rabs_triang|]. assert (Rabs ((m - ln r) / 2 + m / 2 * e3) <= 31 / 2 * u + 9 / 2 * u).
      - eapply Rle_trans; [apply Rabs_triang|]. apply Rplus_le_compat; [unfold Rdiv; rewrite Rabs_mult, (Rabs_pos_eq (/ 2)) by lra; lra|]. rewrite Rabs_mult. apply Rmult_le_compat; try apply Rabs_pos; assumption.
      - lra. }
    split; [eapply Rle_trans; [exact C1|]; unfold u; simpl; lra|]. apply Rabs_le_inv in C1. apply Rabs_le_inv in L0. apply Rabs_le. lra.
  Qed.

  (** ** the margins and the edge *)
  Variables (y : list f64).
  Local Notation n := (length y).
  Hypothesis Ly : forall x, In x y -> f_label x.
  Hypothesis N1 : (1 <= n)%nat.
  Hypothesis Hn : INR n <= 2 ^ 16.

  Lemma margin_nth conf i : length conf = n -> bounded_conf conf -> (i < n)%nat ->
    fin (nth i (f_margins y conf) f0) /\ val (nth i (f_margins y conf) f0) = val (nth i y f0) * val (nth i conf f0) /\ Rabs (val (nth i (f_margins y conf) f0)) <= 1.
  Proof.
    intros Lc Bc Hi. unfold f_margins, f_products. rewrite nth_indep with (d' := (fun q => fmul (fst q) (snd q)) (f0, f0)) by (rewrite map_length, combine_length, Lc; unfold f64 in *; lia).
    pose proof (map_nth (fun q => fmul (fst q) (snd q)) (combine y conf) (f0, f0) i) as E. rewrite combine_nth in E by (symmetry; exact Lc). cbn [fst snd] in E.
    destruct (Ly (nth i y f0)) as [Fy Vy]; [apply nth_In, Hi|]. destruct (Bc (nth i conf f0)) as [Fc Vc]; [apply nth_In; rewrite Lc; exact Hi|].
    assert (FM : generic_format radix2 (SpecFloat.fexp 53 1024) (val (nth i y f0) * val (nth i conf f0))). { destruct Vy as [-> | ->]; [rewrite Rmult_1_l; apply format_val|]. replace (-1 * val (nth i conf f0)) with (- val (nth i conf f0)) by ring. apply generic_format_opp, format_val. }
    assert (BM : Rabs (val (nth i y f0) * val (nth i conf f0)) <= 1). { rewrite Rabs_mult. destruct Vy as [-> | ->]; [rewrite Rabs_R1|rewrite Rabs_left by lra]; lra. }
    destruct (fmul_exact _ _ Fy Fc FM) as [F V]; [eapply Rle_lt_trans; [exact BM|]; apply Rlt_pow_R1; [lra|lia]|].
    match goal with |- fin ?a /\ _ => change a with (nth i (map (fun q => fmul (fst q) (snd q)) (combine y conf)) (fmul f0 f0)) end.
    assert (E' : nth i (map (fun q : f64 * f64 => fmul (fst q) (snd q)) (combine y conf)) (fmul f0 f0) = fmul (nth i y f0) (nth i conf f0)) by exact E.
    rewrite E'. split; [exact F|]. split; [exact V|]. rewrite V. exact BM.
  Qed.
  Lemma margins_len conf : length conf = n -> length (f_margins y conf) = n.
  Proof. intros L. unfold f_margins, f_products. rewrite map_length, combine_length, L. lia. Qed.

  (** the invariant of the run *)
  Definition inv (d : list f64) : Prop := length d = n /\ (forall c, In c d -> fin c /\ / 2 ^ 1074 <= val c <= 1) /\ Rabs (total d - 1) <= / 2 ^ 21.

  Lemma dot_nth' p d : length p = n -> length d = n -> dot_exact p d = rsum (map (fun j => val (nth j d f0) * val (nth j p f0)) (seq 0 n)).
  Proof.
    intros Lp Ld. unfold dot_exact. assert (E : combine p d = map (fun j => (nth j p f0, nth j d f0)) (seq 0 n)).
    { apply nth_ext with (d := (f0, f0)) (d' := (nth 0 p f0, nth 0 d f0)); [rewrite combine_length, map_length, seq_length, Lp, Ld; lia|]. intros i Hi. rewrite combine_length, Lp, Ld, Nat.min_id in Hi.
      rewrite combine_nth by congruence. etransitivity; [|symmetry; apply (map_nth (fun j => (nth j p f0, nth j d f0)) (seq 0 n) 0%nat i)]. rewrite seq_nth by exact Hi. reflexivity. }
    rewrite E, map_map. apply rsum_map_ext. intros j _. cbn [fst snd]. ring.
  Qed.

  Lemma edge_ok d conf e : inv d -> length conf = n -> bounded_conf conf -> f_edge y conf d e ->
    fin e /\ Rabs (val e - rsum (map (fun j => val (nth j d f0) * val (nth j (f_margins y conf) f0)) (seq 0 n))) <= / 2 ^ 34.
  Proof.
    intros [Ld [Fd Sd]] Lc Bc [t [Et Ee]]. subst e. rewrite <- (dot_nth' _ d (margins_len conf Lc) Ld).
    assert (FM : forall m, In m (f_margins y conf) -> fin m /\ Rabs (val m) <= 1). { intros m Hm. apply In_nth with (d := f0) in Hm. destruct Hm as [i [Hi <-]]. rewrite (margins_len conf Lc) in Hi. destruct (margin_nth conf i Lc Bc Hi) as [F [_ B]]. split; assumption. }
    destruct (P_C77_edge_error (f_margins y conf) d t Et) as [F E].
    - rewrite (margins_len conf Lc), Ld. reflexivity.
    - intros m Hm. apply FM, Hm.
    - intros c Hc. apply Fd, Hc.
    - rewrite (margins_len conf Lc). unfold few. eapply Rle_trans; [exact Hn|apply Rle_pow; [lra|lia]].
    - intros m Hm. apply FM, Hm.
    - intros c Hc. destruct (Fd c Hc) as [_ [Q _]]. assert (0 < / 2 ^ 1074) by (apply Rinv_0_lt_compat, pow_lt; lra). lra.
    - apply Rabs_le_inv in Sd. assert (/ 2 ^ 21 <= 1) by (simpl; lra). lra.
    - split; [exact F|]. eapply Rle_trans; [exact E|]. rewrite (margins_len conf Lc). unfold Rdiv. apply Rle_trans with (2 ^ 16 * / 2 ^ 50); [apply Rmult_le_compat_r; [left; apply Rinv_0_lt_compat, pow_lt; lra|exact Hn]|simpl; lra].
  Qed.

  Lemma total_seq d : length d = n -> total d = rsum (map (fun j => val (nth j d f0)) (seq 0 n)).
  Proof. intros L. unfold total. rewrite <- (map_nth_seq f0 d) at 1. rewrite map_map, L. reflexivity. Qed.

  (** the pure real computation *)
  Lemma ratio_real S e' x s h : Rabs x <= 1 - / 2 ^ 10 -> Rabs (S - 1) <= / 2 ^ 21 -> Rabs (x - e') <= / 2 ^ 34 -> exp (2 * s) <= (1 + x) / (1 - x) * (1 + / 2 ^ 40) ->
    h <= (S + e') / 2 + (S - e') / 2 * exp (2 * s) -> h <= 2 - / 2 ^ 12.
  Proof.
    intros Bx BS Be Ex Hh. apply Rabs_le_inv in Bx. apply Rabs_le_inv in BS. apply Rabs_le_inv in Be.
    assert (C1 : / 2 ^ 10 = / 1024) by (simpl; lra). assert (C2 : / 2 ^ 21 = / 2097152) by (simpl; lra). assert (C3 : / 2 ^ 34 = / 17179869184) by (simpl; lra). assert (C4 : / 2 ^ 40 = / 1099511627776) by (simpl; lra). assert (C5 : / 2 ^ 12 = / 4096) by (simpl; lra).
    rewrite C1 in Bx. rewrite C2 in BS. rewrite C3 in Be. rewrite C4 in Ex. rewrite C5. clear C1 C2 C3 C4 C5.
    set (eta := / 2097152 + / 17179869184). assert (Q : S - e' <= (1 - x) + eta) by (unfold eta; lra).
    assert (P : 0 < exp (2 * s)) by apply exp_pos.
    assert (H1 : (S - e') * exp (2 * s) <= ((1 - x) + eta) * ((1 + x) / (1 - x) * (1 + / 1099511627776))).
    { apply Rle_trans with (((1 - x) + eta) * exp (2 * s)); [apply Rmult_le_compat_r; lra|]. apply Rmult_le_compat_l; [unfold eta; lra|exact Ex]. }
    replace (((1 - x) + eta) * ((1 + x) / (1 - x) * (1 + / 1099511627776))) with ((1 + x) * (1 + / 1099511627776) * (1 + eta * / (1 - x))) in H1 by (field; lra).
    assert (I : 0 < / (1 - x) <= 1024). { split; [apply Rinv_0_lt_compat; lra|]. rewrite <- (Rinv_inv 1024). apply Rinv_le_contravar; lra. }
    assert (H2 : 1 + eta * / (1 - x) <= 1 + eta * 1024) by (apply Rplus_le_compat_l, Rmult_le_compat_l; [unfold eta; lra|lra]).
    assert (H3 : (1 + x) * (1 + / 1099511627776) * (1 + eta * / (1 - x)) <= (1 + x) * (1 + / 1099511627776) * (1 + eta * 1024)) by (apply Rmult_le_compat_l; [apply Rmult_le_pos; lra|exact H2]).
    unfold eta in *. nra.
  Qed.

  (** a weight is at least (1/2 + 2^-14) of its old value *)
  Lemma keeps_half d conf e : inv d -> length conf = n -> bounded_conf conf -> f_edge y conf d e -> Rabs (val e) <= 1 - / 2 ^ 10 ->
    let al := val (f_ada_weight fln e) in
    forall i, (i < n)%nat -> exp (- (al * val (nth i (f_margins y conf) f0))) / rsum (map (fun j => val (nth j d f0) * exp (- (al * val (nth j (f_margins y conf) f0)))) (seq 0 n)) >= / (2 - / 2 ^ 12).
  Proof.
    intros Iv Lc Bc Ed Be al i Hi. destruct (edge_ok d conf e Iv Lc Bc Ed) as [Fe Ee]. destruct (weight_ok e Fe Be) as [Fw [Ew Bw]]. fold al in Ew, Bw. destruct Iv as [Ld [Fd Sd]]. rewrite (total_seq d Ld) in Sd.
    set (pj := fun j => val (nth j (f_margins y conf) f0)). set (dj := fun j => val (nth j d f0)).
    assert (Pb : forall j, (j < n)%nat -> -1 <= pj j <= 1). { intros j Hj. destruct (margin_nth conf j Lc Bc Hj) as [_ [_ B]]. apply Rabs_le_inv in B. exact B. }
    assert (Dp : forall j, (j < n)%nat -> 0 < dj j). { intros j Hj. destruct (Fd (nth j d f0)) as [_ [B _]]; [apply nth_In; rewrite Ld; exact Hj|]. assert (0 < / 2 ^ 1074) by (apply Rinv_0_lt_compat, pow_lt; lra). unfold dj. lra. }
    change (exp (- (al * pj i)) / rsum (map (fun j => dj j * exp (- (al * pj j))) (seq 0 n)) >= / (2 - / 2 ^ 12)).
    change (Rabs (val e - rsum (map (fun j => dj j * pj j) (seq 0 n))) <= / 2 ^ 34) in Ee. change (Rabs (rsum (map dj (seq 0 n)) - 1) <= / 2 ^ 21) in Sd.
    set (Z := rsum (map (fun j => dj j * exp (- (al * pj j))) (seq 0 n))). set (S := rsum (map dj (seq 0 n))) in *. set (ee := rsum (map (fun j => dj j * pj j) (seq 0 n))) in *.
    (* the sign of the weight *)
    assert (SG : exists sg, (sg = 1 \/ sg = -1) /\ sg * al = Rabs al). { unfold Rabs. destruct (Rcase_abs al); [exists (-1)|exists 1]; (split; [auto|lra]). }
    destruct SG as [sg [Hsg Esg]]. set (s := Rabs al) in *. assert (S0 : 0 <= s) by apply Rabs_pos. assert (Eal : al = sg * s) by (rewrite <- Esg; destruct Hsg as [-> | ->]; ring).
    assert (LowE : exp (- s) <= exp (- (al * pj i))). { apply exp_le_exp. specialize (Pb i Hi). rewrite Eal. destruct Hsg as [-> | ->]; nra. }
    assert (UpZ : Z <= (S + sg * ee) / 2 * exp (- s) + (S - sg * ee) / 2 * exp s).
    { replace ((S + sg * ee) / 2 * exp (- s) + (S - sg * ee) / 2 * exp s) with (rsum (map (fun j => dj j * ((1 + sg * pj j) / 2 * exp (- s) + (1 - sg * pj j) / 2 * exp s)) (seq 0 n))).
      - unfold Z. apply rsum_map_le. intros j Hj. apply in_seq in Hj. assert (Hj' : (j < n)%nat) by lia. apply Rmult_le_compat_l; [left; apply Dp, Hj'|].
        replace (- (al * pj j)) with (- s * (sg * pj j)) by (rewrite Eal; ring). apply AdaBoostProofs.exp_convex. specialize (Pb j Hj'). destruct Hsg as [-> | ->]; lra.
      - rewrite (rsum_map_ext _ (fun j => (exp (- s) / 2 + exp s / 2) * dj j + (sg * (exp (- s) / 2 - exp s / 2)) * (dj j * pj j))) by (intros; field).
        rewrite rsum_map_plus, !rsum_map_mult. fold S ee. field. }
    assert (ZP : 0 < Z). { unfold Z. destruct n as [|k] eqn:En; [lia|]. cbn [seq map rsum]. match goal with |- 0 < ?a + ?b => assert (0 < a); [|assert (0 <= b)] end; [apply Rmult_lt_0_compat; [apply Dp; lia|apply exp_pos]| |lra].
      apply rsum_nonneg. intros z Hz. apply in_map_iff in Hz. destruct Hz as [j [<- Hj]]. apply in_seq in Hj. left. apply Rmult_lt_0_compat; [apply Dp; lia|apply exp_pos]. }
    assert (H2 : exp s * Z <= 2 - / 2 ^ 12).
    { apply (ratio_real S (sg * ee) (sg * val e) s).
      - rewrite Rabs_mult. destruct Hsg as [-> | ->]; [rewrite Rabs_R1|rewrite (Rabs_left (-1)) by lra]; lra.
      - exact Sd.
      - replace (sg * val e - sg * ee) with (sg * (val e - ee)) by ring. rewrite Rabs_mult. destruct Hsg as [-> | ->]; [rewrite Rabs_R1|rewrite (Rabs_left (-1)) by lra]; lra.
      - assert (Be' := Be). apply Rabs_le_inv in Be'. assert (C10 : 0 < / 2 ^ 10) by (apply Rinv_0_lt_compat, pow_lt; lra). set (x := val e) in *.
        assert (R0 : 0 < (1 + x) / (1 - x)) by (apply Rdiv_lt_0_compat; lra).
        assert (Q : 2 * s <= sg * ln ((1 + x) / (1 - x)) + / 2 ^ 45). { rewrite <- Esg. apply Rabs_le_inv in Ew. assert (/ 2 ^ 45 = 2 * / 2 ^ 46) by (simpl; lra). destruct Hsg as [-> | ->]; lra. }
        apply Rle_trans with (exp (sg * ln ((1 + x) / (1 - x)) + / 2 ^ 45)); [apply exp_le_exp, Q|]. rewrite exp_plus.
        assert (E1 : exp (sg * ln ((1 + x) / (1 - x))) = (1 + sg * x) / (1 - sg * x)). { destruct Hsg as [-> | ->]; [rewrite Rmult_1_l, exp_ln by exact R0; f_equal; [|f_equal]; ring|]. replace (-1 * ln ((1 + x) / (1 - x))) with (- ln ((1 + x) / (1 - x))) by ring. rewrite exp_Ropp, exp_ln by exact R0. field. split; lra. }
        rewrite E1. apply Rmult_le_compat_l; [rewrite <- E1; left; apply exp_pos|]. assert (T : 0 < / 2 ^ 45 <= / 4) by (split; [apply Rinv_0_lt_compat, pow_lt; lra|simpl; lra]).
        pose proof (exp_bounds (/ 2 ^ 45)) as EB. rewrite Rabs_pos_eq in EB by lra. specialize (EB ltac:(lra)). assert (2 * / 2 ^ 45 <= / 2 ^ 40) by (simpl; lra). lra.
      - apply (Rmult_le_compat_l (exp s)) in UpZ; [|left; apply exp_pos]. eapply Rle_trans; [exact UpZ|]. right. rewrite Rmult_plus_distr_l. f_equal.
        + replace (exp s * ((S + sg * ee) / 2 * exp (- s))) with ((S + sg * ee) / 2 * (exp s * exp (- s))) by ring. rewrite <- exp_plus, Rplus_opp_r, exp_0. ring.
        + replace (2 * s) with (s + s) by ring. rewrite exp_plus. ring. }
    apply Rle_ge. apply Rle_trans with (exp (- s) / Z); [|unfold Rdiv; apply Rmult_le_compat_r; [left; apply Rinv_0_lt_compat, ZP|exact LowE]].
    rewrite exp_Ropp. unfold Rdiv. rewrite <- Rinv_mult. apply Rinv_le_contravar; [apply Rmult_lt_0_compat; [apply exp_pos|exact ZP]|exact H2].
  Qed.
End Platform.
