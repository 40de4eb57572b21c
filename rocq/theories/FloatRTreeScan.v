(** The scan over the packed bins of one feature in binary64: the chosen boundary is nearly the best one. *)
From Coq Require Import ZArith List Bool Reals Lia Lra Psatz Permutation String.
From Flocq Require Import Core.Core IEEE754.BinarySingleNaN Relative Plus_error Mult_error.
From Verif Require Import Base Feature FeatureFacts Sample SampleSpec SampleFacts Bins BinsSpec BinsProofs BinsFacts DTree TreeSpec TreeShape DTreeProofs DTreeOut DTreeSplit DTreeGrow RTree RTreeSpec RTreeProofs Float FloatSpec FloatProofs FloatFacts FloatCheckFacts FloatProjectProofs FloatEdgeFacts FloatMadaProofs FloatTree FloatTreeSpec FloatPackProofs FloatGrowProofs FloatGrowthProofs FloatBestProofs FloatBestFeature FloatBestGrow FloatRTree FloatRTreeSpec FloatRTreeNum FloatRTreeTerm.
Import ListNotations.
Open Scope R_scope.
Local Notation rtotal := TreeSpec.total.

Lemma f_MIN_spec : fin f_MIN /\ val f_MIN <= - 2 ^ 1000.
Proof.
  assert (F : is_finite f_MIN = true) by (vm_compute; reflexivity). split; [exact F|].
  assert (E : B2SF f_MIN = SpecFloat.S754_finite true 9007199254740991 971) by (vm_compute; reflexivity).
  change (val f_MIN) with (B2R (f_MIN : binary_float 53 1024)). rewrite <- (SF2R_B2SF 53 1024 f_MIN). rewrite E. unfold SF2R, F2R. cbn [Fnum Fexp SpecFloat.cond_Zopp cond_Zopp].
  replace (bpow radix2 971) with (2 ^ 971) by (rewrite <- two_pow; reflexivity). replace 1000%nat with (29 + 971)%nat by reflexivity. rewrite pow_add.
  rewrite opp_IZR. rewrite Ropp_mult_distr_l_reverse. apply Ropp_le_contravar. apply Rmult_le_compat_r; [apply pow_le; lra|]. simpl. lra.
Qed.

Section Loop.
  Variables (B lam : R) (lambda : f64).
  Hypothesis B0 : / 2 ^ 400 <= B <= 2 ^ 400.
  Hypothesis Fl : fin lambda.
  Hypothesis Vl : val lambda = lam.
  Hypothesis L0 : / 2 ^ 20 <= lam <= 2 ^ 100.
  Variables (ge : bin -> R) (ke : bin -> nat) (N : nat).
  Hypothesis N1 : (1 <= N)%nat.
  Hypothesis N16 : INR N <= 2 ^ 16.
  Local Notation pk := (bin * (f64 * f64))%type.
  Definition near_pack (q : pk) : Prop := fin (fst (snd q)) /\ Rabs (val (fst (snd q)) - ge (fst q)) <= / 2 ^ 34 * B * INR (ke (fst q)) /\ cnt (ke (fst q)) (snd (snd q)) /\ Rabs (ge (fst q)) <= B * INR (ke (fst q)).
  Definition gsum (l : list pk) : R := rsum (map (fun q => ge (fst q)) l).
  Definition ksum (l : list pk) : nat := list_sum (map (fun q => ke (fst q)) l).
  Definition b_ : pk := (b0, (f0, f0)).
  Local Notation step := (4 * uu * (B * INR N)).
  Local Notation om := (/ 2 ^ 26 * (INR N * B ^ 2)).
  Definition bscore (gl gr : R) (kl kr : nat) (l : list pk) (k : nat) : R :=
    (gl + gsum (firstn (S k) l)) ^ 2 / (INR (kl + ksum (firstn (S k) l)) + lam) + (gr - gsum (firstn (S k) l)) ^ 2 / (INR (kr - ksum (firstn (S k) l)) + lam).

  Lemma gsum_bound l : (forall q, In q l -> near_pack q) -> Rabs (gsum l) <= B * INR (ksum l).
  Proof.
    induction l as [|q l IH]; intros H; unfold gsum, ksum in *; cbn [map rsum list_sum fold_right]; [simpl; rewrite Rabs_R0; lra|]. destruct (H q (or_introl eq_refl)) as [_ [_ [_ Hq]]].
    assert (Q := IH (fun q' H' => H q' (or_intror H'))). change (fold_right Nat.add 0%nat) with list_sum. rewrite plus_INR, Rmult_plus_distr_l. eapply Rle_trans; [apply Rabs_triang|]. apply Rplus_le_compat; assumption.
  Qed.

  Lemma loop_near l : forall (GL HL GR HR best : f64) (thr gl : R) (kl : nat) (e : R), (forall q, In q l -> near_pack q) -> fin best -> fin GL -> fin GR -> cnt kl HL -> cnt (ksum l) HR ->
    (kl + ksum l = N)%nat -> Rabs gl <= B * INR kl -> Rabs (val GL - gl) <= e -> Rabs (val GR - gsum l) <= e -> 0 <= e -> e + / 2 ^ 34 * B * INR (ksum l) + INR (length l) * step <= / 2 ^ 32 * B * INR N ->
    exists t b, f_score_loop lambda l GL HL GR HR best thr = (t, b) /\ fin b /\ val best <= val b /\ (forall k, (k < length l)%nat -> bscore gl (gsum l) kl (ksum l) l k <= val b + om) /\
      ((t = thr /\ b = best) \/ exists k, (k < length l)%nat /\ t = b_end (fst (nth k l b_)) /\ Rabs (val b - bscore gl (gsum l) kl (ksum l) l k) <= om).
  Proof.
    pose proof (Bp B B0) as Bp. pose proof (lam_pos lam L0) as Lp. pose proof uu_pos as Up. pose proof uu_small as Us. assert (NR : 1 <= INR N) by (change 1 with (INR 1); apply le_INR, N1). assert (BN : 0 < B * INR N) by (apply Rmult_lt_0_compat; lra).
    induction l as [|q l IH]; intros GL HL GR HR best thr gl kl e Hl Fb FGL FGR CL CR Ek Hgl EL ER E0 Ee.
    { exists thr, best. split; [reflexivity|]. split; [exact Fb|]. split; [lra|]. split; [intros k Hk; simpl in Hk; lia|left; split; reflexivity]. }
    destruct q as [b [p1 p2]]. destruct (Hl _ (or_introl eq_refl)) as [F1 [E1 [C2 G1]]]. cbn [fst snd] in F1, E1, C2, G1. assert (Hl' : forall q, In q l -> near_pack q) by (intros q Hq; apply Hl; right; exact Hq).
    pose proof (gsum_bound l Hl') as Gb. change (gsum ((b, (p1, p2)) :: l)) with (ge b + gsum l) in *. change (ksum ((b, (p1, p2)) :: l)) with (ke b + ksum l)%nat in *. change (length ((b, (p1, p2)) :: l)) with (S (length l)) in *.
    rewrite S_INR in Ee. pose proof (pos_INR (ke b)) as Kb0. pose proof (pos_INR (ksum l)) as Kl0. pose proof (pos_INR kl) as Kk0. pose proof (pos_INR (length l)) as Ln0. rewrite plus_INR in Ee.
    assert (EN : INR kl + INR (ke b) + INR (ksum l) = INR N) by (rewrite <- Ek, !plus_INR; ring).
    assert (c34 : 0 < / 2 ^ 34) by (apply Rinv_0_lt_compat, pow_lt; lra). assert (st0 : 0 <= step) by (apply Rmult_le_pos; lra). assert (Ls : 0 <= INR (length l) * step) by (apply Rmult_le_pos; lra).
    assert (T1 : 0 <= / 2 ^ 34 * B * INR (ke b)) by (apply Rmult_le_pos; [apply Rmult_le_pos|]; lra). assert (T2 : 0 <= / 2 ^ 34 * B * INR (ksum l)) by (apply Rmult_le_pos; [apply Rmult_le_pos|]; lra).
    set (e' := e + / 2 ^ 34 * B * INR (ke b) + step).
    assert (c32 : / 2 ^ 32 * B * INR N <= / 4 * (B * INR N)). { rewrite Rmult_assoc. apply Rmult_le_compat_r; [lra|]. simpl; lra. }
    assert (X1 : Rabs (gl + ge b) <= B * INR (kl + ke b)). { rewrite plus_INR, Rmult_plus_distr_l. eapply Rle_trans; [apply Rabs_triang|]. lra. }
    assert (X2 : B * INR (kl + ke b) <= B * INR N) by (apply Rmult_le_compat_l; [lra|]; rewrite plus_INR; lra).
    assert (X3 : B * INR (ksum l) <= B * INR N) by (apply Rmult_le_compat_l; lra).
    assert (Big : 4 * (B * INR N) <= 2 ^ 1000).
    { apply Rle_trans with (4 * (2 ^ 400 * 2 ^ 16)); [apply Rmult_le_compat_l; [lra|]; apply Rmult_le_compat; lra|]. replace (4 * (2 ^ 400 * 2 ^ 16)) with (2 ^ (2 + (400 + 16))) by (rewrite !pow_add; simpl (2 ^ 2); lra). apply Rle_pow; [lra|simpl; lia]. }
    apply Rabs_le_inv in EL. apply Rabs_le_inv in ER. apply Rabs_le_inv in E1. apply Rabs_le_inv in X1. apply Rabs_le_inv in Gb.
    assert (EN2 : INR (kl + (ke b + ksum l)) < 2 ^ 53) by (rewrite Ek; eapply Rle_lt_trans; [exact N16|]; apply Rlt_pow; [lra|lia]).
    (* the four accumulators *)
    assert (S1 : Rabs (val GL + val p1) <= 4 * (B * INR N)) by (apply Rabs_le; split; lra).
    assert (S2 : Rabs (val GR - val p1) <= 4 * (B * INR N)) by (apply Rabs_le; split; lra).
    destruct (fadd_rnd GL p1 FGL F1) as [FL' [_ [d1 [D1 V1]]]]; [eapply Rle_trans; [exact S1|exact Big]|].
    destruct (fsub_rnd GR p1 FGR F1) as [FR' [_ [d2 [D2 V2]]]]; [eapply Rle_trans; [exact S2|exact Big]|].
    assert (CL' : cnt (kl + ke b) (fadd HL p2)) by (apply cnt_add; [exact CL|exact C2|eapply Rle_lt_trans; [|exact EN2]; apply le_INR; lia]).
    assert (CR' : cnt (ksum l) (fsub HR p2)) by (apply (cnt_sub _ (ke b)); [rewrite Nat.add_comm; exact CR|exact C2|eapply Rle_lt_trans; [|exact EN2]; apply le_INR; lia]).
    set (GL' := fadd GL p1) in *. set (GR' := fsub GR p1) in *. set (HL' := fadd HL p2) in *. set (HR' := fsub HR p2) in *.
    assert (Ustep : f_score_loop lambda ((b, (p1, p2)) :: l) GL HL GR HR best thr = if flt best (fadd (f_score_term GL' HL' lambda) (f_score_term GR' HR' lambda)) then f_score_loop lambda l GL' HL' GR' HR' (fadd (f_score_term GL' HL' lambda) (f_score_term GR' HR' lambda)) (b_end b) else f_score_loop lambda l GL' HL' GR' HR' best thr) by reflexivity.
    clearbody GL' GR' HL' HR'.
    assert (R1 : Rabs (d1 * (val GL + val p1)) <= step). { rewrite Rabs_mult. replace step with (uu * (4 * (B * INR N))) by ring. apply Rmult_le_compat; try apply Rabs_pos; assumption. }
    assert (R2 : Rabs (d2 * (val GR - val p1)) <= step). { rewrite Rabs_mult. replace step with (uu * (4 * (B * INR N))) by ring. apply Rmult_le_compat; try apply Rabs_pos; assumption. }
    assert (EL' : Rabs (val GL' - (gl + ge b)) <= e') by (rewrite V1; apply Rabs_le_inv in R1; apply Rabs_le; unfold e'; lra).
    assert (ER' : Rabs (val GR' - gsum l) <= e') by (rewrite V2; apply Rabs_le_inv in R2; apply Rabs_le; unfold e'; lra).
    assert (Ee' : e' + / 2 ^ 34 * B * INR (ksum l) + INR (length l) * step <= / 2 ^ 32 * B * INR N) by (unfold e'; lra). assert (E0' : 0 <= e') by (unfold e'; lra).
    (* the score of this boundary *)
    assert (dl : e' <= / 2 ^ 32 * B * INR N) by lra.
    destruct (term_near B lam lambda B0 Fl Vl L0 GL' HL' (gl + ge b) (kl + ke b) (INR N) FL' CL') as [Ft1 Et1]; [split; assumption|rewrite plus_INR; lra|apply Rabs_le; exact X1|eapply Rle_trans; [exact EL'|exact dl]|].
    destruct (term_near B lam lambda B0 Fl Vl L0 GR' HR' (gsum l) (ksum l) (INR N) FR' CR') as [Ft2 Et2]; [split; assumption|lra|apply Rabs_le; exact Gb|eapply Rle_trans; [exact ER'|exact dl]|].
    set (t1 := f_score_term GL' HL' lambda) in *. set (t2 := f_score_term GR' HR' lambda) in *.
    set (s0 := (gl + ge b) ^ 2 / (INR (kl + ke b) + lam)) in *. set (s1 := gsum l ^ 2 / (INR (ksum l) + lam)) in *.
    assert (NB0 : 0 <= INR N * B ^ 2) by (apply Rmult_le_pos; [lra|apply pow2_ge_0]). assert (E28 : / 2 ^ 28 = / 268435456) by (f_equal; simpl; lra). rewrite E28 in Et1, Et2.
    assert (Hs0 : 0 <= s0 <= INR N * B ^ 2). { unfold s0. pose proof (pos_INR (kl + ke b)) as P. split; [apply Rmult_le_pos; [apply pow2_ge_0|left; apply Rinv_0_lt_compat; lra]|]. apply Rdiv_le_iff; [lra|]. rewrite <- (pow2_abs (gl + ge b)). apply Rle_trans with ((B * INR (kl + ke b)) ^ 2); [apply pow_incr; split; [apply Rabs_pos|apply Rabs_le; exact X1]|].
      replace ((B * INR (kl + ke b)) ^ 2) with (B ^ 2 * (INR (kl + ke b) * INR (kl + ke b))) by ring. replace (INR N * B ^ 2 * (INR (kl + ke b) + lam)) with (B ^ 2 * (INR N * (INR (kl + ke b) + lam))) by ring. apply Rmult_le_compat_l; [apply pow2_ge_0|]. apply Rmult_le_compat; try lra. rewrite plus_INR; lra. }
    assert (Hs1 : 0 <= s1 <= INR N * B ^ 2). { unfold s1. split; [apply Rmult_le_pos; [apply pow2_ge_0|left; apply Rinv_0_lt_compat; lra]|]. apply Rdiv_le_iff; [lra|]. rewrite <- (pow2_abs (gsum l)). apply Rle_trans with ((B * INR (ksum l)) ^ 2); [apply pow_incr; split; [apply Rabs_pos|apply Rabs_le; exact Gb]|].
      replace ((B * INR (ksum l)) ^ 2) with (B ^ 2 * (INR (ksum l) * INR (ksum l))) by ring. replace (INR N * B ^ 2 * (INR (ksum l) + lam)) with (B ^ 2 * (INR N * (INR (ksum l) + lam))) by ring. apply Rmult_le_compat_l; [apply pow2_ge_0|]. apply Rmult_le_compat; lra. }
    assert (NBb : INR N * B ^ 2 <= 2 ^ 816). { replace 816%nat with (16 + 800)%nat by reflexivity. rewrite pow_add. destruct (B2 B B0). apply Rmult_le_compat; try lra. }
    apply Rabs_le_inv in Et1. apply Rabs_le_inv in Et2.
    destruct (fadd_rnd t1 t2 Ft1 Ft2) as [Fs [_ [d3 [D3 V3]]]].
    { apply Rle_trans with (4 * 2 ^ 816); [apply Rabs_le; split; lra|]. replace (4 * 2 ^ 816) with (2 ^ (2 + 816)) by (rewrite pow_add; simpl (2 ^ 2); lra). apply Rle_pow; [lra|simpl; lia]. }
    set (sc := fadd t1 t2) in *. clearbody sc. assert (Esc : Rabs (val sc - (s0 + s1)) <= om).
    { assert (E26 : / 2 ^ 26 = / 67108864) by (f_equal; simpl; lra). rewrite E26. rewrite V3. set (NB := INR N * B ^ 2) in *. assert (R3 : Rabs (d3 * (val t1 + val t2)) <= / 9007199254740992 * (4 * NB)).
      { rewrite Rabs_mult. apply Rmult_le_compat; try apply Rabs_pos; [lra|]. apply Rabs_le; split; lra. }
      apply Rabs_le_inv in R3. apply Rabs_le. split; lra. }
    assert (Fst : bscore gl (ge b + gsum l) kl (ke b + ksum l) ((b, (p1, p2)) :: l) 0 = s0 + s1).
    { unfold bscore, s0, s1. change (gsum (firstn 1 ((b, (p1, p2)) :: l))) with (ge b + 0). change (ksum (firstn 1 ((b, (p1, p2)) :: l))) with (ke b + 0)%nat. rewrite Rplus_0_r, Nat.add_0_r. replace (ke b + ksum l - ke b)%nat with (ksum l) by lia. replace (ge b + gsum l - ge b) with (gsum l) by ring. reflexivity. }
    assert (Nxt : forall k, bscore gl (ge b + gsum l) kl (ke b + ksum l) ((b, (p1, p2)) :: l) (S k) = bscore (gl + ge b) (gsum l) (kl + ke b) (ksum l) l k).
    { intros k. unfold bscore. change (firstn (S (S k)) ((b, (p1, p2)) :: l)) with ((b, (p1, p2)) :: firstn (S k) l). change (gsum ((b, (p1, p2)) :: firstn (S k) l)) with (ge b + gsum (firstn (S k) l)). change (ksum ((b, (p1, p2)) :: firstn (S k) l)) with (ke b + ksum (firstn (S k) l))%nat.
      replace (gl + (ge b + gsum (firstn (S k) l))) with (gl + ge b + gsum (firstn (S k) l)) by ring. replace (kl + (ke b + ksum (firstn (S k) l)))%nat with (kl + ke b + ksum (firstn (S k) l))%nat by lia.
      replace (ge b + gsum l - (ge b + gsum (firstn (S k) l))) with (gsum l - gsum (firstn (S k) l)) by ring. replace (ke b + ksum l - (ke b + ksum (firstn (S k) l)))%nat with (ksum l - ksum (firstn (S k) l))%nat by lia. reflexivity. }
    assert (Ek' : (kl + ke b + ksum l = N)%nat) by lia.
    rewrite Ustep. apply Rabs_le_inv in Esc. destruct (flt_or best sc Fb Fs) as [[Q Lt]|[Q Ge]]; unfold f64 in *; rewrite Q.
    - destruct (IH GL' HL' GR' HR' sc (b_end b) (gl + ge b) (kl + ke b)%nat e' Hl' Fs FL' FR' CL' CR' Ek' (Rabs_le _ _ X1) EL' ER' E0' Ee') as [t [bb [I1 [I2 [I3 [I4 I5]]]]]].
      exists t, bb. split; [exact I1|]. split; [exact I2|]. split; [lra|]. split.
      + intros [|k] Hk; [rewrite Fst; lra|rewrite Nxt; apply I4; lia].
      + right. destruct I5 as [[-> ->]|[k [K1 [K2 K3]]]]; [exists 0%nat; split; [lia|split; [reflexivity|rewrite Fst; apply Rabs_le; exact Esc]]|exists (S k); split; [lia|split; [exact K2|rewrite Nxt; exact K3]]].
    - destruct (IH GL' HL' GR' HR' best thr (gl + ge b) (kl + ke b)%nat e' Hl' Fb FL' FR' CL' CR' Ek' (Rabs_le _ _ X1) EL' ER' E0' Ee') as [t [bb [I1 [I2 [I3 [I4 I5]]]]]].
      exists t, bb. split; [exact I1|]. split; [exact I2|]. split; [lra|]. split.
      + intros [|k] Hk; [rewrite Fst; lra|rewrite Nxt; apply I4; lia].
      + destruct I5 as [Q5|[k [K1 [K2 K3]]]]; [left; exact Q5|right; exists (S k); split; [lia|split; [exact K2|rewrite Nxt; exact K3]]].
  Qed.
End Loop.
