(** Real analysis for SmoothBoost: bounds on -ln(1-g), and the potential of the weights. *)
From Verif Require Import Base.
Open Scope R_scope.

Lemma deriv_nonneg_incr f f' a b :
  a <= b -> (forall c, a <= c <= b -> derivable_pt_lim f c (f' c)) -> (forall c, a <= c <= b -> 0 <= f' c) -> f a <= f b.
Proof.
  intros Hab Hd Hp. destruct Hab as [Hab| ->]; [|lra].
  destruct (MVT_cor2 f f' a b Hab Hd) as [c [E Hc]].
  assert (0 <= f' c * (b - a)) by (apply Rmult_le_pos; [apply Hp; lra|lra]). lra.
Qed.

Lemma derivable_pt_lim_ln1m c : c < 1 -> derivable_pt_lim (fun x => ln (1 - x)) c (- / (1 - c)).
Proof.
  intros Hc. replace (- / (1 - c)) with (/ (1 - c) * (0 - 1)) by (field; lra).
  apply (derivable_pt_lim_comp (fun x => 1 - x) ln).
  - apply derivable_pt_lim_minus; [apply derivable_pt_lim_const|apply derivable_pt_lim_id].
  - apply derivable_pt_lim_ln. lra.
Qed.

Lemma neg_ln_lower g : 0 <= g < 1 -> g + g ^ 2 / 2 <= - ln (1 - g).
Proof.
  intros Hg.
  assert (I : (fun x => - ln (1 - x) - (x + x ^ 2 / 2)) 0 <= (fun x => - ln (1 - x) - (x + x ^ 2 / 2)) g).
  { apply (deriv_nonneg_incr (fun x => - ln (1 - x) - (x + x ^ 2 / 2)) (fun x => - - / (1 - x) - (1 + INR 2 * x ^ 1 * / 2)) 0 g); [lra| |].
    - intros c Hc. apply derivable_pt_lim_minus.
      + apply (derivable_pt_lim_opp (fun x => ln (1 - x))). apply derivable_pt_lim_ln1m. lra.
      + apply derivable_pt_lim_plus; [apply derivable_pt_lim_id|].
        unfold Rdiv. replace (INR 2 * c ^ 1 * / 2) with (INR 2 * c ^ 1 * / 2 + c ^ 2 * 0) by ring.
        apply (derivable_pt_lim_mult (fun x => x ^ 2) (fun _ => / 2)); [apply derivable_pt_lim_pow|apply derivable_pt_lim_const].
    - intros c Hc. simpl INR.
      replace (- - / (1 - c) - (1 + (1 + 1) * c ^ 1 * / 2)) with (c ^ 2 / (1 - c)) by (field; lra).
      apply Rmult_le_pos; [nra|]. left. apply Rinv_0_lt_compat. lra. }
  cbv beta in I. replace (1 - 0) with 1 in I by ring. rewrite ln_1 in I. lra.
Qed.

Lemma neg_ln_upper g : 0 <= g < 1 -> - ln (1 - g) <= g * (2 - g) / (2 * (1 - g)).
Proof.
  intros Hg. 
  assert (Eq : forall x, 0 <= x <= g -> x * (2 - x) / (2 * (1 - x)) = / 2 * (/ (1 - x) - (1 - x))).
  { intros x Hx. field. lra. }
  assert (I : (fun x => / 2 * (/ (1 - x) - (1 - x)) + ln (1 - x)) 0 <= (fun x => / 2 * (/ (1 - x) - (1 - x)) + ln (1 - x)) g).
  { apply (deriv_nonneg_incr (fun x => / 2 * (/ (1 - x) - (1 - x)) + ln (1 - x)) (fun x => / 2 * (- (0 - 1) / Rsqr (1 - x) - (0 - 1)) + - / (1 - x)) 0 g); [lra| |].
    - intros c Hc. apply derivable_pt_lim_plus; [|apply derivable_pt_lim_ln1m; lra].
      apply (derivable_pt_lim_scal (fun x => / (1 - x) - (1 - x)) (/ 2)).
      assert (D : derivable_pt_lim (fun x => 1 - x) c (0 - 1)).
      { apply derivable_pt_lim_minus; [apply derivable_pt_lim_const|apply derivable_pt_lim_id]. }
      apply derivable_pt_lim_minus; [|exact D].
      replace (- (0 - 1) / (1 - c)²) with ((0 * (1 - c) - (0 - 1) * 1) / (1 - c)²) by (unfold Rdiv; f_equal; ring).
      assert (D2 : derivable_pt_lim (fun x => 1 / (1 - x)) c ((0 * (1 - c) - (0 - 1) * 1) / (1 - c)²)).
      { apply (derivable_pt_lim_div (fun _ => 1) (fun x => 1 - x)); [apply derivable_pt_lim_const|exact D|lra]. }
      intros eps Heps. destruct (D2 eps Heps) as [del Hdel]. exists del. intros h Hh1 Hh2.
      specialize (Hdel h Hh1 Hh2). unfold Rdiv in Hdel at 2 3. rewrite !Rmult_1_l in Hdel. exact Hdel.
    - intros c Hc. unfold Rsqr.
      replace (/ 2 * (- (0 - 1) / ((1 - c) * (1 - c)) - (0 - 1)) + - / (1 - c)) with (c ^ 2 / (2 * (1 - c) ^ 2)) by (field; lra).
      apply Rmult_le_pos; [nra|]. left. apply Rinv_0_lt_compat. nra. }
  cbv beta in I. replace (1 - 0) with 1 in I by ring. rewrite ln_1, Rinv_1 in I. rewrite Eq by lra. lra.
Qed.

Lemma exp_neg_upper w : 0 <= w -> exp (- w) <= 1 - w + w ^ 2 / 2.
Proof.
  intros Hw.
  assert (I : (fun x => 1 - x + x ^ 2 * / 2 - exp (- x)) 0 <= (fun x => 1 - x + x ^ 2 * / 2 - exp (- x)) w).
  { apply (deriv_nonneg_incr (fun x => 1 - x + x ^ 2 * / 2 - exp (- x)) (fun x => 0 - 1 + (INR 2 * x ^ 1 * / 2 + x ^ 2 * 0) - exp (- x) * (-1)) 0 w); [lra| |].
    - intros c Hc. apply derivable_pt_lim_minus.
      + apply derivable_pt_lim_plus.
        * apply derivable_pt_lim_minus; [apply derivable_pt_lim_const|apply derivable_pt_lim_id].
        * apply (derivable_pt_lim_mult (fun x => x ^ 2) (fun _ => / 2)); [apply derivable_pt_lim_pow|apply derivable_pt_lim_const].
      + apply (derivable_pt_lim_comp (fun x => - x) exp); [|apply derivable_pt_lim_exp].
        apply (derivable_pt_lim_opp id). apply derivable_pt_lim_id.
    - intros c Hc. simpl INR. pose proof (exp_ge_1x (- c)). lra. }
  cbv beta in I. rewrite Ropp_0, exp_0 in I. lra.
Qed.

Lemma exp_pos_upper v : 0 <= v -> exp v - 1 - v <= v ^ 2 / 2 * exp v.
Proof.
  intros Hv.
  assert (I : (fun x => (1 + x) * exp (- x) + x ^ 2 * / 2) 0 <= (fun x => (1 + x) * exp (- x) + x ^ 2 * / 2) v).
  { apply (deriv_nonneg_incr (fun x => (1 + x) * exp (- x) + x ^ 2 * / 2) (fun x => ((0 + 1) * exp (- x) + (1 + x) * (exp (- x) * (-1))) + (INR 2 * x ^ 1 * / 2 + x ^ 2 * 0)) 0 v); [lra| |].
    - intros c Hc. apply derivable_pt_lim_plus.
      + apply (derivable_pt_lim_mult (fun x => 1 + x) (fun x => exp (- x))).
        * apply derivable_pt_lim_plus; [apply derivable_pt_lim_const|apply derivable_pt_lim_id].
        * apply (derivable_pt_lim_comp (fun x => - x) exp); [|apply derivable_pt_lim_exp].
          apply (derivable_pt_lim_opp id). apply derivable_pt_lim_id.
      + apply (derivable_pt_lim_mult (fun x => x ^ 2) (fun _ => / 2)); [apply derivable_pt_lim_pow|apply derivable_pt_lim_const].
    - intros c Hc. simpl INR.
      assert (exp (- c) <= 1) by (rewrite <- exp_0; apply exp_le_exp; lra). nra. }
  cbv beta in I. rewrite Ropp_0, exp_0 in I.
  assert (E : exp (- v) * exp v = 1) by (rewrite <- exp_plus; replace (- v + v) with 0 by ring; apply exp_0).
  pose proof (exp_pos v).
  assert (J : (1 + 0) * 1 + 0 ^ 2 * / 2 <= (1 + v) * exp (- v) + v ^ 2 * / 2) by exact I.
  apply (Rmult_le_compat_r (exp v)) in J; [|lra].
  replace (((1 + v) * exp (- v) + v ^ 2 * / 2) * exp v) with ((1 + v) * (exp (- v) * exp v) + v ^ 2 / 2 * exp v) in J by field.
  rewrite E in J. lra.
Qed.

Lemma exp_second_order v B : 1 <= B -> exp v <= B -> exp v - 1 - v <= v ^ 2 / 2 * B.
Proof.
  intros H1 HB. destruct (Rle_dec 0 v) as [Hv|Hv].
  - pose proof (exp_pos_upper v Hv). nra.
  - pose proof (exp_neg_upper (- v)) as E. rewrite Ropp_involutive in E. assert (0 <= - v) by lra. specialize (E H). nra.
Qed.

Section Potential.
  Variables g th : R.
  Hypothesis Hg : 0 < g < 1 / 2.
  Hypothesis Hth : th = g / (2 + g).
  Let L := - ln (1 - g).

  Lemma L_pos : 0 < L.
  Proof. unfold L. pose proof (neg_ln_lower g). nra. Qed.

  Definition phi (N : R) : R := if Rle_dec N 0 then 1 else exp (- (L * N / 2)).
  Definition Phi (N : R) : R := if Rle_dec N 0 then N else 2 / L * (1 - exp (- (L * N / 2))).
  Definition slack : R := (1 + th) ^ 2 / (4 * (1 - g)) * L.

  Lemma th_range : 0 < th < 1 / 4.
  Proof.
    rewrite Hth. split; [apply Rdiv_lt_0_compat; lra|]. apply Rdiv_lt_iff; lra.
  Qed.

  Lemma phi_range N : 0 < phi N <= 1.
  Proof.
    unfold phi. pose proof L_pos. destruct (Rle_dec N 0); [lra|]. split; [apply exp_pos|].
    rewrite <- exp_0. apply exp_le_exp. nra.
  Qed.

  Lemma key_second_order d : - (1 + th) <= d <= 1 + th -> 2 / L * (1 - exp (- (L * d / 2))) >= d - slack.
  Proof.
    intros Hd. pose proof L_pos as HL. pose proof th_range as Ht.
    assert (HB : exp (- (L * d / 2)) <= / (1 - g)).
    { replace (/ (1 - g)) with (exp L).
      - apply exp_le_exp. nra.
      - unfold L. rewrite exp_Ropp, exp_ln by lra. reflexivity. }
    assert (H1 : 1 <= / (1 - g)).
    { rewrite <- Rinv_1. apply Rinv_le_contravar; lra. }
    pose proof (exp_second_order (- (L * d / 2)) (/ (1 - g)) H1 HB) as E.
    assert (Hi : 0 < / (1 - g)) by lra.
    assert (Hsq : d ^ 2 <= (1 + th) ^ 2) by nra.
    assert (E2 : (- (L * d / 2)) ^ 2 / 2 * / (1 - g) <= L / 2 * slack).
    { unfold slack. replace ((- (L * d / 2)) ^ 2 / 2 * / (1 - g)) with (L ^ 2 / 8 * / (1 - g) * d ^ 2) by (field; lra).
      replace (L / 2 * ((1 + th) ^ 2 / (4 * (1 - g)) * L)) with (L ^ 2 / 8 * / (1 - g) * (1 + th) ^ 2) by (field; lra).
      apply Rmult_le_compat_l; [|exact Hsq]. apply Rmult_le_pos; [nra|lra]. }
    apply Rle_ge. apply (Rmult_le_reg_l (L / 2)); [lra|].
    replace (L / 2 * (2 / L * (1 - exp (- (L * d / 2))))) with (1 - exp (- (L * d / 2))) by (field; lra).
    lra.
  Qed.

  Lemma Phi_step N d : - (1 + th) <= d <= 1 + th -> phi N * (d - slack) <= Phi (N + d) - Phi N.
  Proof.
    intros Hd. pose proof L_pos as HL. pose proof th_range as Ht. pose proof (key_second_order d Hd) as K.
    assert (Hsl : 0 <= slack).
    { unfold slack. apply Rmult_le_pos; [|lra]. apply Rmult_le_pos; [nra|]. left. apply Rinv_0_lt_compat. lra. }
    unfold phi, Phi. destruct (Rle_dec N 0) as [a|a]; destruct (Rle_dec (N + d) 0) as [b|b].
    - lra.
    - assert (Hs : - (1 + th) <= N + d <= 1 + th) by lra. pose proof (key_second_order _ Hs). lra.
    - (* N > 0 >= N + d *)
      pose (q := - (N + d)). pose (X := exp (L * N / 2)). pose (Y := exp (L * q / 2)).
      assert (HX : exp (- (L * N / 2)) * X = 1) by (unfold X; rewrite <- exp_plus; replace (- (L * N / 2) + L * N / 2) with 0 by ring; apply exp_0).
      assert (HXY : exp (- (L * d / 2)) = X * Y).
      { unfold X, Y, q. rewrite <- exp_plus. f_equal. field. }
      assert (HX1 : 0 < X) by apply exp_pos.
      assert (HY : 1 + L * q / 2 <= Y) by apply exp_ge_1x.
      apply (Rmult_le_reg_r X); [exact HX1|].
      replace (exp (- (L * N / 2)) * (d - slack) * X) with ((exp (- (L * N / 2)) * X) * (d - slack)) by ring.
      replace ((N + d - 2 / L * (1 - exp (- (L * N / 2)))) * X) with (- q * X - 2 / L * (X - exp (- (L * N / 2)) * X)) by (unfold q; field; lra).
      rewrite HX, Rmult_1_l. rewrite HXY in K.
      assert (K2 : 2 / L * (X * (1 + L * q / 2)) <= 2 / L * (X * Y)).
      { apply Rmult_le_compat_l; [left; apply Rdiv_lt_0_compat; lra|]. apply Rmult_le_compat_l; lra. }
      replace (2 / L * (X * (1 + L * q / 2))) with (2 / L * X + X * q) in K2 by (field; lra).
      unfold q in *. lra.
    - replace (exp (- (L * (N + d) / 2))) with (exp (- (L * N / 2)) * exp (- (L * d / 2))) by (rewrite <- exp_plus; f_equal; field).
      set (A := exp (- (L * N / 2))). assert (0 < A) by apply exp_pos.
      replace (2 / L * (1 - A * exp (- (L * d / 2))) - 2 / L * (1 - A)) with (A * (2 / L * (1 - exp (- (L * d / 2))))) by ring.
      apply Rmult_le_compat_l; lra.
  Qed.

  Lemma Phi_lt N : Phi N < 2 / L.
  Proof.
    pose proof L_pos as HL. assert (0 < 2 / L) by (apply Rdiv_lt_0_compat; lra). unfold Phi. destruct (Rle_dec N 0); [lra|].
    pose proof (exp_pos (- (L * N / 2))). nra.
  Qed.

  Lemma Phi_mono N N' : N <= N' -> Phi N <= Phi N'.
  Proof.
    intros HN. pose proof L_pos as HL. assert (0 < 2 / L) by (apply Rdiv_lt_0_compat; lra). unfold Phi.
    destruct (Rle_dec N 0); destruct (Rle_dec N' 0); try lra.
    - assert (exp (- (L * N' / 2)) <= 1) by (rewrite <- exp_0; apply exp_le_exp; nra). nra.
    - assert (exp (- (L * N' / 2)) <= exp (- (L * N / 2))) by (apply exp_le_exp; nra). nra.
  Qed.

  (** the progress made per unit of weight, against the advertised number of rounds *)
  Lemma rate_bound : g ^ 2 * sqrt (1 - g) <= L * (2 * g - th - slack).
  Proof.
    pose proof L_pos as HL. 
    assert (Hl1 : g * (2 + g) / 2 <= L) by (unfold L; pose proof (neg_ln_lower g); lra).
    assert (Hl2 : L <= g * (2 - g) / (2 * (1 - g))) by (unfold L; apply neg_ln_upper; lra).
    assert (Hs : sqrt (1 - g) <= 1 - g / 2).
    { rewrite <- (sqrt_pow2 (1 - g / 2)) by lra. apply sqrt_le_1; nra. }
    apply Rle_trans with (g ^ 2 * (1 - g / 2)); [apply Rmult_le_compat_l; [nra|exact Hs]|].
    set (k := (1 + th) ^ 2 / (4 * (1 - g))).
    assert (Hk : 0 < k). { unfold k. apply Rdiv_lt_0_compat; [|lra]. pose proof th_range. nra. }
    set (L1 := g * (2 + g) / 2) in *. set (L2 := g * (2 - g) / (2 * (1 - g))) in *.
    set (c := 2 * g - th).
    assert (F1 : g ^ 2 * (1 - g / 2) <= L1 * (c - k * L1)).
    { assert (Ek : k = (1 + g) ^ 2 / ((2 + g) ^ 2 * (1 - g))) by (unfold k; rewrite Hth; field; lra).
      assert (Ec : c = 2 * g - g / (2 + g)) by (unfold c; rewrite Hth; reflexivity).
      replace (L1 * (c - k * L1)) with (g ^ 2 * (1 - g / 2) + g ^ 2 * ((1 + 2 * g - 7 * g ^ 2) / (4 * (1 - g)))).
      - assert (0 <= (1 + 2 * g - 7 * g ^ 2) / (4 * (1 - g))); [|nra]. apply Rmult_le_pos; [nra|left; apply Rinv_0_lt_compat; lra].
      - rewrite Ek, Ec. unfold L1. field. lra. }
    assert (F2 : g ^ 2 * (1 - g / 2) <= L2 * (c - k * L2)).
    { assert (Ek : k = (1 + g) ^ 2 / ((2 + g) ^ 2 * (1 - g))) by (unfold k; rewrite Hth; field; lra).
      assert (Ec : c = 2 * g - g / (2 + g)) by (unfold c; rewrite Hth; reflexivity).
      set (P := 2 * (1 + 3 * g + g ^ 2) * (2 + g) * (1 - g) ^ 2 - (1 + g) ^ 2 * (2 - g)).
      assert (HP : 0 <= P).
      { unfold P. assert (0 <= g * (1 - 2 * g)) by nra. assert (0 <= g ^ 2 * (1 - 2 * g)) by nra.
        assert (0 <= g ^ 3 * (1 - 2 * g)) by nra. nra. }
      replace (L2 * (c - k * L2)) with (g ^ 2 * (1 - g / 2) + g ^ 2 * (2 - g) * (P / (4 * (2 + g) ^ 2 * (1 - g) ^ 3))).
      - assert (0 <= P / (4 * (2 + g) ^ 2 * (1 - g) ^ 3)).
        { apply Rmult_le_pos; [exact HP|]. left. apply Rinv_0_lt_compat.
          apply Rmult_lt_0_compat; [nra|]. apply pow_lt. lra. }
        assert (0 <= g ^ 2 * (2 - g)) by nra. nra.
      - rewrite Ek, Ec. unfold L2, P. field. lra. }
    (* concavity in L *)
    assert (E : L * (c - slack) = L * (c - k * L)) by (unfold slack, k; ring).
    rewrite E. set (v := g ^ 2 * (1 - g / 2)) in *. clearbody v c k L1 L2. clear E Hs.
    destruct (Rle_dec c (k * (L1 + L2))) as [D|D].
    - (* compare with L2 *)
      destruct (Req_dec L1 L2) as [E12|N12].
      + assert (EL : L = L1) by lra. rewrite EL. exact F1.
      + assert (L1 < L2) by lra.
        (* convex combination: (L2-L1) f(L) >= (L2-L) f(L1) + (L-L1) f(L2) *)
        assert (C : (L2 - L1) * (L * (c - k * L)) = (L2 - L) * (L1 * (c - k * L1)) + (L - L1) * (L2 * (c - k * L2)) + k * (L2 - L1) * (L - L1) * (L2 - L)) by ring.
        assert (0 <= k * (L2 - L1) * (L - L1) * (L2 - L)).
        { repeat apply Rmult_le_pos; lra. }
        assert ((L2 - L) * v <= (L2 - L) * (L1 * (c - k * L1))) by (apply Rmult_le_compat_l; lra).
        assert ((L - L1) * v <= (L - L1) * (L2 * (c - k * L2))) by (apply Rmult_le_compat_l; lra).
        apply (Rmult_le_reg_l (L2 - L1)); lra.
    - (* f increasing on [L1, L2] *)
      assert (L * (c - k * L) - L1 * (c - k * L1) = (L - L1) * (c - k * (L + L1))) by ring.
      assert (0 <= (L - L1) * (c - k * (L + L1))).
      { apply Rmult_le_pos; [lra|]. nra. }
      lra.
  Qed.

  Lemma rate_pos : 0 < 2 * g - th - slack.
  Proof.
    pose proof rate_bound as Rb. pose proof L_pos as HL.
    assert (0 < g ^ 2 * sqrt (1 - g)). { apply Rmult_lt_0_compat; [nra|]. apply sqrt_lt_R0. lra. }
    destruct (Rle_dec (2 * g - th - slack) 0) as [N|N]; [|lra]. assert (L * (2 * g - th - slack) <= 0) by nra. lra.
  Qed.
End Potential.
