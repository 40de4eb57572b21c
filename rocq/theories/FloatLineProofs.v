(** The line search in binary64: the bisection *)
From Coq Require Import ZArith List Bool Reals Lia Lra Psatz.
From Flocq Require Import Core.Core IEEE754.BinarySingleNaN Mult_error.
From Verif Require Import Base Float FloatSpec FloatProofs FloatFacts FloatCheckFacts FloatProjectProofs FloatTree FloatMada FloatMadaProofs FloatRounds FrankWolfe FrankWolfeProofs FloatFW FloatFWSpec FloatFWProofs FloatLine FloatLineSpec.
Import ListNotations.
Open Scope R_scope.

(** the tolerance *)
Lemma tol_spec : fin f_sub_tolerance /\ Rabs (val f_sub_tolerance - / 1000000000) <= / 2 ^ 80.
Proof.
  destruct (normalize_exact 4835703278458517 (-82)) as [F V]; [reflexivity|lia|]. fold f_sub_tolerance in F, V. split; [exact F|]. rewrite V.
  replace (bpow radix2 (-82)) with (/ 2 ^ 82) by (simpl; lra). apply Rabs_le. simpl. lra.
Qed.

Lemma tol_low : 9999 / 10000000000000 < val f_sub_tolerance.
Proof. destruct tol_spec as [_ V]. apply Rabs_le_inv in V. assert (/ 2 ^ 80 <= / 1000000000000000000) by (simpl; lra). lra. Qed.
Lemma two_spec : fin (f_of_usize 2) /\ val (f_of_usize 2) = 2.
Proof. destruct (of_usize_spec 2) as [F V]; [simpl; lra|]. split; [exact F|]. rewrite V. simpl. ring. Qed.
Lemma rnd_double (x : f64) : rnd (2 * val x) = 2 * val x.
Proof.
  apply round_generic; [typeclasses eauto|]. replace (2 * val x) with (val x * bpow radix2 1) by (simpl; lra). apply mult_bpow_pos_exact_FLT; [apply (generic_format_B2R 53 1024)|lia].
Qed.

Lemma middle_spec (lb ub : f64) : fin lb -> fin ub -> 0 <= val lb -> val lb <= val ub -> val ub <= 1 ->
  fin (f_middle lb ub) /\ val lb <= val (f_middle lb ub) <= val ub /\ Rabs (val (f_middle lb ub) - (val lb + val ub) / 2) <= 3 * uu.
Proof.
  intros Fl Fu H0 H1 H2. destruct two_spec as [F2 V2]. pose proof uu_pos as Up. pose proof uu_small as Us.
  destruct (fadd_rnd lb ub Fl Fu) as [Fa [Va [e [He Ea]]]]; [apply small1000; rewrite Rabs_pos_eq; lra|].
  assert (B : 2 * val lb <= val (fadd lb ub) <= 2 * val ub) by (rewrite Va, <- (rnd_double lb), <- (rnd_double ub); split; apply rnd_mono; lra).
  destruct (fdiv_spec (fadd lb ub) (f_of_usize 2) Fa) as [Fm Vm]; [rewrite V2; lra|rewrite V2; rewrite Rabs_pos_eq by lra; apply Rle_lt_trans with 1; [lra|]; rewrite <- (pow_O 2); apply Rlt_pow; [lra|lia]|].
  unfold f_middle. rewrite V2 in Vm. split; [exact Fm|]. rewrite Vm. split.
  - rewrite <- (rnd_val lb), <- (rnd_val ub). split; apply rnd_mono; lra.
  - destruct (err_mult (val (fadd lb ub) / 2)) as [d [h [Hd [Hh E]]]]. fold eta0 in Hh. rewrite E, Ea. pose proof eta0_small as Et. assert (Eu : eta0 <= uu / 8) by (apply Rle_trans with (1 := Et); unfold uu; simpl; lra).
    set (m := (val lb + val ub) / 2) in *. replace ((val lb + val ub) * (1 + e) / 2) with (m * (1 + e)) by (unfold m; field).
    replace (m * (1 + e) * (1 + d) + h - m) with (m * e + m * (1 + e) * d + h) by ring. assert (M : 0 <= m <= 1) by (unfold m; lra).
    assert (A1 : Rabs (m * e) <= uu) by (rewrite Rabs_mult, (Rabs_pos_eq m) by lra; pose proof (Rabs_pos e); nra).
    assert (A2 : Rabs (m * (1 + e) * d) <= (1 + uu) * uu).
    { rewrite !Rabs_mult, (Rabs_pos_eq m) by lra. assert (Rabs (1 + e) <= 1 + uu) by (eapply Rle_trans; [apply Rabs_triang|]; rewrite Rabs_R1; lra). pose proof (Rabs_pos (1 + e)). pose proof (Rabs_pos d). apply Rmult_le_compat; try nra. }
    eapply Rle_trans; [apply Rabs_triang|]. assert (Rabs (m * e + m * (1 + e) * d) <= uu + (1 + uu) * uu) by (eapply Rle_trans; [apply Rabs_triang|]; lra). nra.
Qed.

(** what the loop condition says about the gap *)
Lemma gap_large (lb ub : f64) : fin lb -> fin ub -> 0 <= val lb -> val lb <= val ub -> val ub <= 1 -> flt f_sub_tolerance (fsub ub lb) = true ->
  999 / 1000000000000 < val ub - val lb.
Proof.
  intros Fl Fu H0 H1 H2 T. destruct tol_spec as [Ft Vt]. pose proof uu_pos as Up. pose proof uu_small as Us.
  destruct (fsub_rnd ub lb Fu Fl) as [Fs [_ [e [He Es]]]]; [apply small1000; rewrite Rabs_pos_eq; lra|]. apply (flt_true _ _ Ft Fs) in T. rewrite Es in T.
  pose proof tol_low. apply Rabs_le_inv in He. assert (val ub - val lb <= 1) by lra.
  assert ((val ub - val lb) * (1 + e) <= (val ub - val lb) + uu) by nra. assert (uu <= / 1000000000000000) by (unfold uu; simpl; lra). lra.
Qed.
Lemma gap_small (lb ub : f64) : fin lb -> fin ub -> 0 <= val lb -> val lb <= val ub -> val ub <= 1 -> flt f_sub_tolerance (fsub ub lb) = false ->
  val ub - val lb <= / 1000000000 * (1 + / 2 ^ 49).
Proof.
  intros Fl Fu H0 H1 H2 T. destruct tol_spec as [Ft Vt]. pose proof uu_pos as Up. pose proof uu_small as Us.
  destruct (fsub_rnd ub lb Fu Fl) as [Fs [_ [e [He Es]]]]; [apply small1000; rewrite Rabs_pos_eq; lra|].
  assert (T' : val (fsub ub lb) <= val f_sub_tolerance) by (apply Rnot_lt_le; intros X; apply (flt_true _ _ Ft Fs) in X; congruence).
  rewrite Es in T'. apply Rabs_le_inv in Vt. apply Rabs_le_inv in He. set (g := val ub - val lb) in *. assert (G : 0 <= g) by (unfold g; lra).
  assert (A : g * (1 - uu) <= / 1000000000 + / 2 ^ 80) by nra. assert (U : uu * 16 = / 2 ^ 49) by (unfold uu; simpl; lra).
  assert (g <= (/ 1000000000 + / 2 ^ 80) * (1 + 2 * uu)). { apply Rmult_le_reg_r with (1 - uu); [lra|]. apply Rle_trans with (1 := A). rewrite Rmult_assoc. apply Rle_trans with ((/ 1000000000 + / 2 ^ 80) * 1); [lra|]. apply Rmult_le_compat_l; [simpl; lra|nra]. }
  apply Rle_trans with (1 := H). rewrite <- U. unfold uu. simpl. lra.
Qed.

(** the interval after one evaluation *)
Lemma half_gap (lb ub : f64) : fin lb -> fin ub -> 0 <= val lb -> val lb <= val ub -> val ub <= 1 -> flt f_sub_tolerance (fsub ub lb) = true ->
  let m := f_middle lb ub in let r := (1 + / 1000000) / 2 in val ub - val m <= r * (val ub - val lb) /\ val m - val lb <= r * (val ub - val lb).
Proof.
  intros Fl Fu H0 H1 H2 T m r. pose proof (gap_large lb ub Fl Fu H0 H1 H2 T) as G. destruct (middle_spec lb ub Fl Fu H0 H1 H2) as [_ [_ M]]. fold m in M. apply Rabs_le_inv in M.
  assert (U : 3 * uu <= / 2000000 * (999 / 1000000000000)) by (unfold uu; simpl; lra).
  unfold r. lra.
Qed.

Definition ratio : R := (1 + / 1000000) / 2.
Lemma ratio_30 : ratio ^ 30 <= 999 / 1000000000000.
Proof. unfold ratio. replace ((1 + / 1000000) / 2) with (1000001 / 2000000) by lra. cbn [pow]. lra. Qed.
Lemma ratio_pos : 0 < ratio < 1. Proof. unfold ratio. lra. Qed.

(** with at least 30 evaluations the fuel never runs out, whatever the gradient; the step size stays in the interval *)
Lemma bisect_run grad : forall n lb ub fuel, fin lb -> fin ub -> 0 <= val lb -> val lb <= val ub -> val ub <= 1 ->
  (n <= fuel)%nat -> (val ub - val lb) * ratio ^ n <= 999 / 1000000000000 ->
  f_bisect fuel grad lb ub = f_bisect n grad lb ub /\
  (forall p, f_bisect n grad lb ub = Panic p -> exists s, fin s /\ val lb <= val s <= val ub /\ grad s = Panic p) /\
  (forall s, f_bisect n grad lb ub = Ok s -> fin s /\ val lb <= val s <= val ub).
Proof.
  induction n as [|n IH]; intros lb ub fuel Fl Fu H0 H1 H2 Hn Hr; destruct (flt f_sub_tolerance (fsub ub lb)) eqn:T.
  - pose proof (gap_large lb ub Fl Fu H0 H1 H2 T). simpl in Hr. lra.
  - destruct fuel; cbn [f_bisect]; rewrite T; destruct (middle_spec lb ub Fl Fu H0 H1 H2) as [Fm [Hm _]]; (split; [reflexivity|split; [discriminate|intros s [= <-]; auto]]).
  - destruct fuel as [|fuel]; [lia|]. cbn [f_bisect]. rewrite T. destruct (middle_spec lb ub Fl Fu H0 H1 H2) as [Fm [Hm _]]. destruct (half_gap lb ub Fl Fu H0 H1 H2 T) as [G1 G2]. fold ratio in G1, G2. cbn [pow] in Hr. pose proof (pow_lt ratio n (proj1 ratio_pos)) as Pr.
    destruct (grad (f_middle lb ub)) as [dot|p] eqn:E; cbn [bind]; [|split; [reflexivity|split; [intros q [= <-]; exists (f_middle lb ub); auto|discriminate]]].
    destruct (flt dot f0); [|destruct (flt f0 dot)].
    + destruct (IH (f_middle lb ub) ub fuel Fm Fu) as [A [B C]]; try lra; try lia; [nra|]. split; [exact A|]. split.
      * intros p Ep. destruct (B p Ep) as [s [Fs [Hs Es]]]. exists s. split; [exact Fs|]. split; [lra|exact Es].
      * intros s Es. destruct (C s Es) as [Fs Hs]. split; [exact Fs|lra].
    + destruct (IH lb (f_middle lb ub) fuel Fl Fm) as [A [B C]]; try lra; try lia; [nra|]. split; [exact A|]. split.
      * intros p Ep. destruct (B p Ep) as [s [Fs [Hs Es]]]. exists s. split; [exact Fs|]. split; [lra|exact Es].
      * intros s Es. destruct (C s Es) as [Fs Hs]. split; [exact Fs|lra].
    + split; [reflexivity|]. split; [discriminate|]. intros s [= <-]. auto.
  - destruct fuel as [|fuel]; [lia|]. cbn [f_bisect]. rewrite T. destruct (middle_spec lb ub Fl Fu H0 H1 H2) as [Fm [Hm _]]. (split; [reflexivity|split; [discriminate|intros s [= <-]; auto]]).
Qed.

(** a gradient with the right sign outside a small interval leads to the best step *)
Lemma bisect_finds grad best slack : 0 <= slack -> right_sign grad best slack -> forall n lb ub s, fin lb -> fin ub -> 0 <= val lb -> val lb <= val ub -> val ub <= 1 ->
  val lb <= best + slack -> best - slack <= val ub -> f_bisect n grad lb ub = Ok s ->
  Rabs (val s - best) <= slack + / 1000000000 * (1 + / 2 ^ 49).
Proof.
  intros Hsl G. assert (P0 : 0 <= / 1000000000 * (1 + / 2 ^ 49)) by (simpl; lra). induction n as [|n IH]; intros lb ub s Fl Fu H0 H1 H2 B1 B2 E; cbn [f_bisect] in E; destruct (middle_spec lb ub Fl Fu H0 H1 H2) as [Fm [Hm _]]; destruct (flt f_sub_tolerance (fsub ub lb)) eqn:T.
  - discriminate.
  - injection E as <-. pose proof (gap_small lb ub Fl Fu H0 H1 H2 T). apply Rabs_le. lra.
  - destruct (G _ Fm) as [G1 G2]. set (m := f_middle lb ub) in *. destruct (grad m) as [dot|p] eqn:Em; cbn [bind] in E; [|discriminate].
    destruct (flt dot f0) eqn:D1; [|destruct (flt f0 dot) eqn:D2].
    + apply (IH m ub s Fm Fu); try lra; [|exact E]. apply Rnot_lt_le. intros X. destruct (G2 X) as [g [[= <-] [Fg Hg]]]. apply (flt_true dot f0 Fg fin_f0) in D1. rewrite val_f0 in D1. lra.
    + apply (IH lb m s Fl Fm); try lra; [|exact E]. apply Rnot_lt_le. intros X. destruct (G1 X) as [g [[= <-] [Fg Hg]]]. apply (flt_true f0 dot fin_f0 Fg) in D2. rewrite val_f0 in D2. lra.
    + injection E as <-. assert (best - slack <= val m <= best + slack).
      { split; apply Rnot_lt_le; intros X.
        - destruct (G1 X) as [g [[= <-] [Fg Hg]]]. rewrite (proj2 (flt_true dot f0 Fg fin_f0)) in D1; [discriminate|rewrite val_f0; exact Hg].
        - destruct (G2 X) as [g [[= <-] [Fg Hg]]]. rewrite (proj2 (flt_true f0 dot fin_f0 Fg)) in D2; [discriminate|rewrite val_f0; exact Hg]. }
      apply Rabs_le. lra.
  - injection E as <-. pose proof (gap_small lb ub Fl Fu H0 H1 H2 T). apply Rabs_le. lra.
Qed.
