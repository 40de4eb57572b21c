(** C104: the Frank-Wolfe updates of the hypothesis weights in binary64 *)
From Coq Require Import ZArith List Bool Reals Lia Lra Psatz.
From Flocq Require Import Core.Core IEEE754.BinarySingleNaN.
From Verif Require Import Base Spec Float FloatSpec FloatProofs FloatFacts FloatCheckFacts FloatProjectProofs FloatTree FloatMada FloatMadaProofs FloatRounds FrankWolfe FrankWolfeProofs FloatFW FloatFWSpec FloatFWProofs.
Import ListNotations.
Open Scope R_scope.

Lemma unit_entries s k ws j : fin s -> 0 <= val s <= 1 -> unit_weights ws -> unit_weights (f_entries s k j ws).
Proof.
  intros Fs Hs U w Hw. unfold f_entries in Hw. apply in_map_iff in Hw. destruct Hw as [[i b] [<- Hp]]. apply in_combine_r in Hp. destruct (U b Hp) as [Fb Hb]. cbn [fst snd].
  destruct (Nat.eqb i k); [destruct (entry_target s b Fs Hs Fb Hb) as [A [B _]]|destruct (entry_other s b Fs Hs Fb Hb) as [A [B _]]]; split; assumption.
Qed.
Lemma interior_inv s k ws ws' : f_interior_point s k ws = Ok ws' -> fin s /\ 0 <= val s <= 1 /\ ws' = f_entries s k 0 ws.
Proof.
  unfold f_interior_point. destruct (f_check_stepsize s) as [[]|p] eqn:E; [|discriminate]. destruct (check_step_ok s E) as [A B]. cbn [bind]. intros X. injection X as <-. auto.
Qed.

(** ** C104: whatever the step sizes and however long the run, every weight stays a number between 0 and 1 *)
Lemma P_C104_unit_weights :
  forall (l : list fwmove) (ws ws' : list f64), unit_weights ws -> f_history l ws = Ok ws' -> unit_weights ws'.
Proof.
  intros l. induction l as [|[|s r k] l IH]; intros ws ws' U E; cbn [f_history] in E.
  - injection E as <-. exact U.
  - apply (IH _ _ (unit_push ws U) E).
  - destruct (f_interior_point s k ws) as [w|p] eqn:E1; [|discriminate]. cbn [bind] in E. destruct (interior_inv s k ws w E1) as [Fs [Hs ->]]. apply (IH _ _ (unit_entries s k ws 0 Fs Hs U) E).
Qed.

(** ** C104: a step is refused exactly when its size is not in [0,1] *)
Lemma P_C104_step_refused :
  forall (s : f64) (k : nat) (ws : list f64),
  (forall p, f_interior_point s k ws = Panic p -> p = AssertFailed) /\
  ((exists ws', f_interior_point s k ws = Ok ws') <-> finite_num s /\ 0 <= val s <= 1).
Proof.
  intros s k ws. split.
  - intros p. unfold f_interior_point, f_check_stepsize, assert_. destruct (_ && _); cbn [bind]; congruence.
  - split; [intros [ws' E]; destruct (interior_inv s k ws ws' E) as [A [B _]]; auto|]. intros [A B]. eexists. unfold f_interior_point. rewrite (proj2 (check_step_iff s A) B). reflexivity.
Qed.

Lemma history_close l : steps_agree l -> forall ws v, length ws = length v -> unit_weights ws -> sub_dist v ->
  INR (length v) + INR (length l) <= 2 ^ 30 -> distance ws v + INR (length l) * (16 * uu) <= 1 / 2 ->
  exists ws' v', f_history l ws = Ok ws' /\ exact_history l v = Ok v' /\ length ws' = length v' /\ unit_weights ws' /\ sub_dist v' /\ distance ws' v' <= distance ws v + INR (steps_taken l) * (16 * uu).
Proof.
  intros A. pose proof uu_pos as Up. induction l as [|[|s r k] l IH]; intros ws v L U Sd Hn Hd.
  - exists ws, v. cbn [f_history exact_history steps_taken]. repeat (split; [auto|]). simpl. lra.
  - assert (A' : steps_agree l) by (intros s' r' k' Hin; apply (A s' r' k'); right; exact Hin). change (length (Enter :: l)) with (S (length l)) in *. rewrite S_INR in Hn, Hd.
    destruct (IH A' (ws ++ [f0]) (v ++ [0])) as [ws' [v' [E1 [E2 [L' [U' [S' D']]]]]]]; [rewrite !app_length, L; reflexivity|apply unit_push, U|apply sub_push, Sd|rewrite app_length, plus_INR; simpl (INR (length [0])); lra|rewrite distance_push by exact L; lra|].
    exists ws', v'. rewrite distance_push in D' by exact L. cbn [f_history exact_history steps_taken]. auto 8.
  - assert (A' : steps_agree l) by (intros s' r' k' Hin; apply (A s' r' k'); right; exact Hin). change (length (Towards s r k :: l)) with (S (length l)) in *. rewrite S_INR in Hn, Hd. pose proof (pos_INR (length l)) as Pl. pose proof (distance_nonneg ws v) as D0.
    destruct (A s r k (or_introl eq_refl)) as [Fs [Hs [Hr Hsr]]].
    destruct (one_step s r k ws v Fs Hs Hr Hsr L U Sd ltac:(lra) ltac:(nra)) as [w1 [v1 [E1 [E2 [L1 [L2 [U1 [S1 [D1 _]]]]]]]]].
    destruct (IH A' w1 v1) as [ws' [v' [X1 [X2 [L' [U' [S' D']]]]]]]; [congruence|exact U1|exact S1|rewrite L2; lra|lra|].
    exists ws', v'. cbn [f_history exact_history steps_taken]. rewrite E1, E2. cbn [bind]. rewrite S_INR. repeat (split; [assumption|]). lra.
Qed.
Lemma uu16 : 16 * uu = / 2 ^ 49. Proof. unfold uu. simpl. lra. Qed.
Lemma count_small n k : INR n <= 2 ^ k -> (k <= 40)%nat -> INR n * (16 * uu) <= / 2 ^ 9.
Proof.
  intros H K. rewrite uu16. assert (2 ^ k <= 2 ^ 40) by (apply Rle_pow; [lra|exact K]). assert (0 < / 2 ^ 49) by (apply Rinv_0_lt_compat, pow_lt; lra).
  apply Rle_trans with (2 ^ 40 * / 2 ^ 49); [nra|]. simpl. lra.
Qed.
Lemma unit_one : unit_weights [f1]. Proof. destruct f1_spec as [F V]. intros w [<-|[]]. split; [exact F|rewrite V; lra]. Qed.

(** ** C104: the weights stay within (number of steps) 2^-49 of the exact ones, summed over the hypotheses, in every history
    of new hypotheses and steps *)
Lemma P_C104_history_close :
  forall (l : list fwmove), steps_agree l -> INR (length l) <= 2 ^ 29 ->
  exists ws v, f_history l [f1] = Ok ws /\ exact_history l [1] = Ok v /\ length ws = length v /\ unit_weights ws /\
    distance ws v <= INR (steps_taken l) / 2 ^ 49.
Proof.
  intros l A Hl. assert (D : distance [f1] [1] = 0) by (unfold distance; cbn [combine map fst snd rsum]; rewrite (proj2 f1_spec), Rminus_diag_eq, Rabs_R0 by reflexivity; ring).
  destruct (history_close l A [f1] [1]) as [ws [v [E1 [E2 [L [U [_ Dd]]]]]]]; [reflexivity|exact unit_one|split; [intros x [<-|[]]; lra|simpl; lra]|simpl (INR (length [1])); simpl in Hl |- *; lra|rewrite D; pose proof (count_small _ _ Hl ltac:(lia)) as C; simpl in C; simpl; lra|].
  exists ws, v. repeat (split; [assumption|]). rewrite D, uu16 in Dd. unfold Rdiv. lra.
Qed.

(** the classic rule *)
Lemma classic_step t : (1 <= t)%nat -> INR t <= 2 ^ 30 -> let s := fdiv (f_of_usize 2) (f_of_usize (t + 1)) in let r := 2 / INR (t + 1) in
  fin s /\ 0 <= val s <= 1 /\ 0 <= r <= 1 /\ Rabs (val s - r) <= uu /\ (t = 1%nat -> r = 1).
Proof.
  intros Ht Hb s r. assert (T1 : 1 <= INR t) by (change 1 with (INR 1); apply le_INR, Ht). assert (Ep : INR (t + 1) = INR t + 1) by (rewrite plus_INR; reflexivity).
  destruct (of_usize_spec 2) as [F2 V2]; [simpl; lra|]. destruct (of_usize_spec (t + 1)) as [Fn Vn]; [rewrite Ep; simpl in Hb |- *; lra|]. replace (INR 2) with 2 in V2 by (simpl; ring).
  assert (Rr : 0 <= r <= 1). { unfold r. split; [apply Rlt_le, Rdiv_lt_0_compat; rewrite ?Ep; lra|]. apply Rdiv_le_iff; rewrite ?Ep; lra. }
  destruct (fdiv_spec (f_of_usize 2) (f_of_usize (t + 1)) F2) as [Fs Vs]; [rewrite Vn, Ep; lra|rewrite V2, Vn; fold r; rewrite Rabs_pos_eq by lra; apply Rle_lt_trans with 1; [lra|]; rewrite <- (pow_O 2); apply Rlt_pow; [lra|lia]|].
  change (fdiv (f_of_usize 2) (f_of_usize (t + 1))) with s in Fs, Vs. rewrite V2, Vn in Vs. fold r in Vs. split; [exact Fs|]. destruct f1_spec as [F1 V1]. split; [rewrite Vs, <- V1; apply rnd_bound; rewrite ?V1; lra|]. split; [exact Rr|]. rewrite Vs.
  assert (X : t = 1%nat -> r = 1) by (intros ->; unfold r; simpl; lra). split; [|exact X]. destruct (Nat.eq_dec t 1) as [E|N].
  - rewrite (X E), rnd_1, Rminus_diag_eq, Rabs_R0 by reflexivity. left. apply uu_pos.
  - assert (T2 : 2 <= INR t) by (change 2 with (INR 2); apply le_INR; lia). assert (R2 : r <= 2 / 3) by (unfold r; apply Rdiv_le_iff; rewrite ?Ep; lra).
    destruct (err_mult r) as [e [h [He [Hh E]]]]. fold eta0 in Hh. rewrite E. replace (r * (1 + e) + h - r) with (r * e + h) by ring. pose proof eta0_small as Et. assert (Eu : eta0 <= uu / 8) by (apply Rle_trans with (1 := Et); unfold uu; simpl; lra).
    apply Rabs_le_inv in He. apply Rabs_le_inv in Hh. pose proof uu_pos. apply Rabs_le. nra.
Qed.

Lemma classic_close ps : forall t ws v, (1 <= t)%nat -> length ws = length v -> unit_weights ws -> sub_dist v -> (t = 1%nat \/ rsum v = 1) -> positions_ok (length ws) ps ->
  INR (length v) + INR (length ps) <= 2 ^ 30 -> INR t + INR (length ps) <= 2 ^ 30 -> distance ws v + INR (length ps) * (16 * uu) <= 1 / 2 ->
  exists ws' v', f_classic_run t ps ws = Ok ws' /\ exact_classic_run t ps v = Ok v' /\ length ws' = length v' /\ unit_weights ws' /\ sub_dist v' /\
    (INR (length ws') <= INR (length ws) + INR (length ps)) /\ ((1 <= length ps)%nat \/ rsum v = 1 -> rsum v' = 1) /\ distance ws' v' <= distance ws v + INR (length ps) * (16 * uu).
Proof.
  pose proof uu_pos as Up. induction ps as [|p ps IH]; intros t ws v Ht L U S First P Hn Htt Hd.
  - exists ws, v. cbn [f_classic_run exact_classic_run length]. do 5 (split; [assumption || reflexivity|]). split; [simpl; lra|]. split; [intros [X|X]; [lia|exact X]|]. simpl. lra.
  - change (length (p :: ps)) with (Datatypes.S (length ps)) in *. rewrite S_INR in Hn, Htt, Hd. pose proof (pos_INR (length ps)) as Pp. pose proof (distance_nonneg ws v) as D0. destruct P as [P1 P2].
    set (ws1 := if Nat.eqb p (length ws) then ws ++ [f0] else ws) in *. set (v1 := if Nat.eqb p (length v) then v ++ [0] else v).
    assert (F1 : length ws1 = length v1 /\ unit_weights ws1 /\ sub_dist v1 /\ distance ws1 v1 = distance ws v /\ rsum v1 = rsum v /\ (p < length v1)%nat /\ length ws1 = (if Nat.eqb p (length ws) then Datatypes.S (length ws) else length ws)).
    { unfold ws1, v1. rewrite L. destruct (Nat.eqb_spec p (length v)) as [E|E].
      - rewrite !app_length, L. cbn [length]. split; [reflexivity|]. split; [apply unit_push, U|]. split; [apply sub_push, S|]. split; [apply distance_push, L|]. split; [rewrite rsum_app; simpl; ring|]. split; [lia|]. rewrite Nat.add_1_r. reflexivity.
      - do 5 (split; [assumption || reflexivity|]). split; [lia|exact L]. }
    destruct F1 as [L1 [U1 [S1 [D1 [R1 [K1 N1]]]]]]. assert (Nn : INR (length v1) <= INR (length v) + 1).
    { rewrite <- L1, N1, L. destruct (Nat.eqb p (length v)); rewrite ?S_INR; lra. }
    destruct (classic_step t Ht ltac:(lra)) as [Fs [Hs [Hr [Hsr Hone]]]].
    destruct (one_step _ _ p ws1 v1 Fs Hs Hr Hsr L1 U1 S1 ltac:(lra) ltac:(rewrite D1; nra)) as [w2 [v2 [E1 [E2 [L2 [L3 [U2 [S2 [D2 Z2]]]]]]]]].
    assert (Z : rsum v2 = 1) by (apply Z2; [exact K1|]; rewrite R1; destruct First as [E|E]; [right; apply Hone, E|left; exact E]).
    destruct (IH (Datatypes.S t) w2 v2) as [ws' [v' [X1 [X2 [L' [U' [S' [B' [Z' D']]]]]]]]]; [lia|congruence|exact U2|exact S2|right; exact Z|rewrite L2, N1; exact P2|rewrite L3; lra|rewrite S_INR; lra|rewrite D1 in D2; lra|].
    exists ws', v'. cbn [f_classic_run exact_classic_run]. fold ws1 v1. unfold f_fw_classic, fw_classic. rewrite E1, E2. cbn [bind]. split; [exact X1|]. split; [exact X2|]. split; [exact L'|]. split; [exact U'|]. split; [exact S'|].
    split; [rewrite L2, L1 in B'; rewrite L, S_INR; lra|]. split; [intros _; apply Z'; right; exact Z|]. rewrite D1 in D2. rewrite S_INR. lra.
Qed.

Lemma vote_close ws : forall v ms, length ws = length v -> (forall m, In m ms -> Rabs m <= 1) ->
  Rabs (rsum (map (fun p => val (fst p) * snd p) (combine ws ms)) - rsum (map (fun p => fst p * snd p) (combine v ms))) <= distance ws v.
Proof.
  induction ws as [|b ws IH]; intros [|x v] ms L M; try discriminate L; [unfold distance; simpl; rewrite Rminus_diag_eq, Rabs_R0 by reflexivity; lra|].
  destruct ms as [|m ms]; [cbn [combine map rsum]; rewrite Rminus_diag_eq, Rabs_R0 by reflexivity; apply distance_nonneg|].
  change (distance (b :: ws) (x :: v)) with (Rabs (val b - x) + distance ws v). cbn [combine map rsum fst snd]. simpl in L. specialize (IH v ms ltac:(lia) ltac:(intros q Hq; apply M; right; exact Hq)). pose proof (M m (or_introl eq_refl)) as Hm.
  match goal with |- Rabs (?a + ?c - (?d + ?e)) <= _ => replace (a + c - (d + e)) with ((val b - x) * m + (c - e)) by ring end. eapply Rle_trans; [apply Rabs_triang|]. rewrite Rabs_mult. pose proof (Rabs_pos (val b - x)). nra.
Qed.

(** ** C104: a run with the classic rule.  After T rounds the weights are a distribution up to T 2^-49, the vote of any
    confidences in [-1,1] is within T 2^-49 of the exact one, and the check that MLPBoost makes on its weights passes *)
Lemma P_C104_classic_run :
  forall (ps : list nat), ps <> [] -> positions_ok 0 ps -> INR (length ps) <= 2 ^ 29 ->
  exists ws v, f_classic_run 1 ps [] = Ok ws /\ exact_classic_run 1 ps [] = Ok v /\ length ws = length v /\ is_dist v /\ unit_weights ws /\
    distance ws v <= INR (length ps) / 2 ^ 49 /\ Rabs (total ws - 1) <= INR (length ps) / 2 ^ 49 /\
    (forall ms, (forall m, In m ms -> Rabs m <= 1) ->
      Rabs (rsum (map (fun p => val (fst p) * snd p) (combine ws ms)) - rsum (map (fun p => fst p * snd p) (combine v ms))) <= INR (length ps) / 2 ^ 49) /\
    f_check_capped_simplex ws f1 = Ok tt.
Proof.
  intros ps N P Hl. pose proof (count_small _ _ Hl ltac:(lia)) as C. assert (P30 : 2 * 2 ^ 29 = 2 ^ 30) by (simpl; lra). assert (one29 : 1 <= 2 ^ 29) by (apply pow_R1_Rle; lra).
  destruct (classic_close ps 1 [] []) as [ws [v [E1 [E2 [L [U [[S1 S2] [B [Z D]]]]]]]]]; [lia|reflexivity|intros ? []|split; [intros ? []|simpl; lra]|left; reflexivity|exact P|simpl (INR (length [])); lra|simpl (INR 1); lra|unfold distance; simpl (rsum _); simpl in C; lra|].
  assert (Lp : (1 <= length ps)%nat) by (destruct ps; [contradiction|simpl; lia]). specialize (Z (or_introl Lp)). assert (D0 : distance [] [] = 0) by reflexivity. rewrite D0, Rplus_0_l, uu16 in D. fold (INR (length ps) / 2 ^ 49) in D.
  pose proof (distance_total ws v L) as T. rewrite Z in T. exists ws, v. split; [exact E1|]. split; [exact E2|]. split; [exact L|]. split; [split; [intros x Hx; apply S1, Hx|exact Z]|]. split; [exact U|]. split; [exact D|]. split; [lra|].
  split; [intros ms M; apply Rle_trans with (1 := vote_close ws v ms L M); exact D|].
  destruct f1_spec as [F1 V1]. simpl (INR (length [])) in B. apply P_C78_accepts.
  - intros x Hx. apply U, Hx.
  - exact F1.
  - lra.
  - rewrite V1. split; [lra|]. change 1 with (INR 1). apply le_INR. destruct ws; [|simpl; lia]. destruct v; [|discriminate L]. simpl in Z. lra.
  - intros x Hx. rewrite V1, Rinv_1. apply U, Hx.
  - eapply Rle_trans; [exact T|]. eapply Rle_trans; [exact D|]. apply Rle_trans with (2 ^ 29 / 2 ^ 49); [apply Rmult_le_compat_r; [left; apply Rinv_0_lt_compat, pow_lt; lra|exact Hl]|]. simpl. lra.
Qed.

(** ** C104: the short-step rule, whatever the margins: weights in [0,1] again, and the only panic is the refusal of a step size that
    is not a number *)
Lemma clamp_spec x : (is_nan x = true -> f_check_stepsize (f_clamp01 x) = Panic AssertFailed) /\ (is_nan x = false -> fin (f_clamp01 x) /\ 0 <= val (f_clamp01 x) <= 1).
Proof.
  destruct f1_spec as [F1 V1]. split.
  - destruct x; try discriminate. intros _. reflexivity.
  - intros Nx. unfold f_clamp01. destruct (is_finite x) eqn:Fx.
    + destruct (flt x f0) eqn:A; [split; [apply fin_f0|rewrite val_f0; lra]|]. destruct (flt f1 x) eqn:B; [split; [exact F1|rewrite V1; lra]|]. split; [exact Fx|].
      split; apply Rnot_lt_le; intros Hlt; [apply (flt_true x f0 Fx fin_f0) in Hlt; congruence|rewrite <- V1 in Hlt; apply (flt_true f1 x F1 Fx) in Hlt; congruence].
    + destruct x as [b|b| |b m e H]; try discriminate. destruct b; [change (flt (B754_infinity true) f0) with true; split; [apply fin_f0|rewrite val_f0; lra]|].
      change (flt (B754_infinity false) f0) with false. assert (X : flt f1 (B754_infinity false) = true) by (vm_compute; reflexivity). rewrite X. split; [exact F1|rewrite V1; lra].
Qed.
Lemma P_C104_short_step :
  forall (eta : f64) (dist new_m old_m : list f64) (hyps k : nat) (ws : list f64), hyps <> 1%nat ->
  (forall p, f_fw_short_step eta dist new_m old_m hyps k ws = Panic p -> p = AssertFailed /\ not_a_number (f_short_quotient eta dist new_m old_m)) /\
  (not_a_number (f_short_quotient eta dist new_m old_m) -> f_fw_short_step eta dist new_m old_m hyps k ws = Panic AssertFailed) /\
  (forall ws', f_fw_short_step eta dist new_m old_m hyps k ws = Ok ws' -> length ws' = length ws /\ (unit_weights ws -> unit_weights ws')).
Proof.
  unfold not_a_number.
  intros eta dist new_m old_m hyps k ws Nh. unfold f_fw_short_step. rewrite (proj2 (Nat.eqb_neq _ _) Nh). set (q := f_short_quotient eta dist new_m old_m). destruct (clamp_spec q) as [A B]. split; [|split].
  - intros p E. split; [apply (proj1 (P_C104_step_refused (f_clamp01 q) k ws)), E|]. destruct (is_nan q); [reflexivity|]. exfalso. destruct (proj2 (proj2 (P_C104_step_refused (f_clamp01 q) k ws)) (B eq_refl)) as [ws' E']. rewrite E' in E. discriminate.
  - intros Nq. unfold f_interior_point. rewrite (A Nq). reflexivity.
  - intros ws' E. destruct (interior_inv _ _ _ _ E) as [Fs [Hs ->]]. split; [apply f_entries_length|]. apply unit_entries; assumption.
Qed.

Lemma zero_shape x : fin x -> val x = 0 -> exists b, x = B754_zero b.
Proof.
  intros F V. destruct x as [b|b| |b m e H]; try discriminate; [eauto|]. exfalso. cbn [B2R] in V. apply eq_0_F2R in V. destruct b; discriminate.
Qed.
Lemma is_zero_ok b : fin (B754_zero b : f64) /\ val (B754_zero b : f64) = 0. Proof. split; reflexivity. Qed.
Lemma self_minus x : fin x -> exists b, fsub x x = B754_zero b.
Proof.
  intros F. destruct (fsub_rnd x x F F) as [Fz [Vz _]]; [rewrite Rminus_diag_eq, Rabs_R0 by reflexivity; left; apply pow_lt; lra|]. apply zero_shape; [exact Fz|]. rewrite Vz, Rminus_diag_eq by reflexivity. apply rnd_0.
Qed.

(** ** C104 refuted for the short-step rule: when the new hypothesis has the same margins as the current vote the quotient is 0/0, and the
    run panics *)
Lemma P_C104_short_step_refuted :
  forall (eta : f64) (dist m : list f64) (hyps k : nat) (ws : list f64), hyps <> 1%nat ->
  finite_num eta -> finite_all dist -> finite_all m -> length dist = length m -> m <> [] ->
  f_fw_short_step eta dist m m hyps k ws = Panic AssertFailed.
Proof.
  intros eta dist m hyps k ws Nh Fe Fd Fm L Nm. apply (P_C104_short_step eta dist m m hyps k ws Nh). unfold not_a_number. unfold f_short_quotient.
  assert (Z : forall m dist, finite_all dist -> finite_all m -> forall p, In p (combine (map (fun p => fsub (fst p) (snd p)) (combine m m)) dist) -> (exists b, fst p = B754_zero b) /\ fin (snd p)).
  { clear. intros m dist Fd Fm [z d] Hp. split; [|apply in_combine_r in Hp; apply Fd, Hp]. apply in_combine_l in Hp. apply in_map_iff in Hp. destruct Hp as [[a c] [<- Hac]]. cbn [fst snd].
    assert (X : forall l : list f64, In (a, c) (combine l l) -> a = c) by (induction l as [|q l IH]; [intros []|intros [E|H]; [congruence|apply IH, H]]). pose proof (X m Hac) as E. subst c. apply self_minus, Fm. apply in_combine_l in Hac. exact Hac. }
  specialize (Z m dist Fd Fm). set (ps := combine (map (fun p => fsub (fst p) (snd p)) (combine m m)) dist) in *.
  assert (Np : ps <> []). { unfold ps. destruct m; [contradiction|]. destruct dist; [discriminate L|]. discriminate. }
  clearbody ps. clear Fd Fm L Nm.
  assert (N1 : forall l a, (forall p, In p l -> (exists b, fst p = B754_zero b) /\ fin (snd p)) -> (exists b, a = B754_zero b) -> exists b, fold_left (fun a p => fadd a (fmul (snd p) (fst p))) l a = B754_zero b).
  { clear. intros l. induction l as [|p0 l IH]; intros a Hz Ha; [exact Ha|]. destruct Ha as [ba ->]. destruct p0 as [z d]. cbn [fold_left fst snd]. apply IH; [intros p Hp; apply Hz; right; exact Hp|]. destruct (Hz (z, d) (or_introl eq_refl)) as [[b Eb] Fd]. cbn [fst snd] in Eb, Fd. subst z.
    destruct d as [bd|bd| |bd md ed Hd]; try discriminate; destruct ba, bd, b; cbn; eauto. }
  assert (N2 : forall l a, (forall p, In p l -> (exists b, fst p = B754_zero b) /\ fin (snd p)) -> (exists b, a = B754_zero b) -> exists b, fold_left (fun a p => f_max a (fabs (fst p))) l a = B754_zero b).
  { clear. intros l. induction l as [|p0 l IH]; intros a Hz Ha; [exact Ha|]. destruct Ha as [ba ->]. destruct p0 as [z d]. cbn [fold_left fst snd]. apply IH; [intros p Hp; apply Hz; right; exact Hp|]. destruct (Hz (z, d) (or_introl eq_refl)) as [[b Eb] _]. cbn [fst snd] in Eb. subst z.
    destruct ba, b; cbn; eauto. }
  destruct (N1 ps f0 Z ltac:(exists false; reflexivity)) as [b1 ->].
  assert (N3 : exists b, fold_left (fun a p => f_max a (fabs (fst p))) ps f_lowest = B754_zero b).
  { destruct ps as [|[z d] ps]; [contradiction|]. cbn [fold_left fst snd]. apply N2; [intros p Hp; apply Z; right; exact Hp|]. destruct (Z (z, d) (or_introl eq_refl)) as [[b Eb] _]. cbn [fst snd] in Eb. subst z. exists false. destruct b; apply B2SF_inj; vm_compute; reflexivity. }
  destruct N3 as [b2 ->]. destruct eta as [be|be| |be me ee He]; try discriminate; destruct b1, b2, be; reflexivity.
Qed.

(** the hypotheses are met: three hypotheses, six rounds *)
Lemma ex_C104 : exists ps, ps <> [] /\ positions_ok 0 ps /\ length ps = 6%nat /\
  (exists ws, f_classic_run 1 ps [] = Ok ws /\ length ws = 3%nat) /\
  exists l, steps_agree l /\ steps_taken l = 2%nat.
Proof.
  exists [0; 1; 0; 2; 1; 2]%nat. split; [discriminate|]. split; [simpl; lia|]. split; [reflexivity|]. split.
  - assert (C : match f_classic_run 1 [0; 1; 0; 2; 1; 2]%nat [] with Ok ws => Nat.eqb (length ws) 3 | Panic _ => false end = true) by (vm_compute; reflexivity).
    destruct (f_classic_run 1 _ []) as [ws|p]; [|discriminate]. exists ws. split; [reflexivity|]. apply Nat.eqb_eq, C.
  - exists [Enter; Towards (fdiv (f_of_usize 2) (f_of_usize (2 + 1))) (2 / INR (2 + 1)) 1; Towards (fdiv (f_of_usize 2) (f_of_usize (3 + 1))) (2 / INR (3 + 1)) 0]. split; [|reflexivity].
    intros s r k [E|[E|[E|[]]]]; [discriminate| |]; injection E as <- <- _; [destruct (classic_step 2) as [A [B [C [D _]]]]|destruct (classic_step 3) as [A [B [C [D _]]]]]; try lia; try (simpl; lra); auto.
Qed.
Example C104_nonvacuous : exists ps, ps <> [] /\ positions_ok 0 ps /\ length ps = 6%nat /\
  (exists ws, f_classic_run 1 ps [] = Ok ws /\ length ws = 3%nat) /\
  exists l, steps_agree l /\ steps_taken l = 2%nat.
Proof. exact ex_C104. Qed.
