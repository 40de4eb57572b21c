(** * C107: CERLPBoost with the classic rule in binary64: no round panics, and stopping certifies the margin *)
From Coq Require Import ZArith List Bool Reals Lia Lra Psatz.
From Flocq Require Import Core.Core IEEE754.BinarySingleNaN.
From Verif Require Import Base Spec Float FloatSpec FloatProofs FloatFacts FloatCheckFacts FloatProjectSpec FloatProject FloatProjectProofs FloatProjectFacts FloatMedian FloatTree FloatMada FloatMadaProofs FloatRounds FrankWolfe FrankWolfeProofs FloatFW FloatFWSpec FloatFWProofs FloatFWFacts FloatMedianFacts FloatLine FloatLineFacts FloatExpDist FloatExpDistSpec FloatExpDistFacts FloatCERLP FloatCERLPSpec FloatCERLPProofs.
Import ListNotations.
Open Scope R_scope.

Section Run.
  Context {H : Type}.
  Variable conf : H -> nat -> f64.
  Variable eqH : H -> H -> bool.
  Variable produce : nat -> list f64 -> H.
  Variables fexp fln : f64 -> f64.
  Variables eta half_tol : f64.
  Variable ys : list f64.
  Hypothesis Ae : accurate_exp fexp.
  Hypothesis Al : accurate_ln fln.
  Hypothesis Ly : signed_labels ys.
  Hypothesis Bc : bounded_confidences conf.
  Hypothesis Fe : fin eta.
  Hypothesis He : 0 <= val eta.
  Hypothesis Hn : INR (length ys) * (val eta + 65) <= 2 ^ 30.
  Variable N : nat.
  Hypothesis HN : INR N <= 2 ^ 29.
  Hypothesis Hs : val eta * (INR N + 2) / 2 ^ 48 <= / 2 ^ 22.
  Let tab := f_table conf ys.
  Let n := length ys.

  Lemma tab_length hs : length (tab hs) = n. Proof. unfold tab, f_table. rewrite map_length, seq_length. reflexivity. Qed.
  Lemma tab_nth hs i : (i < n)%nat -> nth i (tab hs) [] = map (fun h => conf h i) hs.
  Proof.
    intros Hi. unfold tab, f_table. rewrite (nth_indep _ [] (map (fun h => conf h 0%nat) hs)) by (rewrite map_length, seq_length; exact Hi).
    rewrite (map_nth (fun i => map (fun h => conf h i) hs)). rewrite seq_nth by exact Hi. reflexivity.
  Qed.
  Lemma tab_labelled hs : labelled ys (tab hs) (length hs).
  Proof.
    destruct Ly as [L1 L2]. split; [exact L1|]. split; [apply tab_length|]. split; [exact L2|]. intros row Hr. unfold tab, f_table in Hr. apply in_map_iff in Hr. destruct Hr as [i [<- _]]. split; [apply map_length|].
    intros c Hc. apply in_map_iff in Hc. destruct Hc as [h [<- _]]. apply Bc.
  Qed.

  (** the state at the start of round [t] *)
  Definition cinv (t : nat) (ws : list f64) (hs : list H) : Prop :=
    length ws = length hs /\ (length ws + 1 <= t)%nat /\ unit_weights ws /\
    exists v, length ws = length v /\ sub_dist v /\ distance ws v + 16 * uu <= INR t * (16 * uu) /\ ((t = 1%nat /\ ws = []) \/ rsum v = 1).
  Lemma cinv_init : cinv 1 [] [].
  Proof. split; [reflexivity|]. split; [simpl; lia|]. split; [intros w []|]. exists []. split; [reflexivity|]. split; [split; [intros x []|simpl; lra]|]. split; [unfold distance; simpl; lra|left; auto]. Qed.

  Lemma n_bound : 1 <= INR n /\ INR n * 65 <= 2 ^ 30 /\ INR n <= 2 ^ 24.
  Proof.
    assert (n1 : 1 <= INR n) by (unfold n; destruct Ly as [L _]; destruct ys; [contradiction|]; change 1 with (INR 1); apply le_INR; simpl; lia). fold n in Hn. split; [exact n1|].
    assert (A : INR n * 65 <= 2 ^ 30) by (apply Rle_trans with (2 := Hn); apply Rmult_le_compat_l; lra). split; [exact A|]. assert (2 ^ 30 = 2 ^ 24 * 64) by (simpl; lra). assert (0 < 2 ^ 24) by (apply pow_lt; lra). lra.
  Qed.
  Lemma small_distance t (d : R) : (t <= N)%nat -> d + 16 * uu <= INR t * (16 * uu) -> d <= / 2 ^ 20 /\ d <= INR N / 2 ^ 49.
  Proof.
    intros Ht Hd. pose proof uu_pos as Up. apply le_INR in Ht. pose proof uu16 as U. assert (A : d <= INR N / 2 ^ 49) by (unfold Rdiv; rewrite <- U; assert (INR t * (16 * uu) <= INR N * (16 * uu)) by (apply Rmult_le_compat_r; lra); lra). split; [|exact A].
    apply Rle_trans with (1 := A). apply Rle_trans with (2 ^ 29 / 2 ^ 49); [apply Rmult_le_compat_r; [left; apply Rinv_0_lt_compat, pow_lt; lra|exact HN]|simpl; lra].
  Qed.
  Lemma eta_ok T (d : R) : (T <= N)%nat -> d <= INR N / 2 ^ 49 -> val eta * (d + (INR T + 2) / 2 ^ 50) <= / 2 ^ 22.
  Proof.
    intros HT Hd. apply le_INR in HT. apply Rle_trans with (2 := Hs). unfold Rdiv at 2. rewrite Rmult_assoc. apply Rmult_le_compat_l; [exact He|]. pose proof (pos_INR N) as P0.
    assert (Q0 : 0 < / 2 ^ 50) by (apply Rinv_0_lt_compat, pow_lt; lra). assert (Q1 : / 2 ^ 49 = 2 * / 2 ^ 50) by (simpl; lra). assert (Q2 : / 2 ^ 48 = 4 * / 2 ^ 50) by (simpl; lra).
    unfold Rdiv in *. rewrite Q1 in Hd. rewrite Q2. clear HN Hs Hn Q1 Q2. generalize dependent (/ 2 ^ 50). intros q. intros. nra.
  Qed.

  (** the distribution of a round, from weights near [v] *)
  Lemma round_dist ws hs (v : list R) t : (t <= N)%nat -> length ws = length hs -> (length ws + 1 <= t)%nat -> unit_weights ws -> at_most_one v -> length v = length ws -> distance ws v + 16 * uu <= INR t * (16 * uu) ->
    exists dist, f_cerlp_dist conf fexp fln eta f1 ys ws hs = Ok dist /\ length dist = n /\ forall i, (i < n)%nat -> fin (nth i dist f0) /\ 0 <= val (nth i dist f0) <= 1 /\
      Rabs (val (nth i dist f0) - exact_exp_distribution (val eta) (exact_margins v ys (tab hs)) i) <= / 2 ^ 18 * exact_exp_distribution (val eta) (exact_margins v ys (tab hs)) i + / 2 ^ 50.
  Proof.
    intros Ht L Lt U D Lv Hd. destruct (small_distance t _ Ht Hd) as [S1 S2]. assert (LN : (length ws <= N)%nat) by lia. pose proof (le_INR _ _ LN) as LN'.
    assert (p29 : 2 * 2 ^ 29 = 2 ^ 30) by (simpl; lra). pose proof (pos_INR N) as P0. assert (P1 : 0 < 2 ^ 29) by (apply pow_lt; lra).
    destruct (distribution_close fexp fln eta ys (tab hs) (length ws) ws v Ae Al) as [dist [E [Ld Q]]]; try assumption; [rewrite L; apply tab_labelled|reflexivity|lra| |apply eta_ok; [exact LN|exact S2]|].
    - apply Rle_trans with (1 := S1). simpl. lra.
    - exists dist. split; [exact E|]. split; [exact Ld|]. exact Q.
  Qed.

  Lemma sub_at_most v : sub_dist v -> at_most_one v. Proof. intros [A B]. split; [intros x Hx; apply A, Hx|exact B]. Qed.
  Lemma position_le h hs : (f_position eqH h hs <= length hs)%nat.
  Proof. induction hs as [|f hs IH]; simpl; [lia|]. destruct (eqH f h); lia. Qed.

  Lemma round_step t ws hs h : (1 <= t)%nat -> (t <= N)%nat -> cinv t ws hs ->
    let pos := f_position eqH h hs in let st := if Nat.eqb pos (length hs) then (hs ++ [h], ws ++ [f0]) else (hs, ws) in
    exists ws', f_fw_classic t pos (snd st) = Ok ws' /\ cinv (S t) ws' (fst st).
  Proof.
    intros Ht HtN [L [Lt [U [v [Lv [Sd [Hd Hv]]]]]]] pos st. pose proof uu_pos as Up. destruct (small_distance t _ HtN Hd) as [S1 _]. pose proof (distance_nonneg ws v) as D0.
    pose proof (le_INR _ _ HtN) as HtN'. assert (Lt' : INR (length ws) + 1 <= INR t) by (rewrite <- S_INR; apply le_INR; lia). assert (p29 : 2 * 2 ^ 29 = 2 ^ 30) by (simpl; lra). assert (P29 : 1 <= 2 ^ 29) by (apply pow_R1_Rle; lra).
    set (ws1 := snd st). set (v1 := if Nat.eqb pos (length hs) then v ++ [0] else v).
    assert (F1 : length ws1 = length v1 /\ length ws1 = length (fst st) /\ unit_weights ws1 /\ sub_dist v1 /\ distance ws1 v1 = distance ws v /\ rsum v1 = rsum v /\ (pos < length v1)%nat /\ (length ws1 <= length ws + 1)%nat).
    { unfold ws1, v1, st. pose proof (position_le h hs) as Pl. fold pos in Pl. destruct (Nat.eqb_spec pos (length hs)) as [E|E]; cbn [fst snd].
      - rewrite !app_length, L, <- Lv, L. cbn [length]. split; [reflexivity|]. split; [reflexivity|]. split; [apply unit_push, U|]. split; [apply sub_push, Sd|]. split; [apply distance_push, Lv|]. split; [rewrite rsum_app; simpl; ring|]. lia.
      - split; [exact Lv|]. split; [exact L|]. split; [exact U|]. split; [exact Sd|]. split; [reflexivity|]. split; [reflexivity|]. lia. }
    destruct F1 as [L1 [L1h [U1 [Sd1 [D1 [R1 [K1 N1]]]]]]]. apply le_INR in N1 as N1'. rewrite plus_INR in N1'. simpl (INR 1) in N1'.
    destruct (classic_step t Ht) as [Fs [Hst [Hr [Hsr Hone]]]]; [lra|].
    destruct (one_step _ _ pos ws1 v1 Fs Hst Hr Hsr L1 U1 Sd1) as [w2 [v2 [E1 [E2 [L2 [L3 [U2 [Sd2 [D2 Z2]]]]]]]]]; [rewrite <- L1; lra|rewrite D1; apply Rle_trans with (1 := S1); simpl; lra|].
    exists w2. split; [exact E1|]. split; [congruence|]. split; [rewrite L2; lia|]. split; [exact U2|]. exists v2. split; [congruence|]. split; [exact Sd2|]. split; [rewrite S_INR; rewrite D1 in D2; lra|].
    right. apply Z2; [exact K1|]. destruct Hv as [[E _]|E]; [right; apply Hone, E|left; rewrite R1; exact E].
  Qed.

  (** the whole run *)
  Lemma run_ends rounds : forall t ws hs, (1 <= t)%nat -> (t + rounds <= S N)%nat -> cinv t ws hs ->
    match f_cerlp_run conf eqH produce fexp fln eta f1 half_tol ys rounds t ws hs with
    | FStopped t' dist h ws' hs' => (t <= t' <= N)%nat /\ cinv t' ws' hs' /\ f_cerlp_dist conf fexp fln eta f1 ys ws' hs' = Ok dist /\ h = produce t' dist /\
        fle (fsub (f_edge_of conf ys dist h) (f_edge_of_vote conf ys dist ws' hs')) half_tol = true
    | FLimit ws' hs' => exists t', (t' <= S N)%nat /\ cinv t' ws' hs'
    | FCrashed _ => False
    end.
  Proof.
    induction rounds as [|r IH]; intros t ws hs Ht Hr I; cbn [f_cerlp_run]; [exists t; split; [lia|exact I]|].
    pose proof I as [L [Lt [U [v [Lv [Sd [Hd Hv]]]]]]]. destruct (round_dist ws hs v t) as [dist [E [Ld _]]]; try assumption; [lia|apply sub_at_most, Sd|symmetry; exact Lv|]. rewrite E.
    destruct (fle (fsub (f_edge_of conf ys dist (produce t dist)) (f_edge_of_vote conf ys dist ws hs)) half_tol) eqn:T; [split; [lia|auto]|].
    destruct (round_step t ws hs (produce t dist) Ht ltac:(lia) I) as [ws' [E1 I1]].
    destruct (if Nat.eqb (f_position eqH (produce t dist) hs) (length hs) then (hs ++ [produce t dist], ws ++ [f0]) else (hs, ws)) as [hs1 ws1] eqn:Es. cbn [fst snd] in E1, I1. rewrite E1.
    specialize (IH (S t) ws' hs1 ltac:(lia) ltac:(lia) I1). destruct (f_cerlp_run conf eqH produce fexp fln eta f1 half_tol ys r (S t) ws' hs1) as [t' d' h' w' s'|w' s'|p]; [|exact IH|exact IH].
    destruct IH as [IH1 IH2]. split; [lia|exact IH2].
  Qed.

  (** the exact margins of the normalised vote *)
  Lemma normal_margin ws hs i : 0 < total ws -> length ws = length hs -> (i < n)%nat ->
    nth i (exact_margins (map (fun w => val w / total ws) ws) ys (tab hs)) 0 = vote_margin conf ys ws hs i.
  Proof.
    intros Pt L Hi. unfold exact_margins. rewrite (map_ext_nth (fun p => exact_margin _ (fst p) (snd p)) (combine ys (tab hs)) (f0, [])) by (rewrite combine_length, tab_length; fold n; lia).
    rewrite combine_nth by (rewrite tab_length; reflexivity). cbn [fst snd]. rewrite tab_nth by exact Hi. unfold exact_margin, vote_margin. f_equal. generalize (total ws) Pt. intros tau Ptau. clear - L Ptau.
    revert hs L. induction ws as [|w ws IH]; intros [|h hs] L; try discriminate L; [simpl; field; lra|]. cbn [map combine rsum fst snd]. rewrite IH by (simpl in L; lia). field. lra.
  Qed.
  Lemma normal_dist ws : unit_weights ws -> 0 < total ws -> is_dist (map (fun w => val w / total ws) ws) /\ distance ws (map (fun w => val w / total ws) ws) = Rabs (total ws - 1).
  Proof.
    intros U P. set (tau := total ws) in *. split; [split|].
    - intros x Hx. apply in_map_iff in Hx. destruct Hx as [w [<- Hw]]. apply Rmult_le_pos; [apply U, Hw|left; apply Rinv_0_lt_compat, P].
    - transitivity (total ws / tau); [|change (tau / tau = 1); field; lra]. clearbody tau. clear U. unfold total. induction ws as [|w ws IH]; [simpl; field; lra|]. cbn [map rsum]. rewrite IH. field. lra.
    - transitivity (total ws * Rabs (1 - / tau)).
      + clearbody tau. revert U. induction ws as [|w ws IH]; intros U; [unfold distance, total; simpl; ring|]. change (map (fun w => val w / tau) (w :: ws)) with (val w / tau :: map (fun w => val w / tau) ws).
        change (distance (w :: ws) (val w / tau :: map (fun w => val w / tau) ws)) with (Rabs (val w - val w / tau) + distance ws (map (fun w => val w / tau) ws)). change (total (w :: ws)) with (val w + total ws).
        rewrite IH by (intros q Hq; apply U; right; exact Hq). replace (val w - val w / tau) with (val w * (1 - / tau)) by (field; lra). rewrite Rabs_mult, (Rabs_pos_eq (val w)) by (apply U; left; reflexivity). ring.
      + fold tau. rewrite <- (Rabs_pos_eq tau) at 1 by lra. rewrite <- Rabs_mult. f_equal. field. lra.
  Qed.

  Lemma stop_margin t ws hs dist h : (t <= N)%nat -> cinv t ws hs -> ws <> [] -> 0 < val eta -> fin half_tol -> f_cerlp_dist conf fexp fln eta f1 ys ws hs = Ok dist ->
    fle (fsub (f_edge_of conf ys dist h) (f_edge_of_vote conf ys dist ws hs)) half_tol = true ->
    forall k, (k < n)%nat -> true_edge conf ys dist h - val half_tol - ln (INR n) / val eta - / 2 ^ 16 <= vote_margin conf ys ws hs k.
  Proof.
    intros Ht [L [Lt [U [v0 [Lv0 [Sd0 [Hd0 Hv0]]]]]]] Nw Pe Fh Ed Tst k Hk. pose proof uu_pos as Up. pose proof uu_small as Us. destruct n_bound as [n1 [n65 n24]].
    assert (R0 : rsum v0 = 1) by (destruct Hv0 as [[_ X]|X]; [contradiction|exact X]). destruct (small_distance t _ Ht Hd0) as [S1 S2]. pose proof (distance_total ws v0 Lv0) as T0. rewrite R0 in T0.
    assert (Tt : Rabs (total ws - 1) <= / 2 ^ 20) by lra. apply Rabs_le_inv in Tt as Tt'. assert (P20 : / 2 ^ 20 <= 1 / 1000) by (simpl; lra). assert (Pt : 0 < total ws) by lra.
    destruct (normal_dist ws U Pt) as [Dv Dd]. set (v := map (fun w => val w / total ws) ws) in *. assert (Lv : length v = length ws) by (unfold v; apply map_length). assert (Av : at_most_one v) by (destruct Dv as [D1 D2]; split; [exact D1|lra]).
    assert (Hd : distance ws v + 16 * uu <= INR t * (16 * uu)) by (rewrite Dd; lra). destruct (round_dist ws hs v t Ht L Lt U Av Lv Hd) as [dist' [E' [Ld Q]]]. rewrite Ed in E'. injection E' as <-.
    set (ms := exact_margins v ys (tab hs)) in *. assert (Lm : length ms = n) by (unfold ms, exact_margins; rewrite map_length, combine_length, tab_length; fold n; lia).
    assert (Nm : ms <> []) by (intros Z; rewrite Z in Lm; simpl in Lm; rewrite <- Lm in n1; simpl in n1; lra). destruct (softmax_sum (val eta) ms Nm) as [Sp Ss]. rewrite Lm in Sp, Ss.
    set (s := exact_exp_distribution (val eta) ms) in *. change (ssum n s = 1) in Ss. set (d := fun i => val (nth i dist f0)).
    assert (P50 : INR n * / 2 ^ 50 <= / 2 ^ 26). { apply Rle_trans with (2 ^ 24 * / 2 ^ 50); [apply Rmult_le_compat_r; [left; apply Rinv_0_lt_compat, pow_lt; lra|exact n24]|simpl; lra]. }
    assert (Gap : ssum n (fun i => Rabs (d i - s i)) <= / 2 ^ 18 + / 2 ^ 26).
    { apply Rle_trans with (ssum n (fun i => / 2 ^ 18 * s i + / 2 ^ 50)); [apply ssum_le; intros i Hi; apply Q, Hi|]. rewrite ssum_plus, ssum_scale, ssum_const. change (ssum n (fun i => s i)) with (ssum n s). rewrite Ss. lra. }
    assert (Sdd : ssum n d <= 2).
    { apply Rle_trans with (ssum n (fun i => s i + Rabs (d i - s i))); [apply ssum_le; intros i Hi; pose proof (Rle_abs (d i - s i)); lra|]. rewrite ssum_plus. change (ssum n (fun i => s i)) with (ssum n s). rewrite Ss. assert (/ 2 ^ 18 + / 2 ^ 26 <= 1) by (simpl; lra). lra. }
    assert (Hdd : forall i, (i < n)%nat -> fin (nth i dist f0) /\ 0 <= val (nth i dist f0) <= 1) by (intros i Hi; destruct (Q i Hi) as [A [B _]]; auto).
    assert (n30 : INR n <= 2 ^ 30) by (apply Rle_trans with (1 := n24), Rle_pow; [lra|lia]). destruct Ly as [Ny Hy]. pose proof (tab_labelled hs) as [_ [_ [_ Htab]]].
    (* the edge of the new hypothesis *)
    assert (New : fin (f_edge_of conf ys dist h) /\ Rabs (val (f_edge_of conf ys dist h) - true_edge conf ys dist h) <= 9 * uu * INR n + 2 * (2 * uu)).
    { unfold f_edge_of, true_edge. apply (edge_close dist (f_margins_of conf ys h) (fun i => val (nth i ys f0) * val (conf h i)) n (2 * uu)); try assumption; [unfold f_margins_of; rewrite map_length, combine_length, seq_length; fold n; lia|lra|].
      intros i Hi. unfold f_margins_of. rewrite (map_ext_nth (fun p => fmul (snd p) (conf h (fst p))) (combine (seq 0 (length ys)) ys) (0%nat, f0)) by (rewrite combine_length, seq_length; fold n; lia).
      rewrite combine_nth by apply seq_length. cbn [fst snd]. rewrite seq_nth by exact Hi. rewrite Nat.add_0_l. destruct (Hy (nth i ys f0) (nth_In ys f0 Hi)) as [Fy Vy]. destruct (Bc h i) as [Fc Vc].
      assert (Ay : Rabs (val (nth i ys f0)) = 1) by (destruct Vy as [-> | ->]; [apply Rabs_R1|rewrite Rabs_left; lra]). assert (P1 : 1 < 2 ^ 1023) by (rewrite <- (pow_O 2); apply Rlt_pow; [lra|lia]).
      destruct (fmul_spec (nth i ys f0) (conf h i) Fy Fc) as [Fm Em]; [rewrite Rabs_mult, Ay; apply Rle_lt_trans with 1; lra|]. rewrite Rabs_mult, Ay, Rmult_1_l in Em. pose proof eta0_small as Et. assert (Eu : eta0 <= uu) by (apply Rle_trans with (1 := Et); unfold uu; simpl; lra).
      assert (Em' : Rabs (val (fmul (nth i ys f0) (conf h i)) - val (nth i ys f0) * val (conf h i)) <= 2 * uu) by (assert (uu * Rabs (val (conf h i)) <= uu * 1) by (apply Rmult_le_compat_l; lra); lra).
      split; [exact Fm|]. split; [|exact Em']. replace (val (fmul (nth i ys f0) (conf h i))) with ((val (fmul (nth i ys f0) (conf h i)) - val (nth i ys f0) * val (conf h i)) + val (nth i ys f0) * val (conf h i)) by ring.
      eapply Rle_trans; [apply Rabs_triang|]. rewrite (Rabs_mult (val (nth i ys f0))), Ay. lra. }
    (* the edge of the vote *)
    set (dl := / 2 ^ 20 + / 2 ^ 20). assert (Hdl : 0 <= dl <= 1 / 2) by (unfold dl; simpl; lra).
    assert (Mg : forall i, (i < n)%nat -> nth i ms 0 = exact_margin v (nth i ys f0) (map (fun h => conf h i) hs) /\ Rabs (nth i ms 0) <= 1).
    { intros i Hi. assert (X : nth i ms 0 = exact_margin v (nth i ys f0) (map (fun h => conf h i) hs)).
      { unfold ms, exact_margins. rewrite (map_ext_nth (fun p => exact_margin v (fst p) (snd p)) (combine ys (tab hs)) (f0, [])) by (rewrite combine_length, tab_length; fold n; lia).
        rewrite combine_nth by (rewrite tab_length; reflexivity). cbn [fst snd]. rewrite tab_nth by exact Hi. reflexivity. }
      split; [exact X|]. rewrite X. unfold exact_margin. rewrite Rabs_mult. destruct (Hy (nth i ys f0) (nth_In ys f0 Hi)) as [_ Vy].
      assert (Ay : Rabs (val (nth i ys f0)) = 1) by (destruct Vy as [-> | ->]; [apply Rabs_R1|rewrite Rabs_left; lra]). rewrite Ay, Rmult_1_l. apply (dist_total v Av). intros c Hc. apply in_map_iff in Hc. destruct Hc as [h' [<- _]]. apply Bc. }
    assert (LN : INR (length ws) + 1 <= INR N) by (rewrite <- S_INR; apply le_INR; lia).
    assert (Old : fin (f_edge_of_vote conf ys dist ws hs) /\ Rabs (val (f_edge_of_vote conf ys dist ws hs) - ssum n (fun i => d i * nth i ms 0)) <= 9 * uu * INR n + 2 * dl).
    { unfold f_edge_of_vote, d. fold tab. apply (edge_close dist (f_vote_margins ws ys (tab hs)) (fun i => nth i ms 0) n dl); try assumption; [unfold f_vote_margins; rewrite map_length, combine_length, tab_length; fold n; lia|apply Hdl|].
      intros i Hi. unfold f_vote_margins. rewrite (map_ext_nth (fun p => f_vote_margin ws (fst p) (snd p)) (combine ys (tab hs)) (f0, [])) by (rewrite combine_length, tab_length; fold n; lia).
      rewrite combine_nth by (rewrite tab_length; reflexivity). cbn [fst snd]. rewrite tab_nth by exact Hi. destruct (Hy (nth i ys f0) (nth_In ys f0 Hi)) as [Fy Vy]. destruct (Mg i Hi) as [Xm Bm]. assert (p29 : 2 * 2 ^ 29 = 2 ^ 30) by (simpl; lra). assert (P29 : 0 < 2 ^ 29) by (apply pow_lt; lra).
      destruct (margin_close ws v (nth i ys f0) (map (fun h => conf h i) hs) U Av) as [Fm Em]; try assumption; [symmetry; exact Lv|rewrite map_length; symmetry; exact L|intros c Hc; apply in_map_iff in Hc; destruct Hc as [h' [<- _]]; apply Bc|lra|rewrite Dd; lra|].
      rewrite <- Xm in Em. assert (Em' : Rabs (val (f_vote_margin ws (nth i ys f0) (map (fun h => conf h i) hs)) - nth i ms 0) <= dl).
      { apply Rle_trans with (1 := Em). unfold dl. rewrite Dd. apply Rplus_le_compat; [exact Tt|]. apply Rle_trans with (2 ^ 29 / 2 ^ 50); [apply Rmult_le_compat_r; [left; apply Rinv_0_lt_compat, pow_lt; lra|lra]|simpl; lra]. }
      split; [exact Fm|]. split; [|exact Em']. replace (val (f_vote_margin ws (nth i ys f0) (map (fun h => conf h i) hs))) with ((val (f_vote_margin ws (nth i ys f0) (map (fun h => conf h i) hs)) - nth i ms 0) + nth i ms 0) by ring.
      eapply Rle_trans; [apply Rabs_triang|]. lra. }
    destruct New as [Fn En]. destruct Old as [Fo Eo]. set (new := f_edge_of conf ys dist h) in *. set (old := f_edge_of_vote conf ys dist ws hs) in *.
    assert (Bn : Rabs (true_edge conf ys dist h) <= 2).
    { unfold true_edge. change (Rabs (ssum n (fun i => d i * (val (nth i ys f0) * val (conf h i)))) <= 2). eapply Rle_trans; [apply ssum_abs|]. apply Rle_trans with (2 := Sdd). apply ssum_le. intros i Hi. destruct (Hdd i Hi) as [_ B]. unfold d.
      destruct (Hy (nth i ys f0) (nth_In ys f0 Hi)) as [_ Vy]. assert (Ay : Rabs (val (nth i ys f0)) = 1) by (destruct Vy as [-> | ->]; [apply Rabs_R1|rewrite Rabs_left; lra]). destruct (Bc h i) as [_ Vc].
      rewrite !Rabs_mult, Ay, (Rabs_pos_eq (val (nth i dist f0))), Rmult_1_l by lra. rewrite <- (Rmult_1_r (val (nth i dist f0))) at 2. apply Rmult_le_compat_l; lra. }
    assert (Bo : Rabs (ssum n (fun i => d i * nth i ms 0)) <= 2).
    { eapply Rle_trans; [apply ssum_abs|]. apply Rle_trans with (2 := Sdd). apply ssum_le. intros i Hi. destruct (Hdd i Hi) as [_ B]. destruct (Mg i Hi) as [_ C]. unfold d. rewrite Rabs_mult, (Rabs_pos_eq (val (nth i dist f0))) by lra. rewrite <- (Rmult_1_r (val (nth i dist f0))) at 2. apply Rmult_le_compat_l; lra. }
    assert (Un : 9 * uu * INR n <= / 2 ^ 25). { apply Rle_trans with (9 * uu * 2 ^ 24); [apply Rmult_le_compat_l; [lra|exact n24]|]. unfold uu. simpl. lra. }
    assert (U4 : 2 * (2 * uu) <= / 2 ^ 30) by (unfold uu; simpl; lra). assert (Ssm : / 2 ^ 25 + / 2 ^ 30 + / 2 ^ 20 + / 2 ^ 20 + / 2 ^ 20 + / 2 ^ 20 <= 1 / 4) by (simpl; lra).
    assert (Vn : Rabs (val new) <= 3). { replace (val new) with ((val new - true_edge conf ys dist h) + true_edge conf ys dist h) by ring. eapply Rle_trans; [apply Rabs_triang|]. unfold dl in *. assert (0 < / 2 ^ 20) by (apply Rinv_0_lt_compat, pow_lt; lra). lra. }
    assert (Vo : Rabs (val old) <= 3). { replace (val old) with ((val old - ssum n (fun i => d i * nth i ms 0)) + ssum n (fun i => d i * nth i ms 0)) by ring. eapply Rle_trans; [apply Rabs_triang|]. unfold dl in *. assert (0 < / 2 ^ 30) by (apply Rinv_0_lt_compat, pow_lt; lra). lra. }
    assert (Bdf : Rabs (val new - val old) <= 6) by (unfold Rminus; eapply Rle_trans; [apply Rabs_triang|]; rewrite Rabs_Ropp; lra).
    destruct (fsub_rnd new old Fn Fo) as [Fd [_ [e [He' Ee]]]]; [apply Rle_trans with (1 := Bdf); apply Rle_trans with (2 ^ 3); [simpl; lra|apply Rle_pow; [lra|lia]]|].
    apply (fle_true _ _ Fd Fh) in Tst. rewrite Ee in Tst.
    assert (T1 : val new - val old <= val half_tol + 6 * uu). { assert (X : Rabs ((val new - val old) * e) <= 6 * uu) by (rewrite Rabs_mult; apply Rmult_le_compat; [apply Rabs_pos|apply Rabs_pos|exact Bdf|exact He']). apply Rabs_le_inv in X. lra. }
    (* the softmax bound *)
    assert (Sm : ssum n (fun i => d i * nth i ms 0) <= ssum n (fun i => s i * nth i ms 0) + (/ 2 ^ 18 + / 2 ^ 26)).
    { apply Rle_trans with (ssum n (fun i => s i * nth i ms 0 + Rabs (d i - s i))); [|rewrite ssum_plus; lra]. apply ssum_le. intros i Hi. destruct (Mg i Hi) as [_ C].
      assert (X : Rabs ((d i - s i) * nth i ms 0) <= Rabs (d i - s i)) by (rewrite Rabs_mult; rewrite <- (Rmult_1_r (Rabs (d i - s i))) at 2; apply Rmult_le_compat_l; [apply Rabs_pos|exact C]). apply Rabs_le_inv in X. lra. }
    pose proof (softmax_min (val eta) ms k Pe ltac:(rewrite Lm; exact Hk)) as Mn. rewrite Lm in Mn. fold s in Mn. change (ssum n (fun i => s i * nth i ms 0) <= nth k ms 0 + ln (INR n) / val eta) in Mn.
    assert (Ek : nth k ms 0 = vote_margin conf ys ws hs k) by (apply normal_margin; assumption). rewrite <- Ek. apply Rabs_le_inv in En. apply Rabs_le_inv in Eo.
    assert (Fin : / 2 ^ 25 + / 2 ^ 30 + (/ 2 ^ 25 + 2 * (/ 2 ^ 20 + / 2 ^ 20)) + / 2 ^ 30 + (/ 2 ^ 18 + / 2 ^ 26) <= / 2 ^ 16) by (simpl; lra). assert (U6 : 6 * uu <= / 2 ^ 30) by (unfold uu; simpl; lra). unfold dl in Eo. lra.
  Qed.
  (** the distribution of the last round *)
  Lemma stop_dist t ws hs dist : (t <= N)%nat -> cinv t ws hs -> f_cerlp_dist conf fexp fln eta f1 ys ws hs = Ok dist -> near_distribution n dist.
  Proof.
    intros Ht [L [Lt [U [v [Lv [Sd [Hd _]]]]]]] Ed. destruct n_bound as [n1 [n65 n24]].
    destruct (round_dist ws hs v t Ht L Lt U (sub_at_most v Sd) (eq_sym Lv) Hd) as [dist' [E' [Ld Q]]]. rewrite Ed in E'. injection E' as <-.
    set (ms := exact_margins v ys (tab hs)) in *. assert (Lm : length ms = n) by (unfold ms, exact_margins; rewrite map_length, combine_length, tab_length; fold n; lia).
    assert (Nm : ms <> []) by (intros Z; rewrite Z in Lm; simpl in Lm; rewrite <- Lm in n1; simpl in n1; lra). destruct (softmax_sum (val eta) ms Nm) as [Sp Ss]. rewrite Lm in Sp, Ss.
    set (s := exact_exp_distribution (val eta) ms) in *. change (ssum n s = 1) in Ss. set (d := fun i => val (nth i dist f0)).
    assert (P50 : INR n * / 2 ^ 50 <= / 2 ^ 26). { apply Rle_trans with (2 ^ 24 * / 2 ^ 50); [apply Rmult_le_compat_r; [left; apply Rinv_0_lt_compat, pow_lt; lra|exact n24]|simpl; lra]. }
    assert (Gap : ssum n (fun i => Rabs (d i - s i)) <= / 2 ^ 18 + / 2 ^ 26).
    { apply Rle_trans with (ssum n (fun i => / 2 ^ 18 * s i + / 2 ^ 50)); [apply ssum_le; intros i Hi; apply Q, Hi|]. rewrite ssum_plus, ssum_scale, ssum_const. change (ssum n (fun i => s i)) with (ssum n s). rewrite Ss. lra. }
    split; [exact Ld|]. split.
    - intros x Hx. destruct (In_nth _ _ f0 Hx) as [i [Hi <-]]. rewrite Ld in Hi. destruct (Q i Hi) as [A [B _]]. split; assumption.
    - assert (Tt : total dist = ssum n d). { unfold total, ssum, d. rewrite <- Ld. f_equal. clear. induction dist as [|x l IH]; [reflexivity|]. cbn [map length seq nth]. f_equal. rewrite <- seq_shift, map_map. exact IH. }
      replace (total dist - 1) with (ssum n (fun i => d i - s i)); [eapply Rle_trans; [apply ssum_abs|]; apply Rle_trans with (1 := Gap); simpl; lra|].
      rewrite Tt, <- Ss. assert (X : ssum n (fun i => d i + (-1) * s i) = ssum n d + (-1) * ssum n s) by (rewrite ssum_plus, ssum_scale; reflexivity).
      rewrite (ssum_eq n (fun i => d i - s i) (fun i => d i + (-1) * s i)) by (intros; ring). rewrite X. ring.
  Qed.
End Run.

(** ** C107: no round of a run panics, whatever the weak learner returns: it stops on its test or at the round limit, with as many weights
    as hypotheses, every weight in [0,1] and, unless it stopped in the first round, a sum of one up to (rounds) 2^-49 *)
Lemma P_C107_run_never_panics :
  forall (H : Type) (conf : H -> nat -> f64) (eqH : H -> H -> bool) (produce : nat -> list f64 -> H) (fexp fln : f64 -> f64) (eta half_tol : f64) (ys : list f64) (rounds : nat),
  accurate_exp fexp -> accurate_ln fln -> signed_labels ys -> bounded_confidences conf -> finite_num eta -> 0 <= val eta ->
  INR (length ys) * (val eta + 65) <= 2 ^ 30 -> INR rounds <= 2 ^ 29 -> val eta * (INR rounds + 2) / 2 ^ 48 <= / 2 ^ 22 ->
  let good ws (hs : list H) := length ws = length hs /\ unit_weights ws /\ (ws = [] \/ Rabs (total ws - 1) <= INR rounds / 2 ^ 49) in
  match f_cerlp_run conf eqH produce fexp fln eta f1 half_tol ys rounds 1 [] [] with
  | FStopped t dist h ws hs => (1 <= t <= rounds)%nat /\ good ws hs /\ h = produce t dist
  | FLimit ws hs => good ws hs
  | FCrashed _ => False
  end.
Proof.
  intros H conf eqH produce fexp fln eta half_tol ys rounds Ae Al Ly Bc Fe He Hn HN Hs good.
  assert (G : forall t ws hs, (t <= S rounds)%nat -> cinv t ws hs -> good ws hs).
  { intros t ws hs Ht [L [_ [U [v [Lv [_ [Hd Hv]]]]]]]. split; [exact L|]. split; [exact U|]. destruct Hv as [[_ X]|X]; [left; exact X|]. right. pose proof (distance_total ws v Lv) as T. rewrite X in T. apply Rle_trans with (1 := T).
    apply le_INR in Ht. rewrite S_INR in Ht. pose proof uu_pos. unfold Rdiv. rewrite <- uu16. assert (INR t * (16 * uu) <= (INR rounds + 1) * (16 * uu)) by (apply Rmult_le_compat_r; lra). lra. }
  pose proof (run_ends conf eqH produce fexp fln eta half_tol ys Ae Al Ly Bc Fe He Hn rounds HN Hs rounds 1 [] [] ltac:(lia) ltac:(lia) (cinv_init ys)) as R.
  destruct (f_cerlp_run conf eqH produce fexp fln eta f1 half_tol ys rounds 1 [] []) as [t dist h ws hs|ws hs|p]; [|destruct R as [t [Ht I]]; exact (G t ws hs Ht I)|exact R].
  destruct R as [Ht [I [_ [Eh _]]]]. split; [exact Ht|]. split; [apply (G t); [lia|exact I]|exact Eh].
Qed.

(** ** C107: when it stops on its test (after the first round), the computed weights are a certificate: every example's margin under the
    normalised vote is at least the exact edge of the last hypothesis under the computed distribution, less half the tolerance, less
    ln n / eta, less 2^-16 *)
Lemma P_C107_stop_certifies_margin :
  forall (H : Type) (conf : H -> nat -> f64) (eqH : H -> H -> bool) (produce : nat -> list f64 -> H) (fexp fln : f64 -> f64) (eta half_tol : f64) (ys : list f64) (rounds : nat) t dist h ws hs,
  accurate_exp fexp -> accurate_ln fln -> signed_labels ys -> bounded_confidences conf -> finite_num eta -> 0 < val eta -> finite_num half_tol ->
  INR (length ys) * (val eta + 65) <= 2 ^ 30 -> INR rounds <= 2 ^ 29 -> val eta * (INR rounds + 2) / 2 ^ 48 <= / 2 ^ 22 ->
  f_cerlp_run conf eqH produce fexp fln eta f1 half_tol ys rounds 1 [] [] = FStopped t dist h ws hs -> ws <> [] ->
  h = produce t dist /\ near_distribution (length ys) dist /\
  forall k, (k < length ys)%nat -> true_edge conf ys dist h - val half_tol - ln (INR (length ys)) / val eta - / 2 ^ 16 <= vote_margin conf ys ws hs k.
Proof.
  intros H conf eqH produce fexp fln eta half_tol ys rounds t dist h ws hs Ae Al Ly Bc Fe He Fh Hn HN Hs E Nw.
  pose proof (run_ends conf eqH produce fexp fln eta half_tol ys Ae Al Ly Bc Fe ltac:(lra) Hn rounds HN Hs rounds 1 [] [] ltac:(lia) ltac:(lia) (cinv_init ys)) as R. rewrite E in R. destruct R as [Ht [I [Ed [Eh T]]]]. split; [exact Eh|].
  split; [exact (stop_dist conf fexp fln eta ys Ae Al Ly Bc Fe (Rlt_le _ _ He) Hn rounds HN Hs t ws hs dist (proj2 Ht) I Ed)|].
  apply (stop_margin conf fexp fln eta half_tol ys Ae Al Ly Bc Fe ltac:(lra) Hn rounds HN Hs t ws hs dist h); try assumption. apply Ht.
Qed.

(** ** C107: so with eta at least ln n / half_tol and a weak learner whose hypotheses always have edge at least [g] under (nearly) a distribution,
    stopping means a vote
    with margin at least g - tolerance - 2^-16 on every example *)
Lemma P_C107_guarantee :
  forall (H : Type) (conf : H -> nat -> f64) (eqH : H -> H -> bool) (produce : nat -> list f64 -> H) (fexp fln : f64 -> f64) (eta half_tol : f64) (ys : list f64) (rounds : nat) (g : R) t dist h ws hs,
  accurate_exp fexp -> accurate_ln fln -> signed_labels ys -> bounded_confidences conf -> finite_num eta -> 0 < val eta -> finite_num half_tol ->
  INR (length ys) * (val eta + 65) <= 2 ^ 30 -> INR rounds <= 2 ^ 29 -> val eta * (INR rounds + 2) / 2 ^ 48 <= / 2 ^ 22 ->
  ln (INR (length ys)) / val eta <= val half_tol -> (forall t d, near_distribution (length ys) d -> g <= true_edge conf ys d (produce t d)) ->
  f_cerlp_run conf eqH produce fexp fln eta f1 half_tol ys rounds 1 [] [] = FStopped t dist h ws hs -> ws <> [] ->
  forall k, (k < length ys)%nat -> g - 2 * val half_tol - / 2 ^ 16 <= vote_margin conf ys ws hs k.
Proof.
  intros H conf eqH produce fexp fln eta half_tol ys rounds g t dist h ws hs Ae Al Ly Bc Fe He Fh Hn HN Hs Hl Hg E Nw k Hk.
  destruct (P_C107_stop_certifies_margin H conf eqH produce fexp fln eta half_tol ys rounds t dist h ws hs Ae Al Ly Bc Fe He Fh Hn HN Hs E Nw) as [Eh [Nd M]]. specialize (M k Hk). specialize (Hg t dist Nd). rewrite <- Eh in Hg. lra.
Qed.


(** the platform functions with their exact values at 0 and at 1 filled in *)
Lemma pinned_platform : exists fexp fln : f64 -> f64, accurate_exp (fun x => if feq x f0 then f1 else fexp x) /\ accurate_ln (fun x => if feq x f1 then f0 else fln x).
Proof.
  destruct f1_spec as [F1 V1]. destruct P_C91_platform as [fexp [fln [C1 C2]]]. destruct (P_C91_correct_accurate fexp fln C1 C2) as [A1 [A2 A3]].
  assert (Q : forall a b : f64, fin a -> fin b -> feq a b = true -> val a = val b).
  { intros a b Fa Fb E. unfold feq in E. rewrite Beqb_correct in E by assumption. destruct (Req_bool_spec (val a) (val b)) as [X|]; [exact X|discriminate]. }
  assert (F0 : fin f0) by reflexivity. assert (V0 : val f0 = 0) by reflexivity. assert (P : 0 <= / 2 ^ 50) by (left; apply Rinv_0_lt_compat, pow_lt; lra).
  exists fexp, fln. repeat apply conj.
  - intros x Fx Hx. destruct (feq x f0) eqn:E; [|exact (A1 x Fx Hx)]. apply (Q _ _ Fx F0) in E. split; [exact F1|]. rewrite V1, E, V0, exp_0. split; [lra|]. unfold Rminus. rewrite Rplus_opp_r, Rabs_R0. exact P.
  - intros x Fx Hx. destruct (feq x f1) eqn:E; [|exact (A2 x Fx Hx)]. apply (Q _ _ Fx F1) in E. split; [exact F0|]. rewrite V0, E, V1, ln_1. split; [lra|]. unfold Rminus. rewrite Rplus_opp_r, Rabs_R0. exact P.
  - intros x Fx Hx. destruct (feq x f1) eqn:E; [split; [exact F0|exact V0]|exact (A3 x Fx Hx)].
Qed.

(** ** C107: the hypotheses are met, by a run that stops on its test with two hypotheses in its vote: one example, a learner that first
    returns a hypothesis with confidence 1/2 there and then one with confidence 1, half tolerance 1/4, in the third round *)
Lemma ex_C107 :
  exists (conf : bool -> nat -> f64) (produce : nat -> list f64 -> bool) fexp fln eta half_tol ys rounds t dist h ws hs,
    accurate_exp fexp /\ accurate_ln fln /\ signed_labels ys /\ bounded_confidences conf /\ finite_num eta /\ 0 < val eta /\ finite_num half_tol /\
    INR (length ys) * (val eta + 65) <= 2 ^ 30 /\ INR rounds <= 2 ^ 29 /\ val eta * (INR rounds + 2) / 2 ^ 48 <= / 2 ^ 22 /\
    ln (INR (length ys)) / val eta <= val half_tol /\
    f_cerlp_run conf Bool.eqb produce fexp fln eta f1 half_tol ys rounds 1 [] [] = FStopped t dist h ws hs /\ length ws = 2%nat /\ t = 3%nat.
Proof.
  destruct f1_spec as [F1 V1]. destruct half_spec as [Fh Vh]. destruct quarter_spec as [Fq Vq]. destruct pinned_platform as [fexp [fln [A1 A2]]].
  set (g := fun (h : bool) (_ : nat) => if h then f_half else f1). set (pr := fun t (_ : list f64) => Nat.eqb t 1).
  assert (C : match f_cerlp_run g Bool.eqb pr (fun x => if feq x f0 then f1 else fexp x) (fun x => if feq x f1 then f0 else fln x) f1 f1 f_quarter [f1] 4 1 [] [] with FStopped t _ _ ws _ => Nat.eqb (length ws) 2 && Nat.eqb t 3 | _ => false end = true) by (vm_compute; reflexivity).
  destruct (f_cerlp_run g Bool.eqb pr (fun x => if feq x f0 then f1 else fexp x) (fun x => if feq x f1 then f0 else fln x) f1 f1 f_quarter [f1] 4 1 [] []) as [t dist h ws hs|ws hs|p] eqn:E; [|discriminate C|discriminate C]. apply andb_prop in C. destruct C as [C1 C2]. apply Nat.eqb_eq in C1. apply Nat.eqb_eq in C2.
  exists g, pr, (fun x => if feq x f0 then f1 else fexp x), (fun x => if feq x f1 then f0 else fln x), f1, f_quarter, [f1], 4%nat, t, dist, h, ws, hs. split; [exact A1|]. split; [exact A2|]. split; [split; [discriminate|intros y [<-|[]]; split; [exact F1|left; exact V1]]|].
  split; [intros [|] i; unfold g; [split; [exact Fh|rewrite Vh, Rabs_pos_eq; lra]|split; [exact F1|rewrite V1, Rabs_R1; lra]]|].
  split; [exact F1|]. split; [rewrite V1; lra|]. split; [exact Fq|]. split; [rewrite V1; simpl; lra|]. split; [simpl; lra|]. split; [rewrite V1; simpl; lra|].
  split; [rewrite V1, Vq; simpl; rewrite ln_1; lra|]. split; [exact E|]. split; [exact C1|exact C2].
Qed.
Example C107_nonvacuous :
  exists (conf : bool -> nat -> f64) (produce : nat -> list f64 -> bool) fexp fln eta half_tol ys rounds t dist h ws hs,
    accurate_exp fexp /\ accurate_ln fln /\ signed_labels ys /\ bounded_confidences conf /\ finite_num eta /\ 0 < val eta /\ finite_num half_tol /\
    INR (length ys) * (val eta + 65) <= 2 ^ 30 /\ INR rounds <= 2 ^ 29 /\ val eta * (INR rounds + 2) / 2 ^ 48 <= / 2 ^ 22 /\
    ln (INR (length ys)) / val eta <= val half_tol /\
    f_cerlp_run conf Bool.eqb produce fexp fln eta f1 half_tol ys rounds 1 [] [] = FStopped t dist h ws hs /\ length ws = 2%nat /\ t = 3%nat.
Proof. exact ex_C107. Qed.
