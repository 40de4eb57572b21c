(** * C106: the distribution of the corrective boosters in binary64 *)
From Coq Require Import ZArith List Bool Reals Lia Lra Psatz.
From Flocq Require Import Core.Core IEEE754.BinarySingleNaN.
From Verif Require Import Base Spec Float FloatSpec FloatProofs FloatFacts FloatCheckFacts FloatProjectSpec FloatProject FloatProjectProofs FloatProjectFacts FloatTree FloatMada FloatMadaProofs FloatRounds FrankWolfe FrankWolfeProofs FloatFW FloatFWSpec FloatFWProofs FloatFWFacts FloatExpDist FloatExpDistSpec.
Import ListNotations.
Open Scope R_scope.

Lemma size_dot ws : forall conf : list f64, unit_weights ws -> (forall c, In c conf -> fin c /\ Rabs (val c) <= 1) -> length conf = length ws -> dot_size ws conf <= total ws.
Proof.
  induction ws as [|w ws IH]; intros [|c conf] U C L; try discriminate L; [unfold dot_size, total; simpl; lra|].
  change (dot_size (w :: ws) (c :: conf)) with (Rabs (val w * val c) + dot_size ws conf). change (total (w :: ws)) with (val w + total ws). simpl in L.
  specialize (IH conf (fun q Hq => U q (or_intror Hq)) (fun q Hq => C q (or_intror Hq)) ltac:(lia)). destruct (U w (or_introl eq_refl)) as [_ Hw]. destruct (C c (or_introl eq_refl)) as [_ Hc].
  rewrite Rabs_mult, (Rabs_pos_eq (val w)) by lra. pose proof (Rabs_pos (val c)). nra.
Qed.
(** weights that are nonnegative and sum to at most one *)
Definition at_most_one (v : list R) : Prop := (forall x, In x v -> 0 <= x) /\ rsum v <= 1.
Lemma dist_total v : at_most_one v -> forall conf : list f64, (forall c, In c conf -> fin c /\ Rabs (val c) <= 1) -> Rabs (rsum (map (fun p => fst p * val (snd p)) (combine v conf))) <= 1.
Proof.
  intros [D1 D2] conf C. apply Rle_trans with (2 := D2). clear D2. revert conf C. induction v as [|x v IH]; intros [|c conf] C; cbn [combine map rsum fst snd]; rewrite ?Rabs_R0; try lra.
  - pose proof (rsum_nonneg (x :: v) D1) as P. exact P.
  - specialize (IH (fun q Hq => D1 q (or_intror Hq)) conf (fun q Hq => C q (or_intror Hq))). pose proof (D1 x (or_introl eq_refl)) as Hx. destruct (C c (or_introl eq_refl)) as [_ Hc].
    eapply Rle_trans; [apply Rabs_triang|]. rewrite Rabs_mult, (Rabs_pos_eq x) by lra. pose proof (Rabs_pos (val c)). nra.
Qed.

(** one margin *)
Lemma margin_close (ws : list f64) (v : list R) (y : f64) (conf : list f64) : unit_weights ws -> at_most_one v -> length ws = length v -> length conf = length ws -> (forall c, In c conf -> fin c /\ Rabs (val c) <= 1) ->
  fin y -> (val y = 1 \/ val y = -1) -> INR (length ws) <= 2 ^ 30 -> distance ws v <= 1 / 2 ->
  fin (f_vote_margin ws y conf) /\ Rabs (val (f_vote_margin ws y conf) - exact_margin v y conf) <= distance ws v + (INR (length ws) + 1) / 2 ^ 50.
Proof.
  intros U D L Lc C Fy Hy Hn Hd. pose proof uu_pos as Up. pose proof uu_small as Us. pose proof (distance_total ws v L) as T. apply Rabs_le_inv in T. pose proof (proj2 D) as D2. pose proof (distance_nonneg ws v) as D0.
  assert (few (length ws)) as Fw by (unfold few; apply Rle_trans with (1 := Hn), Rle_pow; [lra|lia]). pose proof (size_dot ws conf U C Lc) as Sz. pose proof (pos_INR (length ws)) as Pn.
  assert (P2 : 2 <= 2 ^ 1021) by (rewrite <- (pow_1 2) at 1; apply Rle_pow; [lra|lia]). assert (P3 : 2 * 2 ^ 1021 = 2 ^ 1022) by (rewrite <- tech_pow_Rmult; reflexivity).
  destruct (P_C77_inner_product_error ws conf (FLeaf (f_products ws conf)) eq_refl) as [F E]; [symmetry; exact Lc|intros w Hw; apply U, Hw|intros c Hc; apply C, Hc|exact Fw|generalize dependent (2 ^ 1022); generalize dependent (2 ^ 1021); intros; lra|].
  cbn [ftree_sum] in F, E. set (sm := fsum (f_products ws conf)) in *.
  assert (E1 : Rabs (val sm - dot_exact ws conf) <= 5 * uu * INR (length ws)).
  { apply Rle_trans with (1 := E). destruct (gam_few _ Fw) as [G _]. assert (G' : gam (length ws) * dot_size ws conf <= 2 * (INR (length ws) * uu) * (3 / 2)) by (pose proof (gam_nonneg (length ws)); assert (0 <= dot_size ws conf) by (unfold dot_size; apply rsum_nonneg; intros q Hq; apply in_map_iff in Hq; destruct Hq as [q' [<- _]]; apply Rabs_pos); apply Rmult_le_compat; lra).
    assert (B : / 2 ^ 1074 <= uu) by (unfold uu; apply Rinv_le_contravar; [apply pow_lt; lra|apply Rle_pow; [lra|lia]]). assert (INR (length ws) * / 2 ^ 1074 <= INR (length ws) * uu) by (apply Rmult_le_compat_l; [exact Pn|exact B]). lra. }
  assert (E2 : Rabs (dot_exact ws conf - rsum (map (fun p => fst p * val (snd p)) (combine v conf))) <= distance ws v).
  { pose proof (vote_close ws v (map (fun c => val c) conf) L) as X. 
    assert (M1 : forall (l : list f64) c, rsum (map (fun p => val (fst p) * snd p) (combine l (map (fun c => val c) c))) = dot_exact l c).
    { clear. induction l as [|a l IH]; intros [|c cs]; try reflexivity. cbn [combine map rsum fst snd]. rewrite IH. reflexivity. }
    assert (M2 : forall (l : list R) c, rsum (map (fun p => fst p * snd p) (combine l (map (fun c => val c) c))) = rsum (map (fun p => fst p * val (snd p)) (combine l c))).
    { clear. induction l as [|a l IH]; intros [|c cs]; try reflexivity. cbn [combine map rsum fst snd]. rewrite IH. reflexivity. }
    rewrite M1, M2 in X. apply X. intros m Hm. apply in_map_iff in Hm. destruct Hm as [c [<- Hc]]. apply C, Hc. }
  pose proof (dist_total v D conf C) as B. set (ex := rsum (map (fun p => fst p * val (snd p)) (combine v conf))) in *.
  assert (Uh : 5 * uu * INR (length ws) <= 1 / 2). { apply Rle_trans with (5 * uu * 2 ^ 30); [apply Rmult_le_compat_l; [lra|exact Hn]|]. unfold uu. simpl. lra. }
  assert (Es : Rabs (val sm - ex) <= distance ws v + 5 * uu * INR (length ws)) by (replace (val sm - ex) with ((val sm - dot_exact ws conf) + (dot_exact ws conf - ex)) by ring; eapply Rle_trans; [apply Rabs_triang|]; lra).
  assert (Bs : Rabs (val sm) <= 2). { replace (val sm) with ((val sm - ex) + ex) by ring. eapply Rle_trans; [apply Rabs_triang|]. lra. }
  assert (Ay : Rabs (val y) = 1) by (destruct Hy as [-> | ->]; [apply Rabs_R1|rewrite Rabs_left; lra]).
  assert (P1 : 2 < 2 ^ 1023) by (rewrite <- (pow_1 2) at 1; apply Rlt_pow; [lra|lia]).
  destruct (fmul_spec y sm Fy F) as [Fm Em]; [rewrite Rabs_mult, Ay; generalize dependent (2 ^ 1023); intros; lra|]. rewrite Rabs_mult, Ay, Rmult_1_l in Em. unfold f_vote_margin, exact_margin. fold sm ex. split; [exact Fm|].
  replace (val (fmul y sm) - val y * ex) with ((val (fmul y sm) - val y * val sm) + val y * (val sm - ex)) by ring. eapply Rle_trans; [apply Rabs_triang|]. assert (Em2 : Rabs (val y * (val sm - ex)) <= distance ws v + 5 * uu * INR (length ws)) by (rewrite Rabs_mult, Ay, Rmult_1_l; exact Es).
  pose proof eta0_small as Et. assert (Eu : eta0 <= uu) by (apply Rle_trans with (1 := Et); unfold uu; simpl; lra). assert (U8 : / 2 ^ 50 = 8 * uu) by (unfold uu; simpl; lra). assert (A2 : uu * Rabs (val sm) <= uu * 2) by (apply Rmult_le_compat_l; [lra|exact Bs]).
  apply Rle_trans with (3 * uu + (distance ws v + 5 * uu * INR (length ws))); [apply Rplus_le_compat; [apply Rle_trans with (1 := Em); lra|exact Em2]|]. unfold Rdiv. rewrite U8. assert (0 <= uu * INR (length ws)) by (apply Rmult_le_pos; lra). lra.
Qed.

(** the exponential weights of close logarithms *)
Lemma exp_near d : 0 <= d <= 1 / 2 -> exp d <= 1 + 2 * d /\ 1 - d <= exp (- d).
Proof.
  intros H. split.
  - pose proof (exp_ineq1_le (- d)) as A. rewrite exp_Ropp in A. pose proof (exp_pos d) as P. apply Rmult_le_reg_r with (/ exp d); [apply Rinv_0_lt_compat, P|]. rewrite Rinv_r by lra. apply Rle_trans with ((1 + 2 * d) * (1 + - d)); [nra|]. apply Rmult_le_compat_l; lra.
  - pose proof (exp_ineq1_le (- d)) as A. lra.
Qed.
Lemma softmax_close (a b : list R) d : length a = length b -> 0 <= d <= 1 / 4 -> (forall i, (i < length a)%nat -> Rabs (nth i a 0 - nth i b 0) <= d) ->
  forall i, (i < length a)%nat -> let sa := exp (nth i a 0) / rsum (map exp a) in let sb := exp (nth i b 0) / rsum (map exp b) in 0 <= sb /\ Rabs (sa - sb) <= 4 * d * sb.
Proof.
  intros L Hd Hc i Hi sa sb.
  assert (Hs : rsum (map exp a) <= exp d * rsum (map exp b) /\ exp (- d) * rsum (map exp b) <= rsum (map exp a)).
  { clear i Hi sa sb. revert b L Hc. induction a as [|x a IH]; intros [|y b] L Hc; try discriminate L; [simpl; lra|]. cbn [map rsum]. simpl in L.
    destruct (IH b ltac:(lia)) as [A B]; [intros i Hi; apply (Hc (S i)); simpl; lia|]. pose proof (Hc 0%nat ltac:(simpl; lia)) as H0. cbn [nth] in H0. apply Rabs_le_inv in H0.
    assert (exp x <= exp d * exp y) by (rewrite <- exp_plus; apply exp_le; lra). assert (exp (- d) * exp y <= exp x) by (rewrite <- exp_plus; apply exp_le; lra). split; lra. }
  assert (Pa : 0 < rsum (map exp a)) by (destruct a; [simpl in Hi; lia|]; apply rsum_pos; [discriminate|intros q Hq; apply in_map_iff in Hq; destruct Hq as [q' [<- _]]; apply exp_pos]).
  assert (Pb : 0 < rsum (map exp b)) by (destruct b; [simpl in L; lia|]; apply rsum_pos; [discriminate|intros q Hq; apply in_map_iff in Hq; destruct Hq as [q' [<- _]]; apply exp_pos]).
  pose proof (Hc i Hi) as Hci. apply Rabs_le_inv in Hci. set (x := nth i a 0) in *. set (y := nth i b 0) in *. set (A := rsum (map exp a)) in *. set (B := rsum (map exp b)) in *.
  assert (Sb : 0 < sb) by (apply Rdiv_lt_0_compat; [apply exp_pos|exact Pb]). split; [lra|].
  assert (H1 : sa <= exp (2 * d) * sb).
  { unfold sa, sb. apply Rdiv_le_iff; [exact Pa|]. replace (2 * d) with (d + d) by ring. rewrite exp_plus. replace (exp d * exp d * (exp y / B) * A) with ((exp d * exp y) * (exp d * A) * / B) by (field; lra).
    assert (E1 : exp x <= exp d * exp y) by (rewrite <- exp_plus; apply exp_le; lra). assert (E2 : B <= exp d * A).
    { destruct Hs as [_ Hs]. apply Rmult_le_reg_l with (exp (- d)); [apply exp_pos|]. rewrite <- Rmult_assoc, <- exp_plus, Rplus_opp_l, exp_0, Rmult_1_l. exact Hs. }
    apply Rle_trans with (1 := E1). apply Rle_trans with (exp d * exp y * 1); [lra|]. rewrite (Rmult_assoc (exp d * exp y)). apply Rmult_le_compat_l; [apply Rlt_le, Rmult_lt_0_compat; apply exp_pos|]. apply Rmult_le_reg_r with B; [exact Pb|]. rewrite Rmult_assoc, Rinv_l by lra. lra. }
  assert (H2 : exp (- (2 * d)) * sb <= sa).
  { unfold sa. apply Rmult_le_reg_r with A; [exact Pa|]. replace (exp x / A * A) with (exp x) by (field; lra). unfold sb. replace (- (2 * d)) with (- d + - d) by ring. rewrite exp_plus. replace (exp (- d) * exp (- d) * (exp y / B) * A) with ((exp (- d) * exp y) * (exp (- d) * A * / B)) by (field; lra).
    assert (E1 : exp (- d) * exp y <= exp x) by (rewrite <- exp_plus; apply exp_le; lra). assert (E2 : exp (- d) * A <= B).
    { destruct Hs as [Hs _]. apply Rmult_le_reg_l with (exp d); [apply exp_pos|]. rewrite <- Rmult_assoc, <- exp_plus, Rplus_opp_r, exp_0, Rmult_1_l. exact Hs. }
    apply Rle_trans with (2 := E1). apply Rle_trans with (exp (- d) * exp y * 1); [|lra]. apply Rmult_le_compat_l; [apply Rlt_le, Rmult_lt_0_compat; apply exp_pos|]. apply Rmult_le_reg_r with B; [exact Pb|]. rewrite Rmult_assoc, Rinv_l by lra. lra. }
  destruct (exp_near (2 * d)) as [N1 N2]; [lra|]. apply Rabs_le. nra.
Qed.

Lemma map_ext_nth {A B} (f : A -> B) (l : list A) a b i : (i < length l)%nat -> nth i (map f l) b = f (nth i l a).
Proof. intros H. rewrite (nth_indep _ b (f a)) by (rewrite map_length; exact H). apply map_nth. Qed.

(** the logarithms that are computed *)
Lemma logs_close (eta : f64) (ws : list f64) (v : list R) (T : nat) : fin eta -> 0 <= val eta -> unit_weights ws -> at_most_one v -> length ws = T -> length v = T -> INR T <= 2 ^ 30 -> distance ws v <= 1 / 2 ->
  val eta <= 2 ^ 30 -> forall (ys : list f64) (confs : list (list f64)), length confs = length ys -> (forall y, In y ys -> fin y /\ (val y = 1 \/ val y = -1)) -> (forall row, In row confs -> length row = T /\ forall c, In c row -> fin c /\ Rabs (val c) <= 1) ->
  let logs := map (fun yf => fmul (fopp eta) yf) (f_vote_margins ws ys confs) in let ms := exact_margins v ys confs in
  length logs = length ys /\ length ms = length ys /\ forall i, (i < length ys)%nat -> fin (nth i logs f0) /\ Rabs (nth i ms 0) <= 1 /\
    Rabs (val (nth i logs f0) - - val eta * nth i ms 0) <= val eta * (distance ws v + (INR T + 2) / 2 ^ 50) + eta0.
Proof.
  intros Fe He U D L1 L2 Hn Hd Hb. destruct (fopp_val eta) as [Vo Fo]. specialize (Fo Fe). pose proof uu_pos as Up. pose proof uu_small as Us.
  induction ys as [|y ys IH]; intros [|row confs] Lc Hy Hc logs ms; try discriminate Lc; [split; [reflexivity|split; [reflexivity|simpl; lia]]|].
  simpl in Lc. destruct (IH confs ltac:(lia) (fun q Hq => Hy q (or_intror Hq)) (fun q Hq => Hc q (or_intror Hq))) as [I1 [I2 I3]].
  unfold logs, ms. unfold f_vote_margins, exact_margins in *. cbn [combine map fst snd length]. split; [rewrite I1; reflexivity|]. split; [rewrite I2; reflexivity|].
  intros [|i] Hi; [|cbn [nth]; apply I3; simpl in Hi; lia]. cbn [nth]. destruct (Hy y (or_introl eq_refl)) as [Fy Vy]. destruct (Hc row (or_introl eq_refl)) as [Lr Cr].
  destruct (margin_close ws v y row U D) as [Fm Em]; try assumption; [congruence|congruence|rewrite L1; exact Hn|]. rewrite L1 in Em.
  assert (Bx : Rabs (exact_margin v y row) <= 1). { unfold exact_margin. rewrite Rabs_mult. pose proof (dist_total v D row Cr) as B. destruct Vy as [-> | ->]; [rewrite Rabs_R1|rewrite Rabs_left by lra]; lra. }
  set (m := f_vote_margin ws y row) in *. set (ex := exact_margin v y row) in *. assert (K : (INR T + 1) / 2 ^ 50 <= 1 / 2). { apply Rle_trans with ((2 ^ 30 + 1) / 2 ^ 50); [apply Rmult_le_compat_r; [left; apply Rinv_0_lt_compat, pow_lt; lra|lra]|simpl; lra]. }
  assert (Bm : Rabs (val m) <= 2). { replace (val m) with ((val m - ex) + ex) by ring. eapply Rle_trans; [apply Rabs_triang|]. lra. }
  assert (P1 : 2 ^ 30 * 2 < 2 ^ 1023) by (rewrite Rmult_comm, tech_pow_Rmult; apply Rlt_pow; [lra|lia]).
  assert (Bp : Rabs (val (fopp eta) * val m) <= val eta * 2) by (rewrite Vo, Rabs_mult, Rabs_Ropp, (Rabs_pos_eq (val eta)) by exact He; apply Rmult_le_compat_l; assumption).
  destruct (fmul_spec (fopp eta) m Fo Fm) as [Fl El]; [apply Rle_lt_trans with (1 := Bp); apply Rle_lt_trans with (2 ^ 30 * 2); [lra|exact P1]|]. split; [exact Fl|]. split; [exact Bx|].
  replace (val (fmul (fopp eta) m) - - val eta * ex) with ((val (fmul (fopp eta) m) - val (fopp eta) * val m) + - val eta * (val m - ex)) by (rewrite Vo; ring).
  eapply Rle_trans; [apply Rabs_triang|]. assert (A1 : uu * Rabs (val (fopp eta) * val m) <= uu * (val eta * 2)) by (apply Rmult_le_compat_l; lra).
  assert (A2 : Rabs (- val eta * (val m - ex)) <= val eta * (distance ws v + (INR T + 1) / 2 ^ 50)) by (rewrite Rabs_mult, Rabs_Ropp, (Rabs_pos_eq (val eta)) by exact He; apply Rmult_le_compat_l; assumption).
  assert (U8 : / 2 ^ 50 = 8 * uu) by (unfold uu; simpl; lra). unfold Rdiv in *. rewrite U8 in *.
  apply Rle_trans with ((uu * (val eta * 2) + eta0) + val eta * (distance ws v + (INR T + 1) * (8 * uu))); [apply Rplus_le_compat; [apply Rle_trans with (1 := El); lra|exact A2]|]. assert (0 <= val eta * uu) by (apply Rmult_le_pos; lra). lra.
Qed.

Lemma distribution_close :
  forall (fexp fln : f64 -> f64) (eta : f64) (ys : list f64) (confs : list (list f64)) (T : nat) (ws : list f64) (v : list R),
  accurate_exp fexp -> accurate_ln fln -> labelled ys confs T -> finite_num eta -> 0 <= val eta -> INR (length ys) * (val eta + 65) <= 2 ^ 30 ->
  unit_weights ws -> at_most_one v -> length ws = T -> length v = T -> INR T <= 2 ^ 30 -> distance ws v <= 1 / 2 ->
  val eta * (distance ws v + (INR T + 2) / 2 ^ 50) <= / 2 ^ 22 ->
  exists dist, f_exp_distribution fexp fln eta f1 ys confs ws = Ok dist /\ length dist = length ys /\
    forall i, (i < length ys)%nat -> finite_num (nth i dist f0) /\ 0 <= val (nth i dist f0) <= 1 /\
      Rabs (val (nth i dist f0) - exact_exp_distribution (val eta) (exact_margins v ys confs) i) <= / 2 ^ 18 * exact_exp_distribution (val eta) (exact_margins v ys confs) i + / 2 ^ 50.
Proof.
  intros fexp fln eta ys confs T ws v Ae Al [Hne [Lc [Hy Hc]]] Fe He Hn U D L1 L2 HT Hd Hs.
  assert (n1 : 1 <= INR (length ys)) by (destruct ys; [contradiction|]; change 1 with (INR 1); apply le_INR; simpl; lia).
  assert (Eb : val eta <= 2 ^ 30) by (assert (0 <= (INR (length ys) - 1) * (val eta + 65)) by (apply Rmult_le_pos; lra); lra).
  destruct (logs_close eta ws v T Fe He U D L1 L2 HT Hd Eb ys confs Lc Hy Hc) as [I1 [I2 I3]]. unfold f_exp_distribution, f_exp_from_margins.
  set (logs := map (fun yf => fmul (fopp eta) yf) (f_vote_margins ws ys confs)) in *. set (ms := exact_margins v ys confs) in *.
  pose proof eta0_small as Et. assert (E0 : 0 <= eta0) by (unfold eta0; apply bpow_ge_0). set (dd := / 2 ^ 22 + / 2 ^ 100).
  assert (Hdd : 0 <= dd <= 1 / 4 /\ 4 * dd <= / 2 ^ 20 + / 2 ^ 90) by (unfold dd; simpl; lra).
  assert (I4 : forall i, (i < length ys)%nat -> Rabs (val (nth i logs f0) - - val eta * nth i ms 0) <= dd) by (intros i Hi; destruct (I3 i Hi) as [_ [_ E]]; unfold dd; lra).
  destruct (P_C91_uncapped fexp fln logs (val eta + 1) Ae Al) as [dist [E [Ld Q]]].
  - intros Z. rewrite Z in I1. destruct ys; [contradiction|discriminate].
  - intros d Hin. apply (In_nth _ _ f0) in Hin. destruct Hin as [i [Hi <-]]. rewrite I1 in Hi. destruct (I3 i Hi) as [F [B _]]. split; [exact F|]. pose proof (I4 i Hi) as X.
    replace (val (nth i logs f0)) with ((val (nth i logs f0) - - val eta * nth i ms 0) + - val eta * nth i ms 0) by ring. eapply Rle_trans; [apply Rabs_triang|].
    assert (Rabs (- val eta * nth i ms 0) <= val eta * 1) by (rewrite Rabs_mult, Rabs_Ropp, (Rabs_pos_eq (val eta)) by exact He; apply Rmult_le_compat_l; assumption). lra.
  - rewrite I1. replace (val eta + 1 + 64) with (val eta + 65) by ring. exact Hn.
  - exists dist. split; [exact E|]. rewrite Ld. split; [exact I1|]. intros i Hi. destruct (Q i) as [F [B C]]; [rewrite I1; exact Hi|]. split; [exact F|]. split; [exact B|].
    set (la := map (fun d : f64 => val d) logs). set (lb := map (fun m => - val eta * m) ms).
    destruct (softmax_close la lb dd) with (i := i) as [S0 S1]; [unfold la, lb; rewrite !map_length; congruence|apply Hdd| |unfold la; rewrite map_length; congruence|].
    { intros j Hj. unfold la in Hj. rewrite map_length, I1 in Hj. unfold la, lb. rewrite (map_ext_nth (fun d : f64 => val d) logs f0) by congruence. rewrite (map_ext_nth (fun m => - val eta * m) ms 0) by congruence. apply I4, Hj. }
    assert (Ea : exp (nth i la 0) / rsum (map exp la) = softmax logs i) by (unfold softmax, la; rewrite (map_ext_nth (fun d : f64 => val d) logs f0) by congruence; rewrite map_map; reflexivity).
    assert (Ebb : exp (nth i lb 0) / rsum (map exp lb) = exact_exp_distribution (val eta) ms i) by (unfold exact_exp_distribution, lb; rewrite (map_ext_nth (fun m => - val eta * m) ms 0) by congruence; rewrite map_map; reflexivity).
    rewrite Ea, Ebb in *. set (sa := softmax logs i) in *. set (sb := exact_exp_distribution (val eta) ms i) in *.
    replace (val (nth i dist f0) - sb) with ((val (nth i dist f0) - sa) + (sa - sb)) by ring. eapply Rle_trans; [apply Rabs_triang|].
    assert (Hsa : sa <= sb + 4 * dd * sb) by (apply Rabs_le_inv in S1; lra). assert (Hk : 4 * dd * sb <= (/ 2 ^ 20 + / 2 ^ 90) * sb) by (apply Rmult_le_compat_r; lra).
    assert (Hm : / 2 ^ 19 * sa <= / 2 ^ 19 * (sb + (/ 2 ^ 20 + / 2 ^ 90) * sb)) by (apply Rmult_le_compat_l; [left; apply Rinv_0_lt_compat, pow_lt; lra|lra]).
    assert (Hf : / 2 ^ 19 * (sb + (/ 2 ^ 20 + / 2 ^ 90) * sb) + (/ 2 ^ 20 + / 2 ^ 90) * sb <= / 2 ^ 18 * sb) by (replace (/ 2 ^ 19 * (sb + (/ 2 ^ 20 + / 2 ^ 90) * sb) + (/ 2 ^ 20 + / 2 ^ 90) * sb) with ((/ 2 ^ 19 * (1 + (/ 2 ^ 20 + / 2 ^ 90)) + (/ 2 ^ 20 + / 2 ^ 90)) * sb) by ring; apply Rmult_le_compat_r; [exact S0|simpl; lra]).
    lra.
Qed.

(** ** C106: the distribution computed from the weights is, example by example, the exact one of the exact weights up to a relative
    2^-18: with exp and ln accurate to 2^-50, when eta times the error of the weights is at most 2^-22 *)
Lemma P_C106_distribution :
  forall (fexp fln : f64 -> f64) (eta : f64) (ys : list f64) (confs : list (list f64)) (T : nat) (ws : list f64) (v : list R),
  accurate_exp fexp -> accurate_ln fln -> labelled ys confs T -> finite_num eta -> 0 <= val eta -> INR (length ys) * (val eta + 65) <= 2 ^ 30 ->
  unit_weights ws -> is_dist v -> length ws = T -> length v = T -> INR T <= 2 ^ 30 -> distance ws v <= 1 / 2 ->
  val eta * (distance ws v + (INR T + 2) / 2 ^ 50) <= / 2 ^ 22 ->
  exists dist, f_exp_distribution fexp fln eta f1 ys confs ws = Ok dist /\ length dist = length ys /\
    forall i, (i < length ys)%nat -> finite_num (nth i dist f0) /\ 0 <= val (nth i dist f0) <= 1 /\
      Rabs (val (nth i dist f0) - exact_exp_distribution (val eta) (exact_margins v ys confs) i) <= / 2 ^ 18 * exact_exp_distribution (val eta) (exact_margins v ys confs) i + / 2 ^ 50.
Proof.
  intros fexp fln eta ys confs T ws v Ae Al Lb Fe He Hn U [D1 D2]. apply (distribution_close fexp fln eta ys confs T ws v Ae Al Lb Fe He Hn U). split; [exact D1|lra].
Qed.

Lemma classic_run_length ps : forall t ws ws', f_classic_run t ps ws = Ok ws' -> (length ws' <= length ws + length ps)%nat.
Proof.
  induction ps as [|p ps IH]; intros t ws ws' E; cbn [f_classic_run] in E; [injection E as <-; simpl; lia|].
  destruct (f_fw_classic t p (if Nat.eqb p (length ws) then ws ++ [f0] else ws)) as [w1|q] eqn:E1; cbn [bind] in E; [|discriminate]. apply IH in E.
  unfold f_fw_classic in E1. destruct (interior_inv _ _ _ _ E1) as [_ [_ ->]]. rewrite f_entries_length in E. destruct (Nat.eqb p (length ws)); rewrite ?app_length in E; simpl in *; lia.
Qed.

(** ** C106: the distribution after a run of CERLPBoost's classic rule in binary64, against a run that computes exactly *)
Lemma P_C106_classic_round :
  forall (fexp fln : f64 -> f64) (eta : f64) (ys : list f64) (confs : list (list f64)) (ps : list nat),
  accurate_exp fexp -> accurate_ln fln -> ps <> [] -> positions_ok 0 ps -> INR (length ps) <= 2 ^ 29 ->
  finite_num eta -> 0 <= val eta -> INR (length ys) * (val eta + 65) <= 2 ^ 30 -> val eta * (INR (length ps) + 2) / 2 ^ 48 <= / 2 ^ 22 ->
  exists ws v, f_classic_run 1 ps [] = Ok ws /\ exact_classic_run 1 ps [] = Ok v /\
    (labelled ys confs (length ws) -> exists dist, f_exp_distribution fexp fln eta f1 ys confs ws = Ok dist /\ length dist = length ys /\
      forall i, (i < length ys)%nat -> finite_num (nth i dist f0) /\ 0 <= val (nth i dist f0) <= 1 /\
        Rabs (val (nth i dist f0) - exact_exp_distribution (val eta) (exact_margins v ys confs) i) <= / 2 ^ 18 * exact_exp_distribution (val eta) (exact_margins v ys confs) i + / 2 ^ 50).
Proof.
  intros fexp fln eta ys confs ps Ae Al Np Pp Hp Fe He Hn Hs. destruct (P_C104_classic_run ps Np Pp Hp) as [ws [v [E1 [E2 [L [D [U [Dd _]]]]]]]]. exists ws, v. split; [exact E1|]. split; [exact E2|]. intros Lb.
  pose proof (classic_run_length _ _ _ _ E1) as Lw. cbn [length] in Lw. apply le_INR in Lw. rewrite Nat.add_0_l in Lw. assert (p29 : 2 * 2 ^ 29 = 2 ^ 30) by (simpl; lra). pose proof (pos_INR (length ps)) as P0.
  apply (P_C106_distribution fexp fln eta ys confs (length ws) ws v); try assumption; [reflexivity|congruence|lra| |].
  - apply Rle_trans with (1 := Dd). apply Rle_trans with (2 ^ 29 / 2 ^ 49); [apply Rmult_le_compat_r; [left; apply Rinv_0_lt_compat, pow_lt; lra|exact Hp]|simpl; lra].
  - apply Rle_trans with (2 := Hs). unfold Rdiv at 2. rewrite Rmult_assoc. apply Rmult_le_compat_l; [exact He|].
    assert (Q0 : 0 < / 2 ^ 50) by (apply Rinv_0_lt_compat, pow_lt; lra). assert (Q1 : / 2 ^ 49 = 2 * / 2 ^ 50) by (simpl; lra). assert (Q2 : / 2 ^ 48 = 4 * / 2 ^ 50) by (simpl; lra).
    unfold Rdiv in *. rewrite Q1 in Dd. rewrite Q2. generalize dependent (/ 2 ^ 50). intros q. intros. nra.
Qed.

(** the hypotheses are met: correctly rounded exp and ln, one hypothesis, two examples with different labels *)
Lemma ex_C106 : exists fexp fln ys confs ps eta, accurate_exp fexp /\ accurate_ln fln /\ ps <> [] /\ positions_ok 0 ps /\ finite_num eta /\ 0 < val eta /\
  val eta * (INR (length ps) + 2) / 2 ^ 48 <= / 2 ^ 22 /\ INR (length ys) * (val eta + 65) <= 2 ^ 30 /\
  (exists ws, f_classic_run 1 ps [] = Ok ws /\ labelled ys confs (length ws)) /\ exact_exp_distribution (val eta) (exact_margins [1] ys confs) 0 <> exact_exp_distribution (val eta) (exact_margins [1] ys confs) 1.
Proof.
  destruct f1_spec as [F1 V1]. destruct (fopp_val f1) as [Vo Fo]. specialize (Fo F1).
  destruct P_C91_platform as [fexp [fln [C1 C2]]]. destruct (P_C91_correct_accurate fexp fln C1 C2) as [A1 A2].
  exists fexp, fln, [f1; fopp f1], [[f1]; [f1]], [0%nat], f1. split; [exact A1|]. split; [exact A2|]. split; [discriminate|]. split; [simpl; lia|]. split; [exact F1|]. split; [rewrite V1; lra|]. split; [rewrite V1; simpl; lra|]. split; [rewrite V1; simpl; lra|]. split.
  - assert (C : match f_classic_run 1 [0%nat] [] with Ok ws => Nat.eqb (length ws) 1 | Panic _ => false end = true) by (vm_compute; reflexivity).
    destruct (f_classic_run 1 _ []) as [ws|p]; [|discriminate]. exists ws. split; [reflexivity|]. apply Nat.eqb_eq in C. rewrite C. split; [discriminate|]. split; [reflexivity|]. split.
    + intros y [<-|[<-|[]]]; [split; [exact F1|left; exact V1]|split; [exact Fo|right; rewrite Vo, V1; lra]].
    + intros row [<-|[<-|[]]]; (split; [reflexivity|]); intros c [<-|[]]; (split; [exact F1|rewrite V1, Rabs_R1; lra]).
  - unfold exact_exp_distribution, exact_margins, exact_margin. cbn [combine map fst snd nth rsum]. rewrite Vo, V1. intros E.
    assert (P : forall x y, exp x / (exp x + (exp y + 0)) = exp y / (exp x + (exp y + 0)) -> exp x = exp y) by (intros x y X; pose proof (exp_pos x); pose proof (exp_pos y); apply (Rmult_eq_reg_r (/ (exp x + (exp y + 0)))); [exact X|apply Rinv_neq_0_compat; lra]).
    apply P, exp_inv in E. lra.
Qed.
Example C106_nonvacuous : exists fexp fln ys confs ps eta, accurate_exp fexp /\ accurate_ln fln /\ ps <> [] /\ positions_ok 0 ps /\ finite_num eta /\ 0 < val eta /\
  val eta * (INR (length ps) + 2) / 2 ^ 48 <= / 2 ^ 22 /\ INR (length ys) * (val eta + 65) <= 2 ^ 30 /\
  (exists ws, f_classic_run 1 ps [] = Ok ws /\ labelled ys confs (length ws)) /\ exact_exp_distribution (val eta) (exact_margins [1] ys confs) 0 <> exact_exp_distribution (val eta) (exact_margins [1] ys confs) 1.
Proof. exact ex_C106. Qed.
