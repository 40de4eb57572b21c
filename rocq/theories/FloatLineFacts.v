(** * C105: the line search of Frank-Wolfe in binary64: it ends, finds the best step, and keeps the weights in [0,1] *)
From Coq Require Import ZArith List Bool Reals Lia Lra Psatz.
From Flocq Require Import Core.Core IEEE754.BinarySingleNaN.
From Verif Require Import Base Spec Float FloatSpec FloatProofs FloatFacts FloatCheckFacts FloatProjectProofs FloatTree FloatMada FloatMadaProofs FloatRounds FrankWolfe FrankWolfeProofs FloatFW FloatFWSpec FloatFWProofs FloatFWFacts FloatLine FloatLineSpec FloatLineProofs.
Import ListNotations.
Open Scope R_scope.

Lemma start_ok w : 0 <= val w <= 1 -> (val w - val f0) * ratio ^ 30 <= 999 / 1000000000000.
Proof. intros H. rewrite val_f0. pose proof ratio_30. pose proof (pow_lt ratio 30 (proj1 ratio_pos)). generalize dependent (ratio ^ 30). intros r0 A B. nra. Qed.

(** ** C105: the search over [0, w] ends after at most thirty evaluations of the gradient, whatever they give, with a step in [0, w] *)
Lemma P_C105_search_ends :
  forall (grad : f64 -> res f64) (w : f64) (fuel : nat), finite_num w -> 0 <= val w <= 1 -> (30 <= fuel)%nat ->
  f_bisect fuel grad f0 w = f_bisect 30 grad f0 w /\
  (forall p, f_bisect 30 grad f0 w = Panic p -> exists s, finite_num s /\ 0 <= val s <= val w /\ grad s = Panic p) /\
  (forall s, f_bisect 30 grad f0 w = Ok s -> finite_num s /\ 0 <= val s <= val w).
Proof.
  intros grad w fuel Fw Hw Hf. destruct (bisect_run grad 30 f0 w fuel fin_f0 Fw) as [A [B C]]; rewrite ?val_f0; try lra; try exact Hf; [pose proof (start_ok w Hw) as X; rewrite val_f0 in X; exact X|]. rewrite val_f0 in *. auto.
Qed.

(** ** C105: it finds the best step when the computed gradient has the right sign away from it *)
Lemma P_C105_search_finds :
  forall (grad : f64 -> res f64) (w s : f64) (fuel : nat) (best slack : R), finite_num w -> 0 <= val w <= 1 -> 0 <= slack -> 0 <= best <= val w ->
  right_sign grad best slack -> f_bisect fuel grad f0 w = Ok s ->
  Rabs (val s - best) <= slack + / 1000000000 * (1 + / 2 ^ 49).
Proof.
  intros grad w s fuel best slack Fw Hw Hs Hb G E. apply (bisect_finds grad best slack Hs G fuel f0 w s fin_f0 Fw); rewrite ?val_f0; try lra. exact E.
Qed.

Lemma never_ok grad w : never_panics grad -> fin w -> 0 <= val w <= 1 -> forall fuel, (30 <= fuel)%nat -> exists s, f_bisect fuel grad f0 w = Ok s /\ fin s /\ 0 <= val s <= val w.
Proof.
  intros G Fw Hw fuel Hf. destruct (P_C105_search_ends grad w fuel Fw Hw Hf) as [-> [B C]]. destruct (f_bisect 30 grad f0 w) as [s|p] eqn:E.
  - exists s. split; [reflexivity|apply C; reflexivity].
  - destruct (B p eq_refl) as [s [_ [_ X]]]. destruct (G s) as [g Y]. congruence.
Qed.

Lemma one_hot k : forall n j, (j <= k < j + n)%nat -> forall v, length v = n ->
  exists v', v' = r_entries 1 k j v /\ distance (upd (k - j) f1 (repeat f0 n)) v' = 0.
Proof.
  destruct f1_spec as [F1 V1]. intros n j Hk v L. eexists. split; [reflexivity|].
  assert (Z : forall m i u, length u = m -> (k < i)%nat -> distance (repeat f0 m) (r_entries 1 k i u) = 0).
  { induction m as [|m IH]; intros i [|x u] Lu Hi; try discriminate; [reflexivity|]. cbn [repeat].
    change (distance (f0 :: repeat f0 m) (r_entries 1 k i (x :: u))) with (Rabs (val f0 - (x + 1 * (if Nat.eqb i k then 1 - x else - x))) + distance (repeat f0 m) (r_entries 1 k (S i) u)).
    rewrite IH by (simpl in Lu; lia). rewrite (proj2 (Nat.eqb_neq i k)) by lia. rewrite val_f0. replace (0 - (x + 1 * - x)) with 0 by ring. rewrite Rabs_R0. ring. }
  revert j v Hk L. induction n as [|n IH]; intros j [|x v] Hk L; try discriminate; [lia|]. simpl in L. cbn [repeat].
  destruct (Nat.eq_dec j k) as [->|N].
  - rewrite Nat.sub_diag. cbn [upd]. change (distance (f1 :: repeat f0 n) (r_entries 1 k k (x :: v))) with (Rabs (val f1 - (x + 1 * (if Nat.eqb k k then 1 - x else - x))) + distance (repeat f0 n) (r_entries 1 k (S k) v)).
    rewrite Z by lia. rewrite Nat.eqb_refl, V1. replace (1 - (x + 1 * (1 - x))) with 0 by ring. rewrite Rabs_R0. ring.
  - replace (k - j)%nat with (S (k - S j)) by lia. cbn [upd].
    change (distance (f0 :: upd (k - S j) f1 (repeat f0 n)) (r_entries 1 k j (x :: v))) with (Rabs (val f0 - (x + 1 * (if Nat.eqb j k then 1 - x else - x))) + distance (upd (k - S j) f1 (repeat f0 n)) (r_entries 1 k (S j) v)).
    rewrite IH by lia. rewrite (proj2 (Nat.eqb_neq j k)) by lia. rewrite val_f0. replace (0 - (x + 1 * - x)) with 0 by ring. rewrite Rabs_R0. ring.
Qed.

Lemma unit_upd ws i x : unit_weights ws -> fin x -> 0 <= val x <= 1 -> unit_weights (upd i x ws).
Proof.
  intros U Fx Hx w Hw. apply (In_nth _ _ f0) in Hw. destruct Hw as [j [Hj <-]]. rewrite upd_length in Hj.
  destruct (Nat.eq_dec i j) as [<-|N]; [rewrite upd_nth_same by exact Hj; auto|]. rewrite upd_nth_other by exact N. apply U, nth_In, Hj.
Qed.

(** ** C105: the line-search update, whatever the inner products: never refused, the weights stay in [0,1], and they are the exact weights of
    the step found up to 2^-49 *)
Lemma P_C105_line_search_update :
  forall (fuel : nat) (full : f64) (grad : f64 -> res f64) (k : nat) (ws : list f64), (30 <= fuel)%nat -> never_panics grad -> unit_weights ws -> (k < length ws)%nat ->
  exists ws' s, f_fw_line_search fuel full grad k ws = Ok ws' /\ length ws' = length ws /\ unit_weights ws' /\ finite_num s /\ 0 <= val s <= 1 /\
    forall v, length v = length ws -> is_dist v -> INR (length ws) <= 2 ^ 30 -> distance ws v <= 1 / 2 ->
      exists v', interior_point (val s) k v = Ok v' /\ is_dist v' /\ distance ws' v' <= distance ws v + / 2 ^ 49.
Proof.
  intros fuel full grad k ws Hf G U Hk. destruct f1_spec as [F1 V1]. unfold f_fw_line_search. pose proof uu_pos as Up. assert (U16 : 16 * uu = / 2 ^ 49) by (unfold uu; simpl; lra).
  assert (Main : forall s ws', fin s -> 0 <= val s <= 1 -> f_interior_point s k ws = Ok ws' ->
    forall v, length v = length ws -> is_dist v -> INR (length ws) <= 2 ^ 30 -> distance ws v <= 1 / 2 -> exists v', interior_point (val s) k v = Ok v' /\ is_dist v' /\ distance ws' v' <= distance ws v + / 2 ^ 49).
  { intros s ws' Fs Hs E v L [D1 D2] Hn Hd. assert (X : forall x, In x v -> 0 <= x <= 1).
    { intros x Hx. split; [apply D1, Hx|]. rewrite <- D2. apply rsum_in_le; assumption. }
    destruct (one_step s (val s) k ws v Fs Hs Hs) as [w1 [v1 [E1 [E2 [L1 [L2 [U1 [[S1 S2] [Dd Z]]]]]]]]]; [rewrite Rminus_diag_eq, Rabs_R0 by reflexivity; lra|congruence|exact U|split; [exact X|lra]|rewrite L; exact Hn|exact Hd|].
    exists v1. split; [exact E2|]. split; [split; [intros x Hx; apply S1, Hx|apply Z; [rewrite L; exact Hk|left; exact D2]]|]. rewrite E in E1. injection E1 as ->. rewrite <- U16. exact Dd. }
  destruct (fle full f0).
  - rewrite (proj2 (Nat.ltb_lt _ _) Hk). exists (upd k f1 (repeat f0 (length ws))), f1. split; [reflexivity|]. rewrite upd_length, repeat_length. split; [reflexivity|]. split.
    { apply unit_upd; [|exact F1|rewrite V1; lra]. intros w Hw. apply repeat_spec in Hw. subst w. split; [apply fin_f0|rewrite val_f0; lra]. }
    split; [exact F1|]. split; [rewrite V1; lra|]. intros v L D Hn Hd. rewrite V1. destruct (one_hot k (length ws) 0) with (v := v) as [v' [Ev Dv]]; [lia|exact L|]. rewrite Nat.sub_0_r in Dv.
    destruct (f_interior_point f1 k ws) as [w1|p] eqn:E; [|exfalso; unfold f_interior_point in E; rewrite (proj2 (check_step_iff f1 F1)) in E by (rewrite V1; lra); discriminate E].
    destruct (Main f1 w1 F1 ltac:(rewrite V1; lra) E v L D Hn Hd) as [v1 [E1 [D1 _]]]. rewrite V1 in E1. exists v1. split; [exact E1|]. split; [exact D1|].
    assert (Ev1 : v1 = r_entries 1 k 0 v). { unfold interior_point, Utils.check_stepsize in E1. rewrite !Rleb_true in E1 by lra. injection E1 as <-. reflexivity. }
    rewrite Ev1, <- Ev, Dv. pose proof (distance_nonneg ws v). lra.
  - destruct (never_ok grad f1 G F1 ltac:(rewrite V1; lra) fuel Hf) as [s [E [Fs Hs]]]. rewrite V1 in Hs. rewrite E. cbn [bind].
    assert (E1 : f_interior_point s k ws = Ok (f_entries s k 0 ws)) by (unfold f_interior_point; rewrite (proj2 (check_step_iff s Fs) Hs); reflexivity).
    exists (f_entries s k 0 ws), s. split; [exact E1|]. split; [apply f_entries_length|]. split; [apply unit_entries; assumption|]. split; [exact Fs|]. split; [exact Hs|]. exact (Main s _ Fs Hs E1).
Qed.

(** ** C105: the pairwise update moves weight from the worst hypothesis to the chosen one and to no other: at most what the worst one has,
    up to one rounding on each side; the full step of the search hands all of it to the newest hypothesis *)
Lemma P_C105_pairwise_update :
  forall (fuel : nat) (full : f64) (grad : f64 -> res f64) (loc worst k : nat) (ws : list f64), (30 <= fuel)%nat -> never_panics grad -> unit_weights ws ->
  (loc < length ws)%nat -> (worst < length ws)%nat -> (k < length ws)%nat -> loc <> worst -> k <> worst ->
  let w := nth worst ws f0 in let l := nth loc ws f0 in
  exists ws', f_fw_pairwise fuel full grad loc worst k ws = Ok ws' /\ length ws' = length ws /\
    (fle full f0 = true -> unit_weights ws' /\ nth worst ws' f0 = f0 /\ nth k ws' f0 = w /\ forall j, j <> worst -> j <> k -> nth j ws' f0 = nth j ws f0) /\
    (fle full f0 = false -> exists s, finite_num s /\ 0 <= val s <= val w /\
       finite_num (nth worst ws' f0) /\ 0 <= val (nth worst ws' f0) <= val w /\ Rabs (val (nth worst ws' f0) - (val w - val s)) <= / 2 ^ 53 /\
       finite_num (nth loc ws' f0) /\ val l <= val (nth loc ws' f0) /\ Rabs (val (nth loc ws' f0) - (val l + val s)) <= / 2 ^ 52 /\
       (forall j, j <> worst -> j <> loc -> nth j ws' f0 = nth j ws f0) /\ (val l + val w <= 1 -> unit_weights ws')).
Proof.
  intros fuel full grad loc worst k ws Hf G U Hl Hw Hk N1 N2 w l. assert (Uw : fin w /\ 0 <= val w <= 1) by (apply U, nth_In, Hw). assert (Ul : fin l /\ 0 <= val l <= 1) by (apply U, nth_In, Hl). destruct Uw as [Fw Bw]. destruct Ul as [Fl Bl].
  pose proof uu_pos as Up. pose proof uu_small as Us. assert (U2 : 2 * uu = / 2 ^ 52) by (unfold uu; simpl; lra). fold uu. unfold f_fw_pairwise. rewrite (proj2 (Nat.ltb_lt _ _) Hw). cbn [negb]. fold w.
  destruct (fle full f0).
  - rewrite (proj2 (Nat.ltb_lt _ _) Hk). eexists. split; [reflexivity|]. rewrite !upd_length. split; [reflexivity|]. split; [|discriminate]. intros _. split.
    { apply unit_upd; [apply unit_upd; assumption|apply fin_f0|rewrite val_f0; lra]. }
    split; [apply upd_nth_same; rewrite upd_length; exact Hw|]. split; [rewrite upd_nth_other by congruence; apply upd_nth_same, Hk|]. intros j J1 J2. rewrite !upd_nth_other by congruence. reflexivity.
  - destruct (never_ok grad w G Fw Bw fuel Hf) as [s [E [Fs Hs]]]. rewrite E. cbn [bind]. rewrite (proj2 (Nat.ltb_lt _ _) Hl). cbn [negb]. fold l.
    rewrite (upd_nth_other loc worst) by exact N1. fold w. eexists. split; [reflexivity|]. rewrite !upd_length. split; [reflexivity|]. split; [discriminate|]. intros _. exists s. split; [exact Fs|]. split; [exact Hs|].
    rewrite upd_nth_same by (rewrite upd_length; exact Hw). rewrite upd_nth_other by congruence. rewrite upd_nth_same by exact Hl.
    destruct (fsub_rnd w s Fw Fs) as [Fd [Vd [e [He Ed]]]]; [apply small1000; rewrite Rabs_pos_eq; lra|]. destruct (fadd_rnd l s Fl Fs) as [Fa [Va [d [Hd Ea]]]]; [apply small1000; rewrite Rabs_pos_eq; lra|].
    assert (B1 : 0 <= val (fsub w s) <= val w) by (rewrite Vd; apply rnd_bound; lra). assert (B2 : val l <= val (fadd l s)) by (rewrite Va, <- (rnd_val l) at 1; apply rnd_mono; lra).
    split; [exact Fd|]. split; [exact B1|]. split; [rewrite Ed; replace ((val w - val s) * (1 + e) - (val w - val s)) with ((val w - val s) * e) by ring; rewrite Rabs_mult, (Rabs_pos_eq (val w - val s)) by lra; pose proof (Rabs_pos e); nra|].
    split; [exact Fa|]. split; [exact B2|]. split; [rewrite <- U2, Ea; replace ((val l + val s) * (1 + d) - (val l + val s)) with ((val l + val s) * d) by ring; rewrite Rabs_mult, (Rabs_pos_eq (val l + val s)) by lra; pose proof (Rabs_pos d); nra|].
    split; [intros j J1 J2; rewrite !upd_nth_other by congruence; reflexivity|]. intros Hlw. destruct f1_spec as [F1 V1].
    apply unit_upd; [apply unit_upd; [exact U|exact Fa|]|exact Fd|lra]. split; [lra|]. rewrite Va, <- V1. apply (rnd_bound (val l + val s) f1); rewrite ?V1; lra.
Qed.

(** the hypotheses are met: the gradient x - 1/4 has the right sign, and the search finds 1/4 *)
Definition f_quarter : f64 := fdiv f1 (f_of_usize 4).
Lemma quarter_spec : fin f_quarter /\ val f_quarter = / 4.
Proof.
  destruct (normalize_exact 1 (-2)) as [F V]; [reflexivity|lia|]. assert (E : f_quarter = binary_normalize 53 1024 eq_refl eq_refl mode_NE 1 (-2) false) by (apply B2SF_inj; vm_compute; reflexivity).
  rewrite E. split; [exact F|]. rewrite V. simpl. lra.
Qed.
Lemma ex_C105 : exists grad best, right_sign grad best 0 /\ never_panics grad /\ 0 <= best <= val f1 /\ (exists s, f_bisect 30 grad f0 f1 = Ok s) /\
  exists ws, unit_weights ws /\ length ws = 2%nat.
Proof.
  destruct f1_spec as [F1 V1]. destruct quarter_spec as [Fq Vq].
  exists (fun s => Ok (if flt s f_quarter then fopp f1 else if flt f_quarter s then f1 else f0)), (/ 4). split.
  { intros s Fs. split; intros H; eexists; (split; [reflexivity|]).
    - rewrite (proj2 (flt_true s f_quarter Fs Fq)) by lra. destruct (fopp_val f1) as [Vo Fo]. split; [apply Fo, F1|]. rewrite Vo, V1. lra.
    - destruct (flt s f_quarter) eqn:A; [apply (flt_true s f_quarter Fs Fq) in A; lra|]. rewrite (proj2 (flt_true f_quarter s Fq Fs)) by lra. split; [exact F1|]. rewrite V1. lra. }
  assert (NP : never_panics (fun s => Ok (if flt s f_quarter then fopp f1 else if flt f_quarter s then f1 else f0))) by (intros s; eexists; reflexivity).
  split; [exact NP|]. split; [rewrite V1; lra|]. split.
  - destruct (never_ok _ f1 NP F1 ltac:(rewrite V1; lra) 30 ltac:(lia)) as [s [E _]]. eauto.
  - exists [f_quarter; f1]. split; [|reflexivity]. intros w [<-|[<-|[]]]; [rewrite Vq|rewrite V1]; (split; [assumption|lra]).
Qed.
Example C105_nonvacuous : exists grad best, right_sign grad best 0 /\ never_panics grad /\ 0 <= best <= val f1 /\ (exists s, f_bisect 30 grad f0 f1 = Ok s) /\
  exists ws, unit_weights ws /\ length ws = 2%nat.
Proof. exact ex_C105. Qed.
