(** The Frank-Wolfe updates in binary64: one entry, one step, a history *)
From Coq Require Import ZArith List Bool Reals Lia Lra Psatz.
From Flocq Require Import Core.Core IEEE754.BinarySingleNaN.
From Verif Require Import Base Float FloatSpec FloatProofs FloatFacts FloatCheckFacts FloatProjectProofs FloatTree FloatMada FloatMadaProofs FloatRounds FrankWolfe FrankWolfeProofs FloatFW FloatFWSpec.
Import ListNotations.
Open Scope R_scope.

Lemma small1000 x : Rabs x <= 4 -> Rabs x <= 2 ^ 1000.
Proof. intros H. eapply Rle_trans; [exact H|]. apply Rle_trans with (2 ^ 2); [simpl; lra|]. apply Rle_pow; [lra|lia]. Qed.
Lemma fopp_val (b : f64) : val (fopp b) = - val b /\ (fin b -> fin (fopp b)).
Proof. unfold fopp. split; [apply B2R_Bopp|]. intros F. rewrite is_finite_Bopp. exact F. Qed.
Lemma rnd_opp x : rnd (- x) = - rnd x. Proof. apply round_NE_opp. Qed.
Lemma rnd_0 : rnd 0 = 0. Proof. apply round_0. typeclasses eauto. Qed.
Lemma rnd_1 : rnd 1 = 1. Proof. destruct f1_spec as [_ V]. rewrite <- V. apply rnd_val. Qed.
Lemma rnd_bound x b : 0 <= x -> x <= val b -> 0 <= rnd x <= val b.
Proof. intros A B. rewrite <- rnd_0 at 1. rewrite <- (rnd_val b). split; apply rnd_mono; assumption. Qed.

Definition f_half_ulp : f64 := binary_normalize 53 1024 eq_refl eq_refl mode_NE 1 (-53) false.
Lemma rnd_above_one x : x <= 1 + uu -> rnd x <= 1.
Proof.
  intros H. apply Rle_trans with (rnd (1 + uu)); [apply rnd_mono, H|].
  destruct (normalize_exact 1 (-53)) as [F V]; [reflexivity|lia|]. fold f_half_ulp in F, V. rewrite Rmult_1_l in V. rewrite uu_bpow in V. destruct f1_spec as [F1 V1].
  destruct (fadd_rnd f1 f_half_ulp F1 F) as [_ [E _]]; [rewrite V1, V; apply small1000; pose proof uu_small; pose proof uu_pos; rewrite Rabs_pos_eq; lra|]. rewrite V1, V in E. rewrite <- E.
  assert (X : fadd f1 f_half_ulp = f1) by (apply B2SF_inj; vm_compute; reflexivity). rewrite X, V1. lra.
Qed.

Lemma entry_other (s b : f64) : fin s -> 0 <= val s <= 1 -> fin b -> 0 <= val b <= 1 ->
  let w := f_interior_entry s false b in fin w /\ 0 <= val w <= 1 /\ Rabs (val w - (val b - val s * val b)) <= 2 * uu * val b + eta0.
Proof.
  intros Fs Hs Fb Hb w. destruct (fopp_val b) as [Vo Fo]. specialize (Fo Fb). pose proof uu_pos as Up. pose proof uu_small as Us.
  assert (P0 : 0 <= val s * val b <= val b) by nra.
  destruct (fmul_rnd s (fopp b) Fs Fo) as [Fm Vm]; [rewrite Vo; apply small1000; replace (val s * - val b) with (- (val s * val b)) by ring; rewrite Rabs_Ropp, Rabs_pos_eq; lra|].
  rewrite Vo in Vm. replace (val s * - val b) with (- (val s * val b)) in Vm by ring. rewrite rnd_opp in Vm. destruct (rnd_bound (val s * val b) b ltac:(lra) ltac:(lra)) as [R0 R1]. set (p := rnd (val s * val b)) in *.
  destruct (fadd_rnd b (fmul s (fopp b)) Fb Fm) as [Fw [Vw [e2 [He2 Ew]]]]; [rewrite Vm; apply small1000; rewrite Rabs_pos_eq; lra|]. change (fadd b (fmul s (fopp b))) with w in *. rewrite Vm in Vw, Ew.
  split; [exact Fw|]. split.
  - rewrite Vw. destruct (rnd_bound (val b + - p) b ltac:(lra) ltac:(lra)). lra.
  - destruct (err_mult (val s * val b)) as [e1 [h [He1 [Hh E1]]]]. fold eta0 in Hh. fold p in E1. rewrite Ew. apply Rabs_le_inv in He1. apply Rabs_le_inv in He2. apply Rabs_le_inv in Hh.
    replace ((val b + - p) * (1 + e2) - (val b - val s * val b)) with (- (p - val s * val b) + (val b - p) * e2) by ring.
    assert (A : p - val s * val b = val s * val b * e1 + h) by (rewrite E1; ring). rewrite A. apply Rabs_le. nra.
Qed.

Lemma entry_target (s b : f64) : fin s -> 0 <= val s <= 1 -> fin b -> 0 <= val b <= 1 ->
  let w := f_interior_entry s true b in fin w /\ 0 <= val w <= 1 /\ Rabs (val w - (val b + val s * (1 - val b))) <= 4 * uu.
Proof.
  intros Fs Hs Fb Hb w. destruct f1_spec as [F1 V1]. pose proof uu_pos as Up. pose proof uu_small as Us.
  destruct (fsub_rnd f1 b F1 Fb) as [Fq [Vq [e1 [He1 E1]]]]; [rewrite V1; apply small1000; rewrite Rabs_pos_eq; lra|]. rewrite V1 in Vq, E1.
  destruct (rnd_bound (1 - val b) f1 ltac:(lra) ltac:(rewrite V1; lra)) as [Q0 Q1]. rewrite V1 in Q1. rewrite <- Vq in Q0, Q1. set (q := val (fsub f1 b)) in *.
  assert (P0 : 0 <= val s * q <= q) by nra.
  destruct (fmul_rnd s (fsub f1 b) Fs Fq) as [Fm Vm]; [fold q; apply small1000; rewrite Rabs_pos_eq; lra|]. fold q in Vm.
  destruct (rnd_bound (val s * q) (fsub f1 b) ltac:(lra) ltac:(fold q; lra)) as [R0 R1]. fold q in R1. set (p := rnd (val s * q)) in *.
  destruct (fadd_rnd b (fmul s (fsub f1 b)) Fb Fm) as [Fw [Vw [e3 [He3 Ew]]]]; [rewrite Vm; apply small1000; rewrite Rabs_pos_eq; lra|]. change (fadd b (fmul s (fsub f1 b))) with w in *. rewrite Vm in Vw, Ew.
  apply Rabs_le_inv in He1. apply Rabs_le_inv in He3. assert (B1 : val b + p <= 1 + uu) by nra. split; [exact Fw|]. split.
  - rewrite Vw. split; [rewrite <- rnd_0; apply rnd_mono; lra|apply rnd_above_one; exact B1].
  - destruct (err_mult (val s * q)) as [e2 [h [He2 [Hh E2]]]]. fold eta0 in Hh. fold p in E2. apply Rabs_le_inv in He2. apply Rabs_le_inv in Hh. pose proof eta0_small as Et. assert (Eu : eta0 <= uu / 8) by (apply Rle_trans with (1 := Et); unfold uu; simpl; lra).
    rewrite Ew. assert (A : p - val s * q = val s * q * e2 + h) by (rewrite E2; ring). assert (A1 : q - (1 - val b) = (1 - val b) * e1) by (rewrite E1; ring).
    replace ((val b + p) * (1 + e3) - (val b + val s * (1 - val b))) with ((p - val s * q) + val s * (q - (1 - val b)) + (val b + p) * e3) by ring. rewrite A, A1.
    assert (X1 : - uu <= val s * q * e2 <= uu) by nra. assert (X2 : - uu <= val s * ((1 - val b) * e1) <= uu).
    { assert (- uu <= (1 - val b) * e1 <= uu) by nra. nra. }
    assert (X3 : - (5 / 4 * uu) <= (val b + p) * e3 <= 5 / 4 * uu) by (assert (0 <= val b + p <= 5 / 4) by lra; nra). apply Rabs_le. lra.
Qed.

(** one step *)
Lemma check_step_iff s : fin s -> (f_check_stepsize s = Ok tt <-> 0 <= val s <= 1).
Proof.
  intros Fs. destruct f1_spec as [F1 V1]. unfold f_check_stepsize. pose proof (fle_true f0 s fin_f0 Fs) as A. pose proof (fle_true s f1 Fs F1) as B. rewrite val_f0 in A. rewrite V1 in B.
  destruct (fle f0 s), (fle s f1); cbn; split; intros H; try discriminate; try reflexivity; try (split; [apply A|apply B]; reflexivity); exfalso; destruct H as [H0 H1]; try (apply A in H0; discriminate); apply B in H1; discriminate.
Qed.
Lemma check_step_ok s : f_check_stepsize s = Ok tt -> fin s /\ 0 <= val s <= 1.
Proof.
  intros E. assert (Fs : fin s).
  { destruct s as [b|b| |b m e H]; try reflexivity; exfalso; [destruct b|]; vm_compute in E; discriminate. }
  split; [exact Fs|]. apply check_step_iff; assumption.
Qed.

Definition hit (k j : nat) : R := if Nat.eqb j k then 1 else 0.
Lemma hits k n : forall j, rsum (map (fun p => hit k p) (seq j n)) <= 1 /\ ((k < j)%nat -> rsum (map (fun p => hit k p) (seq j n)) = 0).
Proof.
  induction n as [|n IH]; intros j; cbn [seq map]; [simpl; split; intros; lra|]. cbn [rsum map]. destruct (IH (S j)) as [A B]. unfold hit at 1 3. destruct (Nat.eqb_spec j k) as [E|E].
  - subst. rewrite B by lia. split; [lra|lia].
  - split; [lra|]. intros L. rewrite B by lia. lra.
Qed.

Definition f_entries (s : f64) (k j : nat) (ws : list f64) : list f64 := map (fun p => f_interior_entry s (Nat.eqb (fst p) k) (snd p)) (combine (seq j (length ws)) ws).
Definition r_entries (r : R) (k j : nat) (v : list R) : list R := map (fun p => let dir := if Nat.eqb (fst p) k then 1 - snd p else - snd p in snd p + r * dir) (combine (seq j (length v)) v).
Lemma f_entries_length s k j ws : length (f_entries s k j ws) = length ws.
Proof. unfold f_entries. rewrite map_length, combine_length, seq_length. lia. Qed.
Lemma r_entries_length s k j ws : length (r_entries s k j ws) = length ws.
Proof. unfold r_entries. rewrite map_length, combine_length, seq_length. lia. Qed.

Lemma entries_step s r k : fin s -> 0 <= val s <= 1 -> 0 <= r <= 1 -> Rabs (val s - r) <= uu -> forall ws v j, length ws = length v -> unit_weights ws -> (forall x, In x v -> 0 <= x <= 1) ->
  unit_weights (f_entries s k j ws) /\ (forall x, In x (r_entries r k j v) -> 0 <= x <= 1) /\
  rsum (r_entries r k j v) = (1 - r) * rsum v + r * rsum (map (fun p => hit k p) (seq j (length v))) /\
  distance (f_entries s k j ws) (r_entries r k j v) <= (1 - r) * distance ws v + 3 * uu * total ws + INR (length v) * eta0 + 5 * uu * rsum (map (fun p => hit k p) (seq j (length v))).
Proof.
  intros Fs Hs Hr Hd. pose proof uu_pos as Up. induction ws as [|b ws IH]; intros [|x v] j L U V; try discriminate L.
  - unfold distance, total, unit_weights, f_entries, r_entries. simpl. split; [intros ? []|]. split; [intros ? []|]. split; lra.
  - simpl in L. injection L as L. assert (U' : unit_weights ws) by (intros q Hq; apply U; right; exact Hq). assert (V' : forall q, In q v -> 0 <= q <= 1) by (intros q Hq; apply V; right; exact Hq).
    destruct (IH v (S j) L U' V') as [I1 [I2 [I3 I4]]]. clear IH. destruct (U b (or_introl eq_refl)) as [Fb Hb]. pose proof (V x (or_introl eq_refl)) as Hx.
    change (f_entries s k j (b :: ws)) with (f_interior_entry s (Nat.eqb j k) b :: f_entries s k (S j) ws).
    change (r_entries r k j (x :: v)) with ((x + r * (if Nat.eqb j k then 1 - x else - x)) :: r_entries r k (S j) v).
    change (distance (b :: ws) (x :: v)) with (Rabs (val b - x) + distance ws v).
    change (map (fun p => hit k p) (seq j (length (x :: v)))) with (hit k j :: map (fun p => hit k p) (seq (S j) (length v))). change (total (b :: ws)) with (val b + total ws).
    rewrite (S_INR (length v) : INR (length (x :: v)) = _). cbn [rsum]. apply Rabs_le_inv in Hd.
    assert (K : let w := f_interior_entry s (Nat.eqb j k) b in fin w /\ 0 <= val w <= 1 /\
      Rabs (val w - (x + r * (if Nat.eqb j k then 1 - x else - x))) <= (1 - r) * Rabs (val b - x) + 3 * uu * val b + eta0 + 5 * uu * hit k j).
    { assert (E0 : 0 <= eta0) by (unfold eta0; apply bpow_ge_0). unfold hit. assert (Eq : Rabs ((1 - r) * (val b - x)) = (1 - r) * Rabs (val b - x)) by (rewrite Rabs_mult, (Rabs_pos_eq (1 - r)) by lra; reflexivity). destruct (Nat.eqb j k).
      - destruct (entry_target s b Fs Hs Fb Hb) as [A [B C]]. split; [exact A|]. split; [exact B|]. set (w := val (f_interior_entry s true b)) in *. clearbody w.
        replace (w - (x + r * (1 - x))) with ((w - (val b + val s * (1 - val b))) + ((1 - r) * (val b - x) + (val s - r) * (1 - val b))) by ring.
        eapply Rle_trans; [apply Rabs_triang|]. eapply Rle_trans; [apply Rplus_le_compat_l, Rabs_triang|]. rewrite Eq.
        assert (Rabs ((val s - r) * (1 - val b)) <= uu) by (apply Rabs_le; nra). assert (0 <= 3 * uu * val b) by nra. lra.
      - destruct (entry_other s b Fs Hs Fb Hb) as [A [B C]]. split; [exact A|]. split; [exact B|]. set (w := val (f_interior_entry s false b)) in *. clearbody w.
        replace (w - (x + r * - x)) with ((w - (val b - val s * val b)) + ((1 - r) * (val b - x) + - (val s - r) * val b)) by ring.
        eapply Rle_trans; [apply Rabs_triang|]. eapply Rle_trans; [apply Rplus_le_compat_l, Rabs_triang|]. rewrite Eq.
        assert (Rabs (- (val s - r) * val b) <= uu * val b) by (apply Rabs_le; nra). lra. }
    destruct K as [K1 [K2 K3]]. set (w := f_interior_entry s (Nat.eqb j k) b) in *. split; [|split; [|split]].
    + intros q [<-|Hq]; [split; assumption|apply I1, Hq].
    + intros q [<-|Hq]; [destruct (Nat.eqb j k); nra|apply I2, Hq].
    + rewrite I3. unfold hit at 2. destruct (Nat.eqb j k); ring.
    + change (distance (w :: f_entries s k (S j) ws) ((x + r * (if Nat.eqb j k then 1 - x else - x)) :: r_entries r k (S j) v)) with (Rabs (val w - (x + r * (if Nat.eqb j k then 1 - x else - x))) + distance (f_entries s k (S j) ws) (r_entries r k (S j) v)).
      lra.
Qed.

Lemma distance_total ws : forall v, length ws = length v -> Rabs (total ws - rsum v) <= distance ws v.
Proof.
  induction ws as [|b ws IH]; intros [|x v] L; try discriminate L; [unfold distance, total; simpl; rewrite Rminus_diag_eq, Rabs_R0 by reflexivity; lra|].
  change (distance (b :: ws) (x :: v)) with (Rabs (val b - x) + distance ws v). change (total (b :: ws)) with (val b + total ws). cbn [rsum]. simpl in L. specialize (IH v ltac:(lia)).
  replace (val b + total ws - (x + rsum v)) with ((val b - x) + (total ws - rsum v)) by ring. eapply Rle_trans; [apply Rabs_triang|]. lra.
Qed.
Lemma distance_nonneg ws v : 0 <= distance ws v.
Proof. unfold distance. apply rsum_nonneg. intros q Hq. apply in_map_iff in Hq. destruct Hq as [p [<- _]]. apply Rabs_pos. Qed.

Definition sub_dist (v : list R) : Prop := (forall x, In x v -> 0 <= x <= 1) /\ rsum v <= 1.
Lemma one_step s r k ws v : fin s -> 0 <= val s <= 1 -> 0 <= r <= 1 -> Rabs (val s - r) <= uu -> length ws = length v -> unit_weights ws -> sub_dist v -> INR (length v) <= 2 ^ 30 -> distance ws v <= 1 / 2 ->
  exists ws' v', f_interior_point s k ws = Ok ws' /\ interior_point r k v = Ok v' /\ length ws' = length ws /\ length v' = length v /\ unit_weights ws' /\ sub_dist v' /\
    distance ws' v' <= distance ws v + 16 * uu /\ ((k < length v)%nat -> rsum v = 1 \/ r = 1 -> rsum v' = 1).
Proof.
  intros Fs Hs Hr Hd L U [V1 V2] Hn D. destruct (entries_step s r k Fs Hs Hr Hd ws v 0 L U V1) as [E1 [E2 [E3 E4]]]. pose proof (hits k (length v) 0) as [B _]. pose proof uu_pos as Up. pose proof (distance_nonneg ws v) as D0.
  assert (C : (k < length v)%nat -> rsum (map (fun p => hit k p) (seq 0 (length v))) = 1).
  { intros Hk. clear - Hk. assert (X : forall n j, (j <= k < j + n)%nat -> rsum (map (fun p => hit k p) (seq j n)) = 1).
    { induction n as [|n IH]; intros j Hj; [lia|]. cbn [seq map rsum]. unfold hit at 1. destruct (Nat.eqb_spec j k) as [->|N]; [rewrite (proj2 (hits k n (S k))) by lia; lra|]. rewrite IH by lia. lra. }
    apply X. lia. }
  assert (H0 : 0 <= rsum (map (fun p => hit k p) (seq 0 (length v)))).
  { generalize (seq 0 (length v)). intros l. induction l as [|p l IH]; simpl; [lra|]. unfold hit at 1. destruct (Nat.eqb p k); lra. }
  exists (f_entries s k 0 ws), (r_entries r k 0 v). split.
  { unfold f_interior_point. rewrite (proj2 (check_step_iff s Fs) Hs). reflexivity. }
  split. { unfold interior_point, Utils.check_stepsize. rewrite !Rleb_true by lra. reflexivity. }
  split; [apply f_entries_length|]. split; [apply r_entries_length|]. split; [exact E1|]. split; [split; [exact E2|rewrite E3; nra]|]. split.
  - eapply Rle_trans; [exact E4|]. pose proof (distance_total ws v L) as T. apply Rabs_le_inv in T. pose proof eta0_small as Et. assert (Ee : 2 ^ 30 * eta0 <= uu).
    { apply Rle_trans with (2 ^ 30 * / 2 ^ 100); [apply Rmult_le_compat_l; [apply pow_le; lra|exact Et]|]. unfold uu. simpl. lra. }
    assert (E0 : 0 <= eta0) by (unfold eta0; apply bpow_ge_0). assert (A : INR (length v) * eta0 <= uu) by nra.
    assert (A1 : 3 * uu * total ws <= 3 * uu * (3 / 2)) by (apply Rmult_le_compat_l; lra).
    assert (A2 : 5 * uu * rsum (map (fun p => hit k p) (seq 0 (length v))) <= 5 * uu) by nra. assert ((1 - r) * distance ws v <= distance ws v) by nra. lra.
  - intros Hk [Hv|Hr1]; rewrite E3, C by exact Hk; [rewrite Hv|rewrite Hr1]; ring.
Qed.

Lemma unit_push ws : unit_weights ws -> unit_weights (ws ++ [f0]).
Proof. intros U x Hx. apply in_app_or in Hx. destruct Hx as [Hx|[<-|[]]]; [apply U, Hx|]. split; [apply fin_f0|rewrite val_f0; lra]. Qed.
Lemma sub_push v : sub_dist v -> sub_dist (v ++ [0]).
Proof. intros [A B]. split; [intros x Hx; apply in_app_or in Hx; destruct Hx as [Hx|[<-|[]]]; [apply A, Hx|lra]|]. rewrite rsum_app. simpl. lra. Qed.
Lemma distance_push ws : forall v, length ws = length v -> distance (ws ++ [f0]) (v ++ [0]) = distance ws v.
Proof.
  induction ws as [|b ws IH]; intros [|x v] L; try discriminate L.
  - unfold distance. cbn [app combine map fst snd rsum]. rewrite val_f0, Rminus_0_r, Rabs_R0. simpl. lra.
  - simpl in L. change (distance ((b :: ws) ++ [f0]) ((x :: v) ++ [0])) with (Rabs (val b - x) + distance (ws ++ [f0]) (v ++ [0])). rewrite IH by lia. reflexivity.
Qed.
