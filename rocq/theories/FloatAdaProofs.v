(** Error analysis of AdaBoost's update in binary64 *)
From Coq Require Import ZArith List Bool Reals Lia Lra Psatz Permutation Sorting.
From Flocq Require Import Core.Core IEEE754.BinarySingleNaN Relative Plus_error.
From Verif Require Import Base SortLib Float FloatSpec FloatProofs FloatFacts FloatCheckFacts FloatProject FloatProjectSpec FloatProjectProofs ExpBounds FloatEdge FloatAda FloatAdaSpec.
Import ListNotations.
Open Scope R_scope.

(** ** real functions *)
Lemma ln2_upper : ln 2 <= 7 / 10.
Proof.
  rewrite <- (ln_exp (7 / 10)). apply ln_le; [lra|]. replace 2 with (2 / 1) by lra. apply (exp_above 7 10 6); [lia|lia|lia|vm_compute; reflexivity].
Qed.
Lemma ln_small_pow k : ln (/ 2 ^ k) = - (INR k * ln 2).
Proof. rewrite ln_Rinv by (apply pow_lt; lra). rewrite ln_pow by lra. reflexivity. Qed.

Lemma sumexp_lip (l : list nat) (f g : nat -> R) r : l <> [] -> (forall i, In i l -> Rabs (f i - g i) <= r) ->
  Rabs (ln (rsum (map (fun i => exp (f i)) l)) - ln (rsum (map (fun i => exp (g i)) l))) <= r.
Proof.
  intros Nl H.
  assert (P : forall h : nat -> R, 0 < rsum (map (fun i => exp (h i)) l)). { intros h. destruct l as [|i l]; [congruence|]. cbn [map rsum]. pose proof (exp_pos (h i)). assert (0 <= rsum (map (fun j => exp (h j)) l)) by (apply rsum_nonneg; intros z Hz; apply in_map_iff in Hz; destruct Hz as [j [<- _]]; left; apply exp_pos). lra. }
  assert (Q : forall f g : nat -> R, (forall i, In i l -> f i - g i <= r) -> ln (rsum (map (fun i => exp (f i)) l)) - ln (rsum (map (fun i => exp (g i)) l)) <= r).
  { clear f g H. intros f g H. apply Rplus_le_reg_r with (ln (rsum (map (fun i => exp (g i)) l))). replace (_ - _ + _) with (ln (rsum (map (fun i => exp (f i)) l))) by ring.
    rewrite <- (ln_exp r) at 1. rewrite <- ln_mult by (try apply exp_pos; apply P). apply ln_le; [apply P|]. rewrite <- rsum_map_mult. apply rsum_map_le. intros i Hi. rewrite <- exp_plus. apply exp_le_exp. specialize (H i Hi). lra. }
  apply Rabs_le. split.
  - specialize (Q g f). assert (ln (rsum (map (fun i => exp (g i)) l)) - ln (rsum (map (fun i => exp (f i)) l)) <= r); [|lra]. apply Q. intros i Hi. specialize (H i Hi). apply Rabs_le_inv in H. lra.
  - apply Q. intros i Hi. specialize (H i Hi). apply Rabs_le_inv in H. lra.
Qed.

Section Step.
  Variables (fexp fln : f64 -> f64).
  Hypothesis Hexp : precise_exp fexp.
  Hypothesis Hln : precise_ln fln.

  Lemma tiny1075 : 0 < / 2 ^ 1075 <= / 2 ^ 100. Proof. split; [apply Rinv_0_lt_compat, pow_lt; lra|]. apply Rinv_le_contravar; [apply pow_lt; lra|apply Rle_pow; [lra|lia]]. Qed.
  Lemma acc_exp : accurate_exp fexp.
  Proof.
    intros x Fx Hx. destruct (Hexp x Fx Hx) as [F [B E]]. split; [exact F|]. split; [exact B|]. eapply Rle_trans; [exact E|]. pose proof tiny1075.
    assert (exp (val x) <= 1) by (rewrite <- exp_0; apply exp_le_exp, Hx). pose proof (exp_pos (val x)). assert (/ 2 ^ 52 * exp (val x) <= / 2 ^ 52 * 1) by (apply Rmult_le_compat_l; [left; apply Rinv_0_lt_compat, pow_lt; lra|lra]).
    assert (/ 2 ^ 52 + / 2 ^ 100 <= / 2 ^ 50) by (simpl; lra). lra.
  Qed.
  Lemma acc_ln x : fin x -> 1 <= val x <= 2 -> fin (fln x) /\ 0 <= val (fln x) <= 1 /\ Rabs (val (fln x) - ln (val x)) <= / 2 ^ 50.
  Proof.
    intros Fx Hx. destruct (Hln x Fx ltac:(lra)) as [F [B E]]. split; [exact F|]. specialize (B (proj1 Hx)). pose proof tiny1075. pose proof ln2_upper as L2.
    assert (L0 : 0 <= ln (val x)) by (rewrite <- ln_1; apply ln_le; lra). assert (L1 : ln (val x) <= 7 / 10) by (eapply Rle_trans; [apply ln_le; [lra|apply Hx]|exact L2]).
    rewrite (Rabs_pos_eq (ln (val x)) L0) in E. assert (/ 2 ^ 52 * ln (val x) <= / 2 ^ 52 * 1) by (apply Rmult_le_compat_l; [left; apply Rinv_0_lt_compat, pow_lt; lra|lra]).
    assert (/ 2 ^ 52 + / 2 ^ 100 <= / 2 ^ 50) by (simpl; lra). assert (/ 2 ^ 50 <= / 4) by (simpl; lra). apply Rabs_le_inv in E. split; [lra|apply Rabs_le; lra].
  Qed.

  (** ** one step of the normaliser *)
  Lemma next_core (sm lg : f64) B : fin sm -> fin lg -> val sm <= val lg -> Rabs (val sm) <= B -> Rabs (val lg) <= B -> B <= 2 ^ 40 ->
    let r := fadd lg (fln (fadd f1 (fexp (fsub sm lg)))) in
    fin r /\ val lg <= val r /\ Rabs (val r - (val lg + ln (1 + exp (val sm - val lg)))) <= / 2 ^ 51 * (B + 5).
  Proof.
    intros Fs Fl Sl0 Bs Bl HB. cbv zeta. pose proof uu_pos as Up. pose proof uu_small as Us. pose proof uu53 as U53.
    assert (Big : 2 ^ 40 * 8 <= 2 ^ 1000) by (apply Rle_trans with (2 ^ 43); [simpl; lra|apply Rle_pow; [lra|lia]]).
    assert (B0 : 0 <= B) by (pose proof (Rabs_pos (val lg)); lra). assert (Sl : val sm - val lg <= 0) by lra.
    assert (Bsl : Rabs (val sm - val lg) <= 2 * B) by (unfold Rminus; eapply Rle_trans; [apply Rabs_triang|]; rewrite Rabs_Ropp; lra).
    destruct (fsub_rnd sm lg Fs Fl) as [Fx [Rx [e1 [He1 E1]]]]; [clear -Bsl HB Big B0; lra|]. set (x := fsub sm lg) in *. pose proof (err_form _ _ _ E1 He1) as Ex.
    assert (X0 : val x <= 0). { rewrite Rx. rewrite <- val_f0, <- (rnd_val f0), val_f0. apply rnd_mono, Sl. }
    destruct (acc_exp x Fx X0) as [Fp [Pp Ep]]. set (p := fexp x) in *. destruct f1_spec as [F1 V1].
    destruct (fadd_rnd f1 p F1 Fp) as [Fq [Rq [e2 [He2 E2]]]]; [rewrite V1, Rabs_pos_eq by lra; apply Rle_trans with (2 ^ 1); [simpl; lra|apply Rle_pow; [lra|lia]]|].
    set (q := fadd f1 p) in *. pose proof (err_form _ _ _ E2 He2) as Eq. rewrite V1 in Rq, Eq. rewrite (Rabs_pos_eq (1 + val p)) in Eq by lra.
    assert (Q1 : 1 <= val q). { rewrite Rq. rewrite <- V1, <- (rnd_val f1) at 1. rewrite V1. apply rnd_mono. lra. }
    assert (Q2 : val q <= 2). { rewrite Rq. destruct (of_usize_spec 2) as [F2 V2]; [simpl; lra|]. change (INR 2) with (1 + 1) in V2. apply Rle_trans with (val (f_of_usize 2)); [|rewrite V2; lra]. rewrite <- (rnd_val (f_of_usize 2)). apply rnd_mono. rewrite V2. lra. }
    destruct (acc_ln q Fq (conj Q1 Q2)) as [Fg [Pg Eg]]. set (g := fln q) in *.
    assert (Blg : Rabs (val lg + val g) <= B + 1) by (eapply Rle_trans; [apply Rabs_triang|]; rewrite (Rabs_pos_eq (val g)) by lra; lra).
    destruct (fadd_rnd lg g Fl Fg) as [Fr [Rr [e3 [He3 E3]]]]; [clear -Blg HB Big B0; assert (1 <= 2 ^ 40) by (apply pow_R1_Rle; lra); lra|].
    set (r := fadd lg g) in *. pose proof (err_form _ _ _ E3 He3) as Er.
    assert (Rl : val lg <= val r) by (rewrite Rr; rewrite <- (rnd_val lg) at 1; apply rnd_mono; lra).
    split; [exact Fr|]. split; [lra|].
    assert (K1 : Rabs (val r - (val lg + val g)) <= uu * (B + 1)) by (eapply Rle_trans; [exact Er|]; apply Rmult_le_compat_l; lra).
    assert (K3 : Rabs (ln (val q) - ln (1 + val p)) <= uu * 2) by (eapply Rle_trans; [apply ln_lip; lra|]; eapply Rle_trans; [exact Eq|]; apply Rmult_le_compat_l; lra).
    assert (K4 : Rabs (ln (1 + val p) - ln (1 + exp (val x))) <= / 2 ^ 50). { pose proof (exp_pos (val x)). eapply Rle_trans; [apply ln_lip; lra|]. replace (1 + val p - (1 + exp (val x))) with (val p - exp (val x)) by ring. exact Ep. }
    assert (K5 : Rabs (ln (1 + exp (val x)) - ln (1 + exp (val sm - val lg))) <= uu * (2 * B)).
    { rewrite (Rplus_comm 1 (exp (val x))), (Rplus_comm 1 (exp (val sm - val lg))). eapply Rle_trans; [apply lse_lip; lra|]. eapply Rle_trans; [exact Ex|]. apply Rmult_le_compat_l; lra. }
    apply Rabs_le_inv in K1. apply Rabs_le_inv in Eg. apply Rabs_le_inv in K3. apply Rabs_le_inv in K4. apply Rabs_le_inv in K5. rewrite U53 in *.
    assert (T : / 2 ^ 53 * (B + 1) + / 2 ^ 50 + / 2 ^ 53 * 2 + / 2 ^ 50 + / 2 ^ 53 * (2 * B) <= / 2 ^ 51 * (B + 5)) by (simpl; lra).
    apply Rabs_le. generalize dependent (/ 2 ^ 53). generalize dependent (/ 2 ^ 50). generalize dependent (/ 2 ^ 51). intros. lra.
  Qed.

  Lemma add_ok v d B : fin v -> fin d -> Rabs (val v) <= B -> Rabs (val d) <= B -> B <= 2 ^ 40 ->
    fin (f_ada_add fexp fln v d) /\ val v <= val (f_ada_add fexp fln v d) /\ val d <= val (f_ada_add fexp fln v d) /\
    Rabs (val (f_ada_add fexp fln v d) - ln (exp (val v) + exp (val d))) <= / 2 ^ 51 * (B + 5).
  Proof.
    intros Fv Fd Bv Bd HB. rewrite lse_minmax. unfold f_ada_add. destruct (flt v d) eqn:E.
    - apply (flt_true v d Fv Fd) in E. destruct (next_core v d B Fv Fd ltac:(lra) Bv Bd HB) as [F [L A]]. rewrite Rmin_left, Rmax_right by lra. split; [exact F|]. split; [lra|]. split; [exact L|exact A].
    - assert (N : val d <= val v). { destruct (Rle_or_lt (val d) (val v)) as [L|L]; [exact L|]. apply (flt_true v d Fv Fd) in L. congruence. }
      destruct (next_core d v B Fd Fv N Bd Bv HB) as [F [L A]]. rewrite Rmin_right, Rmax_left by lra. split; [exact F|]. split; [lra|]. split; [lra|exact A].
  Qed.

  (** ** the normaliser *)
  Variables (logs : list f64).
  Local Notation li i := (nth i logs f0).
  Local Notation S l := (rsum (map (fun i => exp (val (nth i logs f0))) l)).
  Hypothesis Fx : forall i, (i < length logs)%nat -> fin (li i) /\ Rabs (val (li i)) <= 1000.

  Lemma sum_range l : (forall i, In i l -> (i < length logs)%nat) -> INR (length l) * exp (-1000) <= S l <= INR (length l) * exp 1000.
  Proof.
    induction l as [|i l IH]; intros Hl; [simpl; lra|]. cbn [map rsum length]. rewrite S_INR. destruct IH as [I1 I2]; [intros; apply Hl; right; assumption|].
    destruct (Fx i) as [_ Q]; [apply Hl; left; reflexivity|]. apply Rabs_le_inv in Q. assert (exp (-1000) <= exp (val (li i)) <= exp 1000) by (split; apply exp_le_exp; lra). lra.
  Qed.

  Lemma ln_nat_small c : (1 <= c)%nat -> INR c <= 2 ^ 16 -> 0 <= ln (INR c) <= 16.
  Proof.
    intros H1 H. assert (1 <= INR c) by (change 1 with (INR 1); apply le_INR; lia). split; [rewrite <- ln_1; apply ln_le; lra|]. apply Rle_trans with (ln (2 ^ 16)); [apply ln_le; lra|].
    rewrite ln_pow by lra. pose proof (ln_le_sub 2 ltac:(lra)). simpl (INR 16). lra.
  Qed.

  Lemma fold_norm js : forall done v, done <> [] -> (forall i, In i (done ++ js) -> (i < length logs)%nat) -> INR (length done + length js) <= 2 ^ 16 ->
    fin v -> (forall i, In i done -> val (li i) <= val v) -> Rabs (val v - ln (S done)) <= INR (length done - 1) * / 2 ^ 40 ->
    let r := fold_left (fun v j => f_ada_add fexp fln v (li j)) js v in
    fin r /\ (forall i, In i (done ++ js) -> val (li i) <= val r) /\ Rabs (val r - ln (S (done ++ js))) <= INR (length done + length js - 1) * / 2 ^ 40.
  Proof.
    induction js as [|j js IH]; intros done v Nd Hr Hn Fv Lv Av; cbv zeta.
    - rewrite app_nil_r. cbn [fold_left length]. rewrite Nat.add_0_r. split; [exact Fv|]. split; assumption.
    - cbn [fold_left]. assert (Ld : (1 <= length done)%nat) by (destruct done; [congruence|simpl; lia]).
      assert (Hd : INR (length done) <= 2 ^ 16) by (eapply Rle_trans; [apply le_INR|exact Hn]; lia).
      assert (SB := sum_range done (fun i Hi => Hr i (in_or_app _ _ _ (or_introl Hi)))). destruct (ln_nat_small _ Ld Hd) as [C0 C1].
      assert (N1 : 1 <= INR (length done)) by (change 1 with (INR 1); apply le_INR; lia).
      pose proof (exp_pos (-1000)) as X1. pose proof (exp_pos 1000) as X2. assert (SP : 0 < S done) by nra.
      assert (LS : -1000 <= ln (S done) <= 1016).
      { split; [rewrite <- (ln_exp (-1000)); apply ln_le; [lra|nra]|]. apply Rle_trans with (ln (INR (length done) * exp 1000)); [apply ln_le; lra|]. rewrite ln_mult, ln_exp by lra. lra. }
      assert (E1 : INR (length done - 1) * / 2 ^ 40 <= 1). { apply Rle_trans with (2 ^ 16 * / 2 ^ 40); [apply Rmult_le_compat_r; [left; apply Rinv_0_lt_compat, pow_lt; lra|eapply Rle_trans; [apply le_INR|exact Hd]; lia]|simpl; lra]. }
      assert (Bv : Rabs (val v) <= 1017) by (apply Rabs_le; apply Rabs_le_inv in Av; lra).
      destruct (Fx j) as [Fj Bj]; [apply Hr, in_or_app; right; left; reflexivity|].
      destruct (add_ok v (li j) 1017 Fv Fj Bv ltac:(lra)) as [Fa [La [Lj Aa]]]; [simpl; lra|]. set (v' := f_ada_add fexp fln v (li j)) in *.
      assert (EqA : done ++ j :: js = (done ++ [j]) ++ js) by (rewrite <- app_assoc; reflexivity). rewrite EqA.
      replace (length done + length (j :: js) - 1)%nat with (length (done ++ [j]) + length js - 1)%nat by (rewrite app_length; simpl; lia).
      apply IH.
      + intros Q. apply app_eq_nil in Q. destruct Q; discriminate.
      + intros i Hi. apply Hr. rewrite EqA. exact Hi.
      + rewrite app_length. eapply Rle_trans; [apply le_INR|exact Hn]. simpl. lia.
      + exact Fa.
      + intros i Hi. apply in_app_or in Hi. destruct Hi as [Hi|[<- |[]]]; [specialize (Lv i Hi); lra|exact Lj].
      + rewrite map_app, rsum_app. cbn [map rsum]. rewrite Rplus_0_r. replace (length (done ++ [j]) - 1)%nat with (Datatypes.S (length done - 1)) by (rewrite app_length; simpl; lia). rewrite S_INR.
        assert (LL : Rabs (ln (exp (val v) + exp (val (li j))) - ln (S done + exp (val (li j)))) <= INR (length done - 1) * / 2 ^ 40).
        { rewrite <- (exp_ln (S done)) by exact SP. eapply Rle_trans; [apply lse_lip, exp_pos|]. exact Av. }
        assert (T : / 2 ^ 51 * (1017 + 5) <= / 2 ^ 40) by (simpl; lra).
        replace (val v' - ln (S done + exp (val (li j)))) with ((val v' - ln (exp (val v) + exp (val (li j)))) + (ln (exp (val v) + exp (val (li j))) - ln (S done + exp (val (li j))))) by ring.
        eapply Rle_trans; [apply Rabs_triang|]. rewrite Rmult_plus_distr_r, Rmult_1_l. lra.
  Qed.

  Lemma norm_ok ix : Permutation ix (seq 0 (length logs)) -> (1 <= length logs)%nat -> INR (length logs) <= 2 ^ 16 ->
    exists z, f_ada_norm fexp fln logs ix = Ok z /\ fin z /\ (forall i, (i < length logs)%nat -> val (li i) <= val z) /\
      Rabs (val z - ln (S (seq 0 (length logs)))) <= INR (length logs) * / 2 ^ 40 /\ Rabs (val z) <= 1017.
  Proof.
    intros P H1 Hn. assert (Lx : length ix = length logs) by (rewrite (Permutation_length P); apply seq_length).
    assert (Ix : forall j, In j ix <-> (j < length logs)%nat). { intros j. split; intros Q; [apply (Permutation_in _ P) in Q; apply in_seq in Q; lia|apply (Permutation_in _ (Permutation_sym P)); apply in_seq; lia]. }
    rewrite <- (rsum_perm _ _ (Permutation_map (fun i => exp (val (li i))) P)). destruct ix as [|i ix]; [simpl in Lx; lia|]. cbn [f_ada_norm]. eexists. split; [reflexivity|].
    destruct (Fx i) as [Fi Bi]; [apply Ix; left; reflexivity|].
    destruct (fold_norm ix [i] (li i)) as [F [L A]].
    - discriminate.
    - intros j Hj. apply Ix. exact Hj.
    - change (length [i] + length ix)%nat with (length (i :: ix)). rewrite Lx. exact Hn.
    - exact Fi.
    - intros j [<- |[]]. lra.
    - cbn [map rsum length]. rewrite Rplus_0_r, ln_exp, Rminus_diag_eq, Rabs_R0 by reflexivity. simpl. lra.
    - cbn [app] in L, A. split; [exact F|]. split; [intros j Hj; apply L, Ix, Hj|].
      assert (A' : Rabs (val (fold_left (fun v j => f_ada_add fexp fln v (li j)) ix (li i)) - ln (S (i :: ix))) <= INR (length logs) * / 2 ^ 40).
      { eapply Rle_trans; [exact A|]. apply Rmult_le_compat_r; [left; apply Rinv_0_lt_compat, pow_lt; lra|]. apply le_INR. simpl in Lx |- *. lia. }
      split; [exact A'|]. assert (SB := sum_range (i :: ix) (fun j Hj => proj1 (Ix j) Hj)). rewrite Lx in SB. destruct (ln_nat_small _ H1 Hn) as [C0 C1]. set (s := S (i :: ix)) in *.
      assert (N1 : 1 <= INR (length logs)) by (change 1 with (INR 1); apply le_INR; lia). pose proof (exp_pos (-1000)) as X1. pose proof (exp_pos 1000) as X2. assert (SP : 0 < s) by nra.
      assert (LS : -1000 <= ln s <= 1016).
      { split; [rewrite <- (ln_exp (-1000)); apply ln_le; [lra|nra]|]. apply Rle_trans with (ln (INR (length logs) * exp 1000)); [apply ln_le; lra|]. rewrite ln_mult, ln_exp by lra. lra. }
      assert (E1 : INR (length logs) * / 2 ^ 40 <= 1). { apply Rle_trans with (2 ^ 16 * / 2 ^ 40); [apply Rmult_le_compat_r; [left; apply Rinv_0_lt_compat, pow_lt; lra|exact Hn]|simpl; lra]. }
      apply Rabs_le. apply Rabs_le_inv in A'. lra.
  Qed.
End Step.
