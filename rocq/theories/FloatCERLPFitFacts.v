(** * C107: CERLPBoost with the settings it computes from the tolerance *)
From Coq Require Import ZArith List Bool Reals Lia Lra Psatz.
From Flocq Require Import Core.Core IEEE754.BinarySingleNaN.
From Verif Require Import Base Spec Float FloatSpec FloatProofs FloatFacts FloatCheckFacts FloatProjectSpec FloatProject FloatProjectProofs FloatProjectFacts FloatMedian FloatTree FloatMada FloatMadaProofs FloatAdaSpec FloatAdaFacts FloatRounds FloatRoundsSpec FloatRoundsProofs FloatRoundsFacts FloatFWProofs FrankWolfe FrankWolfeProofs FloatFW FloatFWSpec FloatMedianFacts FloatExpDist FloatExpDistSpec FloatExpDistFacts FloatCERLP FloatCERLPSpec FloatCERLPProofs FloatCERLPFacts FloatCERLPFit.
Import ListNotations.
Open Scope R_scope.

(** with the tolerances and sample sizes considered, everything is within the range of C107 *)
Lemma settings (fln : f64 -> f64) (umax : nat) (tol : f64) (n : nat) : precise_ln fln -> finite_num tol -> 0 < val tol <= 1 -> (2 <= n)%nat ->
  INR n * (2 * ln (INR n) / val tol + 66) <= 2 ^ 30 -> ln (INR n) ^ 2 / val tol ^ 3 <= 2 ^ 19 ->
  let eta := f_cerlp_eta fln tol f1 n in let rounds := f_cerlp_rounds fln umax tol f1 n in
  fin (f_half_tol tol) /\ val (f_half_tol tol) = val tol / 2 /\ fin eta /\ 0 < val eta /\ INR n * (val eta + 65) <= 2 ^ 30 /\ INR rounds <= 2 ^ 29 /\
  val eta * (INR rounds + 2) / 2 ^ 48 <= / 2 ^ 22 /\ ln (INR n) / val eta <= val tol / 2 + / 2 ^ 49.
Proof.
  intros Hl Ft [T0 T1] N2 Hn Hc eta rounds. set (L := ln (INR n)) in *. set (t := val tol) in *.
  assert (n2 : 2 <= INR n) by (change 2 with (INR 2); apply le_INR, N2).
  assert (L2 : / 2 <= L). { apply Rle_trans with (1 := ln_half). apply ln_le; lra. }
  assert (P7 : / 2 ^ 7 <= t).
  { destruct (Rle_or_lt (/ 2 ^ 7) t) as [X|X]; [exact X|exfalso]. assert (P3 : 0 < t ^ 3) by (apply pow_lt, T0). assert (Hc' : L ^ 2 <= 2 ^ 19 * t ^ 3) by (replace (L ^ 2) with (L ^ 2 / t ^ 3 * t ^ 3) by (field; lra); apply Rmult_le_compat_r; lra).
    assert (C : t ^ 3 <= t * (/ 2 ^ 7 * / 2 ^ 7)). { replace (t ^ 3) with (t * (t * t)) by ring. apply Rmult_le_compat_l; [lra|]. apply Rmult_le_compat; lra. }
    assert (L4 : / 4 <= L ^ 2) by (replace (L ^ 2) with (L * L) by ring; replace (/ 4) with (/ 2 * / 2) by lra; apply Rmult_le_compat; lra).
    assert (D : 2 ^ 19 * t ^ 3 <= 2 ^ 19 * (t * (/ 2 ^ 7 * / 2 ^ 7))) by (apply Rmult_le_compat_l; [apply pow_le; lra|exact C]). replace (2 ^ 19 * (t * (/ 2 ^ 7 * / 2 ^ 7))) with (32 * t) in D by (simpl; lra). assert (/ 2 ^ 7 = / 128) by (simpl; lra). lra. }
  assert (h0 : 0 < t / 2) by lra. set (h := t / 2) in *. assert (h8 : / 2 ^ 8 <= h) by (unfold h; simpl in *; lra). assert (h1 : h <= / 2) by (unfold h; lra).
  assert (Ht : usual_tolerance tol). { split; [exact Ft|]. fold t. split; [apply Rle_trans with (2 := P7); apply Rinv_le_contravar; [apply pow_lt; lra|apply Rle_pow; [lra|lia]]|apply Rle_trans with (1 := T1), pow_R1_Rle; lra]. }
  destruct (half_tol_spec tol Ht) as [Fh [Vh _]]. fold t h in Vh.
  set (a := L / h). assert (a1 : 1 <= a) by (unfold a; apply Rle_div_iff; lra).
  assert (Ea : 2 * L / t = a) by (unfold a, h; field; lra). rewrite Ea in Hn.
  set (X := 8 * L / h ^ 2). assert (P2 : 0 < h ^ 2) by (apply pow_lt, h0).
  assert (H4 : h ^ 2 <= / 4) by (replace (h ^ 2) with (h * h) by ring; replace (/ 4) with (/ 2 * / 2) by lra; apply Rmult_le_compat; lra).
  assert (X16 : 16 <= X) by (unfold X; apply Rle_div_iff; lra).
  assert (aX : a * X <= 2 ^ 25). { replace (a * X) with (64 * (L ^ 2 / t ^ 3)) by (unfold a, X, h; field; lra). apply Rle_trans with (64 * 2 ^ 19); [apply Rmult_le_compat_l; [lra|exact Hc]|simpl; lra]. }
  assert (aB : a <= 2 ^ 21) by (simpl in *; nra). assert (XB : X <= 2 ^ 25) by (simpl in *; nra).
  assert (Sn : some_examples n). { split; [lia|]. apply Rle_lt_trans with (2 ^ 30); [|apply Rlt_pow; [lra|lia]]. apply Rle_trans with (2 := Hn). nra. }
  destruct f1_spec as [F1 V1]. assert (Cp : capping f1 n) by (split; [exact F1|rewrite V1; lra]).
  destruct (ln_ratio fln Hl f1 n Sn Cp) as [Fl [[l0 lU] [_ Nl]]]. rewrite V1 in Nl. replace (INR n / 1) with (INR n) in Nl by lra. fold L in Nl. set (l := fln (fdiv (f_of_usize n) f1)) in *.
  (* eta *)
  pose proof uu_pos as U0. pose proof uu_num as UN.
  destruct (fdiv_spec l (f_half_tol tol) Fl) as [Fe Ve]; [rewrite Vh; lra| |].
  { rewrite Vh, Rabs_pos_eq by (apply div_nonneg; lra). apply Rle_lt_trans with (2 ^ 55 * 2 ^ 8); [|rewrite <- pow_add; apply Rlt_pow; [lra|lia]]. apply Rdiv_le_iff; [exact h0|]. apply Rle_trans with (1 := lU). rewrite Rmult_assoc. rewrite <- (Rmult_1_r (2 ^ 55)) at 1. apply Rmult_le_compat_l; [apply pow_le; lra|]. simpl in *. lra. }
  change (fdiv l (f_half_tol tol)) with eta in Fe, Ve. rewrite Vh in Ve.
  assert (Ne : near (val eta) a (2 + 0 + / 50 + 1 + / 50) (1001 / 1000 * (1001 / 1000 * (21 / 10 * uu / h)) + eta0)).
  { rewrite Ve. apply near_rnd; [lra|lra| |apply near_div; try assumption; try lra; apply rel_0]. apply Rmult_le_pos; [lra|]. apply div_nonneg; lra. }
  assert (De : Rabs (val eta - a) <= / 2 ^ 50 * a).
  { unfold near in Ne. apply Rle_trans with (1 := Ne). assert (Iu : uu / h <= 2 * uu * a). { unfold a. replace (2 * uu * (L / h)) with ((2 * L) * (uu / h)) by (field; lra). rewrite <- (Rmult_1_l (uu / h)) at 1. apply Rmult_le_compat_r; [apply div_nonneg; lra|lra]. }
    replace (21 / 10 * uu / h) with (21 / 10 * (uu / h)) by (field; lra).
    assert (EU : eta0 <= / 100 * uu). { destruct eta_uu as [T _]. eapply Rle_trans; [exact T|]. replace (/ 2 ^ 460 * (uu * uu)) with ((/ 2 ^ 460 * uu) * uu) by ring. apply Rmult_le_compat_r; [left; apply U0|]. apply Rle_trans with (1 * uu); [apply Rmult_le_compat_r; [left; apply U0|]|rewrite UN; lra]. rewrite <- Rinv_1. apply Rinv_le_contravar; [lra|apply pow_R1_Rle; lra]. }
    rewrite <- (proj1 unit_50). assert (Ua : uu <= uu * a) by (rewrite <- (Rmult_1_r uu) at 1; apply Rmult_le_compat_l; lra). lra. }
  assert (E50 : / 2 ^ 50 <= / 1000000) by (simpl; lra). assert (E50p : 0 < / 2 ^ 50) by (apply Rinv_0_lt_compat, pow_lt; lra).
  assert (a50 : / 2 ^ 50 * a <= / 1000). { apply Rle_trans with (/ 2 ^ 50 * 2 ^ 21); [apply Rmult_le_compat_l; lra|simpl; lra]. }
  apply Rabs_le_inv in De.
  (* rounds *)
  pose proof (P_C103_cerlpboost_mlpboost fln umax tol f1 n Hl Ht Sn Cp) as Hr. cbv zeta in Hr. fold rounds in Hr. rewrite V1 in Hr. replace (INR n / 1) with (INR n) in Hr by lra. fold L t h X in Hr. destruct Hr as [_ Hr].
  assert (X50 : / 2 ^ 50 * X <= / 1000). { apply Rle_trans with (/ 2 ^ 50 * 2 ^ 25); [apply Rmult_le_compat_l; lra|simpl; lra]. }
  assert (X48 : / 2 ^ 48 / h ^ 2 <= / 1000). { apply Rdiv_le_iff; [exact P2|]. apply Rle_trans with (/ 1000 * (/ 2 ^ 8 * / 2 ^ 8)); [simpl; lra|]. apply Rmult_le_compat_l; [lra|]. replace (h ^ 2) with (h * h) by ring. assert (0 < / 2 ^ 8) by (apply Rinv_0_lt_compat, pow_lt; lra). apply Rmult_le_compat; lra. }
  pose proof (Rmin_l X (INR umax)) as Mi. assert (Rb : INR rounds <= X + 2) by lra. pose proof (pos_INR rounds) as R0.
  split; [exact Fh|]. split; [exact Vh|]. split; [exact Fe|]. split; [lra|]. split; [|split; [|split]].
  - apply Rle_trans with (2 := Hn). apply Rmult_le_compat_l; [lra|lra].
  - apply Rle_trans with (1 := Rb). simpl in *. lra.
  - assert (A : val eta * (INR rounds + 2) <= 2 ^ 26). { apply Rle_trans with ((a * (1 + / 2 ^ 50)) * (X + 4)); [apply Rmult_le_compat; lra|]. assert (a * (X + 4) <= a * X * (5 / 4)) by nra. assert ((1 + / 2 ^ 50) * (a * (X + 4)) <= (1 + / 1000) * (2 ^ 25 * (5 / 4))) by (apply Rmult_le_compat; [lra|nra|lra|lra]). simpl in *. lra. }
    apply Rdiv_le_iff; [apply pow_lt; lra|]. apply Rle_trans with (1 := A). simpl; lra.
  - apply Rdiv_le_iff; [lra|]. apply Rle_trans with ((h + / 2 ^ 49) * (a * (1 - / 2 ^ 50))); [|apply Rmult_le_compat_l; [assert (0 < / 2 ^ 49) by (apply Rinv_0_lt_compat, pow_lt; lra); lra|lra]].
    replace L with (h * a) by (unfold a; field; lra). assert (Q : / 2 ^ 49 = 2 * / 2 ^ 50) by (simpl; lra). rewrite Q. assert (h * (/ 2 ^ 50) <= / 2 * / 2 ^ 50) by (apply Rmult_le_compat_r; lra). nra.
Qed.

(** ** C107: with the settings computed from a tolerance in (0,1], no run panics, whatever the weak learner returns *)
Lemma P_C107_fit_never_panics :
  forall (H : Type) (conf : H -> nat -> f64) (eqH : H -> H -> bool) (produce : nat -> list f64 -> H) (fexp fln : f64 -> f64) (umax : nat) (tol : f64) (ys : list f64),
  accurate_exp fexp -> accurate_ln fln -> precise_ln fln -> signed_labels ys -> bounded_confidences conf -> finite_num tol -> 0 < val tol <= 1 -> (2 <= length ys)%nat ->
  INR (length ys) * (2 * ln (INR (length ys)) / val tol + 66) <= 2 ^ 30 -> ln (INR (length ys)) ^ 2 / val tol ^ 3 <= 2 ^ 19 ->
  match f_cerlp_fit conf eqH produce fexp fln umax tol f1 ys with FCrashed _ => False | _ => True end.
Proof.
  intros H conf eqH produce fexp fln umax tol ys Ae Al Pl Ly Bc Ft Ht H2 Hn Hc. destruct (settings fln umax tol (length ys) Pl Ft Ht H2 Hn Hc) as [Fh [Vh [Fe [Pe [G1 [G2 [G3 _]]]]]]].
  pose proof (P_C107_run_never_panics H conf eqH produce fexp fln (f_cerlp_eta fln tol f1 (length ys)) (f_half_tol tol) ys (f_cerlp_rounds fln umax tol f1 (length ys)) Ae Al Ly Bc Fe ltac:(lra) G1 G2 G3) as R. cbv zeta in R.
  unfold f_cerlp_fit. destruct (f_cerlp_run conf eqH produce fexp fln _ f1 _ ys _ 1 [] []) as [t dist h ws hs|ws hs|p]; [exact I|exact I|exact R].
Qed.

(** ** C107: and with a weak learner whose hypotheses always have edge at least [g], stopping on the test with a non-empty vote means a
    margin of at least g - tolerance - 2^-15 on every training example *)
Lemma P_C107_fit_guarantee :
  forall (H : Type) (conf : H -> nat -> f64) (eqH : H -> H -> bool) (produce : nat -> list f64 -> H) (fexp fln : f64 -> f64) (umax : nat) (tol : f64) (ys : list f64) (g : R) t dist h ws hs,
  accurate_exp fexp -> accurate_ln fln -> precise_ln fln -> signed_labels ys -> bounded_confidences conf -> finite_num tol -> 0 < val tol <= 1 -> (2 <= length ys)%nat ->
  INR (length ys) * (2 * ln (INR (length ys)) / val tol + 66) <= 2 ^ 30 -> ln (INR (length ys)) ^ 2 / val tol ^ 3 <= 2 ^ 19 ->
  (forall t d, near_distribution (length ys) d -> g <= true_edge conf ys d (produce t d)) ->
  f_cerlp_fit conf eqH produce fexp fln umax tol f1 ys = FStopped t dist h ws hs -> ws <> [] ->
  forall k, (k < length ys)%nat -> g - val tol - / 2 ^ 15 <= vote_margin conf ys ws hs k.
Proof.
  intros H conf eqH produce fexp fln umax tol ys g t dist h ws hs Ae Al Pl Ly Bc Ft Ht H2 Hn Hc Hg E Nw k Hk. destruct (settings fln umax tol (length ys) Pl Ft Ht H2 Hn Hc) as [Fh [Vh [Fe [Pe [G1 [G2 [G3 G4]]]]]]].
  destruct (P_C107_stop_certifies_margin H conf eqH produce fexp fln _ (f_half_tol tol) ys _ t dist h ws hs Ae Al Ly Bc Fe Pe Fh G1 G2 G3 E Nw) as [Eh [Nd M]]. specialize (M k Hk). specialize (Hg t dist Nd). rewrite <- Eh in Hg. rewrite Vh in M.
  assert (/ 2 ^ 49 <= / 2 ^ 17) by (simpl; lra). assert (/ 2 ^ 15 = 2 * / 2 ^ 16) by (simpl; lra). assert (/ 2 ^ 16 = 2 * / 2 ^ 17) by (simpl; lra). assert (0 < / 2 ^ 17) by (apply Rinv_0_lt_compat, pow_lt; lra). lra.
Qed.

(** an equal hypothesis that is already in the list is found *)
Lemma position_new {H} (eqH : H -> H -> bool) (h : H) hs : f_position eqH h hs = length hs -> forall f, In f hs -> eqH f h = false.
Proof.
  induction hs as [|g hs IH]; intros E f []; cbn [f_position length] in E; destruct (eqH g h) eqn:G; try discriminate E; injection E as E; [subst f; exact G|apply IH; assumption].
Qed.
Lemma pairs_snoc {H} (P : H -> H -> Prop) hs h : ForallOrdPairs P hs -> (forall f, In f hs -> P f h) -> ForallOrdPairs P (hs ++ [h]).
Proof.
  induction 1 as [|g hs G _ IH]; intros A; cbn [app]; [constructor; [constructor|constructor]|]. constructor.
  - apply Forall_app. split; [exact G|]. constructor; [apply A; left; reflexivity|constructor].
  - apply IH. intros f Hf. apply A. right. exact Hf.
Qed.

(** ** C107: a hypothesis the learner returns again is not added again: no hypothesis of the vote is equal to an earlier one *)
Lemma P_C107_no_repeats :
  forall (H : Type) (conf : H -> nat -> f64) (eqH : H -> H -> bool) (produce : nat -> list f64 -> H) (fexp fln : f64 -> f64) (eta nu half_tol : f64) (ys : list f64) (rounds : nat),
  match f_cerlp_run conf eqH produce fexp fln eta nu half_tol ys rounds 1 [] [] with
  | FStopped _ _ _ _ hs | FLimit _ hs => ForallOrdPairs (fun f g => eqH f g = false) hs
  | FCrashed _ => True
  end.
Proof.
  intros H conf eqH produce fexp fln eta nu half_tol ys rounds. assert (I : ForallOrdPairs (fun f g => eqH f g = false) (@nil H)) by constructor.
  revert I. generalize (@nil f64) 1%nat (@nil H). induction rounds as [|rounds IH]; intros ws t hs I; cbn [f_cerlp_run]; [exact I|].
  destruct (f_cerlp_dist conf fexp fln eta nu ys ws hs) as [dist|p]; [|trivial]. destruct (fle _ half_tol); [exact I|].
  destruct (Nat.eqb (f_position eqH (produce t dist) hs) (length hs)) eqn:E.
  - apply Nat.eqb_eq in E. destruct (f_fw_classic t _ (ws ++ [f0])) as [ws'|p]; [|trivial]. apply IH. apply pairs_snoc; [exact I|]. apply position_new, E.
  - destruct (f_fw_classic t _ ws) as [ws'|p]; [|trivial]. apply IH, I.
Qed.

Lemma position_at {H} (eqH : H -> H -> bool) (h : H) hs : f_position eqH h hs <> length hs -> exists f, nth_error hs (f_position eqH h hs) = Some f /\ eqH f h = true.
Proof.
  induction hs as [|g hs IH]; intros N; cbn [f_position length] in N; [lia|]. cbn [f_position]. destruct (eqH g h) eqn:G; [exists g; split; [reflexivity|exact G]|].
  cbn [nth_error]. apply IH. lia.
Qed.

(** ** C107: a round that does not stop moves the weights towards the hypothesis just returned: it is (equal to one) in the vote, with
    weight zero before the step if it is new *)
Lemma P_C107_moves_to_returned :
  forall (H : Type) (conf : H -> nat -> f64) (eqH : H -> H -> bool) (produce : nat -> list f64 -> H) (fexp fln : f64 -> f64) (eta nu half_tol : f64) (ys : list f64) t ws hs ws' hs',
  (forall h, eqH h h = true) ->
  f_cerlp_run conf eqH produce fexp fln eta nu half_tol ys 1 t ws hs = FLimit ws' hs' ->
  exists dist k f, f_cerlp_dist conf fexp fln eta nu ys ws hs = Ok dist /\ nth_error hs' k = Some f /\ eqH f (produce t dist) = true /\
    (hs' = hs /\ f_fw_classic t k ws = Ok ws' \/ hs' = hs ++ [produce t dist] /\ k = length hs /\ f_fw_classic t k (ws ++ [f0]) = Ok ws').
Proof.
  intros H conf eqH produce fexp fln eta nu half_tol ys t ws hs ws' hs' Rf E. cbn [f_cerlp_run] in E.
  destruct (f_cerlp_dist conf fexp fln eta nu ys ws hs) as [dist|p] eqn:Ed; [|discriminate E]. destruct (fle _ half_tol); [discriminate E|].
  exists dist. destruct (Nat.eqb (f_position eqH (produce t dist) hs) (length hs)) eqn:N.
  - apply Nat.eqb_eq in N. destruct (f_fw_classic t (f_position eqH (produce t dist) hs) (ws ++ [f0])) as [w|p] eqn:Ef; [|discriminate E]. injection E as <- <-. rewrite N in Ef.
    exists (length hs), (produce t dist). split; [reflexivity|]. split; [rewrite nth_error_app2, Nat.sub_diag by lia; reflexivity|]. split; [apply Rf|]. right. split; [reflexivity|]. split; [reflexivity|exact Ef].
  - apply Nat.eqb_neq in N. destruct (f_fw_classic t (f_position eqH (produce t dist) hs) ws) as [w|p] eqn:Ef; [|discriminate E]. injection E as <- <-.
    destruct (position_at eqH (produce t dist) hs N) as [f [Hf1 Hf2]]. exists (f_position eqH (produce t dist) hs), f. split; [reflexivity|]. split; [exact Hf1|]. split; [exact Hf2|]. left. split; [reflexivity|exact Ef].
Qed.

(** the run used as the example: two examples with different labels, one hypothesis that classifies both correctly, tolerance 1/2 *)
Definition ex_conf (_ : unit) (i : nat) : f64 := if Nat.eqb i 0 then f1 else fopp f1.
Lemma strict_eq (x y : f64) : is_finite_strict x = true -> is_finite_strict y = true -> feq x y = true -> x = y.
Proof.
  intros Sx Sy E. apply B2R_inj; try assumption. assert (Fx : fin x) by (destruct x; try discriminate; reflexivity). assert (Fy : fin y) by (destruct y; try discriminate; reflexivity).
  unfold feq in E. rewrite Beqb_correct in E by assumption. destruct (Req_bool_spec (val x) (val y)) as [X|]; [exact X|discriminate].
Qed.

Lemma pair_eq (a b c d : f64) : a = c -> b = d -> [a; b] = [c; d]. Proof. intros -> ->. reflexivity. Qed.
Lemma two_sum f : ssum 2 f = f 0%nat + f 1%nat. Proof. unfold ssum. cbn [seq map rsum]. ring. Qed.
Lemma below_two (P : nat -> Prop) : P 0%nat -> P 1%nat -> forall i, (i < 2)%nat -> P i. Proof. intros A B [|[|i]] Hi; [exact A|exact B|lia]. Qed.

Lemma ex_C107_fit :
  exists fexp fln (tol : f64) (ys : list f64), accurate_exp fexp /\ accurate_ln fln /\ precise_ln fln /\ signed_labels ys /\ bounded_confidences ex_conf /\ finite_num tol /\ 0 < val tol <= 1 /\ length ys = 2%nat /\
  INR (length ys) * (2 * ln (INR (length ys)) / val tol + 66) <= 2 ^ 30 /\ ln (INR (length ys)) ^ 2 / val tol ^ 3 <= 2 ^ 19 /\
  (exists g, val tol + / 2 ^ 14 <= g /\ forall d, near_distribution (length ys) d -> g <= true_edge ex_conf ys d tt) /\
  exists dist ws, f_cerlp_fit ex_conf (fun _ _ => true) (fun _ _ => tt) fexp fln 1000 tol f1 ys = FStopped 2 dist tt ws [tt] /\ ws <> [].
Proof.
  destruct f1_spec as [F1 V1]. destruct half_spec as [Fh Vh]. destruct (fopp_val f1) as [Vo Fo]. specialize (Fo F1). rewrite V1 in Vo.
  destruct P_C91_platform as [fexp [fln [C1 C2]]]. destruct (P_C91_correct_accurate fexp fln C1 C2) as [A1 A2]. destruct (P_C92_correct_precise fexp fln C1 C2) as [_ A3].
  pose (ys := [f1; fopp f1]). assert (Ly : signed_labels ys) by (split; [discriminate|intros y [<-|[<-|[]]]; [split; [exact F1|left; exact V1]|split; [exact Fo|right; rewrite Vo; lra]]]).
  assert (Bc : bounded_confidences ex_conf). { intros h i. unfold ex_conf. destruct (Nat.eqb i 0); [split; [exact F1|rewrite V1, Rabs_R1; lra]|split; [exact Fo|rewrite Vo, Rabs_left; lra]]. }
  assert (L2 : / 2 <= ln 2 <= 1) by (split; [exact ln_half|assert (ln 2 <= 2 - 1) by (apply ln_le_sub; lra); lra]).
  assert (I2 : INR (length ys) = 2) by (simpl; lra). assert (Tl : 0 < val f_half <= 1) by (rewrite Vh; lra).
  assert (G1 : INR (length ys) * (2 * ln (INR (length ys)) / val f_half + 66) <= 2 ^ 30). { rewrite I2, Vh. replace (2 * ln 2 / / 2) with (4 * ln 2) by (field). apply Rle_trans with (2 * 70); [lra|simpl; lra]. }
  assert (G2 : ln (INR (length ys)) ^ 2 / val f_half ^ 3 <= 2 ^ 19). { rewrite I2, Vh. replace (ln 2 ^ 2 / (/ 2) ^ 3) with (8 * (ln 2 * ln 2)) by (field). apply Rle_trans with 8; [assert (ln 2 * ln 2 <= 1 * 1) by (apply Rmult_le_compat; lra); lra|simpl; lra]. }
  exists fexp, fln, f_half, ys. split; [exact A1|]. split; [exact A2|]. split; [exact A3|]. split; [exact Ly|]. split; [exact Bc|]. split; [exact Fh|]. split; [exact Tl|]. split; [reflexivity|]. split; [exact G1|]. split; [exact G2|].
  split. { exists (9 / 10). split; [rewrite Vh; simpl; lra|]. intros d [Ld [_ Td]]. destruct d as [|d0 [|d1 [|? ?]]]; try discriminate Ld. unfold total in Td. cbn [map rsum] in Td. unfold true_edge, ys, ex_conf. cbn [length seq map nth rsum Nat.eqb]. rewrite !Vo, !V1. apply Rabs_le_inv in Td. assert (/ 2 ^ 17 <= / 1000) by (simpl; lra). lra. }
  destruct (settings fln 1000 f_half (length ys) A3 Fh Tl (le_n 2) G1 G2) as [Fht [Vht [Fe [Pe [S1 [S2 [S3 _]]]]]]].
  assert (HR : (2 <= f_cerlp_rounds fln 1000 f_half f1 (length ys))%nat).
  { assert (Cp : capping f1 2) by (split; [exact F1|rewrite V1; simpl; lra]). assert (Ut : usual_tolerance f_half). { split; [exact Fh|]. rewrite Vh. split; [apply Rinv_le_contravar; [lra|]; rewrite <- (pow_1 2) at 1; apply Rle_pow; [lra|lia]|apply Rle_trans with 1; [lra|apply pow_R1_Rle; lra]]. }
    assert (Sn : some_examples 2). { split; [lia|]. apply Rle_lt_trans with (2 ^ 1); [simpl; lra|apply Rlt_pow; [lra|lia]]. }
    pose proof (P_C103_cerlpboost_mlpboost fln 1000 f_half f1 2 A3 Ut Sn Cp) as Hr. cbv zeta in Hr. destruct Hr as [Hr _]. change (length ys) with 2%nat. rewrite V1, Vh in Hr. replace (INR 2 / 1) with 2 in Hr by (simpl; lra).
    replace (8 * ln 2 / (/ 2 / 2) ^ 2) with (128 * ln 2) in Hr by field. replace (/ 2 ^ 48 / (/ 2 / 2) ^ 2) with (16 * / 2 ^ 48) in Hr by (field; apply pow_nonzero; lra).
    assert (I1000 : INR 1000 = 1000) by (rewrite INR_IZR_INZ; reflexivity). rewrite I1000, Rmin_left in Hr by lra. assert (E50 : / 2 ^ 50 * (128 * ln 2) <= 1). { apply Rle_trans with (/ 2 ^ 50 * 128); [apply Rmult_le_compat_l; [left; apply Rinv_0_lt_compat, pow_lt; lra|lra]|simpl; lra]. }
    assert (E48 : 16 * / 2 ^ 48 <= 1) by (simpl; lra). apply INR_le. replace (INR 2) with 2 by (simpl; lra). lra. }
  unfold f_cerlp_fit. set (eta := f_cerlp_eta fln f_half f1 (length ys)) in *. set (ht := f_half_tol f_half) in *. rewrite Vh in Vht.
  set (N := f_cerlp_rounds fln 1000 f_half f1 (length ys)) in *.
  pose proof (fun ws hs v t => round_dist ex_conf fexp fln eta ys A1 A2 Ly Bc Fe (Rlt_le _ _ Pe) S1 N S2 S3 ws hs v t) as RD. pose proof uu_pos as U0. pose proof uu_num as UN.
  (* the two rounds *)
  destruct (RD [] [] [] 1%nat) as [d1 [E1 [Ld1 Q1]]]; [lia|reflexivity|simpl; lia|intros w []|split; [intros x []|simpl; lra]|reflexivity|unfold distance; simpl; lra|].
  destruct (RD [f1] [tt] [1] 2%nat) as [d2 [E2 [Ld2 Q2]]]; [lia|reflexivity|simpl; lia| |split; [intros x [<-|[]]; lra|simpl; lra]|reflexivity| |].
  { intros w [<-|[]]. split; [exact F1|rewrite V1; lra]. }
  { unfold distance. cbn [combine map rsum fst snd]. rewrite V1. unfold Rminus. rewrite Rplus_opp_r, Rabs_R0. replace (INR 2) with 2 by (simpl; lra). lra. }
  change (length ys) with 2%nat in Ld1, Q1, Ld2, Q2. clear RD.
  assert (M1 : f_margins_of ex_conf ys tt = [f1; f1]). { unfold f_margins_of, ys, ex_conf. cbn [length seq combine map fst snd Nat.eqb]. apply pair_eq; apply B2SF_inj; vm_compute; reflexivity. }
  assert (M2 : f_vote_margins [f1] ys (f_table ex_conf ys [tt]) = [f1; f1]). { unfold f_vote_margins, f_table, ys, ex_conf. cbn [length seq combine map fst snd Nat.eqb]. apply pair_eq; apply B2SF_inj; vm_compute; reflexivity. }
  assert (M0 : f_vote_margins [] ys (f_table ex_conf ys []) = [f0; fopp f0]). { unfold f_vote_margins, f_table, ys. cbn [length seq combine map fst snd]. apply pair_eq; apply B2SF_inj; vm_compute; reflexivity. }
  assert (ED : forall d (r : R) x, length d = 2%nat -> (forall i, (i < 2)%nat -> fin (nth i d f0) /\ 0 <= val (nth i d f0) <= 1) -> length x = 2%nat -> Rabs r <= 1 -> (forall i, (i < 2)%nat -> fin (nth i x f0) /\ val (nth i x f0) = r) ->
    fin (fsum (f_products d x)) /\ Rabs (val (fsum (f_products d x)) - (val (nth 0 d f0) * r + val (nth 1 d f0) * r)) <= 18 * uu).
  { intros d r x Ld Hd Lx Hr Hx. destruct (edge_close d x (fun _ => r) 2 0 Ld Lx) as [A B]; [apply Rle_trans with (2 ^ 1); [simpl; lra|apply Rle_pow; [lra|lia]]|lra|exact Hd| | |].
    - rewrite two_sum. pose proof (Hd 0%nat ltac:(lia)). pose proof (Hd 1%nat ltac:(lia)). lra.
    - intros i Hi. destruct (Hx i Hi) as [X Y]. split; [exact X|]. rewrite Y. split; [lra|]. unfold Rminus. rewrite Rplus_opp_r, Rabs_R0. lra.
    - split; [exact A|]. rewrite two_sum in B. apply Rle_trans with (1 := B). simpl. lra. }
  assert (B1 : forall i, (i < 2)%nat -> fin (nth i d1 f0) /\ 0 <= val (nth i d1 f0) <= 1) by (intros i Hi; destruct (Q1 i Hi) as [X [Y _]]; split; assumption).
  assert (B2 : forall i, (i < 2)%nat -> fin (nth i d2 f0) /\ 0 <= val (nth i d2 f0) <= 1) by (intros i Hi; destruct (Q2 i Hi) as [X [Y _]]; split; assumption).
  assert (W1 : forall i, (i < 2)%nat -> 49 / 100 <= val (nth i d1 f0)).
  { intros i Hi. destruct (Q1 i Hi) as [_ [_ D]]. assert (Sx : exact_exp_distribution (val eta) (exact_margins [] ys (f_table ex_conf ys [])) i = / 2).
    { unfold exact_exp_distribution, exact_margins, f_table, ys, exact_margin. cbn [length seq combine map fst snd rsum]. rewrite !Rmult_0_r, exp_0. revert i Hi D. apply (below_two (fun i => _ -> exp (- val eta * nth i [0; 0] 0) / (1 + (1 + 0)) = / 2)); intros _; cbn [nth]; rewrite Rmult_0_r, exp_0; lra. }
    rewrite Sx in D. apply Rabs_le_inv in D. assert (/ 2 ^ 18 <= / 1000) by (simpl; lra). assert (/ 2 ^ 50 <= / 1000) by (simpl; lra). lra. }
  destruct N as [|[|N]]; [lia|lia|]. clear HR.
  (* round 1 does not stop *)
  assert (T1 : fle (fsub (f_edge_of ex_conf ys d1 tt) (f_edge_of_vote ex_conf ys d1 [] [])) ht = false).
  { destruct (fle _ ht) eqn:T; [exfalso|reflexivity]. unfold f_edge_of, f_edge_of_vote in T. rewrite M1, M0 in T.
    destruct (ED d1 1 [f1; f1] Ld1 B1 eq_refl) as [Fa Ha]; [rewrite Rabs_R1; lra|apply below_two; cbn [nth]; (split; [exact F1|exact V1])|].
    destruct (ED d1 0 [f0; fopp f0] Ld1 B1 eq_refl) as [Fb Hb]; [rewrite Rabs_R0; lra|apply below_two; cbn [nth]; (split; reflexivity)|].
    pose proof (W1 0%nat ltac:(lia)) as w0. pose proof (W1 1%nat ltac:(lia)) as w1. destruct (B1 0%nat ltac:(lia)) as [_ b0]. destruct (B1 1%nat ltac:(lia)) as [_ b1]. apply Rabs_le_inv in Ha. apply Rabs_le_inv in Hb.
    set (x := fsum (f_products d1 [f1; f1])) in *. set (z := fsum (f_products d1 [f0; fopp f0])) in *. assert (Us : uu <= / 1000000) by (rewrite UN; lra).
    destruct (fsub_rnd x z Fa Fb) as [Fd [_ [e [He Ee]]]]; [apply Rle_trans with 4; [apply Rabs_le; lra|apply Rle_trans with (2 ^ 2); [simpl; lra|apply Rle_pow; [lra|lia]]]|].
    apply (fle_true _ _ Fd Fht) in T. rewrite Ee, Vht in T. apply Rabs_le_inv in He. assert (97 / 100 <= val x - val z) by lra. nra. }
  (* round 2 does *)
  assert (T2 : fle (fsub (f_edge_of ex_conf ys d2 tt) (f_edge_of_vote ex_conf ys d2 [f1] [tt])) ht = true).
  { unfold f_edge_of, f_edge_of_vote. rewrite M1, M2. destruct (ED d2 1 [f1; f1] Ld2 B2 eq_refl) as [Fa Ha]; [rewrite Rabs_R1; lra|apply below_two; cbn [nth]; (split; [exact F1|exact V1])|].
    set (x := fsum (f_products d2 [f1; f1])) in *. destruct (fsub_rnd x x Fa Fa) as [Fd [_ [e [He Ee]]]]; [unfold Rminus; rewrite Rplus_opp_r, Rabs_R0; apply pow_le; lra|].
    apply (fle_true _ _ Fd Fht). rewrite Ee, Vht. unfold Rminus. rewrite Rplus_opp_r, Rmult_0_l. lra. }
  assert (Cl : exists w, f_fw_classic 1 0 [f0] = Ok [w] /\ w = f1).
  { assert (C : match f_fw_classic 1 0 [f0] with Ok [w] => is_finite_strict w && feq w f1 | _ => false end = true) by (vm_compute; reflexivity).
    destruct (f_fw_classic 1 0 [f0]) as [[|w [|? ?]]|p]; try discriminate C. exists w. split; [reflexivity|]. apply andb_prop in C. destruct C as [Ca Cb]. apply strict_eq; [exact Ca|vm_compute; reflexivity|exact Cb]. }
  destruct Cl as [w [Cl ->]].
  exists d2, [f1]. split; [|discriminate].
  cbn [f_cerlp_run]. rewrite E1. rewrite T1. cbn [f_position length app Nat.eqb]. rewrite Cl. rewrite E2, T2. reflexivity.
Qed.

(** ** C107: the hypotheses are met by a run that stops on its test in the second round *)
Example C107_fit_nonvacuous :
  exists fexp fln (tol : f64) (ys : list f64), accurate_exp fexp /\ accurate_ln fln /\ precise_ln fln /\ signed_labels ys /\ bounded_confidences ex_conf /\ finite_num tol /\ 0 < val tol <= 1 /\ length ys = 2%nat /\
  INR (length ys) * (2 * ln (INR (length ys)) / val tol + 66) <= 2 ^ 30 /\ ln (INR (length ys)) ^ 2 / val tol ^ 3 <= 2 ^ 19 /\
  (exists g, val tol + / 2 ^ 14 <= g /\ forall d, near_distribution (length ys) d -> g <= true_edge ex_conf ys d tt) /\
  exists dist ws, f_cerlp_fit ex_conf (fun _ _ => true) (fun _ _ => tt) fexp fln 1000 tol f1 ys = FStopped 2 dist tt ws [tt] /\ ws <> [].
Proof. exact ex_C107_fit. Qed.
