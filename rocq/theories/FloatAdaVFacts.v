(** Property C100: AdaBoostV in binary64. *)
From Coq Require Import ZArith List Bool Reals Lia Lra Psatz Permutation Sorting.
From Flocq Require Import Core.Core IEEE754.BinarySingleNaN.
From Verif Require AdaBoostProofs AdaBoostVProofs.
From Verif Require Import Base SortLib Float FloatSpec FloatProofs FloatFacts FloatCheckFacts FloatVoteFacts FloatProject FloatProjectProofs FloatEdge FloatEdgeSpec FloatEdgeFacts FloatMedian FloatMedianFacts FloatAda FloatAdaSpec FloatAdaProofs FloatAdaStep FloatAdaRun FloatAdaFacts FloatBoostSpec FloatBoostFacts FloatBestProofs FloatAdaV FloatAdaVSpec FloatAdaVProofs.
Import ListNotations.
Open Scope R_scope.
Local Notation aw := AdaBoostProofs.ada_weight.

Section Run.
  Variables (fexp fln : f64 -> f64).
  Hypothesis Hexp : precise_exp fexp.
  Hypothesis Hln : precise_ln fln.
  Variables (y : list f64).
  Local Notation n := (length y).
  Hypothesis Ly : forall x, In x y -> f_label x.
  Hypothesis N1 : (1 <= n)%nat.
  Hypothesis Hn : INR n <= 2 ^ 16.
  Variable tol : f64.
  Variables (g G : R).
  Hypothesis Ft : fin tol.
  Hypothesis T0 : / 2 ^ 20 <= val tol.
  Hypothesis G0 : val tol <= g <= 1.
  Hypothesis G1 : G <= 1 - / 2 ^ 10.
  Local Notation wt e gam := (f_adav_weight fln e (f_adav_rho (f_min2 e gam) tol)).

  Lemma round_facts (gam e : f64) : fin gam -> g <= val gam <= 1 -> fin e -> g <= val e <= G ->
    fin (f_min2 e gam) /\ g <= val (f_min2 e gam) <= 1 /\
    exists r, (0 <= r <= val e /\ g - val tol - uu <= r /\ val tol - uu <= val e - r) /\
    fin (wt e gam) /\ Rabs (val (wt e gam) - (aw (val e) - aw r)) <= / 2 ^ 44 /\ 0 < val (wt e gam) <= 5 /\ exp (2 * val (wt e gam)) <= (1 + val e) / (1 - val e) * (1 + / 2 ^ 40).
  Proof.
    intros Fg Hg Fe He. assert (C20 : 0 < / 2 ^ 20) by (apply Rinv_0_lt_compat, pow_lt; lra). assert (C10 : 0 < / 2 ^ 10) by (apply Rinv_0_lt_compat, pow_lt; lra).
    destruct (min2_spec e gam Fe Fg) as [Fm Vm]. assert (Bm : g <= val (f_min2 e gam) <= val e /\ val (f_min2 e gam) <= 1) by (rewrite Vm; unfold Rmin; destruct (Rle_dec (val e) (val gam)); lra).
    split; [exact Fm|]. split; [lra|]. destruct (rho_spec (f_min2 e gam) tol Fm Ft ltac:(lra) ltac:(lra)) as [Fr [Br Er]]. exists (val (f_adav_rho (f_min2 e gam) tol)).
    set (r := f_adav_rho (f_min2 e gam) tol) in *. set (m := f_min2 e gam) in *. clearbody r m. apply Rabs_le_inv in Er. assert (Br' : 0 <= val r <= val e) by lra.
    destruct (vweight_ok fln Hln e r Fe Fr Br' ltac:(lra)) as [Fw [Ew Bw]]. split; [split; [exact Br'|split; lra]|]. split; [exact Fw|]. split; [exact Ew|].
    pose proof (aw_gap (val e) (val r) Br' ltac:(lra)) as AG. pose proof (aw_range (val r) ltac:(lra)) as AR. apply Rabs_le_inv in Ew. apply Rabs_le_inv in Bw. assert (C44 : 0 < / 2 ^ 44) by (apply Rinv_0_lt_compat, pow_lt; lra).
    assert (C : / 2 ^ 44 + uu < / 2 ^ 20 / 2) by (unfold uu; simpl; lra). set (a := val (f_adav_weight fln e r)) in *. clearbody a. split; [split; lra|].
    assert (L : 2 * a <= ln ((1 + val e) / (1 - val e)) + 2 * / 2 ^ 44). { assert (aw (val e) = ln ((1 + val e) / (1 - val e)) / 2) by reflexivity. lra. }
    eapply Rle_trans; [apply exp_le_exp, L|]. rewrite exp_plus, exp_ln by (apply Rdiv_lt_0_compat; lra). apply Rmult_le_compat_l; [left; apply Rdiv_lt_0_compat; lra|].
    assert (C2 : 2 * / 2 ^ 44 <= / 4) by (simpl; lra). pose proof (exp_bounds (2 * / 2 ^ 44)) as EB. rewrite Rabs_pos_eq in EB by lra. specialize (EB ltac:(lra)). assert (4 * / 2 ^ 44 <= / 2 ^ 40) by (simpl; lra). lra.
  Qed.

  Lemma vrun_inv edges hist gam d : f_adav_run fexp fln (edge_within g G) tol y edges hist gam d -> inv y d /\ fin gam /\ g <= val gam <= 1.
  Proof.
    intros H. induction H as [|edges hist gam d conf e ix d' _ [Iv [Fg Bg]] Lc Ed _ [Bc Be] [P _] E].
    - destruct f1_spec as [F1 V1]. split; [apply (inv_start y N1 Hn)|]. split; [exact F1|]. rewrite V1. lra.
    - destruct (edge_ok y Ly N1 Hn d conf e Iv Lc Bc Ed) as [Fe _]. assert (C20 : 0 < / 2 ^ 20) by (apply Rinv_0_lt_compat, pow_lt; lra). destruct (round_facts gam e Fg Bg Fe Be) as [Fm [Bm [r [_ [Fw [_ [Bw Ex]]]]]]]. set (w := wt e gam) in *.
      assert (LL : length (f_ada_logs fln w (f_margins y conf) d) = n). { unfold f_ada_logs. rewrite map_length, combine_length, (margins_len y N1 conf Lc). destruct Iv as [Ld _]. unfold f64 in *. lia. }
      rewrite LL in P. destruct (vinv_round fexp fln Hexp Hln y Ly N1 Hn d conf e w Iv Lc Bc Ed Fw ltac:(lra) ix ltac:(lra) ltac:(lra) Ex P) as [d'' [E' I]]. rewrite E in E'. injection E' as <-. split; [exact I|]. split; assumption.
  Qed.

  Lemma vhist_facts edges hist gam d : f_adav_run fexp fln (edge_within g G) tol y edges hist gam d -> length edges = length hist /\
    forall h, In h hist -> fin (fst h) /\ 0 < val (fst h) <= 5 /\ length (snd h) = n /\ bounded_conf (snd h).
  Proof.
    intros H. induction H as [|edges hist gam d conf e ix d' Hr [IL IH] Lc Ed _ [Bc Be] _ E]; [split; [reflexivity|intros h []]|]. split; [rewrite !app_length, IL; reflexivity|].
    intros h Hh. apply in_app_iff in Hh. destruct Hh as [Hh|[<- |[]]]; [apply IH, Hh|]. cbn [fst snd]. destruct (vrun_inv _ _ _ _ Hr) as [Iv [Fg Bg]].
    destruct (edge_ok y Ly N1 Hn d conf e Iv Lc Bc Ed) as [Fe _]. destruct (round_facts gam e Fg Bg Fe Be) as [_ [_ [r [_ [Fw [_ [Bw _]]]]]]]. split; [exact Fw|]. split; [exact Bw|]. split; assumption.
  Qed.
  Lemma wsum_snoc hist w conf : weight_sum (hist ++ [(w, conf)]) = weight_sum hist + val w.
  Proof. unfold weight_sum. rewrite map_app, rsum_app. cbn [map rsum fst snd]. rewrite Rplus_0_r. reflexivity. Qed.
  Lemma margin_small hist i : (forall h, In h hist -> fin (fst h) /\ 0 < val (fst h) <= 5 /\ length (snd h) = n /\ bounded_conf (snd h)) -> (i < n)%nat -> Rabs (exact_margin y hist i) <= weight_sum hist.
  Proof.
    intros H Hi. unfold exact_margin, weight_sum. induction hist as [|h hist IH]; [cbn; rewrite Rabs_R0; lra|]. cbn [map rsum]. eapply Rle_trans; [apply Rabs_triang|]. apply Rplus_le_compat; [|apply IH; intros k Hk; apply H; right; exact Hk].
    destruct (H h (or_introl eq_refl)) as [_ [P [Lc Bc]]]. destruct (margin_nth y Ly N1 (snd h) i Lc Bc Hi) as [_ [V B]]. rewrite V in B. eapply Rle_trans; [right; apply Rabs_mult|]. eapply Rle_trans; [apply Rmult_le_compat; [apply Rabs_pos|apply Rabs_pos|right; apply Rabs_pos_eq; left; apply P|exact B]|]. right. apply Rmult_1_r.
  Qed.

  Lemma vpotential edges hist gam d : f_adav_run fexp fln (edge_within g G) tol y edges hist gam d -> weight_sum hist <= 256 -> INR (length hist) <= 2 ^ 30 ->
    exists c, c <= ln (INR n) - (g - val tol) * weight_sum hist - INR (length hist) * (val tol * val tol / 2 - round_loss G) /\
    forall i, (i < n)%nat -> Rabs (ln (val (nth i d f0)) + exact_margin y hist i + c) <= INR (length hist + 1) * / 2 ^ 39.
  Proof.
    intros H. induction H as [|edges hist gam d conf e ix d' Hr IH Lc Ed Pf [Bc Be] [P Srt] E]; intros Sp Tn.
    - destruct (uni_facts y N1 Hn) as [Fu [Bu [k [Hk Ek]]]]. exists (- ln (/ INR n)). assert (In0 : 0 < INR n) by (apply lt_0_INR; lia). split; [rewrite ln_Rinv by exact In0; unfold weight_sum; cbn [length map rsum]; change (INR 0) with 0; lra|]. intros i Hi. unfold f_uniform. rewrite nth_repeat_lt by exact Hi. unfold exact_margin. cbn [map rsum length]. rewrite Ek.
      assert (K2 : Rabs k <= / 2) by (eapply Rle_trans; [exact Hk|simpl; lra]). pose proof (ln_near k K2) as LN. apply Rabs_le_inv in K2.
      assert (I0 : 0 < / INR n) by (apply Rinv_0_lt_compat; exact In0). rewrite ln_mult by (try assumption; lra). replace (ln (/ INR n) + ln (1 + k) + 0 + - ln (/ INR n)) with (ln (1 + k)) by ring. eapply Rle_trans; [exact LN|]. change (0 + 1)%nat with 1%nat. change (INR 1) with 1. apply Rle_trans with (2 * / 2 ^ 50); [lra|simpl; lra].
    - destruct (vrun_inv _ _ _ _ Hr) as [Iv [Fg Bg]]. destruct (vhist_facts _ _ _ _ Hr) as [_ HF]. destruct (edge_ok y Ly N1 Hn d conf e Iv Lc Bc Ed) as [Fe _]. destruct (round_facts gam e Fg Bg Fe Be) as [_ [_ [r [[Br [Br1 Br2]] [Fw [Ew [Bw _]]]]]]]. set (w := wt e gam) in *.
      rewrite app_length in *. cbn [length] in *. rewrite wsum_snoc in *. rewrite plus_INR in Tn. change (INR 1) with 1 in Tn. destruct IH as [c [Hc IH]]; [lra|lra|].
      assert (LL : length (f_ada_logs fln w (f_margins y conf) d) = n). { unfold f_ada_logs. rewrite map_length, combine_length, (margins_len y N1 conf Lc). destruct Iv as [Ld _]. unfold f64 in *. lia. }
      rewrite LL in P.
      destruct (vclose_round fexp fln Hexp Hln y Ly N1 Hn d conf w Iv Lc Bc Fw ltac:(lra) ix d' (exact_margin y hist) c (INR (length hist + 1) * / 2 ^ 39) P E) as [N [AN HC]]; [| |exact IH|].
      + intros i Hi. eapply Rle_trans; [apply (margin_small hist i HF Hi)|lra].
      + rewrite plus_INR. change (INR 1) with 1. apply Rle_trans with ((2 ^ 30 + 1) * / 2 ^ 39); [apply Rmult_le_compat_r; [left; apply Rinv_0_lt_compat, pow_lt; lra|lra]|simpl; lra].
      + exists (c + N). split.
        * pose proof (vnorm y Ly N1 Hn d conf e w Iv Lc Bc Ed N r G AN Br (proj2 Be) G1 Ew) as HN. rewrite plus_INR. change (INR 1) with 1.
          assert (HN' : N <= - (g - val tol) * val w - (val tol * val tol / 2 - round_loss G)); [|lra].
          eapply Rle_trans; [exact HN|]. clear - Br Br1 Br2 Bw G1 T0 Be G0. assert (C10 : 0 < / 2 ^ 10) by (apply Rinv_0_lt_compat, pow_lt; lra). assert (C20 : 0 < / 2 ^ 20) by (apply Rinv_0_lt_compat, pow_lt; lra). pose proof uu_pos as U0. set (a := val w) in *. set (t := val tol) in *. set (x := val e) in *. clearbody a t x.
          assert (S1 : - r * a <= - (g - t) * a + 5 * uu) by nra.
          assert (Cu : uu <= / 2 ^ 20 / 100) by (unfold uu; simpl; lra).
          assert (S2 : t * t / 2 - uu <= (x - r) ^ 2 / 2). { assert (Q : (t - uu) * (t - uu) <= (x - r) * (x - r)) by (apply Rmult_le_compat; lra). replace ((x - r) ^ 2) with ((x - r) * (x - r)) by ring. nra. }
          assert (GP : 0 < 1 - G) by lra. assert (I1 : 1 <= / (1 - G)) by (rewrite <- Rinv_1; apply Rinv_le_contravar; lra). unfold round_loss, Rdiv. set (q := / (1 - G)) in *. clearbody q.
          assert (CC : 6 * uu + / 2 ^ 40 + / 2 ^ 22 + (/ 2 ^ 21 + / 2 ^ 34) <= / 2 ^ 20) by (unfold uu; simpl; lra).
          assert (C4 : 0 < / 2 ^ 40 + / 2 ^ 22) by (assert (0 < / 2 ^ 40) by (apply Rinv_0_lt_compat, pow_lt; lra); assert (0 < / 2 ^ 22) by (apply Rinv_0_lt_compat, pow_lt; lra); lra).
          set (A := / 2 ^ 21 + / 2 ^ 34) in *. set (B := / 2 ^ 40 + / 2 ^ 22) in *. assert (Q : 6 * uu + B <= (6 * uu + B) * q) by nra. assert (Q2 : (6 * uu + B + A) * q <= / 2 ^ 20 * q) by (apply Rmult_le_compat_r; [lra|unfold B; lra]). unfold B in *. lra.
        * intros i Hi. rewrite exact_margin_snoc. eapply Rle_trans; [apply HC, Hi|]. rewrite !plus_INR. change (INR 1) with 1. right. ring.
  Qed.
  Lemma vmargins edges hist gam d : f_adav_run fexp fln (edge_within g G) tol y edges hist gam d -> weight_sum hist <= 256 -> INR (length hist) <= 2 ^ 30 -> forall i, (i < n)%nat ->
    (g - val tol) * weight_sum hist + INR (length hist) * (val tol * val tol / 2 - round_loss G) - ln (INR n) - INR (length hist + 1) / 2 ^ 39 <= exact_margin y hist i.
  Proof.
    intros H Sp Tn i Hi. destruct (vpotential edges hist gam d H Sp Tn) as [c [Hc HC]]. specialize (HC i Hi). destruct (vrun_inv _ _ _ _ H) as [[Ld [Fd _]] _]. destruct (Fd (nth i d f0)) as [_ [D1 D2]]; [apply nth_In; rewrite Ld; exact Hi|].
    assert (D0 : 0 < val (nth i d f0)) by (eapply Rlt_le_trans; [|exact D1]; apply Rinv_0_lt_compat, pow_lt; lra). assert (L : ln (val (nth i d f0)) <= 0) by (rewrite <- ln_1; apply ln_le; lra). apply Rabs_le_inv in HC. unfold Rdiv in *. lra.
  Qed.
  Definition lowest_of (m : R) (l : list f64) : Prop := (exists x, In x l /\ val x = m) /\ forall x, In x l -> m <= val x.
  Lemma vestimates edges hist gam d : f_adav_run fexp fln (edge_within g G) tol y edges hist gam d -> (edges = [] /\ val gam = 1 \/ lowest_of (val gam) edges) /\
    forall k, (k < length edges)%nat -> exists m rho, lowest_of m (firstn (S k) edges) /\ Rabs (rho - (m - val tol)) <= uu /\
      Rabs (val (fst (nth k hist (f0, []))) - (aw (val (nth k edges f0)) - aw rho)) <= / 2 ^ 44.
  Proof.
    intros H. induction H as [|edges hist gam d conf e ix d' Hr [IG IH] Lc Ed _ [Bc Be] _ E]; [split; [left; split; [reflexivity|apply f1_spec]|intros k Hk; simpl in Hk; lia]|].
    destruct (vrun_inv _ _ _ _ Hr) as [Iv [Fg Bg]]. destruct (vhist_facts _ _ _ _ Hr) as [IL _]. destruct (edge_ok y Ly N1 Hn d conf e Iv Lc Bc Ed) as [Fe _].
    assert (C10 : 0 < / 2 ^ 10) by (apply Rinv_0_lt_compat, pow_lt; lra). assert (C20 : 0 < / 2 ^ 20) by (apply Rinv_0_lt_compat, pow_lt; lra).
    destruct (min2_spec e gam Fe Fg) as [Fm Vm].
    assert (Lo : lowest_of (val (f_min2 e gam)) (edges ++ [e])).
    { rewrite Vm. split.
      - destruct IG as [[-> V]|[[x [X1 X2]] _]].
        + exists e. split; [left; reflexivity|]. rewrite V, Rmin_left; [reflexivity|lra].
        + unfold Rmin. destruct (Rle_dec (val e) (val gam)); [exists e; split; [apply in_app_iff; right; left; reflexivity|reflexivity]|exists x; split; [apply in_app_iff; left; exact X1|exact X2]].
      - intros x Hx. apply in_app_iff in Hx. destruct Hx as [Hx|[<- |[]]]; [|apply Rmin_l]. destruct IG as [[-> V]|[_ L]]; [destruct Hx|]. eapply Rle_trans; [apply Rmin_r|apply L, Hx]. }
    split; [right; exact Lo|]. intros k Hk. rewrite app_length in Hk. simpl in Hk. destruct (Nat.eq_dec k (length edges)) as [->|Nk].
    - exists (val (f_min2 e gam)), (val (f_adav_rho (f_min2 e gam) tol)). rewrite firstn_all2 by (rewrite app_length; simpl; lia). split; [exact Lo|].
      assert (Bm : g <= val (f_min2 e gam) <= val e /\ val (f_min2 e gam) <= 1) by (rewrite Vm; unfold Rmin; destruct (Rle_dec (val e) (val gam)); lra).
      destruct (rho_spec (f_min2 e gam) tol Fm Ft ltac:(lra) ltac:(lra)) as [Fr [Br Er]]. split; [exact Er|].
      rewrite (app_nth2 edges) by lia. rewrite (app_nth2 hist) by (rewrite <- IL; apply Nat.le_refl). rewrite IL, !Nat.sub_diag. cbn [nth fst].
      destruct (vweight_ok fln Hln e (f_adav_rho (f_min2 e gam) tol) Fe Fr) as [_ [Ew _]]; [lra|lra|]. exact Ew.
    - destruct (IH k ltac:(lia)) as [m [rho [I1 [I2 I3]]]]. exists m, rho. rewrite firstn_app, (proj2 (Nat.sub_0_le (S k) (length edges))) by lia. cbn [firstn]. rewrite app_nil_r. split; [exact I1|]. split; [exact I2|].
      rewrite (app_nth1 edges) by lia. rewrite (app_nth1 hist) by (rewrite <- IL; lia). exact I3.
  Qed.
End Run.

(** ** C100: while every edge is at least the tolerance (at least 2^-20) and at most 1 - 2^-10, in every run of any length every weight of a training example is positive and at most 1 and they add up to 1 within 2^-21, every hypothesis gets a positive weight *)
Lemma P_C100_weights_stay_positive :
  forall fexp fln y tol edges hist gamma dist, precise_exp fexp -> precise_ln fln -> (forall x, In x y -> f_label x) -> (1 <= length y)%nat -> INR (length y) <= 2 ^ 16 ->
  finite_num tol -> / 2 ^ 20 <= val tol <= 1 -> f_adav_run fexp fln (edge_within (val tol) (1 - / 2 ^ 10)) tol y edges hist gamma dist ->
  length dist = length y /\ (forall d, In d dist -> finite_num d /\ 0 < val d <= 1) /\ Rabs (total dist - 1) <= / 2 ^ 21 /\
  length hist = length edges /\ forall h, In h hist -> finite_num (fst h) /\ 0 < val (fst h) <= 5.
Proof.
  intros fexp fln y tol edges hist gam d He Hl Ly N1 Hn Ft [T0 T1] H. assert (G0 : val tol <= val tol <= 1) by lra. assert (G1 : 1 - / 2 ^ 10 <= 1 - / 2 ^ 10) by lra.
  destruct (vrun_inv fexp fln He Hl y Ly N1 Hn tol (val tol) (1 - / 2 ^ 10) Ft T0 G0 G1 edges hist gam d H) as [[I1 [I2 I3]] _]. destruct (vhist_facts fexp fln He Hl y Ly N1 Hn tol (val tol) (1 - / 2 ^ 10) Ft T0 G0 G1 edges hist gam d H) as [L HF].
  split; [exact I1|]. split; [|split; [exact I3|split; [symmetry; exact L|intros h Hh; destruct (HF h Hh) as [A [B _]]; split; assumption]]].
  intros c Hc. destruct (I2 c Hc) as [F [B1 B2]]. split; [exact F|]. assert (0 < / 2 ^ 1074) by (apply Rinv_0_lt_compat, pow_lt; lra). lra.
Qed.

(** ** C100: no such round panics, in whatever order the edge is summed and the logarithms are sorted *)
Lemma P_C100_no_round_panics :
  forall fexp fln y tol edges hist gamma dist conf edge, precise_exp fexp -> precise_ln fln -> (forall x, In x y -> f_label x) -> (1 <= length y)%nat -> INR (length y) <= 2 ^ 16 ->
  finite_num tol -> / 2 ^ 20 <= val tol <= 1 -> f_adav_run fexp fln (edge_within (val tol) (1 - / 2 ^ 10)) tol y edges hist gamma dist ->
  length conf = length y -> f_edge y conf dist edge -> edge_within (val tol) (1 - / 2 ^ 10) conf edge ->
  f_perfect edge = false /\ let w := f_adav_weight fln edge (f_adav_rho (f_min2 edge gamma) tol) in
  (exists ix, f_ascending (f_ada_logs fln w (f_margins y conf) dist) ix) /\
  forall ix, f_ascending (f_ada_logs fln w (f_margins y conf) dist) ix -> exists dist', f_ada_update fexp fln ix w (f_margins y conf) dist = Ok dist'.
Proof.
  intros fexp fln y tol edges hist gam d conf e He Hl Ly N1 Hn Ft [T0 T1] H Lc Ed [Bc Be]. assert (G0 : val tol <= val tol <= 1) by lra. assert (G1 : 1 - / 2 ^ 10 <= 1 - / 2 ^ 10) by lra. assert (C20 : 0 < / 2 ^ 20) by (apply Rinv_0_lt_compat, pow_lt; lra). assert (C10 : 0 < / 2 ^ 10) by (apply Rinv_0_lt_compat, pow_lt; lra).
  destruct (vrun_inv fexp fln He Hl y Ly N1 Hn tol (val tol) (1 - / 2 ^ 10) Ft T0 G0 G1 edges hist gam d H) as [Iv [Fg Bg]]. destruct (edge_ok y Ly N1 Hn d conf e Iv Lc Bc Ed) as [Fe _].
  split. { apply Bool.not_true_iff_false. intros Q. destruct (fabs_spec e Fe) as [Fa Va]. destruct f1_spec as [F1 V1]. apply fle_true in Q; [|exact F1|exact Fa]. rewrite V1, Va, Rabs_pos_eq in Q by lra. lra. }
  cbv zeta. destruct (round_facts fln Hl tol (val tol) (1 - / 2 ^ 10) Ft T0 G0 G1 gam e Fg Bg Fe Be) as [_ [_ [r [_ [Fw [_ [Bw Ex]]]]]]]. set (w := f_adav_weight fln e (f_adav_rho (f_min2 e gam) tol)) in *.
  assert (LL : length (f_ada_logs fln w (f_margins y conf) d) = length y). { unfold f_ada_logs. rewrite map_length, combine_length, (margins_len y N1 conf Lc). destruct Iv as [Ld _]. unfold f64 in *. lia. }
  split.
  - set (logs := f_ada_logs fln w (f_margins y conf) d) in *.
    assert (FL : forall i, (i < length y)%nat -> fin (nth i logs f0)).
    { intros i Hi. assert (Ld : length d = length y) by apply Iv.
      apply (logs_ok fln Hl w (f_margins y conf) d); [rewrite (margins_len y N1 conf Lc); symmetry; exact Ld|exact Fw|rewrite Rabs_pos_eq; lra| |apply Iv|rewrite Ld; exact Hi].
      intros c Hc. apply In_nth with (d := f0) in Hc. destruct Hc as [j [Hj <-]]. rewrite (margins_len y N1 conf Lc) in Hj. destruct (margin_nth y Ly N1 conf j Lc Bc Hj) as [F [_ B]]. split; assumption. }
    exists (isort (fun i j => fle (nth i logs f0) (nth j logs f0)) (seq 0 (length logs))). split; [apply Permutation_sym, isort_perm|].
    assert (FA : forall i, fin (nth i logs f0)) by (intros i; destruct (Nat.lt_ge_cases i (length y)) as [Hi|Hi]; [apply FL, Hi|rewrite nth_overflow by (rewrite LL; exact Hi); apply fin_f0]).
    apply isort_sorted.
    + intros i j. destruct (Rle_or_lt (val (nth i logs f0)) (val (nth j logs f0))) as [Q|Q]; [left|right]; (apply fle_true; [apply FA|apply FA|]); lra.
    + intros i j k. intros Q1 Q2. apply fle_true in Q1; [|apply FA|apply FA]. apply fle_true in Q2; [|apply FA|apply FA]. apply fle_true; [apply FA|apply FA|]. lra.
  - intros ix [P _]. rewrite LL in P. destruct (vinv_round fexp fln He Hl y Ly N1 Hn d conf e w Iv Lc Bc Ed Fw ltac:(lra) ix ltac:(lra) ltac:(lra) Ex P) as [d' [E _]]. exists d'. exact E.
Qed.

(** ** C100: the margins: with every edge between g >= tol and G, after T rounds the margin of every training row is at least (g - tol) times the sum of the weights, plus T (tol^2/2 - 2^-20/(1 - G)) - ln n - (T+1) 2^-39 *)
Lemma P_C100_margins :
  forall fexp fln y tol g G edges hist gamma dist, precise_exp fexp -> precise_ln fln -> (forall x, In x y -> f_label x) -> (1 <= length y)%nat -> INR (length y) <= 2 ^ 16 ->
  finite_num tol -> / 2 ^ 20 <= val tol -> val tol <= g <= 1 -> G <= 1 - / 2 ^ 10 -> f_adav_run fexp fln (edge_within g G) tol y edges hist gamma dist -> weight_sum hist <= 256 -> INR (length hist) <= 2 ^ 30 ->
  forall i, (i < length y)%nat ->
  (g - val tol) * weight_sum hist + INR (length hist) * (val tol * val tol / 2 - round_loss G) - ln (INR (length y)) - INR (length hist + 1) / 2 ^ 39 <= exact_margin y hist i.
Proof. intros fexp fln y tol g G edges hist gam d He Hl Ly N1 Hn Ft T0 G0 G1 H Sp Tn. exact (vmargins fexp fln He Hl y Ly N1 Hn tol g G Ft T0 G0 G1 edges hist gam d H Sp Tn). Qed.

(** ** C100: hence, once T (tol^2/2 - 2^-20/(1 - G)) is at least ln n + (T+1) 2^-39, the returned vote, evaluated in binary64, has margin at least g - tol - (T+1) 2^-50 on every training row, and predicts every training label if g - tol exceeds (T+1) 2^-49 *)
Lemma P_C100_vote :
  forall fexp fln y tol g G edges hist gamma dist, precise_exp fexp -> precise_ln fln -> (forall x, In x y -> f_label x) -> (1 <= length y)%nat -> INR (length y) <= 2 ^ 16 ->
  finite_num tol -> / 2 ^ 20 <= val tol -> val tol <= g <= 1 -> G <= 1 - / 2 ^ 10 -> f_adav_run fexp fln (edge_within g G) tol y edges hist gamma dist -> weight_sum hist <= 256 -> INR (length hist) <= 2 ^ 30 -> hist <> [] ->
  ln (INR (length y)) + INR (length hist + 1) / 2 ^ 39 <= INR (length hist) * (val tol * val tol / 2 - round_loss G) ->
  exists v, f_from_slices (map fst hist) (map snd hist) = Ok v /\ snd v = map snd hist /\ forall i, (i < length y)%nat ->
    finite_num (f_confidence (fun h => nth i h f0) v) /\ g - val tol - INR (length hist + 1) / 2 ^ 50 <= val (nth i y f0) * val (f_confidence (fun h => nth i h f0) v) /\
    (INR (length hist + 1) / 2 ^ 49 < g - val tol -> IZR (f_predict (fun h => nth i h f0) v) = val (nth i y f0)).
Proof.
  intros fexp fln y tol g G edges hist gam d He Hl Ly N1 Hn Ft T0 G0 G1 H Sp Tn Ne HT. destruct (vhist_facts fexp fln He Hl y Ly N1 Hn tol g G Ft T0 G0 G1 edges hist gam d H) as [_ HF]. pose proof (vmargins fexp fln He Hl y Ly N1 Hn tol g G Ft T0 G0 G1 edges hist gam d H Sp Tn) as MG. set (T := length hist) in *.
  assert (PM : positive_members (map fst hist) (map snd hist) = hist). { unfold positive_members. rewrite combine_fst_snd. apply filter_all. intros h Hh. destruct (HF h Hh) as [_ [[P _] _]]. match goal with |- (if Rlt_dec ?a ?b then _ else _) = _ => destruct (Rlt_dec a b) as [?|X]; [reflexivity|exfalso; exact (X P)] end. }
  assert (FA : finite_all (map fst hist)) by (intros w Hw; apply in_map_iff in Hw; destruct Hw as [h [<- Hh]]; apply HF, Hh).
  set (W := weight_sum hist) in *.
  assert (WP : 0 < W). { unfold W, weight_sum. destruct hist as [|h hs]; [congruence|]. cbn [map rsum]. apply Rplus_lt_le_0_compat; [apply (HF h (or_introl eq_refl))|apply rsum_nonneg; intros z Hz; apply in_map_iff in Hz; destruct Hz as [q [<- Hq]]; left; apply (HF q (or_intror Hq))]. }
  assert (T40' : INR T <= 2 ^ 40) by (eapply Rle_trans; [exact Tn|apply Rle_pow; [lra|lia]]).
  assert (WB : W < 2 ^ 1022) by (eapply Rle_lt_trans; [exact Sp|]; apply Rlt_le_trans with (2 ^ 10); [simpl; lra|apply Rle_pow; [lra|lia]]).
  assert (CB : forall i, (i < length y)%nat -> forall h, In h (map snd hist) -> finite_num (nth i h f0) /\ Rabs (val (nth i h f0)) <= 1). { intros i Hi h Hh. apply in_map_iff in Hh. destruct Hh as [q [<- Hq]]. destruct (HF q Hq) as [_ [_ [Lq Bq]]]. apply Bq, nth_In. rewrite Lq. exact Hi. }
  assert (CC : forall i, (i < length y)%nat -> exists v, f_from_slices (map fst hist) (map snd hist) = Ok v /\ snd v = map snd hist /\ finite_num (f_confidence (fun h => nth i h f0) v) /\ Rabs (val (f_confidence (fun h => nth i h f0) v) - exact_vote (fun h => nth i h f0) hist) <= (INR T + 1) / 2 ^ 50).
  { intros i Hi. pose proof (P_C79_confidence_close _ (fun h => nth i h f0) (map fst hist) (map snd hist) FA (CB i Hi)) as Q. cbv zeta in Q. rewrite PM in Q. exact (Q Ne T40' WB). }
  assert (EV : forall i, (i < length y)%nat -> g - val tol <= val (nth i y f0) * exact_vote (fun h => nth i h f0) hist).
  { intros i Hi. specialize (MG i Hi). assert (EM : exact_margin y hist i = val (nth i y f0) * exact_vote (fun h => nth i h f0) hist * W).
    { unfold exact_vote. change (rsum (map (fun p => val (fst p)) hist)) with W. unfold exact_margin. rewrite (rsum_map_ext _ (fun h => val (nth i y f0) * (val (fst h) * val (nth i (snd h) f0)))) by (intros; ring). rewrite rsum_map_mult. field. lra. }
    rewrite EM in MG. apply Rmult_le_reg_r with W; [exact WP|]. lra. }
  destruct (CC 0%nat) as [v [Ev [Sv _]]]; [lia|]. exists v. split; [exact Ev|]. split; [exact Sv|]. intros i Hi. destruct (CC i Hi) as [v' [Ev' [_ [Fc Ac]]]]. rewrite Ev in Ev'. injection Ev' as <-. specialize (EV i Hi).
  split; [exact Fc|]. set (V := exact_vote (fun h => nth i h f0) hist) in *. rewrite !plus_INR. change (INR 1) with 1. assert (TP : 0 <= INR T) by apply pos_INR. destruct (Ly (nth i y f0)) as [_ Vy]; [apply nth_In, Hi|]. assert (Ac' := Ac). apply Rabs_le_inv in Ac'. split.
  - set (cf := val (f_confidence (fun h => nth i h f0) v)) in *. clearbody cf. destruct Vy as [Vy|Vy]; rewrite Vy in *; lra.
  - intros Q. assert (D : (INR T + 1) / 2 ^ 50 < (INR T + 1) / 2 ^ 49). { unfold Rdiv. apply Rmult_lt_compat_l; [lra|]. apply Rinv_lt_contravar; [apply Rmult_lt_0_compat; apply pow_lt; lra|apply Rlt_pow; [lra|lia]]. }
    assert (D0 : 0 < (INR T + 1) / 2 ^ 50) by (apply Rdiv_lt_0_compat; [lra|apply pow_lt; lra]).
    assert (AV : (INR T + 1) / 2 ^ 50 < Rabs V). { destruct Vy as [Vy|Vy]; rewrite Vy in EV; [rewrite Rabs_pos_eq by lra; lra|rewrite Rabs_left by lra; lra]. }
    pose proof (P_C79_prediction_exact _ (fun h => nth i h f0) (map fst hist) (map snd hist) FA (CB i Hi)) as R. cbv zeta in R. rewrite PM in R. destruct (R Ne T40' WB AV) as [v' [Ev' [R1 R2]]]. rewrite Ev in Ev'. injection Ev' as <-. fold V in R1, R2.
    destruct Vy as [Vy|Vy]; rewrite Vy in *; [rewrite R1 by lra|rewrite R2 by lra]; reflexivity.
Qed.

(** ** C100: the weight given to a hypothesis, up to 2^-44 *)
Lemma P_C100_weight_accurate :
  forall fln edge rho, precise_ln fln -> finite_num edge -> finite_num rho -> 0 <= val rho <= val edge -> val edge <= 1 - / 2 ^ 10 ->
  finite_num (f_adav_weight fln edge rho) /\ Rabs (val (f_adav_weight fln edge rho) - adav_exact (val edge) (val rho)) <= / 2 ^ 44.
Proof. intros fln e r Hl Fe Fr Hr He. destruct (vweight_ok fln Hl e r Fe Fr Hr He) as [F [A _]]. split; [exact F|exact A]. Qed.

(** ** C100: every weight follows from the round's edge and the smallest edge so far *)
Lemma P_C100_estimate :
  forall fexp fln y tol edges hist gamma dist, precise_exp fexp -> precise_ln fln -> (forall x, In x y -> f_label x) -> (1 <= length y)%nat -> INR (length y) <= 2 ^ 16 ->
  finite_num tol -> / 2 ^ 20 <= val tol <= 1 -> f_adav_run fexp fln (edge_within (val tol) (1 - / 2 ^ 10)) tol y edges hist gamma dist ->
  forall k, (k < length edges)%nat -> exists smallest rho,
    In smallest (firstn (S k) edges) /\ (forall e, In e (firstn (S k) edges) -> val smallest <= val e) /\ Rabs (rho - (val smallest - val tol)) <= / 2 ^ 53 /\
    Rabs (val (fst (nth k hist (f0, []))) - adav_exact (val (nth k edges f0)) rho) <= / 2 ^ 44.
Proof.
  intros fexp fln y tol edges hist gam d He Hl Ly N1 Hn Ft [T0 T1] H k Hk. assert (G0 : val tol <= val tol <= 1) by lra. assert (G1 : 1 - / 2 ^ 10 <= 1 - / 2 ^ 10) by lra.
  destruct (vestimates fexp fln He Hl y Ly N1 Hn tol (val tol) (1 - / 2 ^ 10) Ft T0 G0 G1 edges hist gam d H) as [_ Q]. destruct (Q k Hk) as [m [rho [[[x [X1 X2]] L] [Q2 Q3]]]].
  exists x, rho. rewrite X2. split; [exact X1|]. split; [exact L|]. split; [exact Q2|exact Q3].
Qed.

Lemma ex_C100 : let y := [f1; f_minus1] in let conf := [f_15_16; f_m15_16] in
  exists fexp fln edges hist gamma dist, precise_exp fexp /\ precise_ln fln /\ (forall x, In x y -> f_label x) /\ finite_num f_7_8 /\ val f_7_8 = 7 / 8 /\
  f_adav_run fexp fln (edge_within (29 / 32) (31 / 32)) f_7_8 y edges hist gamma dist /\ map snd hist = [conf; conf] /\ weight_sum hist <= 256 /\
  ln (INR (length y)) + INR (length hist + 1) / 2 ^ 39 <= INR (length hist) * (val f_7_8 * val f_7_8 / 2 - round_loss (31 / 32)) /\ INR (length hist + 1) / 2 ^ 49 < 29 / 32 - val f_7_8.
Proof.
  cbv zeta. destruct P_C92_platform as [fexp [fln [C1 [C2 C3]]]]. set (y := [f1; f_minus1]). set (conf := [f_15_16; f_m15_16]).
  destruct f1_spec as [F1 V1]. destruct minus1_spec as [Fm Vm].
  assert (B4 : bpow radix2 (-4) = / 16) by (change (-4)%Z with (- Z.of_nat 4)%Z; rewrite bpow_opp, two_pow; simpl; lra).
  assert (B3 : bpow radix2 (-3) = / 8) by (change (-3)%Z with (- Z.of_nat 3)%Z; rewrite bpow_opp, two_pow; simpl; lra).
  assert (Ha : fin f_15_16 /\ val f_15_16 = 15 / 16) by (destruct (normalize_exact 15 (-4)) as [F V]; [vm_compute; reflexivity|lia|]; split; [exact F|unfold f_15_16; rewrite V, B4; lra]).
  assert (Hb : fin f_m15_16 /\ val f_m15_16 = - (15 / 16)) by (destruct (normalize_exact (-15) (-4)) as [F V]; [vm_compute; reflexivity|lia|]; split; [exact F|unfold f_m15_16; rewrite V, B4; lra]).
  assert (Hc : fin f_7_8 /\ val f_7_8 = 7 / 8) by (destruct (normalize_exact 7 (-3)) as [F V]; [vm_compute; reflexivity|lia|]; split; [exact F|unfold f_7_8; rewrite V, B3; lra]).
  destruct Ha as [Fa Va]. destruct Hb as [Fb Vb]. destruct Hc as [Ft Vt].
  assert (Ly : forall x, In x y -> f_label x) by (intros x [<- |[<- |[]]]; split; auto).
  assert (Ny : (1 <= length y)%nat) by (cbn; lia). assert (Nn : INR (length y) <= 2 ^ 16) by (cbn; lra).
  assert (Bc : bounded_conf conf) by (intros c [<- |[<- |[]]]; (split; [assumption|]); [rewrite Va|rewrite Vb]; apply Rabs_le; lra).
  assert (T0 : / 2 ^ 20 <= val f_7_8 <= 1) by (rewrite Vt; simpl; lra). assert (C10 : / 2 ^ 10 = / 1024) by (simpl; lra).
  assert (ST : forall edges hist gam d, f_adav_run fexp fln (edge_within (29 / 32) (31 / 32)) f_7_8 y edges hist gam d ->
    exists e, f_edge y conf d e /\ 29 / 32 <= val e <= 31 / 32 /\ exists gam' d' w, f_adav_run fexp fln (edge_within (29 / 32) (31 / 32)) f_7_8 y (edges ++ [e]) (hist ++ [(w, conf)]) gam' d').
  { intros edges hist gam d H. assert (W : f_adav_run fexp fln (edge_within (val f_7_8) (1 - / 2 ^ 10)) f_7_8 y edges hist gam d).
    { clear - H Vt C10. induction H as [|? ? ? ? ? ? ? ? _ IH L E P [B O] A U]; [apply favr_start|]. eapply favr_round; [exact IH|exact L|exact E|exact P|split; [exact B|rewrite Vt; lra]|exact A|exact U]. }
    assert (Iv : inv y d) by (apply (vrun_inv fexp fln C1 C2 y Ly Ny Nn f_7_8 (val f_7_8) (1 - / 2 ^ 10) Ft) in W; [apply W|apply T0|lra|lra]).
    set (e := ftree_sum (FLeaf (f_products (f_margins y conf) d))). assert (Ed : f_edge y conf d e) by (eexists; split; [|reflexivity]; reflexivity).
    destruct (edge_ok y Ly Ny Nn d conf e Iv eq_refl Bc Ed) as [Fe Ee]. destruct Iv as [Ld [Fd Sd]].
    assert (M : forall j, (j < length y)%nat -> val (nth j (f_margins y conf) f0) = 15 / 16).
    { intros j Hj. destruct (margin_nth y Ly Ny conf j eq_refl Bc Hj) as [_ [V _]]. rewrite V. destruct j as [|[|j]]; cbn [nth y conf]; [rewrite V1, Va; lra|rewrite Vm, Vb; lra|cbn in Hj; lia]. }
    assert (TT : rsum (map (fun j => val (nth j d f0) * val (nth j (f_margins y conf) f0)) (seq 0 (length y))) = 15 / 16 * FloatSpec.total d).
    { rewrite (rsum_map_ext _ (fun j => 15 / 16 * val (nth j d f0))) by (intros j Hj; apply in_seq in Hj; rewrite M by lia; ring). rewrite rsum_map_mult. f_equal. unfold FloatSpec.total. rewrite <- Ld. transitivity (rsum (map val (map (fun j => nth j d f0) (seq 0 (length d))))); [rewrite map_map; reflexivity|rewrite (map_nth_seq f0 d); reflexivity]. }
    rewrite TT in Ee. apply Rabs_le_inv in Ee. apply Rabs_le_inv in Sd. assert (C34 : / 2 ^ 34 <= / 1000) by (simpl; lra). assert (C21 : / 2 ^ 21 <= / 1000) by (simpl; lra). set (t := FloatSpec.total d) in *.
    assert (Be : 29 / 32 <= val e <= 31 / 32) by (clearbody t e; lra). exists e. split; [exact Ed|]. split; [exact Be|].
    destruct (P_C100_no_round_panics fexp fln y f_7_8 edges hist gam d conf e C1 C2 Ly Ny Nn Ft T0 W eq_refl Ed) as [Pf HU]; [split; [exact Bc|rewrite Vt; lra]|]. cbv zeta in HU. destruct HU as [[ix Hix] HU]. destruct (HU ix Hix) as [d' E'].
    eexists _, d', _. eapply favr_round; [exact H|reflexivity|exact Ed|exact Pf|split; [exact Bc|exact Be]|exact Hix|exact E']. }
  destruct (ST [] [] f1 (f_uniform 2) (favr_start _ _ _ _ _)) as [e1 [_ [_ [g1 [d1 [w1 R1]]]]]]. destruct (ST _ _ _ _ R1) as [e2 [_ [_ [g2 [d2 [w2 R2]]]]]]. cbn [app] in R2.
  exists fexp, fln, [e1; e2], [(w1, conf); (w2, conf)], g2, d2. split; [exact C1|]. split; [exact C2|]. split; [exact Ly|]. split; [exact Ft|]. split; [exact Vt|]. split; [exact R2|]. split; [reflexivity|].
  destruct (vhist_facts fexp fln C1 C2 y Ly Ny Nn f_7_8 (29 / 32) (31 / 32) Ft (proj1 T0) ltac:(lra) ltac:(lra) _ _ _ _ R2) as [_ HF].
  split; [|split].
  - unfold weight_sum. cbn [map rsum fst]. destruct (HF (w1, conf)) as [_ [B1 _]]; [left; reflexivity|]. destruct (HF (w2, conf)) as [_ [B2 _]]; [right; left; reflexivity|]. cbn [fst] in B1, B2. lra.
  - cbn [length y]. change (2 + 1)%nat with 3%nat. unfold round_loss. rewrite Vt. replace (INR 2) with 2 by (simpl; lra). replace (INR 3) with 3 by (simpl; lra). pose proof FloatAdaProofs.ln2_upper. assert (C39 : / 2 ^ 39 <= / 1000) by (simpl; lra). assert (C20 : / 2 ^ 20 <= / 100000) by (simpl; lra). unfold Rdiv. lra.
  - cbn [length]. change (2 + 1)%nat with 3%nat. replace (INR 3) with 3 by (simpl; lra). rewrite Vt. assert (C49 : / 2 ^ 49 <= / 1000) by (simpl; lra). unfold Rdiv. lra.
Qed.

(** ** Example: two examples, two rounds with tolerance 7/8 and the hypothesis with confidences 15/16 and -15/16: all the theorems apply to this run *)
Example C100_nonvacuous : let y := [f1; f_minus1] in let conf := [f_15_16; f_m15_16] in
  exists fexp fln edges hist gamma dist, precise_exp fexp /\ precise_ln fln /\ (forall x, In x y -> f_label x) /\ finite_num f_7_8 /\ val f_7_8 = 7 / 8 /\
  f_adav_run fexp fln (edge_within (29 / 32) (31 / 32)) f_7_8 y edges hist gamma dist /\ map snd hist = [conf; conf] /\ weight_sum hist <= 256 /\
  ln (INR (length y)) + INR (length hist + 1) / 2 ^ 39 <= INR (length hist) * (val f_7_8 * val f_7_8 / 2 - round_loss (31 / 32)) /\ INR (length hist + 1) / 2 ^ 49 < 29 / 32 - val f_7_8.
Proof. exact ex_C100. Qed.
