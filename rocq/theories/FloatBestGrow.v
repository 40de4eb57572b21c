(** The tree grown with the edge criterion in binary64: splits nearly best, leaves nearly the mean. *)
From Coq Require Import ZArith List Bool Reals Lia Lra Psatz Permutation String.
From Flocq Require Import Core.Core IEEE754.BinarySingleNaN Relative Plus_error Mult_error.
From Verif Require Import Base Feature FeatureFacts Sample SampleSpec SampleFacts Bins BinsSpec BinsProofs BinsFacts DTree TreeSpec DTreeProofs DTreeSplit DTreeBest DTreeGrow TreeShape DTreeFacts Float FloatSpec FloatProofs FloatFacts FloatCheckFacts FloatEdgeFacts FloatTree FloatTreeSpec FloatTreeProofs FloatPackProofs FloatTwoingProofs FloatGrowProofs FloatGrowthProofs FloatBestSpec FloatBestProofs FloatBestFeature.
Import ListNotations.
Open Scope R_scope.

Section GrowE.
  Variables (sched : list f64 -> f64) (order : flw -> flw) (fln : f64 -> f64).
  Hypothesis Hs : summing sched.
  Hypothesis Ho : some_order order.
  Variables (s : sample) (dist : list f64) (bm : list (string * list bin)) (nb : nat).
  Hypothesis G : good s.
  Hypothesis NN : NoDup (map feat_name (s_features s)).
  Hypothesis Hf : s_features s <> [].
  Hypothesis Ht : length (s_target s) = s_n_sample s.
  Hypothesis Hd : length dist = s_n_sample s.
  Hypothesis Hv : forall f i, In f (s_features s) -> (i < s_n_sample s)%nat -> F64MIN <= fval f i < F64MAX.
  Hypothesis Hb : forall f, In f (s_features s) -> exists bins, sm_get bm (feat_name f) = Ok bins /\ chain F64MIN F64MAX bins /\ (length bins <= nb)%nat.
  Hypothesis HK : INR (2 * s_n_sample s + nb) <= 2 ^ 32.
  Hypothesis Hpm : pm_labels s.
  Local Notation d := (fun i => nth i dist f0).
  Local Notation dr := (weight64 dist).
  Local Notation tol := (128 * INR (2 * s_n_sample s + nb) * uu).

  Definition usable (idx : list nat) : Prop :=
    idx <> [] /\ (length idx <= s_n_sample s)%nat /\ (forall i, In i idx -> (i < s_n_sample s)%nat /\ fin (d i) /\ 0 < val (d i)) /\ rtotal dr idx < 2 ^ 1000.

  Lemma usable_filter p idx : usable idx -> filter p idx <> [] -> usable (filter p idx).
  Proof.
    intros [N [L [R B]]] Nf. split; [exact Nf|]. split; [eapply Nat.le_trans; [apply filter_len|exact L]|]. split; [intros i Hi; apply R; apply filter_In in Hi; apply Hi|].
    eapply Rle_lt_trans; [|exact B]. unfold rtotal. assert (P : forall i, In i idx -> 0 <= dr i) by (intros i Hi; destruct (R i Hi) as [_ [_ Q]]; unfold weight64; lra). clear -P. induction idx as [|i I IH]; cbn [filter map rsum]; [lra|].
    assert (0 <= dr i) by (apply P; left; reflexivity). assert (rsum (map dr (filter p I)) <= rsum (map dr I)) by (apply IH; intros; apply P; right; assumption). destruct (p i); cbn [map rsum]; lra.
  Qed.

  Lemma col f : In f (s_features s) -> col_ok (s_n_sample s) f.
  Proof. intros H. pose proof (good_cols s G) as F. rewrite Forall_forall in F. apply F, H. Qed.
  Lemma column_fval f i : In f (s_features s) -> (i < s_n_sample s)%nat -> column f i = fval f i.
  Proof. intros Hin Hi. unfold column. rewrite (feat_index_ok (s_n_sample s) f i (col f Hin) Hi). reflexivity. Qed.
  Lemma lab_label b i : (i < s_n_sample s)%nat -> (b = 32 \/ b = 64)%Z -> IZR (as_int b (nth i (s_target s) 0)) = label s i /\ (as_int b (nth i (s_target s) 0) = 1%Z \/ as_int b (nth i (s_target s) 0) = (-1)%Z).
  Proof.
    intros Hi Hb'. unfold label. destruct (Hpm i Hi) as [-> | ->].
    - assert (E : as_int b 1 = 1%Z) by (destruct Hb' as [-> | ->]; apply (as_int_IZR _ 1); simpl; lia). rewrite E. split; [reflexivity|left; reflexivity].
    - assert (E : as_int b (-1) = (-1)%Z) by (destruct Hb' as [-> | ->]; apply (as_int_IZR _ (-1)); simpl; lia). rewrite E. split; [reflexivity|right; reflexivity].
  Qed.
  Lemma stump_col f t idx : In f (s_features s) -> usable idx -> stump_edge (fval f) (fun i => IZR (as_int 32 (nth i (s_target s) 0))) (fun i => val (nth i dist f0)) t idx = stump_edge (column f) (label s) dr t idx.
  Proof.
    intros Hin [_ [_ [R _]]]. unfold stump_edge. apply rsum_map_ext. intros i Hi. destruct (R i Hi) as [Hlt _]. rewrite (column_fval f i Hin Hlt). destruct (lab_label 32 i Hlt) as [E _]; [left; reflexivity|]. rewrite E. reflexivity.
  Qed.

  Lemma tol_bound (idx : list nat) (bins : list bin) : (length idx <= s_n_sample s)%nat -> (length bins <= nb)%nat -> 54 * gam (2 * length idx + length bins) <= tol.
  Proof.
    intros L1 L2. assert (Lk : INR (2 * length idx + length bins) <= INR (2 * s_n_sample s + nb)) by (apply le_INR; lia).
    destruct (gam_few (2 * length idx + length bins)) as [Q _]; [unfold few; eapply Rle_trans; [exact Lk|]; eapply Rle_trans; [exact HK|]; apply Rle_pow; [lra|lia]|].
    pose proof uu_pos. assert (INR (2 * length idx + length bins) * uu <= INR (2 * s_n_sample s + nb) * uu) by (apply Rmult_le_compat_r; lra). assert (0 <= INR (2 * s_n_sample s + nb) * uu) by (apply Rmult_le_pos; [apply pos_INR|lra]). lra.
  Qed.

  Lemma feature_best f idx : In f (s_features s) -> usable idx -> exists bins pack t b, sm_get bm (feat_name f) = Ok bins /\ f_dt_pack sched order bins idx f (s_target s) dist = Ok pack /\
    f_split_by_edge sched pack = (t, b) /\ fin b /\ (exists t0, offered bm f t0 /\ forall i, In i idx -> (column f i < t <-> column f i < t0)) /\
    val b <= Rabs (stump_edge (column f) (label s) dr t idx) / rtotal dr idx + tol / 2 /\
    forall t', offered bm f t' -> Rabs (stump_edge (column f) (label s) dr t' idx) / rtotal dr idx <= val b + tol / 2.
  Proof.
    intros Hin U. pose proof U as [N [L [R B]]]. destruct (Hb f Hin) as [bins [Eb [Cb Nb]]].
    destruct (f_edge_choice sched order bins f (s_target s) dist (fval f) F64MAX idx Hs Ho Cb N) as [pack [t [b [E1 [E2 [E3 [[t0 [T1 T2]] [E4 E5]]]]]]]].
    - intros i Hi. destruct (R i Hi) as [R1 [R2 R3]]. split; [apply (feat_index_ok (s_n_sample s)); [apply col, Hin|exact R1]|]. split; [apply Hv; assumption|]. split; [lia|]. split; [lia|]. split; [exact R2|exact R3].
    - intros i Hi. destruct (R i Hi) as [R1 _]. apply (lab_label 32 i R1). left. reflexivity.
    - eapply Rle_trans; [apply le_INR|exact HK]. lia.
    - exact B.
    - pose proof (tol_bound idx bins L Nb) as TB. exists bins, pack, t, b. split; [exact Eb|]. split; [exact E1|]. split; [exact E2|]. split; [exact E3|]. split; [|split].
      + exists t0. split; [exists bins; split; [exact Eb|exact T1]|]. intros i Hi. destruct (R i Hi) as [R1 _]. rewrite (column_fval f i Hin R1). apply T2, Hi.
      + rewrite (stump_col f t idx Hin U) in E4. unfold weight64 in *. lra.
      + intros t' [bins' [Q1 Q2]]. rewrite Eb in Q1. inversion Q1; subst bins'. specialize (E5 t' Q2). rewrite (stump_col f t' idx Hin U) in E5. unfold weight64 in *. lra.
  Qed.

  Lemma eval_best idx : usable idx -> forall fs, (forall f, In f fs -> In f (s_features s)) -> exists l, f_eval_features sched order fln Edge bm (s_target s) dist idx fs = Ok l /\ length l = length fs /\
    (forall q, In q l -> fin (fst (fst q)) /\ exists f, In f fs /\ snd (fst q) = feat_name f /\ (exists t0, offered bm f t0 /\ forall i, In i idx -> (column f i < snd q <-> column f i < t0)) /\
      val (fst (fst q)) <= Rabs (stump_edge (column f) (label s) dr (snd q) idx) / rtotal dr idx + tol / 2) /\
    (forall f t', In f fs -> offered bm f t' -> exists q, In q l /\ Rabs (stump_edge (column f) (label s) dr t' idx) / rtotal dr idx <= val (fst (fst q)) + tol / 2).
  Proof.
    intros U. induction fs as [|f fs IH]; intros Hi; [exists []; split; [reflexivity|split; [reflexivity|split; [intros q []|intros f t' []]]]|].
    destruct (feature_best f idx (Hi f (or_introl eq_refl)) U) as [bins [pack [t [b [E1 [E2 [E3 [E4 [E5 [E6 E7]]]]]]]]]]. destruct IH as [l [El [Ll [H1 H2]]]]; [intros; apply Hi; right; assumption|].
    cbn [f_eval_features]. rewrite E1. cbn [bind]. rewrite E2. cbn [bind f_split_by]. rewrite E3. cbn [bind]. rewrite El. cbn [bind]. eexists. split; [reflexivity|]. split; [simpl; lia|]. cbn [fst snd]. split.
    - intros q [<- |Hq]; cbn [fst snd].
      + split; [exact E4|]. exists f. split; [left; reflexivity|]. split; [reflexivity|]. split; [exact E5|exact E6].
      + destruct (H1 q Hq) as [A [g [B1 B2]]]. split; [exact A|]. exists g. split; [right; exact B1|exact B2].
    - intros f' t' [<- |Hf'] Ht'; [eexists; split; [left; reflexivity|apply E7, Ht']|]. destruct (H2 f' t' Hf' Ht') as [q [Q1 Q2]]. exists q. split; [right; exact Q1|exact Q2].
  Qed.

  Lemma pick_max_le l : forall x, (forall q, In q (x :: l) -> fin (fst (fst q))) -> forall q, In q (x :: l) -> val (fst (fst q)) <= val (fst (fst (f_pick_max x l))).
  Proof.
    induction l as [|a l IH]; intros x F q Hq; cbn [f_pick_max]; [destruct Hq as [<- |[]]; apply Rle_refl|].
    assert (Fx : fin (fst (fst x))) by (apply F; left; reflexivity). assert (Fa : fin (fst (fst a))) by (apply F; right; left; reflexivity).
    match goal with |- context [if ?c then _ else _] => destruct c eqn:Eq end; (destruct (flt_or _ _ Fa Fx) as [[Eq' L]|[Eq' L]]; [try (exfalso; exact (eq_true_false_abs _ Eq' Eq))|try (exfalso; exact (eq_true_false_abs _ Eq Eq'))]).
    - assert (Q : forall q, In q (x :: l) -> val (fst (fst q)) <= val (fst (fst (f_pick_max x l)))) by (apply IH; intros q' [<- |H]; apply F; [left; reflexivity|right; right; exact H]).
      destruct Hq as [<- |[<- |Hq]]; [apply Q; left; reflexivity| |apply Q; right; exact Hq]. apply Rle_trans with (val (fst (fst x))); [left; exact L|apply Q; left; reflexivity].
    - assert (Q : forall q, In q (a :: l) -> val (fst (fst q)) <= val (fst (fst (f_pick_max a l)))) by (apply IH; intros q' H; apply F; right; exact H).
      destruct Hq as [<- |[<- |Hq]]; [|apply Q; left; reflexivity|apply Q; right; exact Hq]. apply Rle_trans with (val (fst (fst a))); [exact L|apply Q; left; reflexivity].
  Qed.

  Lemma best_near idx : usable idx -> exists f t, f_best_split sched order fln Edge bm s dist idx = Ok (feat_name f, t) /\ nearly_best tol (s_features s) bm (label s) dr f t idx.
  Proof.
    intros U. unfold f_best_split. destruct (eval_best idx U (s_features s) (fun f H => H)) as [l [E [L [H1 H2]]]]. rewrite E. cbn [bind].
    destruct l as [|x t]; [destruct (s_features s); [congruence|discriminate]|].
    match goal with |- context [existsb ?g ?l] => assert (Ex : existsb g l = false) end.
    { apply not_true_is_false. intros Q. apply existsb_exists in Q. destruct Q as [q [Q1 Q2]]. destruct (H1 q Q1) as [Q3 _]. exact (eq_true_false_abs _ Q2 (fin_num _ Q3)). }
    rewrite Ex, andb_false_r. pose proof (pick_max_in t x) as Ir. pose proof (pick_max_le t x (fun q Hq => proj1 (H1 q Hq))) as Mx. set (r := f_pick_max x t) in *.
    destruct (H1 r Ir) as [_ [f [F1 [F2 [F3 F4]]]]]. exists f, (snd r). split; [destruct r as [[a nm] th]; cbn [fst snd] in *; rewrite F2; reflexivity|]. split; [exact F1|]. split; [exact F3|].
    assert (W0 : 0 < rtotal dr idx) by (destruct U as [N [_ [R _]]]; apply total_pos'; [exact N|]; intros i Hi; apply (R i Hi)).
    intros f' t' Hf' Ht'. destruct (H2 f' t' Hf' Ht') as [q [Q1 Q2]]. specialize (Mx q Q1). apply (Rmult_le_reg_r (/ rtotal dr idx)); [apply Rinv_0_lt_compat, W0|].
    rewrite Rmult_plus_distr_r. replace (tol * rtotal dr idx * / rtotal dr idx) with tol by (field; lra). eapply Rle_trans; [exact Q2|]. eapply Rle_trans; [apply Rplus_le_compat_r, Mx|]. eapply Rle_trans; [apply Rplus_le_compat_r; exact F4|]. unfold Rdiv. lra.
  Qed.

  (** ** leaves *)
  Local Notation lab := (fun i => as_int 64 (nth i (s_target s) 0)).
  Lemma count_fold idx : (forall i, In i idx -> (i < s_n_sample s)%nat) -> forall m, f_count_labels (s_target s) dist idx m = Ok (fold_left (fun m i => f_lw_add m (lab i) (d i)) idx m).
  Proof.
    induction idx as [|i idx IH]; intros H m; [reflexivity|]. cbn [f_count_labels fold_left]. rewrite get_ok by (rewrite Ht; apply H; left; reflexivity). cbn [bind].
    rewrite f_get_ok by (rewrite Hd; apply H; left; reflexivity). cbn [bind]. rewrite IH by (intros; apply H; right; assumption). reflexivity.
  Qed.

  Lemma label_sum z (I : list nat) : (z = 1 \/ z = -1)%Z -> (forall i, In i I -> lab i = 1%Z \/ lab i = (-1)%Z) ->
    rsum (map (fun i => IZR (lab i) * dr i) I) = IZR z * (2 * label_weight lab dr z I - rtotal dr I).
  Proof.
    intros Hz Hl. unfold label_weight, sum_where, rtotal. induction I as [|i I IH]; [simpl; ring|]. assert (IH' := IH (fun j Hj => Hl j (or_intror Hj))). specialize (Hl i (or_introl eq_refl)). cbn beta in Hl.
    cbn [filter map rsum]. destruct (Z.eqb_spec (lab i) z) as [E|E]; cbn [map rsum]; rewrite IH'.
    - rewrite <- E. destruct Hl as [Q|Q]; rewrite Q; ring.
    - assert (Q : lab i = (- z)%Z) by (destruct Hz, Hl; subst; congruence || lia). rewrite Q, opp_IZR. ring.
  Qed.

  Lemma clamp_near v m t : fin v -> -1 <= m <= 1 -> Rabs (val v - m) <= t -> Rabs (val (f_clamp1 v) - m) <= t.
  Proof.
    intros F Hm A. apply Rabs_le_inv in A. destruct fm1_spec as [M1 M2]. destruct f1_spec as [O1 O2]. unfold f_clamp1.
    destruct (flt_or v (f_of_Z (-1)) F M1) as [[Eq L]|[Eq L]].
    - rewrite Eq. apply Rabs_le. rewrite M2 in *. lra.
    - rewrite Eq. destruct (flt_or f1 v O1 F) as [[Eq' L']|[Eq' L']]; rewrite Eq'; [rewrite O2 in *; apply Rabs_le; lra|]. apply Rabs_le; lra.
  Qed.

  Lemma mean_bounds idx : usable idx -> -1 <= mean_label (label s) dr idx <= 1.
  Proof.
    intros [N [_ [R _]]]. assert (W0 : 0 < rtotal dr idx) by (apply total_pos'; [exact N|]; intros i Hi; apply (R i Hi)). unfold mean_label.
    assert (B : - rtotal dr idx <= rsum (map (fun i => dr i * label s i) idx) <= rtotal dr idx).
    { unfold rtotal. assert (Q : forall i, In i idx -> 0 < dr i /\ (label s i = 1 \/ label s i = -1)) by (intros i Hi; destruct (R i Hi) as [R1 [_ R3]]; split; [exact R3|apply Hpm, R1]).
      clear -Q. induction idx as [|i I IH]; cbn [map rsum]; [lra|]. destruct (Q i (or_introl eq_refl)) as [Q1 Q2]. assert (IH' := IH (fun j Hj => Q j (or_intror Hj))). destruct Q2 as [-> | ->]; lra. }
    split; [apply (proj2 (Rle_div_iff _ _ _ W0))|apply (proj2 (Rdiv_le_iff _ _ _ W0))]; lra.
  Qed.

  Lemma max_ge l : forall x, (forall q, In q (x :: l) -> fin (snd q)) -> forall q, In q (x :: l) -> val (snd q) <= val (snd (f_max_entry x l)).
  Proof.
    induction l as [|a l IH]; intros x F q Hq; cbn [f_max_entry]; [destruct Hq as [<- |[]]; apply Rle_refl|].
    assert (Fx : fin (snd x)) by (apply F; left; reflexivity). assert (Fa : fin (snd a)) by (apply F; right; left; reflexivity).
    match goal with |- context [if ?c then _ else _] => destruct c eqn:Eq end; (destruct (flt_or _ _ Fa Fx) as [[Eq' L]|[Eq' L]]; [try (exfalso; exact (eq_true_false_abs _ Eq' Eq))|try (exfalso; exact (eq_true_false_abs _ Eq Eq'))]).
    - assert (Q : forall q, In q (x :: l) -> val (snd q) <= val (snd (f_max_entry x l))) by (apply IH; intros q' [<- |H]; apply F; [left; reflexivity|right; right; exact H]).
      destruct Hq as [<- |[<- |Hq]]; [apply Q; left; reflexivity| |apply Q; right; exact Hq]. apply Rle_trans with (val (snd x)); [left; exact L|apply Q; left; reflexivity].
    - assert (Q : forall q, In q (a :: l) -> val (snd q) <= val (snd (f_max_entry a l))) by (apply IH; intros q' H; apply F; right; exact H).
      destruct Hq as [<- |[<- |Hq]]; [|apply Q; left; reflexivity|apply Q; right; exact Hq]. apply Rle_trans with (val (snd a)); [exact L|apply Q; left; reflexivity].
  Qed.
  (** the loss of a node: total * (1 - p / total) *)
  Lemma loss_near (tot v : f64) W q g : fin tot -> fin v -> 0 < W -> W < 2 ^ 1000 -> 0 <= q <= 1 -> uu <= g -> g <= / 2 ^ 20 -> Rabs (val tot - W) <= g * W -> Rabs (val v - q) <= 5 * g ->
    fin (fmul tot (fsub f1 v)) /\ Rabs (val (fmul tot (fsub f1 v)) - W * (1 - q)) <= 15 * g * W + eta0.
  Proof.
    intros Ft Fv W0 WB Hq Ug Gs At Av. destruct f1_spec as [O1 O2]. assert (S20 : / 2 ^ 20 <= 1 / 1000) by (simpl; lra). pose proof uu_pos as U0. apply Rabs_le_inv in Av.
    assert (B8 : 2 ^ 1000 * 64 <= 2 ^ 1023) by (replace 64 with (2 ^ 6) by (simpl; lra); rewrite <- pow_add; apply Rle_pow; [lra|lia]). assert (B1 : 1 <= 2 ^ 1000) by (apply pow_R1_Rle; lra).
    assert (D2 : Rabs (val f1 - val v) <= 2) by (rewrite O2; apply Rabs_le; lra).
    destruct (fsub_spec f1 v O1 Fv) as [FS [e [He ES]]].
    { rewrite big_1024. apply Rle_lt_trans with (2 * 2); [apply Rmult_le_compat; [apply Rabs_pos|lra|exact D2|lra]|]. generalize dependent (2 ^ 1023). generalize dependent (2 ^ 1000). intros; lra. }
    set (sv := fsub f1 v) in *. rewrite O2 in ES, D2.
    assert (As : Rabs (val sv - (1 - q)) <= 7 * g).
    { rewrite ES. replace ((1 - val v) * (1 + e) - (1 - q)) with ((q - val v) + (1 - val v) * e) by ring. eapply Rle_trans; [apply Rabs_triang|]. rewrite Rabs_mult.
      assert (Rabs (1 - val v) * Rabs e <= 2 * g) by (apply Rmult_le_compat; [apply Rabs_pos|apply Rabs_pos|exact D2|lra]). assert (Rabs (q - val v) <= 5 * g) by (apply Rabs_le; lra). lra. }
    apply Rabs_le_inv in As. apply Rabs_le_inv in At. assert (GW : g * W <= 1 / 1000 * W) by (apply Rmult_le_compat_r; lra). assert (GW0 : 0 <= g * W) by (apply Rmult_le_pos; lra).
    assert (Pr : Rabs (val tot * val sv - W * (1 - q)) <= 9 * g * W).
    { replace (val tot * val sv - W * (1 - q)) with ((val tot - W) * val sv + W * (val sv - (1 - q))) by ring. eapply Rle_trans; [apply Rabs_triang|]. rewrite !Rabs_mult, (Rabs_pos_eq W) by lra.
      assert (Rabs (val tot - W) * Rabs (val sv) <= (g * W) * 2) by (apply Rmult_le_compat; try apply Rabs_pos; apply Rabs_le; lra). assert (W * Rabs (val sv - (1 - q)) <= W * (7 * g)) by (apply Rmult_le_compat_l; [lra|apply Rabs_le; lra]). lra. }
    assert (W1 : 0 <= W * (1 - q) <= W) by (split; [apply Rmult_le_pos; lra|rewrite <- (Rmult_1_r W) at 2; apply Rmult_le_compat_l; lra]).
    assert (P2 : Rabs (val tot * val sv) <= 2 * W) by (apply Rabs_le_inv in Pr; apply Rabs_le; lra).
    destruct (fmul_spec tot sv Ft FS) as [FM EM]; [eapply Rle_lt_trans; [exact P2|]; generalize dependent (2 ^ 1023); generalize dependent (2 ^ 1000); intros; lra|].
    split; [exact FM|]. replace (val (fmul tot sv) - W * (1 - q)) with ((val (fmul tot sv) - val tot * val sv) + (val tot * val sv - W * (1 - q))) by ring. eapply Rle_trans; [apply Rabs_triang|].
    assert (uu * Rabs (val tot * val sv) <= g * (2 * W)) by (apply Rmult_le_compat; [lra|apply Rabs_pos|exact Ug|exact P2]). lra.
  Qed.

  Lemma conf_near idx : usable idx -> exists conf loss, f_confidence_and_loss sched order (s_target s) dist idx = Ok (conf, loss) /\ confidence_value conf /\ Rabs (val conf - mean_label (label s) dr idx) <= tol /\
    fin loss /\ Rabs (val loss - (rtotal dr idx - Rabs (rsum (map (fun i => dr i * label s i) idx))) / 2) <= tol / 2 * rtotal dr idx + eta0.
  Proof.
    intros U. pose proof U as [N [L [R B]]]. unfold f_confidence_and_loss. assert (Nn : is_nil idx = false) by (destruct idx; [congruence|reflexivity]). rewrite Nn. cbn [negb assert_ bind].
    rewrite count_fold by (intros i Hi; apply R, Hi). cbn [bind]. set (m := fold_left (fun (m : flw) i => f_lw_add m (lab i) (d i)) idx []).
    assert (L2 : INR (2 * length idx) <= 2 ^ 32) by (eapply Rle_trans; [apply le_INR|exact HK]; lia).
    assert (L1 : INR (length idx) <= 2 ^ 32) by (eapply Rle_trans; [apply le_INR|exact HK]; lia).
    assert (B20 : 2 ^ 1000 <= 2 ^ 1020) by (apply Rle_pow; [lra|lia]). assert (W0 : 0 < rtotal dr idx) by (apply total_pos'; [exact N|]; intros i Hi; apply (R i Hi)).
    assert (Hl : forall i, In i idx -> lab i = 1%Z \/ lab i = (-1)%Z) by (intros i Hi; apply (lab_label 64 i); [apply R, Hi|right; reflexivity]).
    assert (Rl : rel (length idx) m (histo lab dr idx)).
    { apply (histo_rel lab d idx); [intros i Hi; destruct (R i Hi) as [_ [R2 R3]]; split; [exact R2|lra]|exact L1|]. eapply Rlt_le_trans; [exact B|exact B20]. }
    destruct (histo_spec lab dr idx) as [ND [Kk [Vv [Tt Pe]]]]. cbv zeta in *. set (r := histo lab dr idx) in *.
    assert (Lm : (length m <= length idx)%nat).
    { assert (Q : forall I m, (length (fold_left (fun m i => f_lw_add m (lab i) (d i)) I m) <= length m + length I)%nat).
      { clear. induction I as [|i I IH]; intros r; cbn [fold_left length]; [lia|]. eapply Nat.le_trans; [apply IH|]. assert (length (f_lw_add r (lab i) (d i)) <= S (length r))%nat; [|lia]. clear. induction r as [|[a v] r IH]; cbn [f_lw_add length]; [lia|]. destruct (Z.eqb a (lab i)); cbn [length]; lia. }
      unfold m. eapply Nat.le_trans; [apply Q|]. simpl. lia. }
    set (tot := sched (map snd m)). assert (At : acc (2 * length idx) tot (rtotal dr idx)).
    { rewrite <- Tt. apply (acc_le (length idx + length (map snd m))); [rewrite map_length; lia|]. unfold tot, lw_total. apply sched_acc; [exact Hs| |rewrite map_length; eapply Rle_trans; [apply le_INR|exact L2]; lia|fold (lw_total r); rewrite Tt; eapply Rlt_le_trans; [exact B|exact B20]].
      clear -Rl. induction Rl as [|p X m Xs [_ Hp] HX IH]; cbn [map]; constructor; assumption. }
    pose proof (gam_30 _ L2) as G30. pose proof (gam_nonneg (2 * length idx)) as G0. assert (S20 : / 2 ^ 20 <= 1 / 100) by (simpl; lra).
    assert (TP : flt f0 tot = true).
    { apply flt_true; [reflexivity|apply At|]. rewrite val_f0. destruct At as [_ [_ A]]. unfold approx in A. apply Rabs_le_inv in A.
      assert (gam (2 * length idx) * rtotal dr idx <= 1 / 100 * rtotal dr idx) by (apply Rmult_le_compat_r; lra). lra. }
    pose proof (Ho m) as Po.
    assert (Ex : forall p, In p m -> exists q, In q r /\ fst q = fst p /\ acc (length idx) (snd p) (snd q)).
    { clear -Rl. intros p Hp. induction Rl as [|q X m Xs [E A] HX IH]; [destruct Hp|]. destruct Hp as [<- |Hp]; [exists X; split; [left; reflexivity|split; [symmetry; exact E|exact A]]|]. destruct (IH Hp) as [q' [A1 A2]]. exists q'. split; [right; exact A1|exact A2]. }
    destruct (order m) as [|x t] eqn:Eo.
    { exfalso. apply Permutation_nil in Po. rewrite Po in Rl. inversion Rl as [E0 E1|]. rewrite <- E1 in Tt. unfold lw_total in Tt. simpl in Tt. lra. }
    match goal with |- context [existsb ?g ?l] => assert (Nan : existsb g l = false) end.
    { apply not_true_is_false. intros Q. apply existsb_exists in Q. destruct Q as [q [Q1 Q2]]. apply (Permutation_in _ Po) in Q1. destruct (Ex q Q1) as [X [_ [_ [F _]]]]. exact (eq_true_false_abs _ Q2 (fin_num _ F)). }
    rewrite Nan, andb_false_r, TP. pose proof (max_in t x) as Im. destruct (f_max_entry x t) as [z p] eqn:Em. apply (Permutation_in _ Po) in Im.
    destruct (Ex _ Im) as [q [Hq [Eq AX]]]. cbn [fst snd] in Eq, AX. set (X := snd q) in *. assert (AX' : acc (2 * length idx) p X) by (apply (acc_le (length idx)); [lia|exact AX]).
    assert (Hzq : In (z, X) r) by (destruct q as [z' X']; cbn [fst] in Eq; subst z'; exact Hq).
    assert (Xw : X = label_weight lab dr z idx) by (rewrite <- Vv; symmetry; apply (lw_val_in r z X ND Hzq)).
    assert (Hz : (z = 1 \/ z = -1)%Z). { assert (Ik : In z (keys r)) by (apply (in_map fst) in Hzq; exact Hzq). apply Kk in Ik. destruct Ik as [i [Hi <-]]. apply Hl, Hi. }
    assert (XW : X <= rtotal dr idx).
    { rewrite Xw. unfold label_weight, sum_where, rtotal. assert (P : forall i, In i idx -> 0 < dr i) by (intros i Hi; apply (R i Hi)). clear -P. induction idx as [|i I IH]; cbn [filter map rsum]; [lra|]. assert (0 < dr i) by (apply P; left; reflexivity). assert (IH' := IH (fun j Hj => P j (or_intror Hj))). destruct (Z.eqb _ z); cbn [map rsum]; lra. }
    assert (K1 : (1 <= 2 * length idx)%nat) by (destruct idx; [congruence|simpl; lia]).
    destruct (div_near (2 * length idx) p tot X (rtotal dr idx) K1 L2 AX' At W0 XW) as [Fq Dq]. set (g := gam (2 * length idx)) in *. set (W := rtotal dr idx) in *.
    assert (X0 : 0 <= X) by apply AX. assert (XR : 0 <= X / W <= 1) by (split; [apply Rmult_le_pos; [exact X0|left; apply Rinv_0_lt_compat, W0]|apply (proj2 (Rdiv_le_iff X 1 W W0)); lra]).
    assert (Ug : uu <= g). { eapply Rle_trans; [|apply gam_ge]. pose proof uu_pos. assert (1 <= INR (2 * length idx)) by (change 1 with (INR 1); apply le_INR, K1). nra. }
    assert (Eg : eta0 <= g). { eapply Rle_trans; [apply eta_tiny|]. pose proof uu_pos. assert (/ 2 ^ 65 <= 1) by (simpl; lra). assert (/ 2 ^ 65 * uu <= 1 * uu) by (apply Rmult_le_compat_r; lra). lra. }
    assert (D5 : Rabs (val (fdiv p tot) - X / W) <= 5 * g). { eapply Rle_trans; [exact Dq|]. assert (4 * g * (X / W) <= 4 * g * 1) by (apply Rmult_le_compat_l; lra). lra. }
    assert (Bq : Rabs (val (fdiv p tot)) <= 2). { replace (val (fdiv p tot)) with (X / W + (val (fdiv p tot) - X / W)) by ring. eapply Rle_trans; [apply Rabs_triang|]. rewrite (Rabs_pos_eq (X / W)) by lra. lra. }
    assert (B8 : 64 <= 2 ^ 1023) by (replace 64 with (2 ^ 6) by (simpl; lra); apply Rle_pow; [lra|lia]).
    destruct f2_spec as [T1 T2]. destruct f1_spec as [O1 O2]. set (v := fdiv p tot) in *.
    assert (M2 : fin (fmul f2 v) /\ val (fmul f2 v) = 2 * val v).
    { rewrite <- T2. apply fmul_exact; auto; rewrite T2.
      - replace (2 * val v) with (val v * bpow radix2 1) by (simpl; lra). apply mult_bpow_pos_exact_FLT; [apply format_val|lia].
      - rewrite Rabs_mult, (Rabs_pos_eq 2) by lra. generalize dependent (2 ^ 1023). intros; lra. }
    destruct M2 as [FM VM].
    assert (D4 : Rabs (val (fmul f2 v) - val f1) <= 5). { rewrite VM, O2. apply Rabs_le_inv in Bq. apply Rabs_le. lra. }
    destruct (fsub_spec (fmul f2 v) f1 FM O1) as [FS [e [He ES]]].
    { rewrite big_1024. pose proof uu_small. pose proof uu_pos. apply Rle_lt_trans with (5 * 2); [apply Rmult_le_compat; [apply Rabs_pos|lra|exact D4|lra]|]. generalize dependent (2 ^ 1023). intros; lra. }
    set (c0 := fsub (fmul f2 v) f1) in *.
    assert (A15 : Rabs (val c0 - (2 * (X / W) - 1)) <= 15 * g).
    { rewrite ES. rewrite VM, O2 in *. replace ((2 * val v - 1) * (1 + e) - (2 * (X / W) - 1)) with (2 * (val v - X / W) + (2 * val v - 1) * e) by ring. eapply Rle_trans; [apply Rabs_triang|]. rewrite !Rabs_mult, (Rabs_pos_eq 2) by lra.
      assert (Rabs (2 * val v - 1) * Rabs e <= 5 * g) by (apply Rmult_le_compat; [apply Rabs_pos|apply Rabs_pos|exact D4|lra]). lra. }
    assert (Bc : Rabs (val c0) < 2 ^ 1023). { apply Rle_lt_trans with 2; [|generalize dependent (2 ^ 1023); intros; lra]. apply Rabs_le_inv in A15. apply Rabs_le. lra. }
    destruct (mul_label z c0 Hz FS Bc) as [FL VL].
    pose proof (tol_bound idx [] L ltac:(simpl; lia)) as TB. cbn [length] in TB. rewrite Nat.add_0_r in TB. fold g in TB.
    assert (Sy : rsum (map (fun i => dr i * label s i) idx) = IZR z * (2 * X - W)).
    { rewrite Xw. unfold W. rewrite <- (label_sum z idx Hz Hl). apply rsum_map_ext. intros i Hi. destruct (lab_label 64 i) as [E _]; [apply R, Hi|right; reflexivity|]. rewrite E. ring. }
    assert (Az : Rabs (IZR z) = 1) by (destruct Hz as [-> | ->]; [apply Rabs_R1|rewrite (Rabs_left (-1)); lra]).
    assert (At' : Rabs (val tot - W) <= g * W) by (destruct At as [_ [_ A]]; exact A).
    destruct (loss_near tot v W (X / W) g (proj1 At) Fq W0 B XR Ug G30 At' D5) as [Fl Al].
    assert (Half : W - 2 * X <= 3 * g * W).
    { destruct (Rle_or_lt W (2 * X)) as [Q|Q]; [assert (0 <= g * W) by (apply Rmult_le_pos; lra); lra|].
      assert (Zo : label_weight lab dr (- z) idx = W - X).
      { pose proof (label_sum z idx Hz Hl) as S1. assert (Hz' : (- z = 1 \/ - z = -1)%Z) by lia. pose proof (label_sum (- z) idx Hz' Hl) as S2. pose proof (eq_trans (eq_sym S1) S2) as S3. rewrite opp_IZR in S3. rewrite <- Xw in S3. change (rtotal dr idx) with W in S3. clear -S3 Hz. destruct Hz as [-> | ->]; lra. }
      assert (Ik : In (- z)%Z (keys r)). { apply Kk. destruct (filter (fun i => Z.eqb (lab i) (- z)) idx) as [|i I0] eqn:Ef; [exfalso; unfold label_weight, sum_where in Zo; rewrite Ef in Zo; cbn [map rsum] in Zo; lra|]. exists i. assert (In i (i :: I0)) as Hi by (left; reflexivity). rewrite <- Ef in Hi. apply filter_In in Hi. destruct Hi as [Hi1 Hi2]. split; [exact Hi1|apply Z.eqb_eq, Hi2]. }
      apply in_map_iff in Ik. destruct Ik as [[zo Y] [Ezo Hzo]]. cbn [fst] in Ezo. subst zo. assert (EY : Y = W - X) by (rewrite <- Zo, <- Vv; symmetry; apply (lw_val_in r (- z)%Z Y ND Hzo)).
      assert (Exr : forall q, In q r -> exists p, In p m /\ fst q = fst p /\ acc (length idx) (snd p) (snd q)).
      { clear -Rl. intros q' Hq'. induction Rl as [|a b m Xs [E A] HX IH]; [destruct Hq'|]. destruct Hq' as [<- |Hq']; [exists a; split; [left; reflexivity|split; [symmetry; exact E|exact A]]|]. destruct (IH Hq') as [p' [A1 A2]]. exists p'. split; [right; exact A1|exact A2]. }
      destruct (Exr _ Hzo) as [po [Po1 [Po2 Po3]]]. cbn [snd] in Po3. apply (Permutation_in _ (Permutation_sym Po)) in Po1.
      assert (Mx : val (snd po) <= val p). { replace p with (snd (f_max_entry x t)) by (rewrite Em; reflexivity). apply max_ge; [|exact Po1]. intros q' Hq'. apply (Permutation_in _ Po) in Hq'. destruct (Ex q' Hq') as [Xq [_ [_ [F _]]]]. exact F. }
      assert (Gl : gam (length idx) <= g) by (apply gam_le; lia). destruct Po3 as [_ [Y0 A1]]. destruct AX as [_ [_ A2]]. unfold approx in A1, A2. apply Rabs_le_inv in A1. apply Rabs_le_inv in A2.
      assert (gam (length idx) * Y <= g * W) by (apply Rmult_le_compat; [apply gam_nonneg|exact Y0|exact Gl|lra]). assert (gam (length idx) * X <= g * W) by (apply Rmult_le_compat; [apply gam_nonneg|exact X0|exact Gl|exact XW]). assert (0 <= g * W) by (apply Rmult_le_pos; lra). lra. }
    eexists. eexists. split; [reflexivity|]. split; [apply clamp_value, FL|]. split; [|split; [exact Fl|]].
    2:{ rewrite Sy, Rabs_mult, Az, Rmult_1_l. replace (W * (1 - X / W)) with (W - X) in Al by (field; lra). apply Rabs_le_inv in Al. assert (TW : 27 * (g * W) <= tol / 2 * W) by (rewrite <- Rmult_assoc; apply Rmult_le_compat_r; lra). assert (0 <= g * W) by (apply Rmult_le_pos; lra).
        unfold Rabs at 2. destruct (Rcase_abs (2 * X - W)); apply Rabs_le; lra. }
    assert (Em' : mean_label (label s) dr idx = IZR z * (2 * (X / W) - 1)).
    { unfold mean_label. fold W. replace (IZR z * (2 * (X / W) - 1)) with (IZR z * (2 * X - W) / W) by (field; lra). f_equal. rewrite Xw. unfold W. rewrite <- (label_sum z idx Hz Hl).
      apply rsum_map_ext. intros i Hi. destruct (lab_label 64 i) as [E _]; [apply R, Hi|right; reflexivity|]. rewrite E. ring. }
    apply clamp_near; [exact FL|apply mean_bounds, U|]. rewrite VL, Em'. replace (IZR z * val c0 - IZR z * (2 * (X / W) - 1)) with (IZR z * (val c0 - (2 * (X / W) - 1))) by ring.
    rewrite Rabs_mult, Az, Rmult_1_l. lra.
  Qed.

  (** ** the tree *)
  Definition node_info (c w l : f64) (idx : list nat) : Prop := (confidence_value c /\ Rabs (val c - mean_label (label s) dr idx) <= tol) /\ acc (s_n_sample s) w (rtotal dr idx) /\
    fin l /\ Rabs (val l - (rtotal dr idx - Rabs (rsum (map (fun i => dr i * label s i) idx))) / 2) <= tol / 2 * rtotal dr idx + eta0.
  Fixpoint grown_near (t : f_train_node) (dep : nat) (idx : list nat) : Prop :=
    match t with
    | FTLeaf c w lo => node_info c w lo idx
    | FTBranch rule l r c w lo => node_info c w lo idx /\
        exists dep' f, dep = S dep' /\ sp_feature rule = feat_name f /\ nearly_best tol (s_features s) bm (label s) dr f (sp_threshold rule) idx /\
          filter (below (column f) (sp_threshold rule)) idx <> [] /\ filter (not_below (column f) (sp_threshold rule)) idx <> [] /\
          grown_near l dep' (filter (below (column f) (sp_threshold rule)) idx) /\ grown_near r dep' (filter (not_below (column f) (sp_threshold rule)) idx)
    end.

  Lemma filter_column f t idx : In f (s_features s) -> (forall i, In i idx -> (i < s_n_sample s)%nat) -> filter (below (fval f) t) idx = filter (below (column f) t) idx /\ filter (not_below (fval f) t) idx = filter (not_below (column f) t) idx.
  Proof.
    intros Hin Hi. split; apply filter_ext_in'; intros i H; unfold below, not_below; rewrite (column_fval f i Hin (Hi i H)); reflexivity.
  Qed.

  Lemma weight_near idx : usable idx -> acc (s_n_sample s) (sched (map d idx)) (rtotal dr idx).
  Proof.
    intros [N [L [R B]]]. apply (acc_le (0 + length (map d idx))); [rewrite map_length; exact L|]. unfold rtotal. apply sched_acc; [exact Hs| | |].
    - clear -R. induction idx as [|i I IH]; cbn [map]; [constructor|]. constructor; [|apply IH; intros j Hj; apply R; right; exact Hj]. destruct (R i (or_introl eq_refl)) as [_ [F P]]. apply acc_self; [exact F|lra].
    - rewrite map_length. eapply Rle_trans; [apply le_INR|exact HK]. lia.
    - eapply Rlt_le_trans; [exact B|apply Rle_pow; [lra|lia]].
  Qed.
  Lemma info_near idx : usable idx -> exists conf loss, f_confidence_and_loss sched order (s_target s) dist idx = Ok (conf, loss) /\ node_info conf (sched (map d idx)) loss idx.
  Proof. intros U. destruct (conf_near idx U) as [conf [loss [E [V1 [V2 [V3 V4]]]]]]. exists conf, loss. split; [exact E|]. split; [split; assumption|]. split; [apply weight_near, U|]. split; assumption. Qed.

  (** no offered stump has an edge much larger than the constant's *)
  Definition no_better (c : R) (idx : list nat) : Prop := forall f' t', In f' (s_features s) -> offered bm f' t' -> Rabs (stump_edge (column f') (label s) dr t' idx) <= Rabs (rsum (map (fun i => dr i * label s i) idx)) + c * rtotal dr idx.
  Local Notation M := (fun I => rsum (map (fun i => dr i * label s i) I)).
  Lemma stump_parts x t idx : stump_edge x (label s) dr t idx = rsum (map (fun i => dr i * label s i) (filter (not_below x t) idx)) - rsum (map (fun i => dr i * label s i) (filter (below x t) idx)).
  Proof.
    unfold stump_edge, stump. induction idx as [|i I IH]; [simpl; ring|]. cbn [filter map rsum]. rewrite IH. unfold below at 2, not_below at 2. destruct (Rlt_dec (x i) t); cbn [map rsum]; ring.
  Qed.
  Lemma parts_sum x t idx (g : nat -> R) : rsum (map g (filter (below x t) idx)) + rsum (map g (filter (not_below x t) idx)) = rsum (map g idx).
  Proof. induction idx as [|i I IH]; [simpl; ring|]. cbn [filter]. assert (N : not_below x t i = negb (below x t i)) by (unfold below, not_below; destruct (Rlt_dec (x i) t); reflexivity). rewrite N. destruct (below x t i); cbn [negb map rsum]; lra. Qed.
  Lemma M_bound idx : usable idx -> Rabs (M idx) <= rtotal dr idx.
  Proof.
    intros U. pose proof (mean_bounds idx U) as B. destruct U as [N [_ [R _]]]. assert (W0 : 0 < rtotal dr idx) by (apply total_pos'; [exact N|]; intros i Hi; apply (R i Hi)). unfold mean_label in B.
    destruct B as [B1 B2]. apply (proj1 (Rle_div_iff _ _ _ W0)) in B1. apply (proj1 (Rdiv_le_iff _ _ _ W0)) in B2. apply Rabs_le. lra.
  Qed.
  Lemma stump_bound x t idx : usable idx -> Rabs (stump_edge x (label s) dr t idx) <= rtotal dr idx.
  Proof.
    intros [N [_ [R _]]]. unfold stump_edge, rtotal. assert (Q : forall i, In i idx -> 0 < dr i /\ (label s i = 1 \/ label s i = -1)) by (intros i Hi; destruct (R i Hi) as [R1 [_ R3]]; split; [exact R3|apply Hpm, R1]).
    clear -Q. induction idx as [|i I IH]; cbn [map rsum]; [rewrite Rabs_R0; lra|]. eapply Rle_trans; [apply Rabs_triang|]. apply Rplus_le_compat; [|apply IH; intros j Hj; apply Q; right; exact Hj].
    destruct (Q i (or_introl eq_refl)) as [Q1 Q2]. unfold stump. destruct Q2 as [-> | ->]; destruct (Rlt_dec (x i) t); apply Rabs_le; lra.
  Qed.
  Lemma tol_pos idx : usable idx -> 256 * uu <= tol /\ tol <= 1 / 10000.
  Proof.
    intros [N [L _]]. pose proof uu_pos as U0. assert (K2 : (2 <= 2 * s_n_sample s + nb)%nat) by (destruct idx; [congruence|simpl in L; lia]). apply le_INR in K2. change (INR 2) with (1 + 1) in K2. split.
    - assert (2 * uu <= INR (2 * s_n_sample s + nb) * uu) by (apply Rmult_le_compat_r; lra). lra.
    - assert (INR (2 * s_n_sample s + nb) * uu <= 2 ^ 32 * uu) by (apply Rmult_le_compat_r; lra). assert (128 * (2 ^ 32 * uu) <= 1 / 10000) by (unfold uu; simpl; lra). lra.
  Qed.
  Lemma gam_n idx : usable idx -> gam (s_n_sample s) <= tol / 54.
  Proof.
    intros _. pose proof (gam_few (2 * s_n_sample s)) as Q. destruct Q as [Q _]; [unfold few; eapply Rle_trans; [apply le_INR|eapply Rle_trans; [exact HK|apply Rle_pow; [lra|lia]]]; lia|].
    pose proof (gam_le (s_n_sample s) (2 * s_n_sample s) ltac:(lia)) as Q2. assert (L : INR (2 * s_n_sample s) <= INR (2 * s_n_sample s + nb)) by (apply le_INR; lia). pose proof uu_pos. assert (INR (2 * s_n_sample s) * uu <= INR (2 * s_n_sample s + nb) * uu) by (apply Rmult_le_compat_r; lra). pose proof (pos_INR (2 * s_n_sample s + nb)).
    assert (0 <= INR (2 * s_n_sample s + nb) * uu) by (apply Rmult_le_pos; lra). lra.
  Qed.

  Lemma eta_pow k : (k <= 1075)%nat -> eta0 <= / 2 ^ k.
  Proof. intros Hk. unfold eta0. rewrite <- two_pow, <- bpow_opp. apply bpow_le. lia. Qed.
  Lemma feq_val (a b : f64) : fin a -> fin b -> feq a b = true -> val a = val b.
  Proof. intros Fa Fb E. unfold feq in E. rewrite (Beqb_correct 53 1024 a b Fa Fb) in E. revert E. case Req_bool_spec; [intros Q _; exact Q|discriminate]. Qed.

  (** weight times loss, compared with the exact product; T is the weight at the root *)
  Lemma prod_near (l w : f64) V h T to g : fin l -> fin w -> 0 < V <= T -> 0 <= h <= V / 2 -> 0 <= g <= to / 54 -> 256 * uu <= to -> to <= 1 / 10000 -> Rabs (val w - V) <= g * V -> Rabs (val l - h) <= to / 2 * V + eta0 ->
    eta0 <= uu / 1000 * T -> eta0 <= uu / 1000 * (T * T) -> T <= 2 ^ 200 -> fin (fmul l w) /\ Rabs (val (fmul l w) - V * h) <= 53 / 100 * (to * (T * V)) + uu / 1000 * (T * T).
  Proof.
    intros Fl Fw HV Hh Hg T1 T2 Aw Al E1 E2 TB. pose proof uu_pos as U0. pose proof eta0_pos as N0. assert (TV : 0 <= T * V) by (apply Rmult_le_pos; lra). assert (VV : V * V <= T * V) by (apply Rmult_le_compat_r; lra). assert (V0 : 0 <= V * V) by (apply Rmult_le_pos; lra).
    assert (TT : T * V <= T * T) by (apply Rmult_le_compat_l; lra).
    assert (B1 : g * (V * V) <= to / 54 * (T * V)) by (apply Rmult_le_compat; lra). assert (B2 : to * (V * V) <= to * (T * V)) by (apply Rmult_le_compat_l; lra).
    assert (B3 : uu * (T * V) <= to / 256 * (T * V)) by (apply Rmult_le_compat_r; lra). assert (B0 : 0 <= to * (T * V)) by (apply Rmult_le_pos; lra). assert (B00 : 0 <= uu * (T * V)) by (apply Rmult_le_pos; lra).
    assert (B4 : to * (T * V) <= 1 / 10000 * (T * V)) by (apply Rmult_le_compat_r; lra).
    assert (GV : g * V <= 1 / 1000 * V) by (apply Rmult_le_compat_r; lra). assert (GV0 : 0 <= g * V) by (apply Rmult_le_pos; lra). apply Rabs_le_inv in Aw.
    assert (W1 : Rabs (val w) <= 1001 / 1000 * V) by (apply Rabs_le; lra).
    assert (Pr : Rabs (val l * val w - V * h) <= 52 / 100 * (to * (T * V))).
    { replace (val l * val w - V * h) with ((val l - h) * val w + h * (val w - V)) by ring. eapply Rle_trans; [apply Rabs_triang|]. rewrite !Rabs_mult, (Rabs_pos_eq h) by lra.
      assert (Q1 : Rabs (val l - h) * Rabs (val w) <= (to / 2 * V + uu / 1000 * T) * (1001 / 1000 * V)) by (apply Rmult_le_compat; [apply Rabs_pos|apply Rabs_pos|lra|exact W1]).
      assert (Q2 : h * Rabs (val w - V) <= V / 2 * (g * V)) by (apply Rmult_le_compat; [lra|apply Rabs_pos|lra|apply Rabs_le; lra]).
      replace ((to / 2 * V + uu / 1000 * T) * (1001 / 1000 * V)) with (1001 / 2000 * (to * (V * V)) + 1001 / 1000000 * (uu * (T * V))) in Q1 by field. replace (V / 2 * (g * V)) with (g * (V * V) / 2) in Q2 by field. lra. }
    assert (Hp : 0 <= V * h <= V * V / 2) by (split; [apply Rmult_le_pos; lra|replace (V * V / 2) with (V * (V / 2)) by field; apply Rmult_le_compat_l; lra]).
    assert (P2 : Rabs (val l * val w) <= 51 / 100 * (T * V)) by (apply Rabs_le_inv in Pr; apply Rabs_le; lra).
    assert (Big : T * T <= 2 ^ 400) by (replace (2 ^ 400) with (2 ^ 200 * 2 ^ 200) by (rewrite <- pow_add; reflexivity); apply Rmult_le_compat; lra).
    assert (Big2 : 2 ^ 400 < 2 ^ 1023) by (apply Rlt_pow; [lra|lia]).
    destruct (fmul_spec l w Fl Fw) as [FM EM]; [eapply Rle_lt_trans; [exact P2|]; apply Rle_lt_trans with (T * T); [lra|]; eapply Rle_lt_trans; [exact Big|exact Big2]|].
    split; [exact FM|]. replace (val (fmul l w) - V * h) with ((val (fmul l w) - val l * val w) + (val l * val w - V * h)) by ring. eapply Rle_trans; [apply Rabs_triang|].
    assert (uu * Rabs (val l * val w) <= uu * (51 / 100 * (T * V))) by (apply Rmult_le_compat_l; lra). lra.
  Qed.
  (** the exact consequence of an equality of the costs *)
  Lemma cost_real W V1 V2 m m1 m2 to D : 0 < V1 -> 0 < V2 -> W = V1 + V2 -> 0 <= m1 <= V1 -> 0 <= m2 <= V2 -> W * ((W - m) / 2) <= V1 * ((V1 - m1) / 2) + V2 * ((V2 - m2) / 2) + D -> D <= 3 / 2 * to * (W * W) -> m1 + m2 <= m + 3 * to * W.
  Proof.
    intros P1 P2 EW B1 B2 H HD. assert (W0 : 0 < W) by lra. apply (Rmult_le_reg_l W _ _ W0). assert (0 <= V2 * (V1 - m1)) by (apply Rmult_le_pos; lra). assert (0 <= V1 * (V2 - m2)) by (apply Rmult_le_pos; lra). subst W. nra.
  Qed.
  Lemma collapse idx f th c1 w1 l1 c2 w2 l2 c w l : usable idx -> / 2 ^ 200 <= rtotal dr idx <= 2 ^ 200 -> nearly_best tol (s_features s) bm (label s) dr f th idx ->
    filter (below (column f) th) idx <> [] -> filter (not_below (column f) th) idx <> [] ->
    node_info c w l idx -> node_info c1 w1 l1 (filter (below (column f) th) idx) -> node_info c2 w2 l2 (filter (not_below (column f) th) idx) ->
    feq (fmul l w) (fadd (fmul l1 w1) (fmul l2 w2)) = true -> no_better (5 * tol) idx.
  Proof.
    intros U HT NB N1 N2 [_ [Aw [Fl Al]]] [_ [Aw1 [Fl1 Al1]]] [_ [Aw2 [Fl2 Al2]]] Eq. pose proof (usable_filter _ _ U N1) as U1. pose proof (usable_filter _ _ U N2) as U2. destruct (tol_pos idx U) as [TP1 TP2]. pose proof (gam_n idx U) as GN. pose proof (gam_nonneg (s_n_sample s)) as G0.
    pose proof (M_bound _ U) as MB. pose proof (M_bound _ U1) as MB1. pose proof (M_bound _ U2) as MB2. cbv beta in MB, MB1, MB2.
    pose proof (parts_sum (column f) th idx dr) as SW. pose proof (stump_parts (column f) th idx) as SP. fold (rtotal dr idx) in SW.
    assert (PW : forall I, usable I -> 0 < rtotal dr I) by (intros I [N [_ [R _]]]; apply total_pos'; [exact N|]; intros i Hi; apply (R i Hi)). pose proof (PW _ U) as W0. pose proof (PW _ U1) as W1. pose proof (PW _ U2) as W2.
    set (I1 := filter (below (column f) th) idx) in *. set (I2 := filter (not_below (column f) th) idx) in *.
    change (rsum (map dr I1)) with (rtotal dr I1) in SW. change (rsum (map dr I2)) with (rtotal dr I2) in SW.
    set (m := Rabs (rsum (map (fun i => dr i * label s i) idx))) in *. set (m1 := Rabs (rsum (map (fun i => dr i * label s i) I1))) in *. set (m2 := Rabs (rsum (map (fun i => dr i * label s i) I2))) in *.
    set (W := rtotal dr idx) in *. set (V1 := rtotal dr I1) in *. set (V2 := rtotal dr I2) in *.
    assert (M0 : 0 <= m) by apply Rabs_pos. assert (M1 : 0 <= m1) by apply Rabs_pos. assert (M2 : 0 <= m2) by apply Rabs_pos.
    assert (E1 : eta0 <= uu / 1000 * W). { apply Rle_trans with (/ 2 ^ 263); [apply eta_pow; lia|]. apply Rle_trans with (/ 2 ^ 63 * / 2 ^ 200); [rewrite <- Rinv_mult, <- pow_add; apply Rle_refl|]. apply Rmult_le_compat; [left; apply Rinv_0_lt_compat, pow_lt; lra|left; apply Rinv_0_lt_compat, pow_lt; lra|unfold uu; simpl; lra|apply HT]. }
    assert (P2 : 0 < / 2 ^ 200) by (apply Rinv_0_lt_compat, pow_lt; lra).
    assert (E2 : eta0 <= uu / 1000 * (W * W)). { apply Rle_trans with (/ 2 ^ 463); [apply eta_pow; lia|]. apply Rle_trans with (/ 2 ^ 63 * (/ 2 ^ 200 * / 2 ^ 200)); [rewrite <- !Rinv_mult, <- !pow_add; apply Rle_refl|]. apply Rmult_le_compat; [left; apply Rinv_0_lt_compat, pow_lt; lra|apply Rmult_le_pos; lra|unfold uu; simpl; lra|apply Rmult_le_compat; lra]. }
    set (to := tol) in *.
    destruct (prod_near l w W ((W - m) / 2) W to (gam (s_n_sample s)) Fl (proj1 Aw)) as [FP AP]; try lra; [destruct Aw as [_ [_ A]]; exact A|].
    destruct (prod_near l1 w1 V1 ((V1 - m1) / 2) W to (gam (s_n_sample s)) Fl1 (proj1 Aw1)) as [FP1 AP1]; try lra; [destruct Aw1 as [_ [_ A]]; exact A|].
    destruct (prod_near l2 w2 V2 ((V2 - m2) / 2) W to (gam (s_n_sample s)) Fl2 (proj1 Aw2)) as [FP2 AP2]; try lra; [destruct Aw2 as [_ [_ A]]; exact A|].
    assert (WW : 0 < W * W) by (apply Rmult_lt_0_compat; exact W0). assert (S1 : W * V1 + W * V2 = W * W) by (rewrite <- SW; ring). pose proof uu_pos as U0. assert (WV1 : 0 < W * V1) by (apply Rmult_lt_0_compat; assumption). assert (WV2 : 0 < W * V2) by (apply Rmult_lt_0_compat; assumption).
    assert (TS : to * (W * V1) + to * (W * V2) = to * (W * W)) by (rewrite <- S1; ring). assert (UT : uu * (W * W) <= to / 256 * (W * W)) by (apply Rmult_le_compat_r; lra). assert (TW : to * (W * W) <= 1 / 10000 * (W * W)) by (apply Rmult_le_compat_r; lra). assert (UW0 : 0 <= uu * (W * W)) by (apply Rmult_le_pos; lra).
    assert (H1 : 0 <= V1 * ((V1 - m1) / 2) <= W * V1 / 2). { split; [apply Rmult_le_pos; lra|]. replace (W * V1 / 2) with (V1 * (W / 2)) by field. apply Rmult_le_compat_l; lra. }
    assert (H2 : 0 <= V2 * ((V2 - m2) / 2) <= W * V2 / 2). { split; [apply Rmult_le_pos; lra|]. replace (W * V2 / 2) with (V2 * (W / 2)) by field. apply Rmult_le_compat_l; lra. }
    apply Rabs_le_inv in AP. apply Rabs_le_inv in AP1. apply Rabs_le_inv in AP2.
    set (P := val (fmul l w)) in *. assert (PS : Rabs (val (fmul l1 w1) + val (fmul l2 w2)) <= 6 / 10 * (W * W)) by (apply Rabs_le; lra).
    assert (Big : W * W <= 2 ^ 400) by (replace (2 ^ 400) with (2 ^ 200 * 2 ^ 200) by (rewrite <- pow_add; reflexivity); apply Rmult_le_compat; lra).
    assert (Big2 : 2 ^ 400 < 2 ^ 1023) by (apply Rlt_pow; [lra|lia]).
    destruct (fadd_spec (fmul l1 w1) (fmul l2 w2) FP1 FP2) as [FA [e [He EA]]].
    { rewrite big_1024. pose proof uu_small. apply Rle_lt_trans with (W * W); [|generalize dependent (2 ^ 1023); generalize dependent (2 ^ 400); intros; lra]. apply Rle_trans with (6 / 10 * (W * W) * (3 / 2)); [apply Rmult_le_compat; [apply Rabs_pos|lra|exact PS|lra]|lra]. }
    assert (EP : P = (val (fmul l1 w1) + val (fmul l2 w2)) * (1 + e)) by (rewrite <- EA; apply feq_val; assumption).
    assert (UE : Rabs ((val (fmul l1 w1) + val (fmul l2 w2)) * e) <= 6 / 10 * (W * W) * uu) by (rewrite Rabs_mult; apply Rmult_le_compat; try apply Rabs_pos; assumption). apply Rabs_le_inv in UE.
    assert (CR : m1 + m2 <= m + 3 * to * W).
    { apply (cost_real W V1 V2 m m1 m2 to (13 / 10 * to * (W * W)) W1 W2); try lra. }
    assert (SB : Rabs (stump_edge (column f) (label s) dr th idx) <= m1 + m2). { rewrite SP. unfold Rminus. eapply Rle_trans; [apply Rabs_triang|]. rewrite Rabs_Ropp. fold m1 m2. lra. }
    assert (TW0 : 0 <= to * W) by (apply Rmult_le_pos; lra).
    intros f' t' Hf' Ht'. destruct NB as [_ [_ NB]]. specialize (NB f' t' Hf' Ht'). fold W m in NB |- *. change (rtotal dr idx) with W in NB. lra.
  Qed.

  Lemma tree_near depth : forall idx, usable idx -> exists t, f_full_tree sched order fln Edge bm s dist depth idx = Ok t /\ grown_near t depth idx.
  Proof.
    induction depth as [|depth IH]; intros idx F; pose proof F as [_ [_ [R _]]].
    - cbn [f_full_tree]. rewrite (weights_ok s dist Hd) by (intros i Hi; apply R, Hi). cbn [bind]. destruct (info_near idx F) as [conf [loss [E V]]]. rewrite E. cbn [bind]. eexists. split; [reflexivity|exact V].
    - cbn [f_full_tree]. rewrite (weights_ok s dist Hd) by (intros i Hi; apply R, Hi). cbn [bind]. destruct (info_near idx F) as [conf [loss [E V]]]. rewrite E. cbn [bind].
      destruct (feq loss f0); [eexists; split; [reflexivity|exact V]|]. destruct (best_near idx F) as [f [t [Eb NB]]]. rewrite Eb. cbn [bind fst snd]. assert (Hin : In f (s_features s)) by apply NB.
      rewrite (partition_ok s G NN f t idx Hin) by (intros i Hi; apply R, Hi). cbn [bind fst snd]. destruct (filter_column f t idx Hin) as [-> ->]; [intros i Hi; apply R, Hi|].
      destruct (filter (below (column f) t) idx) as [|a A] eqn:EA; [eexists; split; [reflexivity|exact V]|]. destruct (filter (not_below (column f) t) idx) as [|b B] eqn:EB; [eexists; split; [reflexivity|exact V]|].
      cbn [is_nil orb]. rewrite <- EA, <- EB. destruct (IH (filter (below (column f) t) idx)) as [l [El Gl]]; [apply usable_filter; [exact F|rewrite EA; discriminate]|].
      destruct (IH (filter (not_below (column f) t) idx)) as [r [Er Gr]]; [apply usable_filter; [exact F|rewrite EB; discriminate]|]. rewrite El. cbn [bind]. rewrite Er. cbn [bind].
      eexists. split; [reflexivity|]. cbn [grown_near sp_feature sp_threshold]. split; [exact V|]. exists depth, f. split; [reflexivity|]. split; [reflexivity|]. split; [exact NB|]. rewrite EA, EB in *. split; [discriminate|]. split; [discriminate|]. split; assumption.
  Qed.

  Lemma redundant_near t : forall dep idx, grown_near t dep idx -> grown_near (f_remove_redundant t) dep idx.
  Proof.
    induction t as [c0 w l|rule l IHl r IHr c0 w lo]; intros dep idx H; [exact H|]. cbn [f_remove_redundant]. cbn [grown_near] in H. destruct H as [V [dep' [f [H1 [H2 [H3 [H4 [H5 [Gl Gr]]]]]]]]].
    destruct (negb (f_is_leaf l)); [split; [exact V|]; exists dep', f; repeat (split; [solve [auto]|]); auto|].
    destruct (negb (f_is_leaf r)); [split; [exact V|]; exists dep', f; repeat (split; [solve [auto]|]); auto|].
    destruct (feq _ _); [exact V|]. split; [exact V|]; exists dep', f; repeat (split; [solve [auto]|]); auto.
  Qed.
  Lemma near_node t : forall dep idx, grown_near t dep idx -> nearly_greedy tol (s_features s) bm (label s) dr (f_to_node t) dep idx.
  Proof.
    induction t as [c0 w l|rule l IHl r IHr c0 w lo]; intros dep idx H; cbn [f_to_node nearly_greedy grown_near] in *; [destruct H as [[[A B] C] _]; auto|].
    destruct H as [V [dep' [f [H1 [H2 [H3 [H4 [H5 [Gl Gr]]]]]]]]]. exists dep', f. repeat (split; [assumption|]). split; [apply IHl, Gl|apply IHr, Gr].
  Qed.
  Lemma root_near k idx : usable idx -> / 2 ^ 200 <= rtotal dr idx <= 2 ^ 200 -> exists t, f_full_tree sched order fln Edge bm s dist (S k) idx = Ok t /\ grown_near t (S k) idx /\
    match f_remove_redundant t with FTLeaf _ _ _ => no_better (5 * tol) idx | FTBranch _ _ _ _ _ _ => True end.
  Proof.
    intros F HT. pose proof F as [Ne [_ [R _]]]. destruct (tol_pos idx F) as [TP1 TP2]. assert (W0 : 0 < rtotal dr idx) by (apply total_pos'; [exact Ne|]; intros i Hi; apply (R i Hi)).
    assert (TW0 : 0 <= tol * rtotal dr idx) by (apply Rmult_le_pos; [pose proof uu_pos; lra|lra]).
    cbn [f_full_tree]. rewrite (weights_ok s dist Hd) by (intros i Hi; apply R, Hi). cbn [bind]. destruct (info_near idx F) as [conf [loss [E V]]]. rewrite E. cbn [bind].
    destruct (feq loss f0) eqn:Ez.
    { eexists. split; [reflexivity|]. split; [exact V|]. cbn [f_remove_redundant]. destruct V as [_ [_ [Fl Al]]]. apply feq_val in Ez; [|exact Fl|reflexivity]. rewrite val_f0 in Ez. rewrite Ez in Al.
      assert (E1 : eta0 <= uu * rtotal dr idx). { apply Rle_trans with (/ 2 ^ 253); [apply eta_pow; lia|]. apply Rle_trans with (/ 2 ^ 53 * / 2 ^ 200); [rewrite <- Rinv_mult, <- pow_add; apply Rle_refl|]. apply Rmult_le_compat_l; [left; apply Rinv_0_lt_compat, pow_lt; lra|apply HT]. }
      intros f' t' _ _. pose proof (stump_bound (column f') t' idx F) as SB. apply Rabs_le_inv in Al. assert (uu * rtotal dr idx <= tol * rtotal dr idx) by (apply Rmult_le_compat_r; [lra|]; pose proof uu_pos; lra). lra. }
    destruct (best_near idx F) as [f [t [Eb NB]]]. rewrite Eb. cbn [bind fst snd]. assert (Hin : In f (s_features s)) by apply NB.
    rewrite (partition_ok s G NN f t idx Hin) by (intros i Hi; apply R, Hi). cbn [bind fst snd]. destruct (filter_column f t idx Hin) as [-> ->]; [intros i Hi; apply R, Hi|].
    pose proof (stump_parts (column f) t idx) as SP. pose proof (parts_sum (column f) t idx (fun i => dr i * label s i)) as PS.
    assert (Side : forall a b, a + b = rsum (map (fun i => dr i * label s i) idx) -> a = 0 \/ b = 0 -> stump_edge (column f) (label s) dr t idx = b - a -> no_better (5 * tol) idx).
    { intros a b S0 Z0 SE f' t' Hf' Ht'. destruct NB as [_ [_ NB]]. specialize (NB f' t' Hf' Ht'). rewrite SE in NB. rewrite <- S0. destruct Z0 as [-> | ->].
      - rewrite Rminus_0_r, Rplus_0_l in *. lra.
      - replace (0 - a) with (- a) in NB by ring. rewrite Rabs_Ropp in NB. rewrite Rplus_0_r. lra. }
    destruct (filter (below (column f) t) idx) as [|a A] eqn:EA; [eexists; split; [reflexivity|split; [exact V|]]; cbn [f_remove_redundant]; apply (Side _ _ PS); [left; reflexivity|exact SP]|].
    destruct (filter (not_below (column f) t) idx) as [|b B] eqn:EB; [eexists; split; [reflexivity|split; [exact V|]]; cbn [f_remove_redundant]; apply (Side _ _ PS); [right; reflexivity|exact SP]|].
    cbn [is_nil orb]. rewrite <- EA, <- EB in *. destruct (tree_near k (filter (below (column f) t) idx)) as [l [El Gl]]; [apply usable_filter; [exact F|rewrite EA; discriminate]|].
    destruct (tree_near k (filter (not_below (column f) t) idx)) as [r [Er Gr]]; [apply usable_filter; [exact F|rewrite EB; discriminate]|]. rewrite El. cbn [bind]. rewrite Er. cbn [bind].
    assert (NA : filter (below (column f) t) idx <> []) by (rewrite EA; discriminate). assert (NBn : filter (not_below (column f) t) idx <> []) by (rewrite EB; discriminate).
    eexists. split; [reflexivity|]. split.
    - cbn [grown_near sp_feature sp_threshold]. split; [exact V|]. exists k, f. split; [reflexivity|]. split; [reflexivity|]. split; [exact NB|]. split; [exact NA|]. split; [exact NBn|]. split; assumption.
    - cbn [f_remove_redundant]. destruct l as [c1 w1 l1|]; [|exact I]. destruct r as [c2 w2 l2|]; [|exact I]. cbn [f_is_leaf negb f_node_cost]. destruct (feq (fmul loss (sched (map d idx))) (fadd (fmul l1 w1) (fmul l2 w2))) eqn:Ec; [|exact I]. cbn [grown_near] in Gl, Gr.
      apply (collapse idx f t c1 w1 l1 c2 w2 l2 conf (sched (map d idx)) loss); try assumption.
  Qed.
End GrowE.
