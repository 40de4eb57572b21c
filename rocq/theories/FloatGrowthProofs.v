(** Growing a whole tree on binary64 weights *)
From Coq Require Import ZArith List Bool Reals Lia Lra Psatz Permutation String.
From Flocq Require Import Core.Core IEEE754.BinarySingleNaN Relative Plus_error.
From Verif Require Import Base Feature FeatureFacts Sample SampleFacts Bins BinsSpec BinsProofs BinsFacts TreeSpec DTree DTreeGrow TreeShape Float FloatSpec FloatProofs FloatFacts FloatCheckFacts FloatMedianFacts FloatTree FloatTreeSpec FloatTreeProofs FloatPackProofs FloatTwoingProofs FloatGrowProofs.
Import ListNotations.
Open Scope R_scope.
Local Notation total := FloatSpec.total.

(** ** lists of weights *)
Lemma total_pos (l : list f64) : (forall x, In x l -> 0 <= val x) -> 0 <= total l.
Proof. induction l as [|a l IH]; intros H; [unfold total; simpl; lra|]. rewrite total_cons. assert (0 <= val a) by (apply H; left; reflexivity). assert (0 <= total l) by (apply IH; intros; apply H; right; assumption). lra. Qed.
Lemma total_filter {A} (g : A -> f64) (p : A -> bool) (l : list A) : (forall x, In x l -> 0 <= val (g x)) -> total (map g (filter p l)) <= total (map g l).
Proof.
  induction l as [|a l IH]; intros H; [simpl; apply Rle_refl|]. assert (0 <= val (g a)) by (apply H; left; reflexivity). assert (I : total (map g (filter p l)) <= total (map g l)) by (apply IH; intros; apply H; right; assumption).
  cbn [filter map]. rewrite total_cons. destruct (p a); cbn [map]; [rewrite total_cons|]; lra.
Qed.

Lemma in_flat_ents z w l : In w (ents z l) -> In (z, w) l. Proof. apply ents_in. Qed.

(** ** one feature *)
Section Grow.
  Variables (sched : list f64 -> f64) (order : flw -> flw) (fln : f64 -> f64).
  Hypothesis Hs : summing sched.
  Hypothesis Ho : some_order order.
  Hypothesis Hln : sane_ln fln.
  Variables (s : sample) (dist : list f64) (bm : list (string * list bin)) (c : criterion) (delta : R).
  Hypothesis G : good s.
  Hypothesis NN : NoDup (map feat_name (s_features s)).
  Hypothesis Hf : s_features s <> [].
  Hypothesis Ht : length (s_target s) = s_n_sample s.
  Hypothesis Hd : length dist = s_n_sample s.
  Hypothesis Hv : forall f i, In f (s_features s) -> (i < s_n_sample s)%nat -> F64MIN <= fval f i < F64MAX.
  Hypothesis Hb : forall f, In f (s_features s) -> exists bins, sm_get bm (feat_name f) = Ok bins /\ chain F64MIN F64MAX bins /\ INR (2 * s_n_sample s + length bins) <= 2 ^ 32.
  Hypothesis Hdel : 0 < delta.
  Local Notation d i := (nth i dist f0).
  Local Notation D idx := (total (map (fun i => nth i dist f0) idx)).

  Definition fine (idx : list nat) : Prop :=
    idx <> [] /\ (length idx <= s_n_sample s)%nat /\ (forall i, In i idx -> (i < s_n_sample s)%nat /\ fin (d i) /\ delta <= val (d i)) /\ D idx < 2 ^ 1000 /\
    (c = Gini -> INR (length idx) * D idx <= 2 ^ 49 * delta).

  Lemma fine_filter p idx : fine idx -> filter p idx <> [] -> fine (filter p idx).
  Proof.
    intros [N [L [R [B Q]]]] Nf. assert (Lf : (length (filter p idx) <= length idx)%nat) by apply filter_le_len.
    assert (Pd : forall i, In i idx -> 0 <= val (d i)) by (intros i Hi; destruct (R i Hi) as [_ [_ P]]; lra).
    assert (T : D (filter p idx) <= D idx) by (apply (total_filter (fun i => d i)); exact Pd).
    split; [exact Nf|]. split; [lia|]. split; [intros i Hi; apply R; apply filter_In in Hi; apply Hi|]. split; [lra|].
    intros E. eapply Rle_trans; [|apply Q, E]. apply Rmult_le_compat; [apply pos_INR| |apply le_INR, Lf|exact T].
    apply total_pos. intros x Hx. apply in_map_iff in Hx. destruct Hx as [i [<- Hi]]. apply Pd. apply filter_In in Hi. apply Hi.
  Qed.

  Lemma feature_ok f idx : In f (s_features s) -> fine idx -> exists bins pack ts, sm_get bm (feat_name f) = Ok bins /\ f_dt_pack sched order bins idx f (s_target s) dist = Ok pack /\
    f_split_by sched fln c pack = Ok ts /\ is_nan (snd ts) = false.
  Proof.
    intros Hin [N [L [R [B Q]]]]. destruct (Hb f Hin) as [bins [Eb [Cb Nb]]]. exists bins.
    assert (HN : INR (2 * length idx + length bins) <= 2 ^ 32) by (eapply Rle_trans; [apply le_INR|exact Nb]; lia).
    destruct (packed_ok sched order bins f (s_target s) dist (fval f) F64MIN F64MAX delta idx Hs Ho Cb N) as [pack [Ep [P1 [P2 [P3 P4]]]]].
    { intros i Hi. destruct (R i Hi) as [R1 [R2 R3]]. split; [apply (feat_index_ok (s_n_sample s)); [pose proof (good_cols s G) as F; rewrite Forall_forall in F; apply F, Hin|exact R1]|].
      split; [apply Hv; assumption|]. split; [lia|]. split; [lia|]. split; [exact R2|]. split; lra. }
    { exact HN. }
    { exact B. }
    destruct (packed_keys _ _ _ _ _ _ _ _ Ho Ep) as [K1 K2]. exists pack.
    assert (HN2 : INR (2 * length idx) <= 2 ^ 32) by (eapply Rle_trans; [apply le_INR|exact HN]; lia).
    assert (P2' : forall p, In p (flat pack) -> fin (snd p) /\ 0 <= val (snd p)) by (intros p Hp; destruct (P2 p Hp) as [A1 A2]; split; [exact A1|lra]).
    assert (Ex : exists ts, f_split_by sched fln c pack = Ok ts /\ is_nan (snd ts) = false).
    { destruct c eqn:Ec; cbn [f_split_by].
      - unfold f_split_by_entropy. destruct (keep_ok sched (f_entropic_impurity sched fln) pack) as [r Er]. exists r. split; [exact Er|].
        unfold f_split_by_impurity in Er. apply (loop_num _ _ _ _ _ _ _ _ _ _ Er). rewrite all_right_flat. apply (entropy_num sched fln (flat pack) (length idx)); assumption.
      - exists (f_split_by_edge sched pack). split; [reflexivity|]. apply edge_num; [exact Hs| | |].
        + intros p Hp. destruct (P2 p Hp) as [A1 A2]. split; [exact A1|]. split; [exact A2|apply K1, Hp].
        + eapply Rle_trans; [apply le_INR|exact HN]. lia.
        + eapply Rle_trans; [apply le_INR|exact HN]. lia.
      - unfold f_split_by_gini. specialize (Q eq_refl). assert (L1 : 1 <= INR (length idx)) by (change 1 with (INR 1); apply le_INR; destruct idx; [congruence|simpl; lia]).
        assert (DP : 0 < D idx). { destruct idx as [|i l]; [congruence|]. cbn [map]. rewrite total_cons. destruct (R i (or_introl eq_refl)) as [_ [_ R3]]. assert (0 <= total (map (fun i => d i) l)) by (apply total_pos; intros x Hx; apply in_map_iff in Hx; destruct Hx as [j [<- Hj]]; destruct (R j (or_intror Hj)) as [_ [_ R4]]; lra). lra. }
        assert (Q0 : D idx <= INR (length idx) * D idx) by (rewrite <- (Rmult_1_l (D idx)) at 1; apply Rmult_le_compat_r; lra).
        destruct P4 as [P4 P5]. { eapply Rle_trans; [exact Q0|]. eapply Rle_trans; [exact Q|]. apply Rmult_le_compat_r; [lra|]. apply Rle_pow; [lra|lia]. }
        assert (Qd : INR (length idx) <= 2 ^ 49 * (delta / D idx)) by (apply Rmult_le_reg_r with (D idx); [exact DP|]; replace (2 ^ 49 * (delta / D idx) * D idx) with (2 ^ 49 * delta) by (field; lra); exact Q).
        assert (Dd : 0 < delta / D idx) by (apply Rdiv_lt_0_compat; assumption).
        assert (Tz : forall z, total (ents z (flat pack)) <= 101 / 100).
        { intros z. unfold ents. eapply Rle_trans; [apply (total_filter (@snd Z f64)); intros x Hx; apply P2', Hx|exact P5]. }
        destruct (drop_ok sched (f_gini_impurity sched) pack) as [r Er].
        + intros z. cbv zeta. intros w Hw. apply ents_in in Hw. destruct (P2 _ Hw) as [A1 A2]. specialize (P4 _ Hw). cbn [snd] in *. split; [exact A1|]. split; [lra|].
          assert (Le : INR (length (ents z (flat pack))) <= INR (length idx)) by (apply le_INR; unfold ents; rewrite map_length; eapply Nat.le_trans; [apply filter_le_len|exact P1]).
          assert (Tp : 0 <= total (ents z (flat pack))) by (apply total_pos; intros x Hx; apply ents_in in Hx; apply (P2' _ Hx)).
          apply Rle_lt_trans with (INR (length idx) * (101 / 100)); [apply Rmult_le_compat; auto using pos_INR|].
          assert (P50 : 2 ^ 50 = 2 * 2 ^ 49) by (simpl; lra). rewrite P50. pose proof (pow_lt 2 49 ltac:(lra)) as P49.
          assert (2 ^ 49 * (99 / 100 * (delta / D idx)) <= 2 ^ 49 * val w) by (apply Rmult_le_compat_l; [lra|exact P4]).
          assert (0 < 2 ^ 49 * (delta / D idx)) by (apply Rmult_lt_0_compat; assumption). generalize dependent (2 ^ 49). intros. lra.
        + intros z. eapply Rle_lt_trans; [apply Tz|]. apply Rlt_le_trans with (2 ^ 1); [simpl; lra|apply Rle_pow; [lra|lia]].
        + exists r. split; [exact Er|]. unfold f_split_by_impurity in Er. apply (loop_num _ _ _ _ _ _ _ _ _ _ Er). apply gini_num.
      - apply (twoing_ok sched pack (length idx)); assumption. }
    destruct Ex as [ts [E1 E2]]. exists ts. auto.
  Qed.

  Lemma eval_ok idx : fine idx -> forall fs, (forall f, In f fs -> In f (s_features s)) -> exists l, f_eval_features sched order fln c bm (s_target s) dist idx fs = Ok l /\ length l = length fs /\
    forall q, In q l -> is_nan (fst (fst q)) = false /\ exists f, In f fs /\ snd (fst q) = feat_name f.
  Proof.
    intros F. induction fs as [|f fs IH]; intros Hi; [exists []; split; [reflexivity|split; [reflexivity|intros q []]]|].
    destruct (feature_ok f idx (Hi f (or_introl eq_refl)) F) as [bins [pack [ts [E1 [E2 [E3 E4]]]]]]. destruct IH as [l [El [Ll Hl]]]; [intros; apply Hi; right; assumption|].
    cbn [f_eval_features]. rewrite E1. cbn [bind]. rewrite E2. cbn [bind]. rewrite E3. cbn [bind]. rewrite El. cbn [bind]. eexists. split; [reflexivity|]. split; [simpl; lia|].
    intros q [<- |Hq]; [split; [exact E4|exists f; split; [left; reflexivity|reflexivity]]|]. destruct (Hl q Hq) as [A [g [B1 B2]]]. split; [exact A|]. exists g. split; [right; exact B1|exact B2].
  Qed.

  Lemma pick_min_in l : forall x, In (f_pick_min x l) (x :: l).
  Proof. induction l as [|a l IH]; intros x; [left; reflexivity|]. cbn [f_pick_min]. destruct (flt _ _); [right; apply IH|]. destruct (IH x) as [E|E]; [left; exact E|right; right; exact E]. Qed.
  Lemma pick_max_in l : forall x, In (f_pick_max x l) (x :: l).
  Proof. induction l as [|a l IH]; intros x; [left; reflexivity|]. cbn [f_pick_max]. destruct (flt _ _); [|right; apply IH]. destruct (IH x) as [E|E]; [left; exact E|right; right; exact E]. Qed.

  Lemma best_ok idx : fine idx -> exists f t, f_best_split sched order fln c bm s dist idx = Ok (feat_name f, t) /\ In f (s_features s).
  Proof.
    intros F. unfold f_best_split. destruct (eval_ok idx F (s_features s) (fun f H => H)) as [l [E [L H]]]. rewrite E. cbn [bind].
    destruct l as [|x t]; [destruct (s_features s); [congruence|discriminate]|].
    match goal with |- context [existsb ?g ?l] => assert (Ex : existsb g l = false) end.
    { apply not_true_is_false. intros Q. apply existsb_exists in Q. destruct Q as [q [Q1 Q2]]. destruct (H q Q1) as [Q3 _]. exact (eq_true_false_abs _ Q2 Q3). }
    rewrite Ex, andb_false_r. set (r := match c with Entropy | Gini => f_pick_min x t | _ => f_pick_max x t end).
    assert (Ir : In r (x :: t)) by (unfold r; destruct c; auto using pick_min_in, pick_max_in). destruct (H r Ir) as [_ [f [F1 F2]]].
    exists f, (snd r). split; [|exact F1]. destruct r as [[a nm] th]. cbn [fst snd] in *. rewrite F2. reflexivity.
  Qed.

  (** ** leaves *)
  Lemma weights_ok idx : (forall i, In i idx -> (i < s_n_sample s)%nat) -> f_weights_at dist idx = Ok (map (fun i => d i) idx).
  Proof.
    induction idx as [|i idx IH]; intros H; [reflexivity|]. cbn [f_weights_at]. rewrite f_get_ok by (rewrite Hd; apply H; left; reflexivity). cbn [bind]. rewrite IH by (intros; apply H; right; assumption). reflexivity.
  Qed.
  Lemma count_ok idx : (forall i, In i idx -> (i < s_n_sample s)%nat) -> forall m, f_count_labels (s_target s) dist idx m = Ok (fold_left fadd_all (map (fun i => (as_int 64 (nth i (s_target s) 0), d i)) idx) m).
  Proof.
    induction idx as [|i idx IH]; intros H m; [reflexivity|]. cbn [f_count_labels map fold_left]. rewrite get_ok by (rewrite Ht; apply H; left; reflexivity). cbn [bind].
    rewrite f_get_ok by (rewrite Hd; apply H; left; reflexivity). cbn [bind]. rewrite IH by (intros; apply H; right; assumption). reflexivity.
  Qed.
  Lemma max_in l : forall x, In (f_max_entry x l) (x :: l).
  Proof. induction l as [|a l IH]; intros x; [left; reflexivity|]. cbn [f_max_entry]. destruct (flt _ _); [|right; apply IH]. destruct (IH x) as [E|E]; [left; exact E|right; right; exact E]. Qed.

  Lemma clamp_value x : fin x -> confidence_value (f_clamp1 x).
  Proof.
    intros F. destruct fm1_spec as [M1 M2]. destruct f1_spec as [O1 O2]. unfold f_clamp1. destruct (flt x (f_of_Z (-1))) eqn:E1; [split; [exact M1|rewrite M2; lra]|].
    destruct (flt f1 x) eqn:E2; [split; [exact O1|rewrite O2; lra]|]. split; [exact F|].
    assert (A : ~ val x < -1) by (intros Q; rewrite <- M2 in Q; apply (flt_true x (f_of_Z (-1)) F M1) in Q; congruence).
    assert (B : ~ 1 < val x) by (intros Q; rewrite <- O2 in Q; apply (flt_true f1 x O1 F) in Q; congruence). lra.
  Qed.

  Lemma conf_ok idx : fine idx -> exists conf loss, f_confidence_and_loss sched order (s_target s) dist idx = Ok (conf, loss) /\ confidence_value conf.
  Proof.
    intros [N [L [R [B _]]]]. unfold f_confidence_and_loss. assert (Nn : is_nil idx = false) by (destruct idx; [congruence|reflexivity]). rewrite Nn. cbn [negb assert_ bind].
    rewrite count_ok by (intros i Hi; apply R, Hi). cbn [bind]. set (ents0 := map (fun i => (as_int 64 (nth i (s_target s) 0), d i)) idx). set (m := fold_left fadd_all ents0 []).
    assert (Sn : map snd ents0 = map (fun i => d i) idx) by (unfold ents0; rewrite map_map; reflexivity).
    assert (L2 : INR (2 * length idx) <= 2 ^ 32).
    { destruct (s_features s) as [|f fs] eqn:Ef; [congruence|]. destruct (Hb f) as [bins [_ [_ Q]]]; [try rewrite Ef; left; reflexivity|]. eapply Rle_trans; [apply le_INR|exact Q]. lia. }
    assert (Le : length ents0 = length idx) by (unfold ents0; apply map_length).
    assert (B20 : 2 ^ 1000 <= 2 ^ 1020) by (apply Rle_pow; [lra|lia]).
    assert (Hp : forall p, In p ents0 -> fin (snd p) /\ 0 <= val (snd p) /\ delta <= val (snd p)).
    { intros p Hp. unfold ents0 in Hp. apply in_map_iff in Hp. destruct Hp as [i [<- Hi]]. cbn [snd]. destruct (R i Hi) as [_ [R2 R3]]. split; [exact R2|]. split; lra. }
    destruct (fold_acc delta ents0 0 [] []) as [Xs [HX [HXs HXl]]].
    { exact Hp. }
    { rewrite Le. eapply Rle_trans; [apply le_INR|exact L2]. lia. }
    { constructor. }
    { change (rsum []) with 0. rewrite Rplus_0_l. unfold f64 in *. rewrite Sn. eapply Rlt_le_trans; [exact B|exact B20]. }
    fold m in HX, HXl. change (rsum []) with 0 in HXs. rewrite Rplus_0_l in HXs. cbn [length] in HXl. rewrite Nat.add_0_l in *. rewrite Le in *.
    assert (Hx : total (map snd ents0) = D idx) by (unfold f64 in *; rewrite Sn; reflexivity). rewrite Hx in HXs.
    assert (DP : 0 < D idx). { destruct idx as [|i l]; [congruence|]. cbn [map]. rewrite total_cons. destruct (R i (or_introl eq_refl)) as [_ [_ R3]]. assert (0 <= total (map (fun i => d i) l)) by (apply total_pos; intros x Hx'; apply in_map_iff in Hx'; destruct Hx' as [j [<- Hj]]; destruct (R j (or_intror Hj)) as [_ [_ R4]]; lra). lra. }
    set (tot := sched (map snd m)). assert (At : acc (2 * length idx) tot (rsum Xs)).
    { apply (acc_le (length idx + length (map snd m))); [rewrite map_length; flia|]. unfold tot. apply sched_acc; [exact Hs| |rewrite map_length; eapply Rle_trans; [apply le_INR|exact L2]; flia|rewrite HXs; eapply Rlt_le_trans; [exact B|exact B20]].
      clear -HX. induction HX as [|p X m Xs [Hp _] HX IH]; cbn [map]; constructor; assumption. }
    assert (TP : flt f0 tot = true).
    { apply flt_true; [reflexivity|apply At|]. rewrite val_f0. destruct At as [_ [_ A]]. pose proof (gam_30 _ L2) as G30. unfold approx in A. apply Rabs_le_inv in A. rewrite HXs in A. assert (/ 2 ^ 20 <= / 2) by (simpl; lra).
      assert (gam (2 * length idx) * D idx <= / 2 * D idx) by (apply Rmult_le_compat_r; lra). lra. }
    pose proof (Ho m) as Po.
    assert (Ex : forall p, In p m -> exists X, acc (length idx) (snd p) X /\ X <= rsum Xs).
    { clear -HX. intros p Hp. induction HX as [|q X m Xs [Hq _] HX IH]; [destruct Hp|]. pose proof (eacc_sum _ _ _ _ HX) as P. assert (0 <= X) by apply Hq. destruct Hp as [<- |Hp].
      - exists X. simpl. split; [exact Hq|lra].
      - destruct (IH Hp) as [X' [A1 A2]]. exists X'. simpl. split; [exact A1|lra]. }
    destruct (order m) as [|x t] eqn:Eo.
    { exfalso. apply Permutation_nil in Po. rewrite Po in HX. inversion HX; subst. simpl in HXs. lra. }
    match goal with |- context [existsb ?g ?l] => assert (Nan : existsb g l = false) end.
    { apply not_true_is_false. intros Q. apply existsb_exists in Q. destruct Q as [q [Q1 Q2]]. apply (Permutation_in _ Po) in Q1. destruct (Ex q Q1) as [X [[F _] _]]. exact (eq_true_false_abs _ Q2 (fin_num _ F)). }
    rewrite Nan, andb_false_r, TP. pose proof (max_in t x) as Im. destruct (f_max_entry x t) as [label p] eqn:Em. apply (Permutation_in _ Po) in Im.
    destruct (Ex _ Im) as [X [AX LX]]. cbn [snd] in AX. assert (AX' : acc (2 * length idx) p X) by (apply (acc_le (length idx)); [lia|exact AX]).
    assert (DP' : 0 < rsum Xs) by (rewrite HXs; exact DP). destruct (div_acc _ _ _ _ _ L2 AX' At DP' LX) as [Fq [[_ U] Pq]].
    assert (X / rsum Xs <= 1) by (apply (proj2 (Rdiv_le_iff X 1 (rsum Xs) DP')); lra). pose proof eta0_small. assert (/ 2 ^ 100 <= / 2) by (simpl; lra).
    assert (Bq : Rabs (val (fdiv p tot)) <= 2 ^ 1) by (rewrite Rabs_pos_eq by exact Pq; simpl; lra).
    destruct f2_spec as [T1 T2]. destruct f1_spec as [O1 O2].
    destruct (fmul_mod f2 (fdiv p tot) 1 1 T1 Fq) as [F2 B2]; [rewrite T2, Rabs_pos_eq; simpl; lra|exact Bq|lia|].
    destruct (fsub_mod (fmul f2 (fdiv p tot)) f1 3 F2 O1) as [F3 B3]; [exact B2|rewrite O2, Rabs_R1; simpl; lra|lia|].
    assert (Kl : (Z.abs label <= 2 ^ 63)%Z).
    { assert (Ik : In label (fkeys m)) by (unfold fkeys; change label with (fst (label, p)); apply in_map, Im). clear -Ik. unfold m in Ik.
      assert (Gk : forall l (m : flw), In label (fkeys (fold_left fadd_all l m)) -> In label (fkeys m) \/ In label (map fst l)).
      { clear. induction l as [|[z w] l IH]; intros m H; [left; exact H|]. cbn [fold_left fst snd] in H. apply IH in H. destruct H as [H|H]; [|right; right; exact H]. apply add_keys in H. destruct H as [-> |H]; [right; left; reflexivity|left; exact H]. }
      apply Gk in Ik. destruct Ik as [[]|Ik]. unfold ents0 in Ik. rewrite map_map in Ik. apply in_map_iff in Ik. destruct Ik as [i [<- _]]. cbn [fst]. apply as_int_abs. lia. }
    destruct (f_of_Z_spec label Kl) as [Fz Bz]. destruct (fmul_mod (f_of_Z label) _ 63 5 Fz F3 Bz B3) as [F4 _]; [lia|].
    eexists. eexists. split; [reflexivity|]. apply clamp_value, F4.
  Qed.

  (** ** the tree *)
  Fixpoint grown_ok (t : f_train_node) : Prop :=
    match t with
    | FTLeaf c _ _ => confidence_value c
    | FTBranch rule l r c _ _ => confidence_value c /\ (exists f, In f (s_features s) /\ sp_feature rule = feat_name f) /\ grown_ok l /\ grown_ok r
    end.

  Lemma tree_ok depth : forall idx, fine idx -> exists t, f_full_tree sched order fln c bm s dist depth idx = Ok t /\ grown_ok t.
  Proof.
    induction depth as [|depth IH]; intros idx F.
    - cbn [f_full_tree]. rewrite weights_ok by (intros i Hi; apply F, Hi). cbn [bind]. destruct (conf_ok idx F) as [conf [loss [E V]]]. rewrite E. cbn [bind]. eexists. split; [reflexivity|exact V].
    - cbn [f_full_tree]. rewrite weights_ok by (intros i Hi; apply F, Hi). cbn [bind]. destruct (conf_ok idx F) as [conf [loss [E V]]]. rewrite E. cbn [bind].
      destruct (feq loss f0); [eexists; split; [reflexivity|exact V]|]. destruct (best_ok idx F) as [f [t [Eb Hin]]]. rewrite Eb. cbn [bind fst snd].
      rewrite (partition_ok s G NN f t idx Hin) by (intros i Hi; apply F, Hi). cbn [bind fst snd].
      destruct (filter (below (fval f) t) idx) as [|a A] eqn:EA; [eexists; split; [reflexivity|exact V]|]. destruct (filter (not_below (fval f) t) idx) as [|b B] eqn:EB; [eexists; split; [reflexivity|exact V]|].
      cbn [is_nil orb]. rewrite <- EA, <- EB. destruct (IH (filter (below (fval f) t) idx)) as [l [El Gl]]; [apply fine_filter; [exact F|rewrite EA; discriminate]|].
      destruct (IH (filter (not_below (fval f) t) idx)) as [r [Er Gr]]; [apply fine_filter; [exact F|rewrite EB; discriminate]|]. rewrite El. cbn [bind]. rewrite Er. cbn [bind].
      eexists. split; [reflexivity|]. cbn [grown_ok sp_feature]. split; [exact V|]. split; [exists f; split; [exact Hin|reflexivity]|]. split; assumption.
  Qed.

  Lemma redundant_ok t : grown_ok t -> grown_ok (f_remove_redundant t).
  Proof.
    induction t as [c0 w l|rule l IHl r IHr c0 w lo]; [intros H; exact H|]. intros [V [Hr [Gl Gr]]]. cbn [f_remove_redundant].
    destruct (negb (f_is_leaf l)); [cbn [grown_ok]; auto|]. destruct (negb (f_is_leaf r)); [cbn [grown_ok]; auto|]. destruct (feq _ _); [exact V|cbn [grown_ok]; auto].
  Qed.
End Grow.
