(** Facts about the histogram bins: C24, C60. *)
From Coq Require Import String.
From Coq Require Import Floats.SpecFloat.
From Verif Require Import Base Spec BinSearch Feature Sample SampleSpec FeatureFacts SampleFacts Bins BinsSpec BinsProofs BinsFloat TreeSpec DTree TreeShape.
Open Scope R_scope.

(** ** C24: bins *)
Lemma P_C24_bins :
  forall f n mn mx, spans f mn mx -> (forall x, In x (stored f) -> moderate x) ->
  match cut f n with
  | Ok bins =>
      length bins = n /\ chain F64MIN F64MAX bins /\
      (forall x, F64MIN <= x < F64MAX -> one_bin bins x) /\
      (forall k, (S k < n)%nat -> b_end (nth k bins (mkBin 0 0)) = (if Req_EM_T mn mx then mn - / 1000 else mn) + INR (S k) * bin_width mn mx n)
  | Panic _ => n = 0%nat \/ ((1 < n)%nat /\ bin_width mn mx n < / 10 ^ 9)
  end.
Proof.
  intros f n mn mx Hs Hm. pose proof (cut_spec f n mn mx Hs Hm) as S. destruct (cut f n) as [bins|]; [|exact S].
  destruct S as [A [_ [C D]]]. split; [exact A|]. split; [exact C|]. split; [intros x Hx; apply (chain_one_bin bins F64MIN F64MAX); assumption|]. exact D.
Qed.

Lemma P_C24_bins_exist :
  forall f n mn mx, spans f mn mx -> (forall x, In x (stored f) -> moderate x) ->
  n = 1%nat \/ ((1 < n)%nat /\ / 10 ^ 9 <= bin_width mn mx n) -> exists bins, cut f n = Ok bins.
Proof.
  intros f n mn mx Hs Hm Hn. pose proof (cut_spec f n mn mx Hs Hm) as S. destruct (cut f n) as [bins|]; [eauto|]. exfalso.
  destruct S as [->|[S1 S2]]; destruct Hn as [Hn|[Hn1 Hn2]]; try lia; try lra.
Qed.

Lemma P_C24_pack_bin :
  forall bins x, chain F64MIN F64MAX bins -> F64MIN <= x < F64MAX ->
  exists k, find_bin bins x = Ok k /\ (k < length bins)%nat /\ in_bin (nth k bins (mkBin 0 0)) x /\
    forall j, (j < length bins)%nat -> in_bin (nth j bins (mkBin 0 0)) x -> j = k.
Proof.
  intros bins x C Hx. destruct (find_bin_ok bins _ _ x C Hx) as [k [E [Hk Hin]]]. exists k. split; [exact E|]. split; [exact Hk|]. split; [exact Hin|].
  intros j Hj Hjin. exact (chain_unique bins _ _ x j k C Hj Hk Hjin Hin).
Qed.

(** a column with the values 0, 1, 3 in two bins *)
Example C24_bins_case : spans (Dense "a" [0; 1; 3]) 0 3 /\ (forall x, In x (stored (Dense "a" [0; 1; 3])) -> moderate x) /\ exists bins, cut (Dense "a" [0; 1; 3]) 2 = Ok bins.
Proof.
  pose proof F64MAX_big as B.
  assert (H1 : spans (Dense "a" [0; 1; 3]) 0 3). { split; [simpl; auto|]. split; [simpl; auto|]. intros x [<-|[<-|[<-|[]]]]; lra. }
  assert (H2 : forall x, In x (stored (Dense "a" [0; 1; 3])) -> moderate x). { intros x [<-|[<-|[<-|[]]]]; unfold moderate; rewrite Rabs_pos_eq; lra. }
  split; [exact H1|]. split; [exact H2|]. apply (P_C24_bins_exist _ 2 0 3 H1 H2). right. split; [lia|]. unfold bin_width. destruct (Req_EM_T 0 3); [lra|]. simpl. lra.
Qed.


(** ** building the learner *)
Lemma all_values n f x : (0 < n)%nat -> col_ok n f ->
  (exists i, (i < n)%nat /\ fval f i = x) <-> In x (match f with Dense _ v => v | Sparse _ e n => map snd e ++ (if Nat.ltb (length e) n then [0] else []) end).
Proof.
  intros Hn Hc. destruct f as [nm v|nm e m]; simpl in *.
  - split.
    + intros [i [Hi <-]]. apply nth_In. lia.
    + intros H. apply (In_nth _ _ 0) in H. destruct H as [k [Hk E]]. exists k. split; [lia|exact E].
  - destruct Hc as [-> [Hi Hb]]. pose proof (SS_lt_nodup (map fst e) Hi) as Nd. split.
    + intros [i [Hin <-]]. destruct (sparse_index_spec e i Hi) as [I1 I2]. destruct (entry_dec e i) as [[v Hv]|Hno].
      * rewrite (I1 v Hv). apply in_or_app. left. apply (in_map snd) in Hv. exact Hv.
      * rewrite (I2 Hno). apply in_or_app. right.
        assert (L : (length e < n)%nat).
        { assert (N2 : NoDup (i :: map fst e)) by (constructor; [|exact Nd]; intros H; apply in_map_iff in H; destruct H as [[j v] [<- Hv]]; exact (Hno v Hv)).
          assert (I : incl (i :: map fst e) (seq 0 n)). { intros j [<-|Hj]; apply in_seq; [lia|]. apply in_map_iff in Hj. destruct Hj as [[j' v] [<- Hv]]. specialize (Hb _ _ Hv). simpl. lia. }
          pose proof (NoDup_incl_length N2 I) as L. simpl in L. rewrite map_length, seq_length in L. lia. }
        apply Nat.ltb_lt in L. rewrite L. left. reflexivity.
    + intros H. apply in_app_or in H. destruct H as [H|H].
      * apply in_map_iff in H. destruct H as [[i v] [<- Hv]]. exists i. split; [exact (Hb i v Hv)|]. destruct (sparse_index_spec e i Hi) as [I1 _]. exact (I1 v Hv).
      * destruct (Nat.ltb_spec (length e) n) as [L|L]; [|destruct H]. destruct H as [<-|[]].
        assert (Q : exists i, In i (seq 0 n) /\ ~ In i (map fst e)).
        { destruct (Exists_dec (fun i => ~ In i (map fst e)) (seq 0 n)) as [D|D].
          - intros i. destruct (in_dec Nat.eq_dec i (map fst e)); [right; tauto|left; assumption].
          - apply Exists_exists in D. exact D.
          - exfalso. assert (I : incl (seq 0 n) (map fst e)).
            { intros i Hi'. destruct (in_dec Nat.eq_dec i (map fst e)) as [H|H]; [exact H|]. exfalso. apply D. apply Exists_exists. exists i. auto. }
            pose proof (NoDup_incl_length (seq_NoDup n 0) I) as L'. rewrite map_length, seq_length in L'. lia. }
        destruct Q as [i [Hi1 Hi2]]. apply in_seq in Hi1. exists i. split; [lia|]. destruct (sparse_index_spec e i Hi) as [_ I2]. apply I2. intros v Hv. apply Hi2. apply (in_map fst) in Hv. exact Hv.
Qed.

Lemma extremes (l : list R) : l <> [] -> exists mn mx, In mn l /\ In mx l /\ forall x, In x l -> mn <= x <= mx.
Proof.
  destruct l as [|a l]; [congruence|]. intros _. destruct (fold_min l a) as [A1 [A2 A3]]. destruct (fold_max l a) as [B1 [B2 B3]]. cbv zeta in *.
  exists (fold_left Rmin l a), (fold_left Rmax l a). split; [destruct A3 as [->|A3]; [left; reflexivity|right; exact A3]|]. split; [destruct B3 as [->|B3]; [left; reflexivity|right; exact B3]|].
  intros x [<-|Hx]; [lra|]. split; [apply A2, Hx|apply B2, Hx].
Qed.
Lemma spans_exists n f : (0 < n)%nat -> col_ok n f -> exists mn mx, spans f mn mx.
Proof.
  intros Hn Hc. unfold spans. cbv zeta. apply extremes. intros E. assert (H : In (fval f 0) []); [|destruct H]. rewrite <- E. apply (all_values n f _ Hn Hc). exists 0%nat. auto.
Qed.
Lemma spans_unique f a b a' b' : spans f a b -> spans f a' b' -> a = a' /\ b = b'.
Proof. unfold spans. cbv zeta. intros [A [B C]] [A' [B' C']]. pose proof (C _ A'). pose proof (C _ B'). pose proof (C' _ A). pose proof (C' _ B). lra. Qed.

Lemma value_range n f : (0 < n)%nat -> col_ok n f -> (forall x, In x (stored f) -> moderate x) -> forall i, (i < n)%nat -> F64MIN <= fval f i < F64MAX.
Proof.
  pose proof F64MAX_big as B. intros Hn Hc Hm i Hi. assert (Hin : In (fval f i) (match f with Dense _ v => v | Sparse _ e n => map snd e ++ (if Nat.ltb (length e) n then [0] else []) end)) by (apply (all_values n f _ Hn Hc); eauto).
  assert (M : forall x, moderate x -> F64MIN <= x < F64MAX) by (unfold moderate, F64MIN; intros x H; apply Rabs_le_inv in H; lra).
  destruct f as [nm v|nm e m]; [apply M, Hm, Hin|]. apply in_app_or in Hin. destruct Hin as [Hin|Hin]; [apply M, Hm, Hin|]. destruct (Nat.ltb (length e) m); [destruct Hin as [<-|[]]; unfold F64MIN; lra|destruct Hin].
Qed.

(** hash maps with pairwise different names *)
Lemma sm_get_in {V} (m : list (string * V)) nm v : NoDup (map fst m) -> In (nm, v) m -> sm_get m nm = Ok v.
Proof.
  intros N H. unfold sm_get. assert (E : find (fun p => String.eqb (fst p) nm) (rev m) = Some (nm, v)).
  { assert (N' : NoDup (map fst (rev m))) by (rewrite map_rev; apply NoDup_rev, N). apply in_rev in H. revert N' H. induction (rev m) as [|[k w] l IH]; intros N' H; [destruct H|]. simpl. simpl in N'. inversion N' as [|? ? N1 N2]; subst.
    destruct H as [E|H]; [inversion E; subst; rewrite String.eqb_refl; reflexivity|]. destruct (String.eqb_spec k nm) as [->|Hne]; [|apply IH; assumption].
    exfalso. apply N1. apply (in_map fst) in H. exact H. }
  rewrite E. reflexivity.
Qed.
Lemma sm_get_some {V} (m : list (string * V)) nm v : sm_get m nm = Ok v -> In (nm, v) m.
Proof.
  unfold sm_get. destruct (find (fun p => String.eqb (fst p) nm) (rev m)) as [[k w]|] eqn:E; [|discriminate]. intros Q. inversion Q; subst. apply find_some in E. destruct E as [E1 E2]. simpl in E2.
  apply String.eqb_eq in E2. subst k. apply in_rev. exact E1.
Qed.
Lemma cut_all_keys nb : forall fs bm, cut_all nb fs = Ok bm -> map fst bm = map feat_name fs.
Proof.
  induction fs as [|f fs IH]; intros bm E; cbn [cut_all] in E; [inversion E; reflexivity|]. destruct (sm_get nb (feat_name f)) as [k|] eqn:E1; [|discriminate]. cbn [bind] in E.
  destruct (cut f k) as [b|] eqn:E2; [|discriminate]. cbn [bind] in E. destruct (cut_all nb fs) as [r|] eqn:E3; [|discriminate]. cbn [bind] in E. inversion E; subst. simpl. f_equal. apply IH. reflexivity.
Qed.
Lemma cut_all_in nb : forall fs bm, cut_all nb fs = Ok bm -> forall f, In f fs -> exists k b, sm_get nb (feat_name f) = Ok k /\ cut f k = Ok b /\ In (feat_name f, b) bm.
Proof.
  induction fs as [|f fs IH]; intros bm E g Hg; [destruct Hg|]. cbn [cut_all] in E. destruct (sm_get nb (feat_name f)) as [k|] eqn:E1; [|discriminate]. cbn [bind] in E.
  destruct (cut f k) as [b|] eqn:E2; [|discriminate]. cbn [bind] in E. destruct (cut_all nb fs) as [r|] eqn:E3; [|discriminate]. cbn [bind] in E. inversion E; subst.
  destruct Hg as [<-|Hg]; [exists k, b; split; [exact E1|split; [exact E2|left; reflexivity]]|]. destruct (IH r eq_refl g Hg) as [k' [b' [Q1 [Q2 Q3]]]]. exists k', b'. split; [exact Q1|split; [exact Q2|right; exact Q3]].
Qed.
Lemma cut_all_ok nb : forall fs, (forall f, In f fs -> exists k b, sm_get nb (feat_name f) = Ok k /\ cut f k = Ok b) -> exists bm, cut_all nb fs = Ok bm.
Proof.
  induction fs as [|f fs IH]; intros H; [exists []; reflexivity|]. cbn [cut_all]. destruct (H f (or_introl eq_refl)) as [k [b [E1 E2]]]. rewrite E1. cbn [bind]. rewrite E2. cbn [bind].
  destruct IH as [bm E]; [intros g Hg; apply H; right; exact Hg|]. rewrite E. eexists. reflexivity.
Qed.

Lemma made_builder s b : dt_made s b -> map fst (tb_nbins b) = map feat_name (s_features s) /\ (1 <= tb_depth b)%nat.
Proof.
  intros M. induction M as [|b d b' M IH E|b c M IH|b nm n b' M IH E].
  - unfold tb_new. simpl. rewrite map_map. simpl. split; [reflexivity|lia].
  - unfold tb_max_depth in E. destruct (Nat.ltb_spec 0 d) as [L|L]; cbn [assert_ bind] in E; [|discriminate]. inversion E; subst. simpl. split; [apply IH|lia].
  - exact IH.
  - unfold tb_set_nbins in E. destruct (sm_get (tb_nbins b) nm); [|discriminate]. cbn [bind] in E. inversion E; subst. simpl. rewrite map_map. destruct IH as [IH1 IH2]. split; [|exact IH2]. rewrite <- IH1. apply map_ext. intros [k v]. simpl. destruct (String.eqb k nm); reflexivity.
Qed.

(** a built learner: every feature has a chain of bins *)
Lemma built s b t : good s -> (0 < s_n_sample s)%nat -> NoDup (map feat_name (s_features s)) -> (forall f x, In f (s_features s) -> In x (stored f) -> moderate x) ->
  dt_made s b -> tb_build b s = Ok t ->
  (1 <= dt_depth t)%nat /\ dt_depth t = tb_depth b /\ dt_criterion t = tb_criterion b /\
  forall f, In f (s_features s) -> exists nb bins, sm_get (tb_nbins b) (feat_name f) = Ok nb /\ cut f nb = Ok bins /\ sm_get (dt_bins t) (feat_name f) = Ok bins /\ chain F64MIN F64MAX bins.
Proof.
  intros G Hn NN Hm M E. destruct (made_builder s b M) as [Ek Hd]. unfold tb_build in E. destruct (cut_all (tb_nbins b) (s_features s)) as [bm|] eqn:Ec; [|discriminate]. cbn [bind] in E. inversion E; subst t. simpl.
  split; [exact Hd|]. split; [reflexivity|]. split; [reflexivity|]. intros f Hf. destruct (cut_all_in _ _ _ Ec f Hf) as [k [bins [E1 [E2 E3]]]]. exists k, bins. split; [exact E1|]. split; [exact E2|]. split.
  - apply sm_get_in; [|exact E3]. rewrite (cut_all_keys _ _ _ Ec). exact NN.
  - assert (Hc : col_ok (s_n_sample s) f) by (pose proof (good_cols s G) as F; rewrite Forall_forall in F; apply F, Hf). destruct (spans_exists _ f Hn Hc) as [mn [mx Hs]].
    pose proof (cut_spec f k mn mx Hs (fun x Hx => Hm f x Hf Hx)) as S. rewrite E2 in S. tauto.
Qed.

(** ** C60: when the learner can be built *)
Lemma P_C60_build_iff :
  forall s b, made s -> (0 < fst (shape s))%nat -> NoDup (map feat_name (s_features s)) ->
  (forall f x, In f (s_features s) -> In x (stored f) -> moderate x) -> dt_made s b ->
  ((exists t, tb_build b s = Ok t) <->
   forall f mn mx, In f (s_features s) -> spans f mn mx ->
     exists nb, In (feat_name f, nb) (tb_nbins b) /\ (nb = 1%nat \/ ((1 < nb)%nat /\ / 10 ^ 9 <= bin_width mn mx nb))).
Proof.
  intros s b M Hn NN Hm Mb. pose proof (made_good s M) as G. simpl in Hn. destruct (made_builder s b Mb) as [Ek _]. split.
  - intros [t E] f mn mx Hf Hs. destruct (built s b t G Hn NN Hm Mb E) as [_ [_ [_ H]]]. destruct (H f Hf) as [nb [bins [E1 [E2 _]]]]. exists nb. split; [apply sm_get_some, E1|].
    pose proof (cut_spec f nb mn mx Hs (fun x Hx => Hm f x Hf Hx)) as S. rewrite E2 in S. tauto.
  - intros H. unfold tb_build. destruct (cut_all_ok (tb_nbins b) (s_features s)) as [bm E].
    + intros f Hf. assert (Hc : col_ok (s_n_sample s) f) by (pose proof (good_cols s G) as F; rewrite Forall_forall in F; apply F, Hf). destruct (spans_exists _ f Hn Hc) as [mn [mx Hs]].
      destruct (H f mn mx Hf Hs) as [nb [H1 H2]]. destruct (P_C24_bins_exist f nb mn mx Hs (fun x Hx => Hm f x Hf Hx) H2) as [bins Eb]. exists nb, bins. split; [|exact Eb].
      apply sm_get_in; [rewrite Ek; exact NN|exact H1].
    + rewrite E. eexists. reflexivity.
Qed.

(** two different values less than 2e-9 apart: the learner with default parameters cannot be built *)
Lemma P_C60_tiny_range_refuted :
  exists s, made s /\ length (s_target s) = fst (shape s) /\ (forall f x, In f (s_features s) -> In x (stored f) -> moderate x) /\
    forall t, tb_build (tb_new s) s <> Ok t.
Proof.
  pose proof F64MAX_big as B. assert (P9 : 0 < / 10 ^ 9) by (apply Rinv_0_lt_compat; simpl; lra). assert (L9 : / 10 ^ 9 <= 1) by (rewrite <- Rinv_1; apply Rinv_le_contravar; simpl; lra).
  set (e9 := / 10 ^ 9) in *. set (s := from_dataframe [("a"%string, [0; e9])] 2 [1; -1]).
  assert (M : made s) by (apply made_dataframe; intros p [<-|[]]; reflexivity).
  assert (Hm : forall f x, In f (s_features s) -> In x (stored f) -> moderate x).
  { intros f x [<-|[]] Hx. unfold moderate. destruct Hx as [<-|[<-|[]]]; [rewrite Rabs_R0; lra|rewrite Rabs_pos_eq by lra; lra]. }
  exists s. split; [exact M|]. split; [reflexivity|]. split; [exact Hm|]. intros t E.
  assert (Hsp : spans (Dense "a" [0; e9]) 0 e9) by (split; [simpl; auto|]; split; [simpl; auto|]; intros x [E1|[E1|[]]]; rewrite <- E1; lra).
  destruct (proj1 (P_C60_build_iff s (tb_new s) M ltac:(simpl; lia) ltac:(simpl; constructor; [intros []|constructor]) Hm (dm_new s)) (ex_intro _ t E) (Dense "a" [0; e9]) 0 e9 (or_introl eq_refl) Hsp) as [nb [H1 H2]].
  simpl in H1. destruct H1 as [H1|[]]. inversion H1 as [Hnb]. unfold inner_distinct_value_count in Hnb. simpl in Hnb.
  assert (Hnb2 : nb = 2%nat).
  { rewrite <- Hnb. rewrite Rleb_true by lra. unfold distinct_scan. rewrite Reqb_false by lra. reflexivity. }
  subst nb. rewrite Hnb2 in H2. destruct H2 as [H2|[_ H2]]; [discriminate|]. change (/ 10 ^ 9) with e9 in H2. clearbody e9. unfold bin_width in H2. destruct (Req_EM_T 0 e9); [lra|]. simpl in H2. lra.
Qed.

(** a column with the ten values 0, 1, ..., 8, 2^24: in binary64 the ten additions of 2^24/10 stop short of 2^24 by
    more than 1e-9, an eleventh bin is made and the assertion on the number of bins fails *)
Lemma P_C60_rounding_refuted :
  exists v, NoDup v /\ length v = 10%nat /\ (forall x, In x v -> exists k, (0 <= k <= 2 ^ 24)%Z /\ x = f_of_Z k) /\
    forall bins, fcut_dense v (Nat.min (length v) 255) <> Ok bins.
Proof.
  exists (map f_of_Z [0; 1; 2; 3; 4; 5; 6; 7; 8; 16777216]%Z). split; [|split; [reflexivity|split]].
  - vm_compute. repeat constructor; simpl; intuition discriminate.
  - intros x Hx. apply in_map_iff in Hx. destruct Hx as [k [<- Hk]]. exists k. split; [|reflexivity]. simpl in Hk. lia.
  - intros bins. vm_compute. discriminate.
Qed.
