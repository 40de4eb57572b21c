(** Proofs about the decision tree learner, part 2: the split of one feature under each criterion. *)
From Coq Require Import String.
From Verif Require Import Base Spec BinSearch Feature Sample SampleSpec SampleFacts Bins BinsSpec BinsProofs TreeSpec DTree DTreeProofs.
Open Scope R_scope.

(** sums over the maps of a list of bins *)
Definition V (ps : list (bin * lw)) (z : Z) : R := rsum (map (fun bp => lw_val (snd bp) z) ps).
Definition T (ps : list (bin * lw)) : R := rsum (map (fun bp => lw_total (snd bp)) ps).
(** the maps that [pack] produces *)
Definition good_map (labels : list Z) (m : lw) : Prop := NoDup (keys m) /\ (forall p, In p m -> 0 < snd p) /\ forall z, In z (keys m) -> In z labels.
Definition good_maps (labels : list Z) (ps : list (bin * lw)) : Prop := forall bp, In bp ps -> good_map labels (snd bp).

Lemma good_val labels m z : good_map labels m -> 0 <= lw_val m z.
Proof.
  intros [N [P _]]. unfold lw_val. destruct (lw_get m z) as [v|] eqn:E; simpl; [|lra]. apply (lw_get_in m z v N) in E. left. apply (P _ E).
Qed.
Lemma good_V labels ps z : good_maps labels ps -> 0 <= V ps z.
Proof. intros G. unfold V. apply rsum_nonneg. intros v Hv. apply in_map_iff in Hv. destruct Hv as [bp [<- H]]. eapply good_val, G, H. Qed.

Lemma lw_total_labels labels m : NoDup labels -> NoDup (keys m) -> (forall z, In z (keys m) -> In z labels) ->
  lw_total m = rsum (map (lw_val m) labels).
Proof. intros NL N H. exact (lw_sum_over (fun w => w) labels m eq_refl NL N H). Qed.

(** merging maps *)
Lemma lw_merge_spec l : forall m, NoDup (keys m) -> NoDup (keys l) ->
  NoDup (keys (lw_merge m l)) /\ (forall z, In z (keys (lw_merge m l)) <-> In z (keys m) \/ In z (keys l)) /\ (forall z, lw_val (lw_merge m l) z = lw_val m z + lw_val l z).
Proof.
  unfold lw_merge. induction l as [|[a w] l IH]; intros m Nm Nl; cbn [fold_left].
  - split; [exact Nm|]. split; [simpl; intros; tauto|]. intros z. unfold lw_val at 3, lw_get. simpl. lra.
  - simpl in Nl. inversion Nl as [|? ? N1 N2]; subst. cbn [fst snd]. destruct (IH (lw_add m a w)) as [A [B C]]; [apply lw_add_nodup, Nm|exact N2|].
    split; [exact A|]. split.
    + intros z. rewrite B, lw_add_keys. simpl. intuition.
    + intros z. rewrite C, lw_add_val, lw_val_cons. destruct (Z.eqb_spec a z) as [->|]; [|lra]. rewrite (lw_val_out l z N1). lra.
Qed.
Lemma all_right_spec labels ps : good_maps labels ps ->
  NoDup (keys (all_right ps)) /\ (forall z, In z (keys (all_right ps)) <-> exists bp, In bp ps /\ In z (keys (snd bp))) /\ (forall z, lw_val (all_right ps) z = V ps z).
Proof.
  unfold all_right. intros G.
  assert (Gen : forall ps m, good_maps labels ps -> NoDup (keys m) -> let r := fold_left (fun m bp => lw_merge m (snd bp)) ps m in
    NoDup (keys r) /\ (forall z, In z (keys r) <-> In z (keys m) \/ exists bp, In bp ps /\ In z (keys (snd bp))) /\ (forall z, lw_val r z = lw_val m z + V ps z)).
  { clear ps G. induction ps as [|bp ps IH]; intros m G Nm; cbv zeta; cbn [fold_left].
    - split; [exact Nm|]. split; [intros z; split; [auto|intros [H|[bp [[] _]]]; exact H]|]. intros z. unfold V. simpl. lra.
    - destruct (G bp (or_introl eq_refl)) as [N _]. destruct (lw_merge_spec (snd bp) m Nm N) as [A [B C]].
      destruct (IH (lw_merge m (snd bp))) as [A' [B' C']]; [intros q Hq; apply G; right; exact Hq|exact A|]. split; [exact A'|]. split.
      + intros z. rewrite B', B. split.
        * intros [[H|H]|[q [Hq H]]]; [left; exact H|right; exists bp; split; [left; reflexivity|exact H]|right; exists q; split; [right; exact Hq|exact H]].
        * intros [H|[q [[<-|Hq] H]]]; [left; left; exact H|left; right; exact H|right; exists q; auto].
      + intros z. rewrite C', C. unfold V. simpl. lra. }
  destruct (Gen ps [] G (NoDup_nil Z)) as [A [B C]]. cbv zeta in *. split; [exact A|]. split.
  - intros z. rewrite B. simpl. intuition.
  - intros z. rewrite C. unfold lw_val at 1, lw_get. simpl. lra.
Qed.

(** assignments on the right *)
Lemma lw_set_keys m z w : keys (lw_set m z w) = keys m.
Proof. unfold keys, lw_set. rewrite map_map. apply map_ext. intros [a v]. simpl. destruct (Z.eqb a z); reflexivity. Qed.
Lemma lw_set_val m z w z' : In z (keys m) -> lw_val (lw_set m z w) z' = if Z.eqb z z' then w else lw_val m z'.
Proof.
  intros Hin. induction m as [|[a v] m IH]; [destruct Hin|]. unfold lw_set. cbn [map fst]. fold (lw_set m z w). destruct (Z.eqb_spec a z) as [->|Hne].
  - rewrite !lw_val_cons. destruct (Z.eqb_spec z z') as [->|Hz]; [reflexivity|]. 
    clear -Hz. induction m as [|[a v] m IH]; [reflexivity|]. unfold lw_set. cbn [map fst]. fold (lw_set m z w). destruct (Z.eqb_spec a z) as [->|]; rewrite !lw_val_cons.
    + destruct (Z.eqb_spec z z'); [congruence|exact IH].
    + destruct (Z.eqb a z'); [reflexivity|exact IH].
  - rewrite !lw_val_cons. destruct (Z.eqb_spec a z') as [->|Ha].
    + destruct (Z.eqb_spec z z'); [congruence|reflexivity].
    + apply IH. destruct Hin as [E|H]; [simpl in E; congruence|exact H].
Qed.
Lemma lw_remove_keys m z z' : In z' (keys (lw_remove m z)) <-> In z' (keys m) /\ z' <> z.
Proof.
  unfold keys, lw_remove. induction m as [|[a v] m IH]; simpl; [tauto|]. destruct (Z.eqb_spec a z) as [->|Hne]; simpl; rewrite IH; intuition congruence.
Qed.
Lemma lw_remove_nodup m z : NoDup (keys m) -> NoDup (keys (lw_remove m z)).
Proof.
  induction m as [|[a v] m IH]; simpl; intros H; [constructor|]. inversion H as [|? ? H1 H2]; subst. unfold lw_remove. cbn [filter fst].
  fold (lw_remove m z). destruct (Z.eqb a z); cbn [negb]; [apply IH, H2|]. simpl. constructor; [|apply IH, H2]. intros Hin. apply lw_remove_keys in Hin. tauto.
Qed.
Lemma lw_remove_val m z z' : lw_val (lw_remove m z) z' = if Z.eqb z z' then 0 else lw_val m z'.
Proof.
  induction m as [|[a v] m IH]; [unfold lw_val, lw_get; simpl; destruct (Z.eqb z z'); reflexivity|]. unfold lw_remove. cbn [filter fst]. fold (lw_remove m z).
  destruct (Z.eqb_spec a z) as [->|Hne]; cbn [negb].
  - rewrite IH, lw_val_cons. destruct (Z.eqb z z'); reflexivity.
  - rewrite !lw_val_cons, IH. destruct (Z.eqb_spec a z') as [->|]; [|reflexivity]. destruct (Z.eqb_spec z z'); [congruence|reflexivity].
Qed.
Lemma lw_val_some m z : 0 < lw_val m z -> exists v, lw_get m z = Some v /\ lw_val m z = v /\ In z (keys m).
Proof.
  intros H. unfold lw_val in *. destruct (lw_get m z) as [v|] eqn:E; [|simpl in H; lra]. exists v. split; [reflexivity|]. split; [reflexivity|].
  destruct (in_dec Z.eq_dec z (keys m)) as [|N]; [assumption|]. apply lw_get_none in N. congruence.
Qed.

Lemma move_loop_spec drop l : forall lft rgt lsum, NoDup (keys l) -> (forall p, In p l -> 0 < snd p) -> NoDup (keys lft) -> NoDup (keys rgt) ->
  (forall z w, In (z, w) l -> w <= lw_val rgt z) ->
  exists lft' rgt', move_loop drop l lft rgt lsum = Ok (lft', rgt', lsum + lw_total l) /\
    NoDup (keys lft') /\ NoDup (keys rgt') /\
    (forall z, In z (keys lft') <-> In z (keys lft) \/ In z (keys l)) /\ (forall z, In z (keys rgt') -> In z (keys rgt)) /\
    (forall z, lw_val lft' z = lw_val lft z + lw_val l z) /\ (forall z, lw_val rgt' z = lw_val rgt z - lw_val l z).
Proof.
  induction l as [|[a w] l IH]; intros lft rgt lsum Nl Pl NL NR Hle; cbn [move_loop].
  - exists lft, rgt. unfold lw_total. simpl. replace (lsum + 0) with lsum by lra. repeat split; auto; try (intros; unfold lw_val at 2, lw_get; simpl; lra); simpl; intuition.
  - simpl in Nl. inversion Nl as [|? ? N1 N2]; subst. pose proof (Pl _ (or_introl eq_refl)) as Pw. simpl in Pw.
    pose proof (Hle a w (or_introl eq_refl)) as Hw. destruct (lw_val_some rgt a) as [v [Ev [Evv Hin]]]; [lra|]. rewrite Ev. cbv zeta.
    set (rgt' := if andb drop (Rleb (v - w) 0) then lw_remove rgt a else lw_set rgt a (v - w)).
    assert (R1 : NoDup (keys rgt') /\ (forall z, In z (keys rgt') -> In z (keys rgt)) /\ forall z, lw_val rgt' z = lw_val rgt z - if Z.eqb a z then w else 0).
    { unfold rgt'. destruct (andb drop (Rleb (v - w) 0)) eqn:Ed.
      - apply andb_prop in Ed. destruct Ed as [_ Ed]. destruct (Rleb_spec (v - w) 0) as [Hz|]; [|discriminate]. split; [apply lw_remove_nodup, NR|]. split; [intros z Hz'; apply lw_remove_keys in Hz'; tauto|].
        intros z. rewrite lw_remove_val. destruct (Z.eqb_spec a z) as [<-|]; lra.
      - split; [rewrite lw_set_keys; exact NR|]. split; [intros z; rewrite lw_set_keys; auto|]. intros z. rewrite lw_set_val by exact Hin. destruct (Z.eqb_spec a z) as [<-|]; lra. }
    destruct R1 as [R1 [R2 R3]].
    destruct (IH (lw_add lft a w) rgt' (lsum + w)) as [lft' [rgt2 [E [A [B [C [D [F G]]]]]]]].
    + exact N2.
    + intros p Hp. apply Pl. right. exact Hp.
    + apply lw_add_nodup, NL.
    + exact R1.
    + intros z u Hu. rewrite R3. destruct (Z.eqb_spec a z) as [<-|]; [|rewrite Rminus_0_r; apply Hle; right; exact Hu].
      exfalso. apply N1. apply in_map_iff. exists (a, u). split; [reflexivity|exact Hu].
    + exists lft', rgt2. split; [rewrite E; unfold lw_total; simpl; do 2 f_equal; lra|]. split; [exact A|]. split; [exact B|]. split; [|split; [|split]].
      * intros z. rewrite C, lw_add_keys. simpl. intuition.
      * intros z Hz. apply R2, D, Hz.
      * intros z. rewrite F, lw_add_val, lw_val_cons. destruct (Z.eqb_spec a z) as [<-|]; [rewrite (lw_val_out l a N1); lra|lra].
      * intros z. rewrite G, R3, lw_val_cons. destruct (Z.eqb_spec a z) as [<-|]; [rewrite (lw_val_out l a N1); lra|lra].
Qed.

(** an impurity depends on the weights of the labels only *)
Definition imp_ext (labels : list Z) (imp : lw -> R) : Prop :=
  forall m m', NoDup (keys m) -> NoDup (keys m') -> (forall z, In z (keys m) -> In z labels) -> (forall z, In z (keys m') -> In z labels) ->
    (forall z, lw_val m z = lw_val m' z) -> imp m = imp m'.

Lemma V_app a b z : V (a ++ b) z = V a z + V b z.
Proof. unfold V. rewrite map_app, rsum_app. reflexivity. Qed.
Lemma T_app a b : T (a ++ b) = T a + T b.
Proof. unfold T. rewrite map_app, rsum_app. reflexivity. Qed.

Definition imp_score (imp : lw -> R) (ws : R) (pre post : list (bin * lw)) : R :=
  T pre / ws * imp (all_right pre) + Rmax (1 - T pre / ws) 0 * imp (all_right post).

Lemma impurity_loop_spec labels drop imp ws : NoDup labels -> imp_ext labels imp -> forall pack pre lft rgt best thr,
  good_maps labels (pre ++ pack) -> NoDup (keys lft) -> NoDup (keys rgt) ->
  (forall z, In z (keys lft) -> In z labels) -> (forall z, In z (keys rgt) -> In z labels) ->
  (forall z, lw_val lft z = V pre z) -> (forall z, lw_val rgt z = V pack z) ->
  exists t b, impurity_loop drop imp ws pack lft rgt (T pre) best thr = Ok (t, b) /\ b <= best /\
    (forall k, (k < length pack)%nat -> b <= imp_score imp ws (pre ++ firstn (S k) pack) (skipn (S k) pack)) /\
    ((t = thr /\ b = best) \/ exists k, (k < length pack)%nat /\ t = b_end (fst (nth k pack (b0, []))) /\ b = imp_score imp ws (pre ++ firstn (S k) pack) (skipn (S k) pack)).
Proof.
  intros NL Hext. induction pack as [|[b m] pack IH]; intros pre lft rgt best thr G Nl Nr Kl Kr Vl Vr; cbn [impurity_loop].
  - exists thr, best. split; [reflexivity|]. split; [lra|]. split; [simpl; intros; lia|]. left; split; reflexivity.
  - assert (Gm : good_map labels m). { apply (G (b, m)). apply in_or_app. right. left. reflexivity. }
    assert (Gp : good_maps labels pack). { intros q Hq. apply G. apply in_or_app. right. right. exact Hq. }
    destruct Gm as [Nm [Pm Km]].
    destruct (move_loop_spec drop m lft rgt (T pre) Nm Pm Nl Nr) as [lft' [rgt' [E [A [B [C [D [F H]]]]]]]].
    { intros z w Hin. rewrite Vr. unfold V. cbn [map snd rsum]. rewrite (lw_val_in m z w Nm Hin). pose proof (good_V labels pack z Gp) as P. unfold V in P. lra. }
    rewrite E. cbn [bind].
    assert (E2 : pre ++ (b, m) :: pack = (pre ++ [(b, m)]) ++ pack) by (rewrite <- app_assoc; reflexivity).
    assert (ET : T pre + lw_total m = T (pre ++ [(b, m)])) by (rewrite T_app; unfold T; simpl; lra).
    assert (VL : forall z, lw_val lft' z = V (pre ++ [(b, m)]) z) by (intros z; rewrite F, Vl, V_app; unfold V; simpl; lra).
    assert (VR : forall z, lw_val rgt' z = V pack z) by (intros z; rewrite H, Vr; unfold V; simpl; lra).
    assert (KL : forall z, In z (keys lft') -> In z labels) by (intros z Hz; apply C in Hz; destruct Hz as [Hz|Hz]; [apply Kl, Hz|apply Km, Hz]).
    assert (KR : forall z, In z (keys rgt') -> In z labels) by (intros z Hz; apply Kr, D, Hz).
    assert (G1 : good_maps labels (pre ++ [(b, m)])). { intros q Hq. apply G. rewrite E2. apply in_or_app. left. exact Hq. }
    destruct (all_right_spec labels _ G1) as [N1 [K1 V1]]. destruct (all_right_spec labels _ Gp) as [N2 [K2 V2]].
    assert (I1 : imp lft' = imp (all_right (pre ++ [(b, m)]))).
    { apply Hext; try assumption; [|intros z; rewrite VL, V1; reflexivity]. intros z Hz. apply K1 in Hz. destruct Hz as [q [Hq Hz]]. apply (G1 q Hq), Hz. }
    assert (I2 : imp rgt' = imp (all_right pack)).
    { apply Hext; try assumption; [|intros z; rewrite VR, V2; reflexivity]. intros z Hz. apply K2 in Hz. destruct Hz as [q [Hq Hz]]. apply (Gp q Hq), Hz. }
    rewrite ET, I1, I2. set (sc := T (pre ++ [(b, m)]) / ws * imp (all_right (pre ++ [(b, m)])) + Rmax (1 - T (pre ++ [(b, m)]) / ws) 0 * imp (all_right pack)).
    assert (Esc : sc = imp_score imp ws (pre ++ firstn 1 ((b, m) :: pack)) (skipn 1 ((b, m) :: pack))) by reflexivity.
    rewrite E2 in G.
    assert (Shift : forall k, imp_score imp ws ((pre ++ [(b, m)]) ++ firstn (S k) pack) (skipn (S k) pack) = imp_score imp ws (pre ++ firstn (S (S k)) ((b, m) :: pack)) (skipn (S (S k)) ((b, m) :: pack))).
    { intros k. rewrite <- app_assoc. reflexivity. }
    destruct (Rltb_spec sc best) as [Hlt|Hge].
    + destruct (IH (pre ++ [(b, m)]) lft' rgt' sc (b_end b) G A B KL KR VL VR) as [t [bb [El [Hb [Hall Hex]]]]]. exists t, bb. split; [exact El|]. split; [lra|]. split.
      * intros [|k] Hk; [rewrite <- Esc; lra|]. simpl in Hk. rewrite <- Shift. apply Hall. lia.
      * right. destruct Hex as [[-> ->]|[k [Hk [-> ->]]]].
        -- exists 0%nat. split; [simpl; lia|]. split; [reflexivity|exact Esc].
        -- exists (S k). split; [simpl; lia|]. split; [reflexivity|]. apply Shift.
    + destruct (IH (pre ++ [(b, m)]) lft' rgt' best thr G A B KL KR VL VR) as [t [bb [El [Hb [Hall Hex]]]]]. exists t, bb. split; [exact El|]. split; [lra|]. split.
      * intros [|k] Hk; [rewrite <- Esc; lra|]. simpl in Hk. rewrite <- Shift. apply Hall. lia.
      * destruct Hex as [H0|[k [Hk [-> ->]]]]; [left; exact H0|]. right.
        exists (S k). split; [simpl; lia|]. split; [reflexivity|]. apply Shift.
Qed.

Lemma split_by_impurity_spec labels drop imp pack : NoDup labels -> imp_ext labels imp -> good_maps labels pack -> 
  let ws := T pack in
  exists t b, split_by_impurity drop imp pack = Ok (t, b) /\ b <= imp (all_right pack) /\
    (forall k, (k < length pack)%nat -> b <= imp_score imp ws (firstn (S k) pack) (skipn (S k) pack)) /\
    ((t = F64MIN /\ b = imp (all_right pack)) \/ exists k, (k < length pack)%nat /\ t = b_end (fst (nth k pack (b0, []))) /\ b = imp_score imp ws (firstn (S k) pack) (skipn (S k) pack)).
Proof.
  intros NL Hext G ws. unfold split_by_impurity. destruct (all_right_spec labels pack G) as [N [K Vr]].
  destruct (impurity_loop_spec labels drop imp ws NL Hext pack [] [] (all_right pack) (imp (all_right pack)) F64MIN) as [t [b H]].
  - exact G.
  - constructor.
  - exact N.
  - intros z [].
  - intros z Hz. apply K in Hz. destruct Hz as [q [Hq Hz]]. apply (G q Hq), Hz.
  - intros z. unfold lw_val, lw_get, V. reflexivity.
  - exact Vr.
  - exists t, b. exact H.
Qed.

(** ** entropy and gini depend on label weights only *)
Lemma entropy_labels labels m : NoDup labels -> NoDup (keys m) -> (forall z, In z (keys m) -> In z labels) ->
  entropic_impurity m = let tot := rsum (map (lw_val m) labels) in
    if Rleb tot 0 then 0 else rsum (map (fun z => let r := lw_val m z / tot in if Rleb r 0 then 0 else - r * ln r) labels).
Proof.
  intros NL N K. unfold entropic_impurity. cbv zeta. rewrite (lw_total_labels labels m NL N K). set (tot := rsum (map (lw_val m) labels)).
  destruct (Rleb_spec tot 0) as [H|H]; [reflexivity|]. simpl. destruct m as [|p m'] eqn:Em.
  - exfalso. apply H. unfold tot. rewrite <- (lw_total_labels labels [] NL N K). unfold lw_total. simpl. lra.
  - cbn [is_nil]. rewrite <- Em in *. 
    apply (lw_sum_over (fun w => if Rleb (w / tot) 0 then 0 else - (w / tot) * ln (w / tot)) labels m); try assumption. rewrite Rleb_true; [reflexivity|]. unfold Rdiv. lra.
Qed.
Lemma gini_labels labels m : NoDup labels -> NoDup (keys m) -> (forall z, In z (keys m) -> In z labels) ->
  gini_impurity m = let tot := rsum (map (lw_val m) labels) in
    if Rleb tot 0 then 0 else Rmax (1 - rsum (map (fun z => (lw_val m z / tot) ^ 2) labels)) 0.
Proof.
  intros NL N K. unfold gini_impurity. cbv zeta. rewrite (lw_total_labels labels m NL N K). set (tot := rsum (map (lw_val m) labels)).
  destruct (Rleb_spec tot 0) as [H|H]; [reflexivity|]. simpl orb. destruct m as [|p m'] eqn:Em.
  - exfalso. apply H. unfold tot. rewrite <- (lw_total_labels labels [] NL N K). unfold lw_total. simpl. lra.
  - cbn [is_nil]. rewrite <- Em in *. f_equal. f_equal.
    apply (lw_sum_over (fun w => (w / tot) ^ 2) labels m); try assumption. unfold Rdiv. simpl. lra.
Qed.
Lemma entropy_ext labels : NoDup labels -> imp_ext labels entropic_impurity.
Proof.
  intros NL m m' N N' K K' E. rewrite (entropy_labels labels m NL N K), (entropy_labels labels m' NL N' K'). cbv zeta.
  rewrite (rsum_map_ext (lw_val m) (lw_val m') labels) by (intros; apply E). destruct (Rleb _ 0); [reflexivity|]. apply rsum_map_ext. intros z _. rewrite E. reflexivity.
Qed.
Lemma gini_ext labels : NoDup labels -> imp_ext labels gini_impurity.
Proof.
  intros NL m m' N N' K K' E. rewrite (gini_labels labels m NL N K), (gini_labels labels m' NL N' K'). cbv zeta.
  rewrite (rsum_map_ext (lw_val m) (lw_val m') labels) by (intros; apply E). destruct (Rleb _ 0); [reflexivity|]. f_equal. f_equal. apply rsum_map_ext. intros z _. rewrite E. reflexivity.
Qed.

(** ** the edge criterion *)
Definition PE (ps : list (bin * lw)) : R := rsum (map (fun bp => pack_edge (snd bp)) ps).
Lemma edge_loop_spec pack : forall edge best thr,
  let '(t, b) := edge_loop pack edge best thr in
  best <= b /\ (forall k, (k < length pack)%nat -> Rabs (edge - 2 * PE (firstn (S k) pack)) <= b) /\
  ((t = thr /\ b = best) \/ exists k, (k < length pack)%nat /\ t = b_end (fst (nth k pack (b0, []))) /\ b = Rabs (edge - 2 * PE (firstn (S k) pack))).
Proof.
  induction pack as [|[b m] pack IH]; intros edge best thr; cbn [edge_loop]; cbv zeta.
  - split; [lra|]. split; [simpl; intros; lia|]. left. split; reflexivity.
  - assert (E0 : PE (firstn 1 ((b, m) :: pack)) = pack_edge m) by (unfold PE; simpl; lra).
    assert (Es : forall k, edge - 2 * pack_edge m - 2 * PE (firstn (S k) pack) = edge - 2 * PE (firstn (S (S k)) ((b, m) :: pack))).
    { intros k. change (firstn (S (S k)) ((b, m) :: pack)) with ((b, m) :: firstn (S k) pack). unfold PE. cbn [map rsum snd]. lra. }
    destruct (Rltb_spec best (Rabs (edge - 2 * pack_edge m))) as [Hlt|Hge].
    + specialize (IH (edge - 2 * pack_edge m) (Rabs (edge - 2 * pack_edge m)) (b_end b)). destruct (edge_loop _ _ _ _) as [t bb]. destruct IH as [A [B C]].
      split; [lra|]. split.
      * intros [|k] Hk; [rewrite E0; lra|]. simpl in Hk. rewrite <- Es. apply B. lia.
      * right. destruct C as [[-> ->]|[k [Hk [-> ->]]]].
        -- exists 0%nat. split; [simpl; lia|]. split; [reflexivity|]. rewrite E0. reflexivity.
        -- exists (S k). split; [simpl; lia|]. split; [reflexivity|]. rewrite Es. reflexivity.
    + specialize (IH (edge - 2 * pack_edge m) best thr). destruct (edge_loop _ _ _ _) as [t bb]. destruct IH as [A [B C]].
      split; [lra|]. split.
      * intros [|k] Hk; [rewrite E0; lra|]. simpl in Hk. rewrite <- Es. apply B. lia.
      * destruct C as [C|[k [Hk [-> ->]]]]; [left; exact C|]. right.
        exists (S k). split; [simpl; lia|]. split; [reflexivity|]. rewrite Es. reflexivity.
Qed.

(** ** twoing *)
Lemma twoing_move_spec l : forall lft rgt, NoDup (keys l) -> (forall p, In p l -> 0 < snd p) -> NoDup (keys lft) -> NoDup (keys rgt) ->
  (forall z, 0 <= lw_val lft z) -> (forall z w, In (z, w) l -> w <= lw_val rgt z) ->
  let '(lft', rgt') := twoing_move l lft rgt in
    NoDup (keys lft') /\ NoDup (keys rgt') /\
    (forall z, In z (keys lft') <-> In z (keys lft) \/ In z (keys l)) /\ (forall z, In z (keys rgt') <-> In z (keys rgt)) /\
    (forall z, lw_val lft' z = lw_val lft z + lw_val l z) /\ (forall z, lw_val rgt' z = lw_val rgt z - lw_val l z).
Proof.
  induction l as [|[a w] l IH]; intros lft rgt Nl Pl NL NR Pz Hle; cbn [twoing_move]; cbv zeta.
  - repeat split; auto; try (intros; unfold lw_val at 2, lw_get; simpl; lra); simpl; intuition.
  - simpl in Nl. inversion Nl as [|? ? N1 N2]; subst. pose proof (Pl _ (or_introl eq_refl)) as Pw. simpl in Pw.
    pose proof (Hle a w (or_introl eq_refl)) as Hw. destruct (lw_val_some rgt a) as [v [Ev [Evv Hin]]]; [lra|]. rewrite Ev.
    fold (lw_val (lw_add lft a w) a). rewrite (Rleb_false (lw_val (lw_add lft a w) a)) by (rewrite lw_add_val, Z.eqb_refl; specialize (Pz a); lra).
    specialize (IH (lw_add lft a w) (lw_set rgt a (v - w)) N2 ltac:(intros p Hp; apply Pl; right; exact Hp) (lw_add_nodup _ _ _ NL)).
    destruct (twoing_move l (lw_add lft a w) (lw_set rgt a (v - w))) as [lft' rgt'].
    destruct IH as [A [B [C [D [F G]]]]].
    + rewrite lw_set_keys. exact NR.
    + intros z. rewrite lw_add_val. specialize (Pz z). destruct (Z.eqb a z); lra.
    + intros z u Hu. rewrite lw_set_val by exact Hin. destruct (Z.eqb_spec a z) as [<-|]; [|apply Hle; right; exact Hu].
      exfalso. apply N1. apply in_map_iff. exists (a, u). split; [reflexivity|exact Hu].
    + split; [exact A|]. split; [exact B|]. split; [|split; [|split]].
      * intros z. rewrite C, lw_add_keys. simpl. intuition.
      * intros z. rewrite D, lw_set_keys. reflexivity.
      * intros z. rewrite F, lw_add_val, lw_val_cons. destruct (Z.eqb_spec a z) as [<-|]; [rewrite (lw_val_out l a N1); lra|lra].
      * intros z. rewrite G, lw_set_val, lw_val_cons by exact Hin. destruct (Z.eqb_spec a z) as [<-|]; [rewrite (lw_val_out l a N1); lra|lra].
Qed.

(** the twoing score as a function of the label weights *)
Definition tw_fun (labels : list Z) (L Q : Z -> R) : R :=
  let pl := rsum (map L labels) in let pr := rsum (map Q labels) in
  if orb (Reqb pl 0) (Reqb pr 0) then 0 else
  (rsum (map (fun z => Rabs (L z / pl - Q z / pr)) labels)) ^ 2 * pl * pr / (2 * (pl + pr)) ^ 2.

Lemma twoing_score_fun labels lft rgt : NoDup labels -> NoDup (keys lft) -> NoDup (keys rgt) ->
  (forall z, In z (keys lft) -> In z labels) -> (forall z, In z (keys rgt) -> In z labels) ->
  (forall z, 0 <= lw_val lft z) -> (forall z, 0 <= lw_val rgt z) ->
  twoing_score labels lft rgt = Ok (tw_fun labels (lw_val lft) (lw_val rgt)).
Proof.
  intros NL N1 N2 K1 K2 P1 P2. unfold twoing_score, tw_fun. cbv zeta. rewrite (lw_total_labels labels lft NL N1 K1), (lw_total_labels labels rgt NL N2 K2).
  set (pl := rsum (map (lw_val lft) labels)). set (pr := rsum (map (lw_val rgt) labels)).
  assert (0 <= pl) by (apply rsum_nonneg; intros v Hv; apply in_map_iff in Hv; destruct Hv as [z [<- _]]; apply P1).
  assert (0 <= pr) by (apply rsum_nonneg; intros v Hv; apply in_map_iff in Hv; destruct Hv as [z [<- _]]; apply P2).
  destruct (Reqb_spec pl 0); [reflexivity|]. destruct (Reqb_spec pr 0); [reflexivity|]. simpl orb. cbv iota.
  rewrite Rltb_true by lra. reflexivity.
Qed.
Lemma tw_fun_ext labels L Q L' Q' : (forall z, In z labels -> L z = L' z) -> (forall z, In z labels -> Q z = Q' z) -> tw_fun labels L Q = tw_fun labels L' Q'.
Proof.
  intros H1 H2. unfold tw_fun. cbv zeta. rewrite (rsum_map_ext L L' labels H1), (rsum_map_ext Q Q' labels H2). destruct (orb _ _); [reflexivity|].
  rewrite (rsum_map_ext _ (fun z => Rabs (L' z / rsum (map L' labels) - Q' z / rsum (map Q' labels))) labels); [reflexivity|]. intros z Hz. rewrite (H1 z Hz), (H2 z Hz). reflexivity.
Qed.

Lemma twoing_loop_spec labels : NoDup labels -> forall pack pre lft rgt best thr,
  good_maps labels (pre ++ pack) -> NoDup (keys lft) -> NoDup (keys rgt) ->
  (forall z, In z (keys lft) -> In z labels) -> (forall z, In z (keys rgt) -> In z labels) ->
  (forall z, lw_val lft z = V pre z) -> (forall z, lw_val rgt z = V pack z) ->
  exists t b, twoing_loop labels pack lft rgt best thr = Ok (t, b) /\ best <= b /\
    (forall k, (k < length pack)%nat -> tw_fun labels (V (pre ++ firstn (S k) pack)) (V (skipn (S k) pack)) <= b) /\
    ((t = thr /\ b = best) \/ exists k, (k < length pack)%nat /\ t = b_end (fst (nth k pack (b0, []))) /\ b = tw_fun labels (V (pre ++ firstn (S k) pack)) (V (skipn (S k) pack))).
Proof.
  intros NL. induction pack as [|[b m] pack IH]; intros pre lft rgt best thr G Nl Nr Kl Kr Vl Vr; cbn [twoing_loop].
  - exists thr, best. split; [reflexivity|]. split; [lra|]. split; [simpl; intros; lia|]. left; split; reflexivity.
  - assert (Gm : good_map labels m). { apply (G (b, m)). apply in_or_app. right. left. reflexivity. }
    assert (Gp : good_maps labels pack). { intros q Hq. apply G. apply in_or_app. right. right. exact Hq. }
    assert (Gpre : good_maps labels pre). { intros q Hq. apply G. apply in_or_app. left. exact Hq. }
    destruct Gm as [Nm [Pm Km]].
    pose proof (twoing_move_spec m lft rgt Nm Pm Nl Nr) as M. destruct (twoing_move m lft rgt) as [lft' rgt'].
    destruct M as [A [B [C [D [F H]]]]].
    { intros z. rewrite Vl. apply (good_V labels), Gpre. }
    { intros z w Hin. rewrite Vr. unfold V. cbn [map snd rsum]. rewrite (lw_val_in m z w Nm Hin). pose proof (good_V labels pack z Gp) as P. unfold V in P. lra. }
    assert (E2 : pre ++ (b, m) :: pack = (pre ++ [(b, m)]) ++ pack) by (rewrite <- app_assoc; reflexivity).
    assert (VL : forall z, lw_val lft' z = V (pre ++ [(b, m)]) z) by (intros z; rewrite F, Vl, V_app; unfold V; simpl; lra).
    assert (VR : forall z, lw_val rgt' z = V pack z) by (intros z; rewrite H, Vr; unfold V; simpl; lra).
    assert (KL : forall z, In z (keys lft') -> In z labels) by (intros z Hz; apply C in Hz; destruct Hz as [Hz|Hz]; [apply Kl, Hz|apply Km, Hz]).
    assert (KR : forall z, In z (keys rgt') -> In z labels) by (intros z Hz; apply Kr, D, Hz).
    assert (G1 : good_maps labels (pre ++ [(b, m)])). { intros q Hq. apply G. rewrite E2. apply in_or_app. left. exact Hq. }
    rewrite (twoing_score_fun labels lft' rgt' NL A B KL KR); [|intros z; rewrite VL; apply (good_V labels), G1|intros z; rewrite VR; apply (good_V labels), Gp].
    cbn [bind]. rewrite (tw_fun_ext labels (lw_val lft') (lw_val rgt') (V (pre ++ [(b, m)])) (V pack)) by (intros z _; apply VL || apply VR).
    set (sc := tw_fun labels (V (pre ++ [(b, m)])) (V pack)).
    assert (Esc : sc = tw_fun labels (V (pre ++ firstn 1 ((b, m) :: pack))) (V (skipn 1 ((b, m) :: pack)))) by reflexivity.
    rewrite E2 in G.
    assert (Shift : forall k, tw_fun labels (V ((pre ++ [(b, m)]) ++ firstn (S k) pack)) (V (skipn (S k) pack)) = tw_fun labels (V (pre ++ firstn (S (S k)) ((b, m) :: pack))) (V (skipn (S (S k)) ((b, m) :: pack)))).
    { intros k. rewrite <- app_assoc. reflexivity. }
    destruct (Rltb_spec best sc) as [Hlt|Hge].
    + destruct (IH (pre ++ [(b, m)]) lft' rgt' sc (b_end b) G A B KL KR VL VR) as [t [bb [El [Hb [Hall Hex]]]]]. exists t, bb. split; [exact El|]. split; [lra|]. split.
      * intros [|k] Hk; [rewrite <- Esc; lra|]. simpl in Hk. rewrite <- Shift. apply Hall. lia.
      * right. destruct Hex as [[-> ->]|[k [Hk [-> ->]]]].
        -- exists 0%nat. split; [simpl; lia|]. split; [reflexivity|exact Esc].
        -- exists (S k). split; [simpl; lia|]. split; [reflexivity|]. apply Shift.
    + destruct (IH (pre ++ [(b, m)]) lft' rgt' best thr G A B KL KR VL VR) as [t [bb [El [Hb [Hall Hex]]]]]. exists t, bb. split; [exact El|]. split; [lra|]. split.
      * intros [|k] Hk; [rewrite <- Esc; lra|]. simpl in Hk. rewrite <- Shift. apply Hall. lia.
      * destruct Hex as [H0|[k [Hk [-> ->]]]]; [left; exact H0|]. right.
        exists (S k). split; [simpl; lia|]. split; [reflexivity|]. apply Shift.
Qed.
