(** The training step of the network on well-shaped data: no panic, shapes, and closed forms (used by NNTrainFacts). *)
From Verif Require Import Base Spec SortLib Utils UtilsProofs AdaBoost AdaBoostMore Feature Sample Task TaskFacts NN NNSpec NNFacts.
Open Scope R_scope.

Definition aff (l : layer) (x : list R) : list R := map (fun p => dot (fst p) x + snd p) (combine (l_matrix l) (l_bias l)).
Definition actv (a : activation) (u : list R) : list R := match act_eval a u with Ok v => v | Panic _ => [] end.
Definition dfv (a : activation) (u : list R) : list R := match act_diff a u with Ok v => v | Panic _ => [] end.

Lemma affine_ok l r c x : layer_ok l r c -> length x = c -> affine l x = Ok (aff l x) /\ length (aff l x) = r.
Proof.
  intros [E1 [E2 [E3 [E4 E5]]]] Hx. unfold affine, assert_, bind. rewrite E2, Hx, Nat.eqb_refl. split; [reflexivity|].
  unfold aff. rewrite map_length, combine_length. lia.
Qed.

Lemma aff_nth l r c x a : layer_ok l r c -> (a < r)%nat -> nth a (aff l x) 0 = dot (nth a (l_matrix l) []) x + nth a (l_bias l) 0.
Proof.
  intros [E1 [E2 [E3 [E4 E5]]]] Ha. unfold aff. rewrite (nth_map_in _ _ a ([], 0)) by (rewrite combine_length; lia).
  rewrite combine_nth by lia. reflexivity.
Qed.

Lemma nonempty_pos {A} (l : list A) : (0 < length l)%nat -> l <> [].
Proof. intros H ->. simpl in H. lia. Qed.

Lemma act_ok a u : u <> [] -> act_eval a u = Ok (actv a u) /\ length (actv a u) = length u.
Proof.
  intros Hu. unfold actv. destruct a as [eta|eta|th|]; cbn [act_eval]; try (split; [reflexivity|rewrite map_length; reflexivity]).
  - rewrite project_softmax by (destruct u; [congruence|discriminate]). split; [reflexivity|]. unfold softmax. rewrite !map_length. reflexivity.
  - split; reflexivity.
Qed.

Lemma df_ok a u : u <> [] -> act_diff a u = Ok (dfv a u) /\ length (dfv a u) = length u.
Proof.
  intros Hu. unfold dfv. destruct a as [eta|eta|th|]; cbn [act_diff act_eval]; try (split; [reflexivity|rewrite ?map_length, ?repeat_length; reflexivity]).
  rewrite project_softmax by (destruct u; [congruence|discriminate]). split; [reflexivity|]. unfold softmax. cbn [bind]. rewrite !map_length. reflexivity.
Qed.

Definition z1 (l : layer) (x : list R) : list R := actv (l_act l) (aff l x).

Lemma layer_fwd l r c x : layer_ok l r c -> (0 < r)%nat -> length x = c ->
  affine l x = Ok (aff l x) /\ length (aff l x) = r /\ act_eval (l_act l) (aff l x) = Ok (z1 l x) /\ length (z1 l x) = r /\ forward l x = Ok (z1 l x) /\
  act_diff (l_act l) (aff l x) = Ok (dfv (l_act l) (aff l x)) /\ length (dfv (l_act l) (aff l x)) = r.
Proof.
  intros Hl Hr Hx. destruct (affine_ok l r c x Hl Hx) as [A1 A2]. assert (Hne : aff l x <> []) by (apply nonempty_pos; lia).
  destruct (act_ok (l_act l) _ Hne) as [B1 B2]. destruct (df_ok (l_act l) _ Hne) as [C1 C2].
  unfold z1, forward. rewrite A1. cbn [bind]. repeat split; try assumption; congruence.
Qed.

Fixpoint netv (net : list layer) (x : list R) : list R := match net with [] => x | l :: rest => netv rest (z1 l x) end.

Lemma net_eval_ok dims acts net : net_ok dims acts net -> Forall (lt 0) dims -> forall x, length x = hd 0%nat dims ->
  net_eval net x = Ok (netv net x) /\ length (netv net x) = last dims 0%nat.
Proof.
  induction 1 as [d|d0 d1 ds a acts l ls Hl Ha Hn IH]; intros F x Hx.
  - split; [reflexivity|exact Hx].
  - inversion F as [|? ? F0 F1]; subst. inversion F1; subst. destruct (layer_fwd l d1 d0 x Hl ltac:(lia) Hx) as [_ [_ [_ [L [E _]]]]].
    cbn [net_eval netv]. rewrite E. cbn [bind]. destruct (IH F1 (z1 l x) L) as [I1 I2]. split; [exact I1|]. rewrite I2. reflexivity.
Qed.

Lemma output_dim_ok dims acts net : net_ok dims acts net -> net <> [] -> output_dim net = Ok (last dims 0%nat).
Proof.
  intros Hn. unfold output_dim. induction Hn as [d|d0 d1 ds a acts l ls Hl Ha Hn IH]; intros Hne; [congruence|].
  destruct ls as [|l' ls].
  - inversion Hn; subst. simpl. destruct Hl as [-> _]. reflexivity.
  - simpl rev in *. specialize (IH ltac:(discriminate)). destruct (rev ls) as [|q qs] eqn:E; simpl in *; exact IH.
Qed.

(** *** forward records *)
Fixpoint inputs (net : list layer) (x : list R) : list (list R) := match net with [] => [] | l :: rest => x :: inputs rest (z1 l x) end.
Fixpoint dfsl (net : list layer) (x : list R) : list (list R) :=
  match net with
  | [] => []
  | l :: rest => (match rest with [] => [] | _ => [dfv (l_act l) (aff l x)] end) ++ dfsl rest (z1 l x)
  end.

Lemma forward_record_ok dims acts net : net_ok dims acts net -> Forall (lt 0) dims -> forall x, length x = hd 0%nat dims ->
  forward_record net x = Ok (inputs net x, dfsl net x, netv net x).
Proof.
  induction 1 as [d|d0 d1 ds a acts l ls Hl Ha Hn IH]; intros F x Hx; [reflexivity|].
  inversion F as [|? ? F0 F1]; subst. inversion F1; subst.
  destruct (layer_fwd l d1 d0 x Hl ltac:(lia) Hx) as [A1 [_ [A2 [L [_ [A3 _]]]]]].
  cbn [forward_record inputs dfsl netv]. rewrite A1. cbn [bind]. rewrite A2. cbn [bind].
  destruct ls as [|l' ls]; cbn [bind].
  - rewrite (IH F1 (z1 l x) L). reflexivity.
  - rewrite A3. cbn [bind]. rewrite (IH F1 (z1 l x) L). reflexivity.
Qed.

(** *** deltas *)
Definition vm (d : list R) (M : list (list R)) : list R :=
  map (fun j => rsum (map (fun k => nth k d 0 * entry M k j) (seq 0 (length d)))) (seq 0 (length (hd [] M))).
Fixpoint delta1 (net : list layer) (x y : list R) : list R :=
  match net with
  | [] => []
  | l :: rest => match rest with
                 | [] => loss_diff (z1 l x) y
                 | l1 :: _ => zipmul (dfv (l_act l) (aff l x)) (vm (delta1 rest (z1 l x) y) (l_matrix l1))
                 end
  end.

Lemma zipmul_length a b : length (zipmul a b) = Nat.min (length a) (length b).
Proof. unfold zipmul. rewrite map_length, combine_length. reflexivity. Qed.

Lemma nth_zipmul a b k : length a = length b -> nth k (zipmul a b) 0 = nth k a 0 * nth k b 0.
Proof.
  intros H. unfold zipmul. destruct (Nat.lt_ge_cases k (length a)) as [L|L].
  - rewrite (nth_map_in _ _ k (0, 0)) by (rewrite combine_length; lia). rewrite combine_nth by exact H. reflexivity.
  - rewrite nth_overflow by (rewrite map_length, combine_length; lia). rewrite (nth_overflow a) by exact L. lra.
Qed.

Lemma delta1_length dims acts net : net_ok dims acts net -> Forall (lt 0) dims -> net <> [] -> forall x y, length x = hd 0%nat dims -> length y = last dims 0%nat ->
  length (delta1 net x y) = nth 1 dims 0%nat.
Proof.
  induction 1 as [d|d0 d1 ds a acts l ls Hl Ha Hn IH]; intros F Hne x y Hx Hy; [congruence|].
  assert (F1 : Forall (lt 0) (d1 :: ds)) by (inversion F; assumption).
  assert (Hd1 : (0 < d1)%nat) by (inversion F1; assumption). cbn [hd] in Hx.
  destruct (layer_fwd l d1 d0 x Hl Hd1 Hx) as [_ [_ [_ [L [_ [_ Ld]]]]]].
  cbn [delta1 nth]. clear IH Hne. destruct ls as [|l1 ls'].
  - assert (ds = []) by (inversion Hn; reflexivity). subst ds. simpl in Hy. unfold loss_diff. rewrite map_length, combine_length, L, Hy. lia.
  - rewrite zipmul_length, Ld. unfold vm. rewrite map_length, seq_length.
    assert (G : exists d2, layer_ok l1 d2 d1 /\ (0 < d2)%nat).
    { inversion Hn as [|? d2 ? ? ? ? ? Q1 Q2 Q3]. exists d2. split; [exact Q1|]. inversion F1 as [|? ? G1 G2]. subst ds. inversion G2. assumption. }
    destruct G as [d2 [[_ [_ [M1 [M2 _]]]] P2]].
    destruct (l_matrix l1) as [|r0 M] eqn:EM; [simpl in *; lia|]. simpl hd. rewrite (M2 r0 (or_introl eq_refl)). lia.
Qed.

(** *** the matrix operations on well-shaped matrices *)
Definition dwm (D out : list (list R)) (r c : nat) : list (list R) :=
  map (fun i => map (fun j => rsum (map (fun k => entry D k i * entry out k j) (seq 0 (length D)))) (seq 0 c)) (seq 0 r).
Definition dbv (D : list (list R)) (r : nat) : list R := map (fun i => rsum (map (fun k => entry D k i) (seq 0 (length D)))) (seq 0 r).
Definition updl (rate : R) (l : layer) (D out : list (list R)) : layer :=
  mkLayer (l_nrow l) (l_ncol l) (sub_rows rate (l_matrix l) (dwm D out (l_nrow l) (l_ncol l))) (sub_scaled rate (l_bias l) (dbv D (l_nrow l))) (l_act l).

Lemma rows_ge_ok n m : (forall r, In r m -> length r = n) -> rows_ge n m = true.
Proof. intros H. apply forallb_forall. intros r Hr. rewrite (H r Hr). apply Nat.leb_refl. Qed.

Lemma matrix_product_ok D M n m : D <> [] -> (forall d, In d D -> length d = n) -> length M = n -> (0 < n)%nat -> (forall r, In r M -> length r = m) ->
  matrix_product D M = Ok (map (fun d => vm d M) D).
Proof.
  intros HD Hd HM Hn Hr. unfold matrix_product. destruct D as [|d0 D]; [congruence|]. set (D' := d0 :: D) in *.
  rewrite (Hd d0 (or_introl eq_refl)), HM. unfold bind, assert_. rewrite Nat.eqb_refl. destruct M as [|r0 M]; [simpl in HM; lia|]. set (M' := r0 :: M) in *.
  rewrite (rows_ge_ok n D' Hd), (rows_ge_ok (length r0) M') by (intros r H; rewrite (Hr r H), (Hr r0 (or_introl eq_refl)); reflexivity).
  simpl andb. cbv iota. f_equal. apply (list_eq_nth []); [rewrite !map_length, seq_length; reflexivity|].
  intros i Hi. rewrite map_length, seq_length in Hi. rewrite nth_map_seq by exact Hi. rewrite (nth_map_in _ D' i []) by exact Hi. unfold vm.
  assert (Li : length (nth i D' []) = n) by (apply Hd, nth_In, Hi). rewrite Li. reflexivity.
Qed.

Lemma matrix_inner_ok D out r c : D <> [] -> length out = length D -> (forall d, In d D -> length d = r) -> (forall o, In o out -> length o = c) ->
  matrix_inner_product D out = Ok (dwm D out r c).
Proof.
  intros HD HL Hd Ho. unfold matrix_inner_product, bind, assert_. rewrite <- HL, Nat.eqb_refl. destruct D as [|d0 D]; [congruence|].
  destruct out as [|o0 out]; [simpl in HL; lia|]. rewrite (Hd d0 (or_introl eq_refl)), (Ho o0 (or_introl eq_refl)).
  rewrite (rows_ge_ok r _ Hd), (rows_ge_ok c _ Ho). simpl andb. cbv iota. unfold dwm. rewrite HL. reflexivity.
Qed.

Lemma column_sum_ok D r : D <> [] -> (forall d, In d D -> length d = r) -> column_sum D = Ok (dbv D r).
Proof.
  intros HD Hd. unfold column_sum. destruct D as [|d0 D]; [congruence|]. set (D' := d0 :: D) in *. f_equal. rewrite (Hd d0 (or_introl eq_refl)).
  assert (G : forall E acc, (forall d, In d E -> length d = r) -> length acc = r ->
    fold_left (fun cols row => map (fun p => fst p + snd p) (combine cols row) ++ skipn (length row) cols) E acc =
    map (fun i => nth i acc 0 + rsum (map (fun d => nth i d 0) E)) (seq 0 r)).
  { induction E as [|e E IH]; intros acc HE Ha; simpl.
    - rewrite <- (map_nth_seq 0 acc) at 1. rewrite Ha. apply map_ext. intros i. lra.
    - rewrite (HE e (or_introl eq_refl)). rewrite IH.
      + apply map_ext_in. intros i Hi. apply in_seq in Hi. rewrite app_nth1 by (rewrite map_length, combine_length, (HE e (or_introl eq_refl)); lia).
        rewrite (nth_map_in _ _ i (0, 0)) by (rewrite combine_length, (HE e (or_introl eq_refl)); lia).
        rewrite combine_nth by (rewrite (HE e (or_introl eq_refl)); exact Ha). cbn [fst snd]. lra.
      + intros d H; apply HE; right; exact H.
      + rewrite app_length, map_length, combine_length, skipn_length, (HE e (or_introl eq_refl)). lia. }
  rewrite G; [|exact Hd|apply repeat_length]. unfold dbv. apply map_ext_in. intros i Hi. apply in_seq in Hi. rewrite nth_repeat_lt by lia. rewrite Rplus_0_l.
  f_equal. transitivity (map (fun d => nth i d 0) (map (fun k => nth k D' []) (seq 0 (length D')))); [rewrite map_nth_seq; reflexivity|]. rewrite map_map. reflexivity.
Qed.

Lemma dwm_length D out r c : length (dwm D out r c) = r.
Proof. unfold dwm. rewrite map_length, seq_length. reflexivity. Qed.

Lemma backward_ok rate l r c D out : layer_ok l r c -> (0 < r)%nat -> backward rate l (dwm D out r c) (dbv D r) = Ok (updl rate l D out).
Proof.
  intros [E1 [E2 [E3 [E4 E5]]]] Hr. unfold backward, bind, assert_. rewrite E3, dwm_length, Nat.eqb_refl.
  destruct (l_matrix l) as [|r0 M] eqn:EM; [simpl in E3; lia|].
  destruct (dwm D out r c) as [|d0 dw] eqn:Ed; [pose proof (dwm_length D out r c) as L; rewrite Ed in L; simpl in L; lia|].
  assert (Hd0 : length d0 = c).
  { assert (H : In d0 (dwm D out r c)) by (rewrite Ed; left; reflexivity). unfold dwm in H. apply in_map_iff in H. destruct H as [i [<- _]]. rewrite map_length, seq_length. reflexivity. }
  rewrite (E4 r0 (or_introl eq_refl)), Hd0, Nat.eqb_refl. rewrite E5.
  assert (Lb : length (dbv D r) = r) by (unfold dbv; rewrite map_length, seq_length; reflexivity). rewrite Lb, Nat.eqb_refl.
  unfold updl. rewrite E1, E2, EM, Ed. reflexivity.
Qed.

Lemma sub_scaled_length rate : forall r d, length (sub_scaled rate r d) = length r.
Proof. induction r as [|x r IH]; intros [|y d]; simpl; try reflexivity. rewrite IH. reflexivity. Qed.
Lemma sub_scaled_nth rate : forall r d k, length d = length r -> nth k (sub_scaled rate r d) 0 = nth k r 0 - rate * nth k d 0.
Proof.
  induction r as [|x r IH]; intros [|y d] k H; simpl in *; try lia.
  - destruct k; lra.
  - destruct k; [reflexivity|]. apply IH. lia.
Qed.
Lemma sub_rows_length rate : forall m d, length (sub_rows rate m d) = length m.
Proof. induction m as [|x m IH]; intros [|y d]; simpl; try reflexivity. rewrite IH. reflexivity. Qed.
Lemma sub_rows_nth rate : forall m d k, length d = length m -> nth k (sub_rows rate m d) [] = sub_scaled rate (nth k m []) (nth k d []).
Proof.
  induction m as [|x m IH]; intros [|y d] k H; simpl in *; try lia.
  - destruct k; reflexivity.
  - destruct k; [reflexivity|]. apply IH. lia.
Qed.

Lemma updl_ok rate l r c D out : layer_ok l r c -> layer_ok (updl rate l D out) r c.
Proof.
  intros [E1 [E2 [E3 [E4 E5]]]]. unfold updl, layer_ok; simpl. repeat split; try assumption.
  - rewrite sub_rows_length. exact E3.
  - intros q Hq. apply (In_nth _ _ []) in Hq. destruct Hq as [k [Hk <-]]. rewrite sub_rows_length in Hk. rewrite sub_rows_nth by (rewrite dwm_length; congruence).
    rewrite sub_scaled_length. apply E4, nth_In, Hk.
  - rewrite sub_scaled_length. exact E5.
Qed.

Lemma entry_updl rate l r c D out a b : layer_ok l r c -> (a < r)%nat -> (b < c)%nat ->
  nth b (nth a (l_matrix (updl rate l D out)) []) 0 =
  nth b (nth a (l_matrix l) []) 0 - rate * rsum (map (fun k => entry D k a * entry out k b) (seq 0 (length D))).
Proof.
  intros [E1 [E2 [E3 [E4 E5]]]] Ha Hb. unfold updl. cbn [l_matrix]. rewrite E1, E2.
  rewrite sub_rows_nth by (rewrite dwm_length; congruence).
  assert (Hrow : nth a (dwm D out r c) [] = map (fun j => rsum (map (fun k => entry D k a * entry out k j) (seq 0 (length D)))) (seq 0 c)).
  { unfold dwm. rewrite nth_map_seq by exact Ha. reflexivity. }
  rewrite Hrow, sub_scaled_nth by (rewrite map_length, seq_length; symmetry; apply E4, nth_In; lia).
  rewrite nth_map_seq by exact Hb. reflexivity.
Qed.

Lemma bias_updl rate l r c D out a : layer_ok l r c -> (a < r)%nat ->
  nth a (l_bias (updl rate l D out)) 0 = nth a (l_bias l) 0 - rate * rsum (map (fun k => entry D k a) (seq 0 (length D))).
Proof.
  intros [E1 [E2 [E3 [E4 E5]]]] Ha. unfold updl. cbn [l_bias]. rewrite E1.
  rewrite sub_scaled_nth by (unfold dbv; rewrite map_length, seq_length; congruence). unfold dbv. rewrite nth_map_seq by exact Ha. reflexivity.
Qed.

Lemma hadamard_ok A B : length A = length B -> A <> [] -> (forall k, (k < length A)%nat -> length (nth k A []) = length (nth k B [])) ->
  hadamard_product A B = Ok (map (fun p => zipmul (fst p) (snd p)) (combine A B)).
Proof.
  intros HL HA Hr. unfold hadamard_product. rewrite HL, Nat.eqb_refl. simpl negb. cbv iota.
  destruct A as [|a A]; [congruence|]. destruct B as [|b B]; [simpl in HL; lia|].
  pose proof (Hr 0%nat ltac:(simpl; lia)) as H0. simpl in H0. rewrite H0, Nat.eqb_refl. simpl negb. cbv iota. f_equal.
  apply map_ext_in. intros [r1 r2] Hin. cbn [fst snd].
  apply (In_nth _ _ ([], [])) in Hin. destruct Hin as [k [Hk E]]. rewrite combine_nth in E by exact HL. pose proof (f_equal fst E) as E1. pose proof (f_equal snd E) as E2. cbn [fst snd] in E1, E2.
  rewrite combine_length in Hk. rewrite skipn_all2; [apply app_nil_r|]. pose proof (Hr k ltac:(lia)) as Hrk. rewrite E1, E2 in Hrk. lia.
Qed.

(** *** the backward loop *)
Fixpoint back_pre (rate : R) (layers : list layer) (outputs dfs : list (list (list R))) (delta : list (list R)) : res (list layer * list (list R)) :=
  match layers, outputs, dfs with
  | [], _, _ => Ok ([], delta)
  | l :: ls, out :: outs, df :: dfs' =>
      let* delta_x_weights := matrix_product delta (l_matrix l) in
      let* dw := matrix_inner_product delta out in
      let* db := column_sum delta in
      let* l' := backward rate l dw db in
      let* delta' := hadamard_product df delta_x_weights in
      let* r := back_pre rate ls outs dfs' delta' in Ok (l' :: fst r, snd r)
  | _, _, _ => Panic UnwrapNone
  end.

Lemma back_app rate : forall ls1 outs1 dfs1 ls2 outs2 dfs2 delta, length outs1 = length ls1 -> length dfs1 = length ls1 ->
  back_layers rate (ls1 ++ ls2) (outs1 ++ outs2) (dfs1 ++ dfs2) delta =
  let* r := back_pre rate ls1 outs1 dfs1 delta in let* r2 := back_layers rate ls2 outs2 dfs2 (snd r) in Ok (fst r ++ r2).
Proof.
  induction ls1 as [|l ls1 IH]; intros outs1 dfs1 ls2 outs2 dfs2 delta L1 L2.
  - destruct outs1; [|discriminate]. destruct dfs1; [|discriminate]. cbn [app back_pre bind fst snd]. destruct (back_layers rate ls2 outs2 dfs2 delta); reflexivity.
  - destruct outs1 as [|o outs1]; [discriminate|]. destruct dfs1 as [|df dfs1]; [discriminate|]. cbn [app back_layers back_pre].
    destruct (matrix_product delta (l_matrix l)); cbn [bind]; [|reflexivity].
    destruct (matrix_inner_product delta o); cbn [bind]; [|reflexivity].
    destruct (column_sum delta); cbn [bind]; [|reflexivity].
    destruct (backward rate l a0 a1); cbn [bind]; [|reflexivity].
    destruct (hadamard_product df a); cbn [bind]; [|reflexivity].
    rewrite IH by (simpl in *; lia). destruct (back_pre rate ls1 outs1 dfs1 a3) as [[r d]|]; cbn [bind fst snd]; [|reflexivity].
    destruct (back_layers rate ls2 outs2 dfs2 d); reflexivity.
Qed.

Lemma back_pre_app rate : forall ls1 outs1 dfs1 ls2 outs2 dfs2 delta, length outs1 = length ls1 -> length dfs1 = length ls1 ->
  back_pre rate (ls1 ++ ls2) (outs1 ++ outs2) (dfs1 ++ dfs2) delta =
  let* r := back_pre rate ls1 outs1 dfs1 delta in let* r2 := back_pre rate ls2 outs2 dfs2 (snd r) in Ok (fst r ++ fst r2, snd r2).
Proof.
  induction ls1 as [|l ls1 IH]; intros outs1 dfs1 ls2 outs2 dfs2 delta L1 L2.
  - destruct outs1; [|discriminate]. destruct dfs1; [|discriminate]. cbn [app back_pre bind fst snd]. destruct (back_pre rate ls2 outs2 dfs2 delta) as [[? ?]|]; reflexivity.
  - destruct outs1 as [|o outs1]; [discriminate|]. destruct dfs1 as [|df dfs1]; [discriminate|]. cbn [app back_pre].
    destruct (matrix_product delta (l_matrix l)); cbn [bind]; [|reflexivity].
    destruct (matrix_inner_product delta o); cbn [bind]; [|reflexivity].
    destruct (column_sum delta); cbn [bind]; [|reflexivity].
    destruct (backward rate l a0 a1); cbn [bind]; [|reflexivity].
    destruct (hadamard_product df a); cbn [bind]; [|reflexivity].
    rewrite IH by (simpl in *; lia). destruct (back_pre rate ls1 outs1 dfs1 a3) as [[r d]|]; cbn [bind fst snd]; [|reflexivity].
    destruct (back_pre rate ls2 outs2 dfs2 d) as [[? ?]|]; reflexivity.
Qed.

Definition batch := list (list R * list R).
Definition shift (l : layer) (B : batch) : batch := map (fun e => (z1 l (fst e), snd e)) B.
Fixpoint outs (net : list layer) (B : batch) : list (list (list R)) := match net with [] => [] | l :: rest => map fst B :: outs rest (shift l B) end.
Fixpoint dfss (net : list layer) (B : batch) : list (list (list R)) :=
  match net with
  | [] => []
  | l :: rest => (match rest with [] => [] | _ => [map (fun e => dfv (l_act l) (aff l (fst e))) B] end) ++ dfss rest (shift l B)
  end.
Fixpoint updnet (rate : R) (net : list layer) (B : batch) : list layer :=
  match net with [] => [] | l :: rest => updl rate l (map (fun e => delta1 (l :: rest) (fst e) (snd e)) B) (map fst B) :: updnet rate rest (shift l B) end.
Definition top (net : list layer) (B : batch) : list (list R) := map (fun e => loss_diff (netv net (fst e)) (snd e)) B.

Lemma outs_length net : forall B, length (outs net B) = length net.
Proof. induction net as [|l net IH]; intros B; simpl; [reflexivity|]. rewrite IH. reflexivity. Qed.
Lemma dfss_length net : forall B, length (dfss net B) = (length net - 1)%nat.
Proof. induction net as [|l net IH]; intros B; simpl; [reflexivity|]. rewrite app_length, IH. destruct net; simpl; lia. Qed.

Definition batch_ok (d0 dn : nat) (B : batch) : Prop := B <> [] /\ forall e, In e B -> length (fst e) = d0 /\ length (snd e) = dn.

Lemma shift_ok l d0 d1 dn B : layer_ok l d1 d0 -> (0 < d1)%nat -> batch_ok d0 dn B -> batch_ok d1 dn (shift l B).
Proof.
  intros Hl Hd [HB HE]. split; [destruct B; [congruence|discriminate]|]. intros e He. unfold shift in He. apply in_map_iff in He. destruct He as [e' [<- He']].
  cbn [fst snd]. destruct (HE e' He') as [A1 A2]. split; [|exact A2]. apply (layer_fwd l d1 d0 (fst e') Hl Hd A1).
Qed.

Lemma top_shift l rest B : top (l :: rest) B = top rest (shift l B).
Proof. unfold top, shift. rewrite map_map. reflexivity. Qed.

(** one step of the loop *)
Lemma step_ok rate l d0 d1 B D : layer_ok l d1 d0 -> (0 < d1)%nat -> (0 < d0)%nat -> B <> [] -> length D = length B ->
  (forall d, In d D -> length d = d1) -> (forall e : list R * list R, In e B -> length (fst e) = d0) ->
  matrix_product D (l_matrix l) = Ok (map (fun d => vm d (l_matrix l)) D) /\
  matrix_inner_product D (map fst B) = Ok (dwm D (map fst B) d1 d0) /\ column_sum D = Ok (dbv D d1) /\
  backward rate l (dwm D (map fst B) d1 d0) (dbv D d1) = Ok (updl rate l D (map fst B)).
Proof.
  intros Hl H1 H0 HB HL HD HE. assert (HDne : D <> []) by (destruct B; [congruence|]; destruct D; [simpl in HL; lia|discriminate]).
  split; [|split; [|split]].
  - destruct Hl as [_ [_ [E3 [E4 _]]]]. apply (matrix_product_ok D (l_matrix l) d1 d0); assumption.
  - apply matrix_inner_ok; [exact HDne|rewrite map_length; congruence|exact HD|]. intros o Ho. apply in_map_iff in Ho. destruct Ho as [e [<- He]]. apply HE, He.
  - apply column_sum_ok; assumption.
  - apply backward_ok; assumption.
Qed.

Lemma combine_map_same {A B C} (f : A -> B) (g : A -> C) l : combine (map f l) (map g l) = map (fun a => (f a, g a)) l.
Proof. induction l as [|a l IH]; simpl; [reflexivity|]. rewrite IH. reflexivity. Qed.

Lemma vm_length d M n m : length M = n -> (0 < n)%nat -> (forall r, In r M -> length r = m) -> length (vm d M) = m.
Proof. intros HM Hn Hr. unfold vm. rewrite map_length, seq_length. destruct M as [|r0 M]; [simpl in HM; lia|]. apply Hr. left. reflexivity. Qed.


Lemma combine_nth_list {A B} (l : list A) (l' : list B) da db : length l = length l' -> combine l l' = map (fun k => (nth k l da, nth k l' db)) (seq 0 (length l)).
Proof.
  intros H. apply (list_eq_nth (da, db)); [rewrite combine_length, map_length, seq_length; lia|]. intros k Hk. rewrite combine_length in Hk.
  rewrite combine_nth by exact H. rewrite (nth_map_seq _ _ k) by lia. reflexivity.
Qed.

Lemma delta_lengths dims acts net B : net_ok dims acts net -> Forall (lt 0) dims -> net <> [] -> batch_ok (hd 0%nat dims) (last dims 0%nat) B ->
  forall d, In d (map (fun e => delta1 net (fst e) (snd e)) B) -> length d = nth 1 dims 0%nat.
Proof.
  intros Hn F Hne [_ HB] d Hd. apply in_map_iff in Hd. destruct Hd as [e [<- He]]. destruct (HB e He) as [A1 A2].
  apply (delta1_length dims acts net); assumption.
Qed.

Lemma back_pre_net rate dims acts net : net_ok dims acts net -> Forall (lt 0) dims -> net <> [] ->
  forall B (P : list (list R)), batch_ok (hd 0%nat dims) (last dims 0%nat) B -> length P = length B -> (forall p, In p P -> length p = hd 0%nat dims) ->
  back_pre rate (rev net) (rev (outs net B)) (rev (P :: dfss net B)) (top net B) =
  Ok (rev (updnet rate net B), map (fun pe => zipmul (fst pe) (vm (delta1 net (fst (snd pe)) (snd (snd pe))) (l_matrix (hd dummy_layer net)))) (combine P B)).
Proof.
  intros Hok. induction Hok as [d|d0 d1 ds a acts l ls Hl Ha Hn IH]; intros F Hne B P HB HPl HP; [congruence|].
  inversion F as [|? ? F0 F1]; subst. inversion F1 as [|? ? F2 F3]; subst. pose proof HB as [HBne HBl]. cbn [hd] in *.
  assert (Hin : forall e, In e B -> length (fst e) = d0) by (intros e He; apply (HBl e He)).
  assert (Hstep : forall D, D = map (fun e => delta1 (l :: ls) (fst e) (snd e)) B ->
     back_pre rate [l] [map fst B] [P] D =
     Ok ([updl rate l (map (fun e => delta1 (l :: ls) (fst e) (snd e)) B) (map fst B)],
         map (fun pe => zipmul (fst pe) (vm (delta1 (l :: ls) (fst (snd pe)) (snd (snd pe))) (l_matrix l))) (combine P B))).
  { intros D ED. assert (HD : forall d, In d D -> length d = d1).
    { intros d Hd. rewrite ED in Hd. apply (delta_lengths (d0 :: d1 :: ds) (l_act l :: acts) (l :: ls) B); [constructor; [exact Hl|reflexivity|exact Hn]|exact F|discriminate|exact HB|exact Hd]. }
    destruct (step_ok rate l d0 d1 B D Hl F2 F0 HBne) as [S1 [S2 [S3 S4]]]; [rewrite ED, map_length; reflexivity|exact HD|exact Hin|].
    cbn [back_pre]. rewrite S1. cbn [bind]. rewrite S2. cbn [bind]. rewrite S3. cbn [bind]. rewrite S4. cbn [bind].
    rewrite hadamard_ok.
    - cbn [bind fst snd]. rewrite ED. rewrite map_map. f_equal. f_equal.
      rewrite (combine_nth_list P _ [] []) by (rewrite map_length; exact HPl). rewrite (combine_nth_list P B [] ([], [])) by exact HPl. rewrite !map_map.
      apply map_ext_in. intros k Hk. apply in_seq in Hk. cbn [fst snd]. rewrite (nth_map_in _ B k ([], [])) by lia. reflexivity.
    - rewrite ED, !map_length. exact HPl.
    - destruct P; [|discriminate]. destruct B; [congruence|discriminate].
    - intros k Hk. rewrite (HP (nth k P [])) by (apply nth_In, Hk).
      rewrite (nth_map_in _ D k []) by (rewrite ED, map_length; lia). destruct Hl as [_ [_ [M1 [M2 _]]]]. rewrite (vm_length _ _ d1 d0) by assumption. reflexivity. }
  destruct ls as [|l' ls].
  - cbn [rev app outs dfss updnet]. rewrite (Hstep (top [l] B)); [reflexivity|]. reflexivity.
  - set (rest := l' :: ls) in *. assert (Hrne : rest <> []) by discriminate.
    assert (HBs : batch_ok d1 (last (d1 :: ds) 0%nat) (shift l B)).
    { apply (shift_ok l d0); [exact Hl|exact F2|]. split; [exact HBne|exact HBl]. }
    set (Q := map (fun e : list R * list R => dfv (l_act l) (aff l (fst e))) B).
    assert (IH' := IH F1 Hrne (shift l B) Q HBs).
    change (rev (l :: rest)) with (rev rest ++ [l]). change (outs (l :: rest) B) with (map fst B :: outs rest (shift l B)).
    change (rev (map fst B :: outs rest (shift l B))) with (rev (outs rest (shift l B)) ++ [map fst B]).
    change (dfss (l :: rest) B) with (Q :: dfss rest (shift l B)).
    change (rev (P :: Q :: dfss rest (shift l B))) with (rev (Q :: dfss rest (shift l B)) ++ [P]).
    rewrite back_pre_app.
    + rewrite top_shift. rewrite IH'.
      * cbn [bind fst snd]. rewrite Hstep; [reflexivity|].
        unfold Q, shift. rewrite combine_map_same, map_map. apply map_ext. intros e. reflexivity.
      * unfold Q, shift. rewrite !map_length. reflexivity.
      * intros p Hp. unfold Q in Hp. apply in_map_iff in Hp. destruct Hp as [e [<- He]].
        apply (layer_fwd l d1 d0 (fst e) Hl F2 (Hin e He)).
    + rewrite !rev_length, outs_length. reflexivity.
    + rewrite !rev_length. change (length (Q :: dfss rest (shift l B))) with (S (length (dfss rest (shift l B)))). rewrite dfss_length. simpl. lia.
Qed.

(** the whole loop: the first layer (processed last) has no preceding activation *)
Lemma back_layers_net rate dims acts net B : net_ok dims acts net -> Forall (lt 0) dims -> net <> [] ->
  batch_ok (hd 0%nat dims) (last dims 0%nat) B ->
  back_layers rate (rev net) (rev (outs net B)) (rev (dfss net B)) (top net B) = Ok (rev (updnet rate net B)).
Proof.
  intros Hok F Hne HB. destruct Hok as [d|d0 d1 ds a acts l ls Hl Ha Hn]; [congruence|].
  inversion F as [|? ? F0 F1]; subst. inversion F1 as [|? ? F2 F3]; subst. pose proof HB as [HBne HBl]. cbn [hd] in *.
  assert (Hin : forall e, In e B -> length (fst e) = d0) by (intros e He; apply (HBl e He)).
  assert (Hstep : forall D, D = map (fun e => delta1 (l :: ls) (fst e) (snd e)) B ->
     back_layers rate [l] [map fst B] [] D = Ok [updl rate l (map (fun e => delta1 (l :: ls) (fst e) (snd e)) B) (map fst B)]).
  { intros D ED. assert (HD : forall d, In d D -> length d = d1).
    { intros d Hd. rewrite ED in Hd. apply (delta_lengths (d0 :: d1 :: ds) (l_act l :: acts) (l :: ls) B); [constructor; [exact Hl|reflexivity|exact Hn]|exact F|discriminate|exact HB|exact Hd]. }
    destruct (step_ok rate l d0 d1 B D Hl F2 F0 HBne) as [S1 [S2 [S3 S4]]]; [rewrite ED, map_length; reflexivity|exact HD|exact Hin|].
    cbn [back_layers]. rewrite S1. cbn [bind]. rewrite S2. cbn [bind]. rewrite S3. cbn [bind]. rewrite S4. cbn [bind]. rewrite ED. reflexivity. }
  destruct ls as [|l' ls].
  - cbn [rev app outs dfss updnet]. rewrite (Hstep (top [l] B)); [reflexivity|]. reflexivity.
  - set (rest := l' :: ls) in *. assert (Hrne : rest <> []) by discriminate.
    assert (HBs : batch_ok d1 (last (d1 :: ds) 0%nat) (shift l B)).
    { apply (shift_ok l d0); [exact Hl|exact F2|]. split; [exact HBne|exact HBl]. }
    set (Q := map (fun e : list R * list R => dfv (l_act l) (aff l (fst e))) B).
    change (rev (l :: rest)) with (rev rest ++ [l]). change (outs (l :: rest) B) with (map fst B :: outs rest (shift l B)).
    change (rev (map fst B :: outs rest (shift l B))) with (rev (outs rest (shift l B)) ++ [map fst B]).
    change (dfss (l :: rest) B) with (Q :: dfss rest (shift l B)).
    rewrite <- (app_nil_r (rev (Q :: dfss rest (shift l B)))).
    rewrite back_app.
    + rewrite top_shift. rewrite (back_pre_net rate (d1 :: ds) acts rest Hn F1 Hrne (shift l B) Q HBs).
      * cbn [bind fst snd]. rewrite Hstep; [reflexivity|].
        unfold Q, shift. rewrite combine_map_same, map_map. apply map_ext. intros e. reflexivity.
      * unfold Q, shift. rewrite !map_length. reflexivity.
      * intros p Hp. unfold Q in Hp. apply in_map_iff in Hp. destruct Hp as [e [<- He]].
        apply (layer_fwd l d1 d0 (fst e) Hl F2 (Hin e He)).
    + rewrite !rev_length, outs_length. reflexivity.
    + rewrite !rev_length. change (length (Q :: dfss rest (shift l B))) with (S (length (dfss rest (shift l B)))). rewrite dfss_length. simpl. lia.
Qed.
