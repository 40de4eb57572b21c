(** Property C72: LPBoost with a solver of finite accuracy. *)
From Verif Require Import Base Spec RegSpec LPSpec NearSpec Utils UtilsProofs WMajority WMajorityProofs Booster Reach AdaBoost AdaBoostProofs
  AdaBoostMain AdaBoostMore FrankWolfeProofs CERLPProofs Csc ConicSpec CscProofs LPBoost LPBoostProofs LPBoostFacts Solvable SolverFacts.
Open Scope R_scope.

Lemma rabs_le a e : Rabs a <= e -> - e <= a <= e.
Proof. intros H. unfold Rabs in H. destruct (Rcase_abs a); lra. Qed.
Lemma le_rabs a e : - e <= a <= e -> Rabs a <= e.
Proof. intros H. unfold Rabs. destruct (Rcase_abs a); lra. Qed.

(** the facts about an answer that matter for LPBoost *)
Definition near_vec (eps : R) (v : list R) : Prop := 1 - eps <= rsum v <= 1 + eps.

Section Near.
  Context {H : Type}.
  Variable conf : H -> nat -> R.
  Variable y : list R.
  Local Notation n := (length y).
  Variable hs : list H.
  Local Notation T := (length hs).
  Variable nu : R.
  Hypothesis Hnu : 1 <= nu.
  Variable eps : R.
  Hypothesis Heps : 0 <= eps.
  Let p := lp_conic conf y nu hs.

  Lemma lp_near a : nearly_solves eps p a -> let ws := skipn (1 + n) (a_x a) in let d := firstn n (a_z a) in
    (1 + n <= length (a_x a))%nat /\ (n <= length (a_z a))%nat /\
    length ws = T /\ (forall x, In x ws -> - eps <= x) /\ near_vec eps ws /\
    length d = n /\ (forall x, In x d -> 0 <= x) /\ near_vec eps d /\
    (forall h, In h hs -> edge_of y d (conf h) <= - a_obj a + 3 * eps) /\
    (forall i, (i < n)%nat -> - a_obj a - eps * (1 + nu * INR n) <= nth i y 0 * vote conf (combine ws hs) i).
  Proof.
    intros [Lx [Lz [F [St [Gap Ob]]]]] ws d. unfold p in Lx, Lz, F, St, Gap, Ob. rewrite lp_objective in Ob by exact Hnu. rewrite lp_b_length in Lz, F, Gap. rewrite lp_q_length in Lx, St, Gap.
    set (x := a_x a) in *. set (z := a_z a) in *.
    assert (St' : forall c, (c < 1 + n + T)%nat -> Rabs (nth c (k_q (lp_conic conf y nu hs)) 0 + col_dot (csc_of (2 * n + T + 1) (lp_cols conf y hs)) z c) <= eps).
    { intros c Hc. specialize (St c Hc). change (k_P (lp_conic conf y nu hs)) with (csc_zeros (1 + n + T) (1 + n + T)) in St. rewrite row_dot_zeros in St.
      change (k_A (lp_conic conf y nu hs)) with (csc_of (2 * n + T + 1) (lp_cols conf y hs)) in St. rewrite Rplus_0_l in St. exact St. }
    assert (F' : forall r, (r < 2 * n + T + 1)%nat -> if Nat.eqb r n then Rabs (slack (lp_conic conf y nu hs) x r) <= eps else - eps <= slack (lp_conic conf y nu hs) x r /\ 0 <= nth r z 0).
    { intros r Hr. specialize (F r Hr). rewrite lp_sense in F by exact Hr. exact F. }
    clear F St.
    assert (F1 : forall i, (i < n)%nat -> nth 0 x 0 - nth (1 + i) x 0 - eps <= rsum (map (fun t => nth (1 + n + t) x 0 * marg conf y hs t i) (seq 0 T)) /\ 0 <= nth i z 0).
    { intros i Hi. specialize (F' i ltac:(lia)). rewrite (proj2 (Nat.eqb_neq i n)) in F' by lia. rewrite lp_slack, lp_b_nth in F' by (lia).
      rewrite (row_margin conf y hs x i Hi) in F'. rewrite (proj2 (Nat.eqb_neq i n)) in F' by lia. lra. }
    assert (F2 : 1 - eps <= rsum (map (fun t => nth (1 + n + t) x 0) (seq 0 T)) <= 1 + eps).
    { specialize (F' n ltac:(lia)). rewrite Nat.eqb_refl in F'. rewrite lp_slack, lp_b_nth in F' by (lia). rewrite (row_sum conf y hs x), Nat.eqb_refl in F'. apply rabs_le in F'. lra. }
    assert (F3 : forall i, (i < n)%nat -> - eps <= nth (1 + i) x 0 /\ 0 <= nth (n + 1 + i) z 0).
    { intros i Hi. specialize (F' (n + 1 + i)%nat ltac:(lia)). rewrite (proj2 (Nat.eqb_neq (n + 1 + i) n)) in F' by lia. rewrite lp_slack, lp_b_nth in F' by (lia).
      rewrite (row_xi conf y hs x i Hi) in F'. rewrite (proj2 (Nat.eqb_neq (n + 1 + i) n)) in F' by lia. lra. }
    assert (F4 : forall t, (t < T)%nat -> - eps <= nth (1 + n + t) x 0 /\ 0 <= nth (2 * n + 1 + t) z 0).
    { intros t Ht. specialize (F' (2 * n + 1 + t)%nat ltac:(lia)). rewrite (proj2 (Nat.eqb_neq (2 * n + 1 + t) n)) in F' by lia. rewrite lp_slack, lp_b_nth in F' by (lia).
      rewrite (row_w conf y hs x t Ht) in F'. rewrite (proj2 (Nat.eqb_neq (2 * n + 1 + t) n)) in F' by lia. lra. }
    clear F'.
    assert (Lw : length ws = T) by (unfold ws; rewrite skipn_length, Lx; lia).
    assert (Ld : length d = n) by (unfold d; rewrite firstn_length, Lz; lia).
    assert (Nw : forall t, nth t ws 0 = nth (1 + n + t) x 0) by (intros; apply nth_skipn_add).
    assert (Nd : forall i, (i < n)%nat -> nth i d 0 = nth i z 0) by (intros; apply nth_firstn_lt; assumption).
    assert (Beta : nth n z 0 <= - a_obj a + 2 * eps).
    { rewrite (rsum_zero (fun c => row_dot _ x c * nth c x 0)) in Gap.
      2:{ intros c _. change (k_P (lp_conic conf y nu hs)) with (csc_zeros (1 + n + T) (1 + n + T)). rewrite row_dot_zeros. ring. }
      rewrite (rsum_pick (fun r => nth r (k_b (lp_conic conf y nu hs)) 0 * nth r z 0) n (2 * n + T + 1)) in Gap by
        (try lia; intros j Hj Hne; rewrite lp_b_nth by (lia); rewrite (proj2 (Nat.eqb_neq j n)) by exact Hne; ring).
      rewrite lp_b_nth in Gap by (lia). rewrite Nat.eqb_refl in Gap.
      assert (Eo : objective (lp_conic conf y nu hs) x = rsum (map (fun c => nth c (k_q (lp_conic conf y nu hs)) 0 * nth c x 0) (seq 0 (1 + n + T)))).
      { unfold objective. rewrite lp_q_length. rewrite (rsum_zero (fun c => row_dot _ x c * nth c x 0)).
        2:{ intros c _. change (k_P (lp_conic conf y nu hs)) with (csc_zeros (1 + n + T) (1 + n + T)). rewrite row_dot_zeros. ring. }
        field. }
      rewrite <- Eo, lp_objective in Gap by exact Hnu. apply rabs_le in Gap. apply rabs_le in Ob. lra. }
    split; [lia|]. split; [lia|]. split; [exact Lw|]. split; [|split; [|split; [exact Ld|split; [|split; [|split]]]]].
    - intros v Hv. apply (In_nth _ _ 0) in Hv. destruct Hv as [t [Ht <-]]. rewrite Nw. apply F4. lia.
    - unfold near_vec. rewrite <- (rsum_nth ws), Lw. rewrite (rsum_map_ext _ (fun t => nth (1 + n + t) x 0)) by (intros; apply Nw). exact F2.
    - intros v Hv. apply (In_nth _ _ 0) in Hv. destruct Hv as [t [Ht <-]]. rewrite Nd by lia. apply F1. lia.
    - unfold near_vec. rewrite <- (rsum_nth d), Ld. rewrite (rsum_map_ext _ (fun t => nth t z 0)) by (intros i Hi; apply in_seq in Hi; apply Nd; lia).
      specialize (St' 0%nat ltac:(lia)). rewrite (col_rho conf y hs z) in St'. simpl (nth 0 (k_q (lp_conic conf y nu hs)) 0) in St'. apply rabs_le in St'. lra.
    - intros h Hh. apply In_nth_error in Hh. destruct Hh as [t Ht]. assert (HtT : (t < T)%nat) by (apply nth_error_Some; congruence).
      rewrite (edge_marg conf y hs d t h Ld Ht). rewrite (rsum_map_ext _ (fun i => nth i z 0 * marg conf y hs t i)) by (intros i Hi; apply in_seq in Hi; rewrite Nd by lia; reflexivity).
      specialize (St' (1 + n + t)%nat ltac:(lia)). rewrite lp_q_nth_w in St' by exact HtT. rewrite (col_w conf y hs z t HtT) in St'. apply rabs_le in St'. pose proof (F4 t HtT). lra.
    - intros i Hi. rewrite (vote_marg conf y hs ws i Lw Hi). rewrite (rsum_map_ext _ (fun t => nth (1 + n + t) x 0 * marg conf y hs t i)) by (intros; rewrite Nw; reflexivity).
      destruct (F1 i Hi) as [F1i _]. assert (S : nth (1 + i) x 0 + eps <= rsum (map (fun i => nth (1 + i) x 0 + eps) (seq 0 n))).
      { apply rsum_in_le; [intros v Hv; apply in_map_iff in Hv; destruct Hv as [j [<- Hj]]; apply in_seq in Hj; destruct (F3 j ltac:(lia)); lra|]. apply in_map_iff. exists i. split; [reflexivity|apply in_seq; lia]. }
      rewrite rsum_map_plus in S. rewrite rsum_map_const in S. rewrite seq_length in S.
      destruct (F3 i Hi) as [F3i _]. apply rabs_le in Ob. pose proof (Rmult_le_compat_l nu _ _ ltac:(lra) S) as S'. nra.
  Qed.
End Near.

(** normalising slightly wrong weights *)
Lemma near_vote {H} (conf : H -> nat -> R) y eps ws (hs : list H) : 0 <= eps < 1 -> length ws = length hs -> (forall x, In x ws -> - eps <= x) -> near_vec eps ws ->
  (forall h i, In h hs -> (i < length y)%nat -> -1 <= nth i y 0 * conf h i <= 1) ->
  exists f, from_slices ws hs = Ok f /\ forall i, (i < length y)%nat ->
    -1 <= nth i y 0 * wm_confidence conf f i <= 1 /\ nth i y 0 * vote conf (combine ws hs) i - eps * (2 * INR (length hs) + 1) <= nth i y 0 * wm_confidence conf f i.
Proof.
  intros He L Hp Hs Hb. pose proof (from_slices_spec conf ws hs) as S.
  assert (K : forall ws hs, length ws = length hs -> (forall x, In x ws -> - eps <= x) -> rsum ws <= rsum (map fst (@kept H ws hs)) <= rsum ws + eps * INR (length hs)).
  { clear - He. unfold kept. induction ws as [|w ws IH]; intros [|h hs] L Hp; cbn [combine filter map rsum length] in *; try lia; [simpl; lra|].
    specialize (IH hs ltac:(lia) ltac:(intros; apply Hp; right; assumption)). pose proof (Hp w (or_introl eq_refl)). rewrite S_INR. cbn [fst].
    destruct (Rltb_spec 0 w) as [P|P]; cbn [map rsum fst]; nra. }
  assert (K2 : forall i, (i < length y)%nat -> forall ws hs, length ws = length hs -> (forall x, In x ws -> - eps <= x) -> (forall h, In h hs -> -1 <= nth i y 0 * conf h i <= 1) ->
     nth i y 0 * vote conf (combine ws hs) i - eps * INR (length hs) <= nth i y 0 * vote conf (@kept H ws hs) i /\
     - rsum (map fst (@kept H ws hs)) <= nth i y 0 * vote conf (@kept H ws hs) i <= rsum (map fst (@kept H ws hs))).
  { clear - He. intros i Hi. unfold kept, vote. induction ws as [|w ws IH]; intros [|h hs] L Hp Hb; cbn [combine filter map rsum length] in *; try lia; [simpl; lra|].
    specialize (IH hs ltac:(lia) ltac:(intros; apply Hp; right; assumption) ltac:(intros; apply Hb; right; assumption)). pose proof (Hp w (or_introl eq_refl)). pose proof (Hb h (or_introl eq_refl)) as B. rewrite S_INR. cbn [fst snd].
    destruct (Rltb_spec 0 w) as [P|P]; cbn [map rsum fst snd]; nra. }
  specialize (K ws hs L Hp). unfold near_vec in Hs. destruct (from_slices ws hs) as [f|p].
  - exists f. split; [reflexivity|]. intros i Hi. destruct S as [Z [_ [_ [_ [_ S]]]]]. rewrite S. destruct (K2 i Hi ws hs L Hp ltac:(intros; apply Hb; assumption)) as [A B].
    set (z := rsum (map fst (kept ws hs))) in *. set (u := vote conf (kept ws hs) i) in *.
    assert (E : nth i y 0 * (u / z) * z = nth i y 0 * u) by (field; lra). set (v := nth i y 0 * (u / z)) in *.
    assert (-1 <= v <= 1) by (split; nra). split; [assumption|]. pose proof (pos_INR (length hs)) as PT. set (T := INR (length hs)) in *.
    assert (PE : 0 <= eps * T) by nra. assert (v * (z - 1) <= eps * (1 + T)) by (destruct (Rle_lt_dec 1 z); nra). nra.
  - destruct S as [_ S]. rewrite S in K. simpl in K. lra.
Qed.

(** averages under a slightly wrong distribution *)
Lemma near_margin y d (f : nat -> R) g : (forall x, In x d -> 0 <= x) -> length d = length y -> (forall i, (i < length y)%nat -> g <= nth i y 0 * f i) -> g * rsum d <= edge_of y d f.
Proof.
  intros D L Hm. unfold edge_of. rewrite <- (rsum_nth d), L, <- rsum_map_mult. apply rsum_le_seq. intros i Hi.
  specialize (Hm i Hi). assert (Hi2 : (i < length d)%nat) by lia. specialize (D (nth i d 0) (nth_In _ _ Hi2)). nra.
Qed.

Lemma near_edge_ub y d (f : nat -> R) g : (forall x, In x d -> 0 <= x) -> length d = length y -> (forall i, (i < length y)%nat -> nth i y 0 * f i <= g) -> edge_of y d f <= g * rsum d.
Proof.
  intros D L Hm. unfold edge_of. rewrite <- (rsum_nth d), L, <- rsum_map_mult. apply rsum_le_seq. intros i Hi.
  specialize (Hm i Hi). assert (Hi2 : (i < length d)%nat) by lia. specialize (D (nth i d 0) (nth_In _ _ Hi2)). nra.
Qed.

Lemma near_vote_edge {H} (conf : H -> nat -> R) y eps d ws (hs : list H) G E : 0 <= eps -> length ws = length hs -> (forall x, In x ws -> - eps <= x) -> length d = length y ->
  (forall h, In h hs -> - E <= edge_of y d (conf h) <= G) ->
  edge_of y d (vote conf (combine ws hs)) <= (rsum ws + eps * INR (length hs)) * G + eps * INR (length hs) * E.
Proof.
  intros He L Hp Ld Hg. rewrite (edge_vote_sum conf y hs d ws L). rewrite <- (rsum_nth ws), L.
  rewrite (rsum_map_ext _ (fun t => (nth t ws 0 + eps) * rsum (map (fun i => nth i d 0 * marg conf y hs t i) (seq 0 (length y))) - eps * rsum (map (fun i => nth i d 0 * marg conf y hs t i) (seq 0 (length y))))) by (intros; ring).
  rewrite rsum_map_minus.
  assert (Hb : forall t, (t < length hs)%nat -> - E <= rsum (map (fun i => nth i d 0 * marg conf y hs t i) (seq 0 (length y))) <= G).
  { intros t Ht. destruct (nth_error hs t) as [h|] eqn:Eh; [|apply nth_error_None in Eh; lia]. rewrite <- (edge_marg conf y hs d t h Ld Eh). apply Hg, (nth_error_In _ _ Eh). }
  assert (A : rsum (map (fun t => (nth t ws 0 + eps) * rsum (map (fun i => nth i d 0 * marg conf y hs t i) (seq 0 (length y)))) (seq 0 (length hs))) <= (rsum (map (fun i => nth i ws 0) (seq 0 (length hs))) + eps * INR (length hs)) * G).
  { rewrite Rmult_comm. replace (eps * INR (length hs)) with (rsum (map (fun _ : nat => eps) (seq 0 (length hs)))) by (rewrite rsum_map_const, seq_length; ring).
    rewrite <- rsum_map_plus, <- rsum_map_mult. apply rsum_le_seq. intros t Ht. specialize (Hb t Ht). assert (Ht2 : (t < length ws)%nat) by lia. specialize (Hp (nth t ws 0) (nth_In _ _ Ht2)). nra. }
  assert (B : - (INR (length hs) * E) <= rsum (map (fun t => rsum (map (fun i => nth i d 0 * marg conf y hs t i) (seq 0 (length y)))) (seq 0 (length hs)))).
  { replace (- (INR (length hs) * E)) with (rsum (map (fun _ : nat => - E) (seq 0 (length hs)))) by (rewrite rsum_map_const, seq_length; ring). apply rsum_le_seq. intros t Ht. apply Hb, Ht. }
  rewrite rsum_map_mult. nra.
Qed.

(** the votes themselves *)
Lemma near_vote_le {H} (conf : H -> nat -> R) y eps ws (hs : list H) i : 0 <= eps -> length ws = length hs -> (forall x, In x ws -> - eps <= x) -> (i < length y)%nat ->
  (forall h, In h hs -> -1 <= nth i y 0 * conf h i <= 1) -> nth i y 0 * vote conf (combine ws hs) i <= rsum ws + 2 * eps * INR (length hs).
Proof.
  intros He L Hp Hi Hb. unfold vote. revert hs L Hb Hp. induction ws as [|w ws IH]; intros [|h hs] L Hb Hp; cbn [combine filter map rsum length] in *; try lia; [simpl; lra|].
  specialize (IH hs ltac:(lia) ltac:(intros; apply Hb; right; assumption) ltac:(intros; apply Hp; right; assumption)). pose proof (Hp w (or_introl eq_refl)). pose proof (Hb h (or_introl eq_refl)). rewrite S_INR. cbn [fst snd]. nra.
Qed.

Lemma near_key eps T W D G m0 : 0 <= eps < 1 -> 0 <= T -> eps * T <= 1 -> 1 - eps <= W <= 1 + eps -> 1 - eps <= D <= 1 + eps -> -2 <= G -> m0 <= 4 ->
  m0 * D <= (W + eps * T) * G + eps * T * 2 -> m0 - (6 * T + 8) * eps <= G.
Proof.
  intros He HT HeT HW HD HG Hm E. assert (PT : 0 <= eps * T) by nra. destruct (Rle_lt_dec m0 G) as [L|L]; [lra|].
  assert (A1 : (W - 1 + eps * T) * G <= 4 * (eps * T + eps)).
  { destruct (Rle_lt_dec 0 G) as [P|P].
    - destruct (Rle_lt_dec 0 (W - 1 + eps * T)) as [Q|Q]; [|nra].
      apply Rle_trans with ((W - 1 + eps * T) * 4); [apply Rmult_le_compat_l; lra|lra].
    - assert (- eps <= W - 1 + eps * T) by lra. assert ((W - 1 + eps * T) * G <= - eps * G) by nra. nra. }
  assert (A2 : - 4 * eps <= m0 * (D - 1)).
  { destruct (Rle_lt_dec 0 m0) as [P|P].
    - assert (- eps <= D - 1) by lra. assert (m0 * - eps <= m0 * (D - 1)) by (apply Rmult_le_compat_l; lra). nra.
    - assert (D - 1 <= eps) by lra. assert (m0 * eps <= m0 * (D - 1)) by nra. nra. }
  lra.
Qed.

Section Run.
  Context {H : Type}.
  Variable conf : H -> nat -> R.
  Variable solve : conic -> answer.
  Variable produce : nat -> list R -> H.
  Variable y : list R.
  Variable s0 : @lpboost H.
  Variable eps : R.
  Local Notation n := (length y).
  Let b := lpboost_booster conf solve produce y.
  Hypothesis Heps : 0 <= eps < 1.
  Hypothesis Hex : forall p, lpb_asks conf solve produce y s0 p -> nearly_solves eps p (solve p).
  Hypothesis Hbd : forall t d i, (i < n)%nat -> -1 <= nth i y 0 * conf (produce t d) i <= 1.

  Definition nonneg (d : list R) : Prop := forall x, In x d -> 0 <= x.

  Definition NInv (t : nat) (s : @lpboost H) (tr : trace) : Prop :=
    (0 < n)%nat /\ 1 <= lb_nu s0 <= INR n /\ (1 <= t)%nat /\ length tr = (t - 1)%nat /\ Forall (fun d => nonneg d /\ near_vec eps d /\ length d = n) tr /\
    lb_hyps s = answers produce tr /\ lb_tol s = lb_tol s0 /\ lb_nu s = lb_nu s0 /\
    (exists m, lb_model s = Some m /\ lpm_ok conf y (lb_nu s0) (lb_hyps s) m) /\
    (lb_gamma_hat s = 1 \/ In (lb_gamma_hat s) (edges conf produce y tr)) /\
    nonneg (lb_dist s) /\ near_vec eps (lb_dist s) /\ length (lb_dist s) = n /\
    (t = 1%nat \/ exists g ws, length ws = length (lb_hyps s) /\ (forall x, In x ws -> - eps <= x) /\ near_vec eps ws /\
       (forall i, (i < n)%nat -> g - eps * (1 + lb_nu s0 * INR n) <= nth i y 0 * vote conf (combine ws (lb_hyps s)) i) /\
       (forall h, In h (lb_hyps s) -> edge_of y (lb_dist s) (conf h) <= g + 3 * eps)).

  Lemma ninv_first s : b_pre b s0 = Ok s -> NInv 1 s [].
  Proof.
    change (b_pre b) with (@lpb_pre H y). unfold lpb_pre. destruct (is_valid_binary_instance y) as [u|] eqn:V; cbn [bind]; [|discriminate].
    destruct u. pose proof (valid_instance_nonempty y V) as Hn. destruct (Rleb_spec 1 (lb_nu s0)) as [A|]; [|discriminate]. destruct (Rleb_spec (lb_nu s0) (INR n)) as [B|]; [|discriminate]. cbn [andb assert_ bind]. intros E. injection E as <-.
    unfold NInv. cbn [lb_hyps lb_tol lb_nu lb_model lb_gamma_hat lb_dist]. split; [exact Hn|]. split; [auto|]. split; [lia|]. split; [reflexivity|]. split; [constructor|].
    split; [reflexivity|]. split; [reflexivity|]. split; [reflexivity|]. split; [eexists; split; [reflexivity|apply lpm_init_ok]|]. split; [left; reflexivity|].
    assert (Hp : 0 < INR n) by (apply lt_0_INR; exact Hn).
    split; [intros x Hx; apply repeat_spec in Hx; subst x; apply Rlt_le, Rdiv_lt_0_compat; lra|]. split; [unfold near_vec; rewrite rsum_repeat; replace (INR n * (1 / INR n)) with 1 by (field; lra); lra|]. split; [apply repeat_length|]. left. reflexivity.
  Qed.

  Lemma nround t s tr : reach b s0 t s -> NInv t s tr ->
    let h := produce t (lb_dist s) in let gh := Rmin (edge_of y (lb_dist s) (conf h)) (lb_gamma_hat s) in
    exists m' ws d g,
      b_boost b t s = ([lb_dist s], Ok (if Rleb (gh - lb_tol s) g then (mkLpb (lb_dist s) gh (lb_tol s) (lb_nu s) (Some m') (lb_hyps s ++ [h]), Break t)
                                        else (mkLpb d gh (lb_tol s) (lb_nu s) (Some m') (lb_hyps s ++ [h]), Continue))) /\
      lpm_ok conf y (lb_nu s0) (lb_hyps s ++ [h]) m' /\ lm_weights m' = ws /\
      length ws = length (lb_hyps s ++ [h]) /\ (forall x, In x ws -> - eps <= x) /\ near_vec eps ws /\ length d = n /\ nonneg d /\ near_vec eps d /\
      (forall h', In h' (lb_hyps s ++ [h]) -> edge_of y d (conf h') <= g + 3 * eps) /\
      (forall i, (i < n)%nat -> g - eps * (1 + lb_nu s0 * INR n) <= nth i y 0 * vote conf (combine ws (lb_hyps s ++ [h])) i).
  Proof.
    intros Hr [Hn [Hnu [Ht [Hl [Hq [Hh [Etol [Enu [[m [Em Om]] [G2 [Dd [Nd [Ld _]]]]]]]]]]]]].
    destruct (lpm_push_ok conf y (lb_nu s0) (lb_hyps s) m (produce t (lb_dist s)) Om) as [m1 [Ep Om1]].
    assert (S : nearly_solves eps (lp_conic conf y (lb_nu s0) (lb_hyps s ++ [produce t (lb_dist s)])) (solve (lp_conic conf y (lb_nu s0) (lb_hyps s ++ [produce t (lb_dist s)])))).
    { apply Hex. exists t, s, m, m1. auto. }
    set (p := lp_conic conf y (lb_nu s0) (lb_hyps s ++ [produce t (lb_dist s)])) in *. set (a := solve p) in *.
    destruct (lp_near conf y _ (lb_nu s0) (proj1 Hnu) eps a S) as [L1 [L2 [Lw [Pw [Dw [Ld' [Pd' [Dd' [E1 E3]]]]]]]]].
    exists (mkLpm (lm_obj m1) (lm_bld m1) (lm_n m1) (lm_T m1) (skipn (1 + n) (a_x a)) (firstn n (a_z a))), (skipn (1 + n) (a_x a)), (firstn n (a_z a)), (- a_obj a).
    cbn zeta. split; [|split; [exact Om1|]; split; [reflexivity|]; auto 12].
    change (b_boost b t s) with (lpb_boost conf solve produce y t s). unfold lpb_boost, lpm_update. rewrite Em, Ep. cbn [bind]. fold a.
    destruct Om1 as [_ [_ [En _]]]. rewrite En. unfold slice_from, slice_to. rewrite (proj2 (Nat.leb_le _ _) L1). cbn [bind]. rewrite (proj2 (Nat.leb_le _ _) L2). cbn [bind].
    rewrite edge_of_hypothesis_spec by exact Ld. cbn [lm_dist]. destruct (Rleb _ _); reflexivity.
  Qed.

  Lemma answers_bd tr h i : In h (answers produce tr) -> (i < n)%nat -> -1 <= nth i y 0 * conf h i <= 1.
  Proof. intros Hin Hi. unfold answers in Hin. apply in_map_iff in Hin. destruct Hin as [[t d] [<- _]]. apply Hbd, Hi. Qed.

  Lemma ninv_step t s tr : reach b s0 t s -> NInv t s tr ->
    match b_boost b t s with
    | (q, Panic p) => False
    | (q, Ok (s', Continue)) => NInv (S t) s' (tr ++ q)
    | (q, Ok (s', Break _)) => match b_post b s' with
        | Panic p => False
        | Ok f => Forall (fun d => nonneg d /\ near_vec eps d /\ length d = n) (tr ++ q) /\
                  exists gh, (gh = 1 \/ In gh (edges conf produce y (tr ++ q))) /\
                  forall i, (i < n)%nat -> gh - lb_tol s0 - eps * (lb_nu s0 * INR n + 2 * INR (length (tr ++ q)) + 2) <= nth i y 0 * wm_confidence conf f i
        end
    end.
  Proof.
    intros Hr HI. destruct (nround t s tr Hr HI) as [m' [ws [d [g [Eb [Om [Ew [Lw [Pw [Dw [Ld [Pd [Dd [E1 E3]]]]]]]]]]]]]]. cbn zeta in *.
    destruct HI as [Hn [Hnu [Ht [Hl [Hq [Hh [Etol [Enu [[m [Em _]] [G2 [Ps [Ds [Ls _]]]]]]]]]]]]].
    rewrite Eb. clear Eb. set (h := produce t (lb_dist s)) in *. set (gh := Rmin (edge_of y (lb_dist s) (conf h)) (lb_gamma_hat s)) in *.
    assert (Ea : answers produce (tr ++ [lb_dist s]) = lb_hyps s ++ [h]) by (rewrite answers_app, Hh; replace (S (length tr)) with t by lia; reflexivity).
    assert (Ee : edges conf produce y (tr ++ [lb_dist s]) = edges conf produce y tr ++ [edge_of y (lb_dist s) (conf h)]) by (rewrite edges_app; replace (S (length tr)) with t by lia; reflexivity).
    assert (Q : Forall (fun d => nonneg d /\ near_vec eps d /\ length d = n) (tr ++ [lb_dist s])) by (apply Forall_app; split; [exact Hq|constructor; [auto|constructor]]).
    assert (Gi : gh = 1 \/ In gh (edges conf produce y (tr ++ [lb_dist s]))).
    { rewrite Ee. unfold gh, Rmin. destruct (Rle_dec _ _); [right; apply in_or_app; right; left; reflexivity|]. destruct G2 as [->|G2]; [left; reflexivity|right; apply in_or_app; left; exact G2]. }
    destruct (Rleb_spec (gh - lb_tol s) g) as [B|B].
    - change (b_post b) with (@lpb_post H). unfold lpb_post. cbn [lb_model lb_hyps]. rewrite Ew.
      destruct (near_vote conf y eps ws _ Heps Lw Pw Dw) as [f [Ef Cf]]; [intros h' i Hh' Hi; rewrite <- Ea in Hh'; apply (answers_bd _ _ _ Hh' Hi)|]. rewrite Ef. split; [exact Q|]. exists gh. split; [exact Gi|].
      intros i Hi. destruct (Cf i Hi) as [_ C]. specialize (E3 i Hi). replace (length (lb_hyps s ++ [h])) with (length (tr ++ [lb_dist s])) in C by (rewrite <- Ea, answers_length; reflexivity).
      rewrite Etol in B. lra.
    - unfold NInv. cbn [lb_hyps lb_tol lb_nu lb_model lb_gamma_hat lb_dist]. split; [exact Hn|]. split; [exact Hnu|]. split; [lia|]. split; [rewrite app_length; simpl; lia|].
      split; [exact Q|]. split; [symmetry; exact Ea|]. split; [exact Etol|]. split; [exact Enu|]. split; [exists m'; auto|]. split; [exact Gi|]. split; [exact Pd|]. split; [exact Dd|]. split; [exact Ld|].
      right. exists g, ws. auto.
  Qed.

  (** ** termination *)
  Variable C : list (nat -> R).
  Hypothesis Hcls : forall t d, exists c, In c C /\ forall i, (i < n)%nat -> conf (produce t d) i = c i.
  Hypothesis Htol : eps * (lb_nu s0 * INR n + 6 * INR (length C) + 15) <= lb_tol s0.
  Hypothesis Hsmall : eps * INR (length C) <= 1.

  Definition NTInv (t : nat) (s : @lpboost H) (tr : trace) : Prop :=
    NInv t s tr /\ exists cs, NoDup cs /\ incl cs C /\ length cs = (t - 1)%nat /\
      (forall c, In c cs -> exists h, In h (lb_hyps s) /\ forall i, (i < n)%nat -> conf h i = c i).

  Lemma ntinv_step t s tr : reach b s0 t s -> NTInv t s tr ->
    match b_boost b t s with
    | (q, Panic p) => False
    | (q, Ok (s', Continue)) => NTInv (S t) s' (tr ++ q) /\ (t < S (length C))%nat
    | (q, Ok (s', Break _)) => match b_post b s' with Panic p => False | Ok f => (length (tr ++ q) <= S (length C))%nat end
    end.
  Proof.
    intros Hr [HI [cs [N1 [N2 [N3 N4]]]]]. pose proof (ninv_step t s tr Hr HI) as St.
    destruct (nround t s tr Hr HI) as [m' [ws [d [g [Eb [Om [Ew [Lw [Pw [Dw [Ld [Pd [Dd [E1 E3]]]]]]]]]]]]]]. cbn zeta in *.
    pose proof (NoDup_incl_length N1 N2) as Hlen.
    destruct HI as [Hn [Hnu [Ht [Hl [Hq [Hh [Etol [Enu [[m [Em _]] [G2 [Ps [Ds [Ls Hg]]]]]]]]]]]]].
    rewrite Eb in *. clear Eb. set (h := produce t (lb_dist s)) in *. set (gh := Rmin (edge_of y (lb_dist s) (conf h)) (lb_gamma_hat s)) in *.
    destruct (Rleb_spec (gh - lb_tol s) g) as [B|B].
    - destruct (b_post b _) as [f|p]; [|exact St]. rewrite app_length. simpl. lia.
    - destruct (Hcls t (lb_dist s)) as [c [Hc Ec]]. fold h in Ec.
      assert (Nc : ~ In c cs).
      { intros Hin. destruct (N4 c Hin) as [h' [Hh' Eh]]. destruct Hg as [->|[g0 [ws0 [Lw0 [Pw0 [Dw0 [F1 F2]]]]]]].
        - destruct cs; [destruct Hin|simpl in N3; lia].
        - pose proof (F2 h' Hh') as F2'. rewrite (edge_ext_n y (lb_dist s) (conf h') (conf h)) in F2' by (intros i Hi; rewrite Eh, Ec by exact Hi; reflexivity).
          pose proof (Rmin_l (edge_of y (lb_dist s) (conf h)) (lb_gamma_hat s)) as Mn. fold gh in Mn.
          set (T := INR (length (lb_hyps s))). assert (HT : 0 <= T <= INR (length C)).
          { unfold T. split; [apply pos_INR|]. apply le_INR. rewrite Hh, answers_length. lia. }
          pose proof (near_margin y d (vote conf (combine ws0 (lb_hyps s))) _ Pd Ld F1) as M1.
          assert (Hbh : forall h0 i, In h0 (lb_hyps s) -> (i < n)%nat -> -1 <= nth i y 0 * conf h0 i <= 1) by (intros h0 i A A'; rewrite Hh in A; apply (answers_bd _ _ _ A A')).
          unfold near_vec in *.
          pose proof (near_vote_edge conf y eps d ws0 (lb_hyps s) (g + 3 * eps) 2 (proj1 Heps) Lw0 Pw0 Ld) as M2. fold T in M2.
          specialize (M2 ltac:(intros h0 Hh0; split; [pose proof (near_margin y d (conf h0) (-1) Pd Ld ltac:(intros i Hi; apply (Hbh h0 i Hh0 Hi))); lra|apply E1, in_or_app; left; exact Hh0])).
          assert (Glo : -2 <= g + 3 * eps).
          { assert (In' : In h' (lb_hyps s ++ [h])) by (apply in_or_app; left; exact Hh'). specialize (E1 h' In'). pose proof (near_margin y d (conf h') (-1) Pd Ld ltac:(intros i Hi; apply (Hbh h' i Hh' Hi))). lra. }
          assert (Mhi : g0 - eps * (1 + lb_nu s0 * INR n) <= 4).
          { eapply Rle_trans; [apply (F1 0%nat Hn)|]. eapply Rle_trans; [apply (near_vote_le conf y eps ws0 (lb_hyps s) 0 (proj1 Heps) Lw0 Pw0 Hn); intros h0 Hh0; apply (Hbh h0 0%nat Hh0 Hn)|]. fold T. nra. }
          rewrite Etol in B. clear - M1 M2 Glo Mhi Mn F2' B Heps Htol Hsmall HT Dd Dw0.
          set (m0 := g0 - eps * (1 + lb_nu s0 * INR n)) in *. set (G := g + 3 * eps) in *. set (D := rsum d) in *. set (W := rsum ws0) in *.
          assert (ET : eps * T <= 1) by nra.
          pose proof (near_key eps T W D G m0 Heps (proj1 HT) ET Dw0 Dd Glo Mhi ltac:(lra)) as Key.
          assert (X : eps * T <= eps * INR (length C)) by nra. unfold m0, G in Key. nra. }
      assert (Nd' : NoDup (c :: cs)) by (constructor; assumption). assert (In' : incl (c :: cs) C) by (intros x [<-|Hx]; [exact Hc|apply N2, Hx]).
      pose proof (NoDup_incl_length Nd' In') as Hlen'. simpl in Hlen'. split; [|lia]. split; [exact St|]. exists (c :: cs).
      split; [exact Nd'|]. split; [exact In'|]. split; [simpl; lia|].
      intros c' [<-|Hc']; cbn [lb_hyps]; [exists h; split; [apply in_or_app; right; left; reflexivity|exact Ec]|].
      destruct (N4 c' Hc') as [h' [Hh' Eh]]. exists h'. split; [apply in_or_app; left; exact Hh'|exact Eh].
  Qed.
End Run.

(** ** C72: with a solver that answers up to [eps], the smallest margin of the vote that LPBoost returns is still within
    the tolerance plus [eps] (nu n + 2 T + 3) of the best smallest margin over the class, T being the number of rounds;
    the distributions shown to the weak learner are nonnegative and add up to 1 up to [eps] *)
Lemma P_C72_inexact_solver_margin :
  forall (H : Type) (conf : H -> nat -> R) solve produce y (s : @lpboost H) fuel tr f (cls : H -> Prop) eps,
  0 <= eps < 1 ->
  (forall p, lpb_asks conf solve produce y s p -> nearly_solves eps p (solve p)) ->
  (forall h i, cls h -> (i < length y)%nat -> -1 <= nth i y 0 * conf h i <= 1) -> (forall t d, cls (produce t d)) ->
  (forall t d c, length d = length y -> (forall x, In x d -> 0 <= x) -> cls c -> edge_of y d (conf c) <= edge_of y d (conf (produce t d))) ->
  run (lpboost_booster conf solve produce y) fuel s = Finished tr f ->
  (forall d, In d tr -> length d = length y /\ (forall x, In x d -> 0 <= x) /\ 1 - eps <= rsum d <= 1 + eps) /\
  forall ws hs v v', length ws = length hs -> is_dist ws -> (forall h, In h hs -> cls h) ->
  is_min_of (fun i => (i < length y)%nat) (fun i => nth i y 0 * vote conf (combine ws hs) i) v ->
  is_min_of (fun i => (i < length y)%nat) (fun i => nth i y 0 * wm_confidence conf f i) v' ->
  v - lb_tol s - eps * (lb_nu s * INR (length y) + 2 * INR (length tr) + 3) <= v'.
Proof.
  intros H conf solve produce y s fuel tr f cls eps He Hex Hb Hcls Hbest E.
  assert (Hbd : forall t d i, (i < length y)%nat -> -1 <= nth i y 0 * conf (produce t d) i <= 1) by (intros; apply Hb; [apply Hcls|assumption]).
  pose (F := fun o : outcome (wmajority H) => forall tr f, o = Finished tr f -> Forall (fun d => nonneg d /\ near_vec eps d /\ length d = length y) tr /\
    exists gh, (gh = 1 \/ In gh (edges conf produce y tr)) /\
      forall i, (i < length y)%nat -> gh - lb_tol s - eps * (lb_nu s * INR (length y) + 2 * INR (length tr) + 2) <= nth i y 0 * wm_confidence conf f i).
  assert (FF : F (run (lpboost_booster conf solve produce y) fuel s)).
  { refine (run_reach (lpboost_booster conf solve produce y) s (NInv conf produce y s eps) F _ _ _ _ fuel).
    - apply ninv_first. exact He.
    - intros t s1 tr1 Hr HI. pose proof (ninv_step conf solve produce y s eps He Hex Hbd t s1 tr1 Hr HI) as St.
      destruct (b_boost _ t s1) as [q [[s' [|it]]|p]]; [exact St| |destruct St]. destruct (b_post _ s') as [f1|p]; [|destruct St].
      intros tr2 f2 E2. injection E2 as <- <-. exact St.
    - intros t s1 tr1 _ _ tr2 f2 E2. discriminate.
    - intros p _ tr2 f2 E2. discriminate. }
  destruct (FF tr f E) as [Q [gh [Gi Gf]]]. rewrite Forall_forall in Q. split; [intros d Hd; destruct (Q d Hd) as [A [B C]]; auto|].
  intros ws hs v v' Lw Dw Hhs [[i0 [Hi0 Ei0]] Hv] [[i1 [Hi1 Ei1]] Hv']. specialize (Gf i1 Hi1). rewrite Ei1 in Gf.
  assert (Hv1 : -1 <= v <= 1).
  { rewrite <- Ei0. rewrite (vote_marg conf y hs ws i0 Lw Hi0). apply nth_is_dist in Dw. rewrite Lw in Dw. destruct Dw as [D1 D2].
    assert (A : forall t, (t < length hs)%nat -> -1 <= marg conf y hs t i0 <= 1).
    { intros t Ht. destruct (nth_error hs t) as [h|] eqn:Eh; [|apply nth_error_None in Eh; lia]. rewrite (marg_nth conf y hs t h i0 Eh Hi0). apply Hb; [apply Hhs, (nth_error_In _ _ Eh)|exact Hi0]. }
    split.
    - replace (-1) with (-1 * rsum (map (fun i => nth i ws 0) (seq 0 (length hs)))) by (rewrite D2; ring). rewrite <- rsum_map_mult.
      apply rsum_le_seq. intros t Ht. specialize (A t Ht). specialize (D1 t Ht). nra.
    - rewrite <- D2. apply rsum_le_seq. intros t Ht. specialize (A t Ht). specialize (D1 t Ht). nra. }
  assert (v - eps <= gh); [|lra]. destruct Gi as [->|Gi]; [lra|].
  unfold edges in Gi. apply in_map_iff in Gi. destruct Gi as [[t d] [Ed Hin]]. cbn [fst snd] in Ed. apply in_combine_r in Hin.
  destruct (Q d Hin) as [Pd [Nd Ld]]. rewrite <- Ed. unfold near_vec in Nd.
  apply Rle_trans with (v * rsum d); [nra|]. apply Rle_trans with (edge_of y d (vote conf (combine ws hs))); [apply near_margin; assumption|].
  apply vote_edge_ub; try assumption. intros h Hh. apply Hbest; [exact Ld|exact Pd|apply Hhs, Hh].
Qed.

(** ** C72: if moreover the tolerance is at least [eps] (nu n + 6 N + 15), N being the number of hypotheses that the weak
    learner chooses from, LPBoost still stops after at most N + 1 rounds and never panics *)
Lemma P_C72_inexact_solver_terminates :
  forall (H : Type) (conf : H -> nat -> R) solve produce y (s : @lpboost H) (C : list (nat -> R)) eps,
  0 <= eps < 1 ->
  (forall p, lpb_asks conf solve produce y s p -> nearly_solves eps p (solve p)) ->
  is_valid_binary_instance y = Ok tt -> 1 <= lb_nu s <= INR (length y) ->
  (forall t d i, (i < length y)%nat -> -1 <= nth i y 0 * conf (produce t d) i <= 1) ->
  (forall t d, exists c, In c C /\ forall i, (i < length y)%nat -> conf (produce t d) i = c i) ->
  eps * (lb_nu s * INR (length y) + 6 * INR (length C) + 15) <= lb_tol s -> eps * INR (length C) <= 1 ->
  forall fuel, (length C < fuel)%nat ->
  exists tr f, run (lpboost_booster conf solve produce y) fuel s = Finished tr f /\ (length tr <= length C + 1)%nat.
Proof.
  intros H conf solve produce y s C eps He Hex Hval Hnu Hbd Hcls Htol Hsm fuel Hf.
  refine (run_reach_bound (lpboost_booster conf solve produce y) s (S (length C)) (NTInv conf produce y s eps C) (fun o => exists tr f, o = Finished tr f /\ (length tr <= length C + 1)%nat) _ _ _ fuel _).
  - intros s1 E1. split; [apply (ninv_first conf solve); [exact He|exact E1]|]. exists []. split; [constructor|]. split; [intros x []|]. split; [reflexivity|]. intros c [].
  - intros t s1 tr Hr HI. pose proof (ntinv_step conf solve produce y s eps He Hex Hbd C Hcls Htol Hsm t s1 tr Hr HI) as St.
    destruct (b_boost _ t s1) as [q [[s' [|it]]|p]]; [exact St| |destruct St]. destruct (b_post _ s') as [f1|p]; [|destruct St]. exists (tr ++ q), f1. split; [reflexivity|lia].
  - change (b_pre (lpboost_booster conf solve produce y) s) with (lpb_pre y s). unfold lpb_pre. rewrite Hval. cbn [bind]. rewrite !Rleb_true by apply Hnu. cbn [andb assert_ bind]. discriminate.
  - lia.
Qed.

(** ** the hypotheses of C72 are met by solvers that are exact and by solvers that are not *)
Lemma exact_is_near eps p a : 0 <= eps -> dims p -> solves p a -> nearly_solves eps p a.
Proof.
  intros He [Dq Db] [[[Lx F] [Lz [Zp [Cs St]]]] [Eo _]]. split; [exact Lx|]. split; [exact Lz|]. split; [|split; [|split]].
  - intros r Hr. specialize (F r Hr). specialize (Zp r Hr). destruct (nth r (senses (k_cones p)) false); [rewrite F, Rabs_R0; exact He|]. split; [lra|apply Zp; reflexivity].
  - intros c Hc. rewrite (St c Hc), Rabs_R0. exact He.
  - assert (G : rsum (map (fun c => row_dot (k_P p) (a_x a) c * nth c (a_x a) 0) (seq 0 (length (k_q p)))) + rsum (map (fun c => nth c (k_q p) 0 * nth c (a_x a) 0) (seq 0 (length (k_q p)))) + rsum (map (fun r => nth r (k_b p) 0 * nth r (a_z a) 0) (seq 0 (length (k_b p)))) = 0); [|rewrite G, Rabs_R0; exact He].
    rewrite <- rsum_map_plus. rewrite (rsum_map_ext _ (fun c => -1 * (col_dot (k_A p) (a_z a) c * nth c (a_x a) 0))).
    2:{ intros c Hc. apply in_seq in Hc. specialize (St c ltac:(lia)). nra. }
    rewrite (rsum_map_ext (fun r => nth r (k_b p) 0 * nth r (a_z a) 0) (fun r => nth r (a_z a) 0 * row_dot (k_A p) (a_x a) r)).
    2:{ intros r Hr. apply in_seq in Hr. specialize (Cs r ltac:(lia)). unfold slack in Cs. nra. }
    rewrite rsum_map_mult. pose proof (adjoint (k_A p) (a_x a) (a_z a)) as Ad. rewrite Dq, Db in Ad. lra.
  - rewrite Eo. replace (objective p (a_x a) - objective p (a_x a)) with 0 by ring. rewrite Rabs_R0. exact He.
Qed.

Lemma P_C72_inexact_solver_exists :
  forall eps, 0 < eps -> exists solve : conic -> answer, forall (H : Type) (conf : H -> nat -> R) produce y (s : @lpboost H) p,
  lpb_asks conf solve produce y s p -> nearly_solves eps p (solve p) /\ ~ solves p (solve p).
Proof.
  intros eps He. destruct ideal_solver as [sol Hs]. exists (fun p => mkAnswer (a_x (sol p)) (a_z (sol p)) (a_obj (sol p) + eps) (a_status (sol p))).
  intros H conf produce y s p [t [s1 [m [m' [Hr [Em Ep]]]]]].
  destruct (lp_reach conf _ produce y s t s1 Hr) as [Hn [Hnu [m1 [Em1 Om]]]]. rewrite Em in Em1. injection Em1 as <-.
  destruct (lpm_push_ok conf y (lb_nu s) (lb_hyps s1) m (produce t (lb_dist s1)) Om) as [m2 [Ep2 _]]. rewrite Ep2 in Ep. injection Ep as _ <-.
  set (q := lp_conic conf y (lb_nu s) (lb_hyps s1 ++ [produce t (lb_dist s1)])).
  assert (Hq : solves q (sol q)) by (apply Hs, lp_has_answer; [exact Hn|exact Hnu|destruct (lb_hyps s1); discriminate]).
  split.
  - destruct (exact_is_near eps q (sol q) (Rlt_le _ _ He) (lp_dims conf y _ _) Hq) as [A [B [C [D [E _]]]]]. unfold nearly_solves. cbn [a_x a_z a_obj].
    split; [exact A|]. split; [exact B|]. split; [exact C|]. split; [exact D|]. split; [exact E|].
    destruct Hq as [_ [Eo _]]. rewrite Eo. apply le_rabs. lra.
  - intros [_ [Eo _]]. cbn [a_x a_obj] in Eo. destruct Hq as [_ [Eo' _]]. lra.
Qed.
