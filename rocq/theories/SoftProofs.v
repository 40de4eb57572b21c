(** The programs of SoftBoost. *)
From Verif Require Import Base Spec RegSpec LPSpec Utils UtilsProofs WMajority Booster AdaBoost AdaBoostProofs AdaBoostMain Num
  FrankWolfeProofs CERLPProofs Csc ConicSpec CscProofs Reach LPBoost LPBoostProofs EdgeLP EdgeProofs ERLP ERLPProofs SoftBoost.
Open Scope R_scope.

(** ** edge minimisation with a linear objective gamma + c d *)
Section GammaLP.
  Context {H : Type}.
  Variable conf : H -> nat -> R.
  Variable y : list R.
  Notation n := (length y).
  Variables (coef cap : R) (c : list R) (hs : list H).
  Hypothesis Lc : length c = n.

  Definition gamma_conic : conic :=
    mkConic (csc_zeros (n + 1) (n + 1)) (1 :: c) (csc_of (1 + 2 * n + length hs) (edge_cols conf y true coef hs))
            (edge_rhs cap 0 n (length hs)) (edge_sense n (length hs)).

  Lemma gamma_q_length : length (1 :: c) = (offs true + n)%nat.
  Proof. cbn [length offs]. lia. Qed.

  Lemma gamma_new : solver_new (csc_zeros (n + 1) (n + 1)) (1 :: c) (csc_of (1 + 2 * n + length hs) (edge_cols conf y true coef hs))
      (edge_rhs cap 0 n (length hs)) (edge_sense n (length hs)) = Ok gamma_conic.
  Proof.
    unfold solver_new. cbn [length]. rewrite Lc. cbn [c_rows c_cols csc_of csc_zeros]. rewrite edge_cols_length.
    unfold edge_rhs. cbn [length]. rewrite !app_length, !repeat_length. cbn [offs].
    rewrite (proj2 (Nat.eqb_eq (n + 1) (S n))) by lia. rewrite (proj2 (Nat.eqb_eq (1 + 2 * n + length hs) _)) by lia. rewrite (proj2 (Nat.eqb_eq (1 + n) (S n))) by lia. cbn [andb assert_ bind].
    rewrite (proj2 (Nat.eqb_eq (fold_right _ _ _) _)) by (cbn [edge_sense map cone_dim fold_right]; lia). reflexivity.
  Qed.

  Lemma gamma_objective x : objective gamma_conic x = nth 0 x 0 + rsum (map (fun i => nth i c 0 * nth i (skipn 1 x) 0) (seq 0 n)).
  Proof.
    unfold objective. change (k_q gamma_conic) with (1 :: c). rewrite gamma_q_length. change (k_P gamma_conic) with (csc_zeros (n + 1) (n + 1)).
    rewrite (rsum_zero (fun j => row_dot (csc_zeros (n + 1) (n + 1)) x j * nth j x 0)) by (intros; rewrite row_dot_zeros; ring).
    cbn [offs]. rewrite rsum_split, rsum_one. cbn [nth]. rewrite Rmult_1_l. unfold Rdiv. rewrite Rmult_0_l, Rplus_0_l. f_equal. apply rsum_map_ext. intros i _. cbn [nth Nat.add]. rewrite nth_skipn_add. reflexivity.
  Qed.

  Lemma gamma_feasible x : feasible gamma_conic x <-> exists g d, x = g :: d /\ length d = n /\ is_dist d /\ (forall v, In v d -> coef * v <= cap) /\ (forall h, In h hs -> edge_of y d (conf h) <= g).
  Proof.
    unfold gamma_conic. rewrite (edge_feasible conf y true coef hs _ _ cap 0 gamma_q_length). cbn [offs gof]. split.
    - intros [L [F0 [F1 [F2 F3]]]]. destruct x as [|g d]; [simpl in L; lia|]. cbn [nth Nat.add] in *. exists g, d. split; [reflexivity|].
      assert (Ld : length d = n) by (simpl in L; lia). split; [exact Ld|]. split; [split|split].
      + intros v Hv. apply (In_nth _ _ 0) in Hv. destruct Hv as [i [Hi <-]]. rewrite Ld in Hi. apply F1, Hi.
      + etransitivity; [|exact F0]. rewrite <- Ld. f_equal. symmetry. apply map_nth_seq.
      + intros v Hv. apply (In_nth _ _ 0) in Hv. destruct Hv as [i [Hi <-]]. rewrite Ld in Hi. apply F2, Hi.
      + intros h Hh. apply In_nth_error in Hh. destruct Hh as [k Ek]. assert (Hk : (k < length hs)%nat) by (apply nth_error_Some; congruence). rewrite (edge_marg conf y hs d k h Ld Ek). specialize (F3 k Hk). lra.
    - intros [g [d [-> [Ld [[D1 D2] [C2 C3]]]]]]. cbn [length nth Nat.add]. split; [lia|]. split; [etransitivity; [|exact D2]; rewrite <- Ld; f_equal; apply map_nth_seq|].
      split; [intros i Hi; apply D1, nth_In; lia|]. split; [intros i Hi; apply C2, nth_In; lia|].
      intros k Hk. destruct (nth_error hs k) as [h|] eqn:Ek; [|apply nth_error_None in Ek; lia]. rewrite <- (edge_marg conf y hs d k h Ld Ek), Rplus_0_l. apply C3. eapply nth_error_In; exact Ek.
  Qed.

  (** what an exact answer says *)
  Lemma gamma_solved a : solves gamma_conic a ->
    let x := a_x a in let d := skipn 1 x in let ws := skipn (1 + 2 * n) (a_z a) in let g := nth 0 x 0 in
    length x = (1 + n)%nat /\ length (a_z a) = (1 + 2 * n + length hs)%nat /\
    length d = n /\ is_dist d /\ (forall v, In v d -> coef * v <= cap) /\ length ws = length hs /\ is_dist ws /\
    (forall h, In h hs -> edge_of y d (conf h) <= g) /\ edge_of y d (vote conf (combine ws hs)) = g /\
    (forall d', length d' = n -> is_dist d' -> (forall v, In v d' -> coef * v <= cap) ->
       g + rsum (map (fun i => nth i c 0 * nth i d 0) (seq 0 n)) <= edge_of y d' (vote conf (combine ws hs)) + rsum (map (fun i => nth i c 0 * nth i d' 0) (seq 0 n))).
  Proof.
    intros [K [Eo _]] x d ws g.
    apply (edge_kkt conf y true coef hs _ _ cap 0 gamma_q_length) in K. destruct K as [F [Lz [Z1 [Z2 [C1 [C2 [S0 S1]]]]]]].
    apply gamma_feasible in F. destruct F as [g0 [d0 [Ex [Ld [Dd [Cd Eg]]]]]]. fold x in Ex. assert (Eg0 : g0 = g) by (unfold g; rewrite Ex; reflexivity). assert (Ed0 : d0 = d) by (unfold d; rewrite Ex; reflexivity).
    rewrite Eg0, Ed0 in *. clear g0 d0 Eg0 Ed0.
    assert (Lx : length x = (1 + n)%nat) by (rewrite Ex; cbn [length]; lia).
    assert (Nd : forall i, nth i d 0 = nth (1 + i) x 0) by (intros; apply nth_skipn_add). assert (Nw : forall t, nth t ws 0 = nth (1 + 2 * n + t) (a_z a) 0) by (intros; apply nth_skipn_add).
    assert (Lw : length ws = length hs) by (unfold ws; rewrite skipn_length, Lz; lia).
    assert (Dw : is_dist ws).
    { apply is_dist_nth; rewrite Lw; [intros t Ht; rewrite Nw; apply Z2, Ht|]. rewrite (rsum_map_ext _ (fun t => nth (1 + 2 * n + t) (a_z a) 0)) by (intros; apply Nw).
      rewrite <- (S0 eq_refl). rewrite row_dot_zeros. cbn [nth]. ring. }
    assert (Ev : edge_of y d (vote conf (combine ws hs)) = g).
    { rewrite (edge_vote_sum conf y hs d ws Lw). rewrite (rsum_map_ext _ (fun t => g * nth t ws 0)).
      - rewrite rsum_map_mult. pose proof Dw as Dw'. apply nth_is_dist in Dw'. rewrite Lw in Dw'. destruct Dw' as [_ Dw']. rewrite Dw'. ring.
      - intros t Ht. apply in_seq in Ht. specialize (C2 t ltac:(lia)). cbn [offs gof] in C2. fold x in C2. rewrite <- Nw in C2. rewrite (rsum_map_ext (fun i => nth i d 0 * marg conf y hs t i) (fun i => nth (1 + i) x 0 * marg conf y hs t i)) by (intros; rewrite Nd; reflexivity). unfold g. lra. }
    repeat (split; [assumption|]).
    intros d' Ld' Dd' Cd'.
    (* the margin of the vote on example i *)
    set (z := a_z a) in *.
    assert (Mv : forall i, (i < n)%nat -> nth i y 0 * vote conf (combine ws hs) i = - nth i c 0 - nth 0 z 0 + nth (S i) z 0 - coef * nth (n + S i) z 0).
    { intros i Hi. rewrite (vote_marg conf y hs ws i Lw Hi). specialize (S1 i Hi). rewrite row_dot_zeros in S1. cbn [offs nth Nat.add] in S1.
      rewrite (rsum_map_ext _ (fun t => nth (1 + 2 * n + t) z 0 * marg conf y hs t i)) by (intros; rewrite Nw; reflexivity). cbn [Nat.add] in *. lra. }
    assert (Es : forall q, length q = n -> is_dist q -> edge_of y q (vote conf (combine ws hs)) + rsum (map (fun i => nth i c 0 * nth i q 0) (seq 0 n)) =
      - nth 0 z 0 + rsum (map (fun i => nth (S i) z 0 * nth i q 0) (seq 0 n)) - rsum (map (fun i => nth (n + S i) z 0 * (coef * nth i q 0)) (seq 0 n))).
    { intros q Lq Dq. apply nth_is_dist in Dq. rewrite Lq in Dq. destruct Dq as [_ Dq]. unfold edge_of. rewrite <- rsum_map_plus.
      replace (- nth 0 z 0) with (rsum (map (fun i => - nth 0 z 0 * nth i q 0) (seq 0 n))) by (rewrite rsum_map_mult, Dq; ring).
      rewrite <- rsum_map_plus, <- rsum_map_minus. apply rsum_map_ext. intros i Hi. apply in_seq in Hi. rewrite Mv by lia. ring. }
    rewrite (Es d' Ld' Dd'). rewrite <- Ev, (Es d Ld Dd).
    rewrite (rsum_zero (fun i => nth (S i) z 0 * nth i d 0)) by (intros i Hi; rewrite Nd; apply (C1 i Hi)).
    rewrite (rsum_map_ext (fun i => nth (n + S i) z 0 * (coef * nth i d 0)) (fun i => nth (n + S i) z 0 * cap)) by (intros i Hi; apply in_seq in Hi; rewrite Nd; destruct (C1 i ltac:(lia)) as [_ C]; cbn [offs] in C; fold x in C; cbn [Nat.add] in *; lra).
    assert (P1 : 0 <= rsum (map (fun i => nth (S i) z 0 * nth i d' 0) (seq 0 n))).
    { apply rsum_nonneg_seq. intros i Hi. apply Rmult_le_pos; [apply Z1, Hi|apply Dd', nth_In; lia]. }
    assert (P2 : rsum (map (fun i => nth (n + S i) z 0 * (coef * nth i d' 0)) (seq 0 n)) <= rsum (map (fun i => nth (n + S i) z 0 * cap) (seq 0 n))).
    { apply rsum_le_seq. intros i Hi. apply Rmult_le_compat_l; [apply Z1, Hi|apply Cd', nth_In; lia]. }
    lra.
  Qed.
End GammaLP.

Lemma zip_assign_all d x : length x = length d -> zip_assign d x = x.
Proof. revert x. induction d as [|a d IH]; intros [|v x] L; try discriminate; [reflexivity|]. simpl. rewrite IH by (simpl in L; lia). reflexivity. Qed.

Lemma zip_assign_length d : forall x, length (zip_assign d x) = length d.
Proof. induction d as [|a d IH]; intros [|v x]; simpl; auto. Qed.

Lemma zip_assign_in d : forall x v, In v (zip_assign d x) -> In v d \/ In v x.
Proof. induction d as [|a d IH]; intros [|w x] v Hv; simpl in *; auto. destruct Hv as [<-|Hv]; [auto|]. apply IH in Hv. tauto. Qed.

Lemma all_positive_spec x : all_positive x = true <-> forall v, In v x -> 0 < v.
Proof.
  unfold all_positive. rewrite forallb_forall. split; intros Hx v Hv; specialize (Hx v Hv); [destruct (Rltb_spec 0 v); [assumption|discriminate]|apply Rltb_true, Hx].
Qed.

Section QP.
  Context {H : Type}.
  Variable conf : H -> nat -> R.
  Variable solve : conic -> answer.
  Variable y : list R.
  Notation n := (length y).
  Variable nu : R.

  Definition sqm_ok (hs : list H) (m : softqp) : Prop :=
    sq_n m = n /\ sq_T m = length hs /\ sq_margins m = erows conf y hs /\ sq_cap m = 1 / nu.

  Definition so_diag (q : list R) (i : nat) : R := 1 / nth i q 0.
  Definition so_conic (hs : list H) (g : R) (q : list R) : conic :=
    mkConic (csc_of (0 + n) (diag_cols 0 n (so_diag q))) (map ln q) (csc_of (1 + 2 * n + length hs) (edge_cols conf y false (1 / nu) hs))
            (edge_rhs (1 / nu) g n (length hs)) (edge_sense n (length hs)).

  Lemma sq_init_ok : sqm_ok [] (sq_init n (1 / nu)).
  Proof. unfold sqm_ok, sq_init. cbn. repeat split. apply eq_sym, erows_nil. Qed.

  Lemma sq_push_ok hs m h : sqm_ok hs m -> sqm_ok (hs ++ [h]) (sq_push conf y m h).
  Proof.
    intros [E1 [E2 [E3 E4]]]. unfold sqm_ok, sq_push. cbn [sq_n sq_T sq_margins sq_cap]. rewrite E1, E2, E3, E4, erows_push, app_length. cbn [length]. repeat split. lia.
  Qed.

  Lemma so_quad_ok hs m q : sqm_ok hs m -> length q = n -> sq_quad m q = Ok (csc_of (0 + n) (diag_cols 0 n (so_diag q))).
  Proof.
    intros [E1 _] Lq. unfold sq_quad. rewrite E1, Lq.
    rewrite <- (csc_new_ok (0 + n) (diag_cols 0 n (so_diag q)) n) by (rewrite diag_cols_length; lia).
    unfold bld_of, diag_cols. cbn [repeat app b_ptr b_row b_val starts concat length]. rewrite diag_starts, diag_concat, !map_map, seq_length. cbn [fst snd].
    rewrite !map_length, seq_length. cbn [Nat.add]. f_equal.
    - symmetry. apply map_id.
    - rewrite <- (map_nth_seq 0 (map (fun di => 1 / di) q)) at 1. rewrite map_length, Lq. apply map_ext_in. intros i Hi. apply in_seq in Hi. unfold so_diag.
      apply (nth_map_in (fun d => 1 / d)). lia.
  Qed.

  Lemma so_q_length (q : list R) : length q = n -> length (map ln q) = (offs false + n)%nat.
  Proof. intros L. rewrite map_length, L. reflexivity. Qed.

  Lemma so_program_ok hs m g q : sqm_ok hs m -> length q = n -> sq_program m g q = Ok (so_conic hs g q).
  Proof.
    intros O Lq. unfold sq_program. rewrite (so_quad_ok hs m q O Lq). destruct O as [E1 [E2 [E3 E4]]]. rewrite E1, E2, E3, E4, plain_matrix_ok. cbn [bind].
    unfold solver_new, sq_linear. rewrite map_length, Lq. cbn [c_rows c_cols csc_of]. rewrite diag_cols_length, edge_cols_length.
    unfold edge_rhs. cbn [length]. rewrite !app_length, !repeat_length. cbn [offs Nat.add].
    rewrite Nat.eqb_refl. rewrite (proj2 (Nat.eqb_eq (S (n + (n + 0) + length hs)) _)) by lia. cbn [andb assert_ bind].
    rewrite (proj2 (Nat.eqb_eq (fold_right _ _ _) _)) by (cbn [edge_sense map cone_dim fold_right]; lia). reflexivity.
  Qed.

  Lemma so_final_ok hs m : sqm_ok hs m -> sq_final m = Ok (gamma_conic conf y 1 (1 / nu) (repeat 0 n) hs).
  Proof.
    intros [E1 [E2 [E3 E4]]]. unfold sq_final. rewrite E1, E2, E3, E4, gamma_matrix_ok. cbn [bind]. apply gamma_new. apply repeat_length.
  Qed.

  Lemma so_objective hs g q x : length q = n -> (forall v, In v q -> 0 < v) ->
    objective (so_conic hs g q) x = rsum (map (fun i => 1 / (2 * nth i q 0) * nth i x 0 ^ 2 + ln (nth i q 0) * nth i x 0) (seq 0 n)).
  Proof.
    intros L Hq. unfold objective. change (k_q (so_conic hs g q)) with (map ln q). rewrite so_q_length by exact L. change (k_P (so_conic hs g q)) with (csc_of (0 + n) (diag_cols 0 n (so_diag q))).
    cbn [offs]. rewrite diag_sum. cbn [Nat.add]. unfold Rdiv at 1. rewrite Rmult_comm, <- rsum_map_mult, <- rsum_map_plus. apply rsum_map_ext. intros i Hi. apply in_seq in Hi.
    rewrite (nth_map_in ln q i 0 0) by lia. unfold so_diag. assert (0 < nth i q 0) by (apply Hq, nth_In; lia). field. lra.
  Qed.

  Lemma so_feasible hs g q x : 0 < nu -> length q = n -> feasible (so_conic hs g q) x <->
    length x = n /\ is_dist x /\ (forall h, In h hs -> edge_of y x (conf h) <= g).
  Proof.
    intros Hnu Lq. unfold so_conic. rewrite (edge_feasible conf y false (1 / nu) hs _ _ (1 / nu) g (so_q_length q Lq)). cbn [offs gof Nat.add]. split.
    - intros [Lx [F0 [F1 [F2 F3]]]]. split; [exact Lx|]. split; [apply is_dist_nth; rewrite Lx; assumption|].
      intros h Hh. apply In_nth_error in Hh. destruct Hh as [k Ek]. assert (Hk : (k < length hs)%nat) by (apply nth_error_Some; congruence). rewrite (edge_marg conf y hs x k h Lx Ek). specialize (F3 k Hk). lra.
    - intros [Lx [D E]]. split; [exact Lx|]. pose proof D as D'. apply nth_is_dist in D. rewrite Lx in D. destruct D as [D1 D2]. split; [exact D2|]. split; [exact D1|]. split.
      + intros i Hi. assert (X : nth i x 0 <= 1) by (apply (dist_le1 x D'), nth_In; lia). assert (P : 0 <= 1 / nu) by (left; apply Rdiv_lt_0_compat; lra). nra.
      + intros k Hk. destruct (nth_error hs k) as [h|] eqn:Ek; [|apply nth_error_None in Ek; lia]. rewrite <- (edge_marg conf y hs x k h Lx Ek), Rplus_0_r. apply E. eapply nth_error_In; exact Ek.
  Qed.

  Lemma so_solved hs g q a : 0 < nu -> (0 < n)%nat -> length q = n -> (forall v, In v q -> 0 < v) -> solves (so_conic hs g q) a ->
    length (a_x a) = n /\ is_dist (a_x a) /\ (forall h, In h hs -> edge_of y (a_x a) (conf h) <= g) /\ - ln (INR n) <= a_obj a.
  Proof.
    intros Hnu Hn Lq Hq [K [Eo _]]. destruct K as [F _]. apply (so_feasible hs g q _ Hnu Lq) in F. destruct F as [Lx [D E]]. repeat (split; [assumption|]).
    rewrite Eo, (so_objective hs g q _ Lq Hq). eapply Rle_trans; [|apply (rsum_le_seq (fun i => xlnx (nth i (a_x a) 0)))].
    - pose proof (entropy_lower _ D) as En. rewrite entropy_xlnx, Lx in En. rewrite <- (map_nth_seq 0 (a_x a)), Lx, map_map in En. exact En.
    - intros i Hi. apply sqp_term; [apply D, nth_In; lia|apply Hq, nth_In; lia].
  Qed.

  (** ** the loop *)
  Hypothesis Hnu : 0 < nu.
  Hypothesis Hn : (0 < n)%nat.

  (** the entries stay positive whatever the solver says *)
  Lemma turns_pos m g d0 d old : length d0 = n -> (forall v, In v d0 -> 0 < v) -> sq_turns solve m g d0 d old -> length d = n /\ (forall v, In v d -> 0 < v).
  Proof.
    intros L P Tu. induction Tu as [|d old p Tu [IH1 IH2] Ep Ea Et]; [auto|]. split; [rewrite zip_assign_length; exact IH1|].
    intros v Hv. apply zip_assign_in in Hv. destruct Hv as [Hv|Hv]; [apply IH2, Hv|]. apply (proj1 (all_positive_spec _) Ea). exact Hv.
  Qed.

  Definition so_enough (old : R) (fuel : nat) : Prop := (old + ln (INR n)) * 1000000000 + 1 < INR fuel.

  Definition shown_ok (hs : list H) (g : R) (d : list R) : Prop := length d = n /\ is_pos_dist d /\ (forall h, In h hs -> edge_of y d (conf h) <= g).

  Lemma so_loop_ok hs m g d0 : sqm_ok hs m -> length d0 = n -> (forall v, In v d0 -> 0 < v) ->
    (forall d old p, sq_turns solve m g d0 d old -> sq_program m g d = Ok p -> solves p (solve p)) ->
    forall fuel d old, sq_turns solve m g d0 d old -> so_enough old fuel -> 0 < INR fuel ->
      exists d' r, sq_loop solve fuel m g d old = Ok (d', r) /\ (r = true -> shown_ok hs g d').
  Proof.
    intros O L0 P0 Hex. induction fuel as [|fuel IH]; intros d old Tu En Fp; [simpl in Fp; lra|].
    destruct (turns_pos m g d0 d old L0 P0 Tu) as [Ld Pd]. cbn [sq_loop]. pose proof (so_program_ok hs m g d O Ld) as Ep. rewrite Ep. cbn [bind].
    pose proof (Hex d old _ Tu Ep) as Ha. set (a := solve (so_conic hs g d)) in *. destruct (so_solved hs g d a Hnu Hn Ld Pd Ha) as [Lx [Dx [Ex Ox]]].
    destruct (all_positive (a_x a)) eqn:Ap; cbn [negb]; [|exists d, false; split; [reflexivity|discriminate]].
    rewrite zip_assign_all by (rewrite Lx, Ld; reflexivity).
    assert (Sh : shown_ok hs g (a_x a)) by (split; [exact Lx|]; split; [split; [apply all_positive_spec, Ap|apply Dx]|exact Ex]).
    destruct (Rltb_spec (old - a_obj a) QP_TOLERANCE) as [Lt|Lt]; [exists (a_x a), true; auto|].
    assert (T1 : sq_turns solve m g d0 (a_x a) (a_obj a)).
    { rewrite <- (zip_assign_all d (a_x a)) by (rewrite Lx, Ld; reflexivity). apply (sq_next solve m g d0 d old (so_conic hs g d)); try assumption. apply Rltb_false. fold a. lra. }
    unfold so_enough in *. rewrite S_INR in En. unfold QP_TOLERANCE in Lt. assert (1 <= (old - a_obj a) * 1000000000) by lra.
    apply IH; [exact T1|lra|]. assert (0 <= (a_obj a + ln (INR n)) * 1000000000) by (apply Rmult_le_pos; lra). lra.
  Qed.
End QP.
