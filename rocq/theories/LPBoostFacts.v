(** Properties C33 (LPBoost part), C34, C63: the linear programs of LPBoost, its certificate, its termination. *)
From Verif Require Import Base Spec RegSpec LPSpec Utils UtilsProofs WMajority WMajorityProofs Booster Reach AdaBoost AdaBoostProofs
  AdaBoostMain AdaBoostMore FrankWolfeProofs CERLPProofs Csc ConicSpec CscProofs LPBoost LPBoostProofs.
Open Scope R_scope.

Lemma convex_attains (d m : list R) g : is_dist d -> length m = length d ->
  (forall i, (i < length d)%nat -> g <= nth i m 0) -> rsum (map (fun i => nth i d 0 * nth i m 0) (seq 0 (length d))) = g ->
  exists i, (i < length d)%nat /\ nth i m 0 = g.
Proof.
  intros D L Hm Hs. apply nth_is_dist in D. destruct D as [D1 D2].
  assert (Z : rsum (map (fun i => nth i d 0 * (nth i m 0 - g)) (seq 0 (length d))) = 0).
  { rewrite (rsum_map_ext _ (fun i => nth i d 0 * nth i m 0 - g * nth i d 0)) by (intros; ring). rewrite rsum_map_minus, rsum_map_mult, Hs, D2. ring. }
  assert (E : forall i, (i < length d)%nat -> nth i d 0 * (nth i m 0 - g) = 0).
  { intros i Hi. apply (rsum_nonneg_zero (map (fun i => nth i d 0 * (nth i m 0 - g)) (seq 0 (length d)))); [|exact Z|apply in_map_iff; exists i; split; [reflexivity|apply in_seq; lia]].
    intros x Hx. apply in_map_iff in Hx. destruct Hx as [j [<- Hj]]. apply in_seq in Hj. specialize (D1 j ltac:(lia)). specialize (Hm j ltac:(lia)). nra. }
  destruct (Exists_dec (fun i => nth i m 0 = g) (seq 0 (length d)) (fun i => Req_EM_T _ _)) as [X|X].
  - apply Exists_exists in X. destruct X as [i [Hi X]]. apply in_seq in Hi. exists i. split; [lia|exact X].
  - exfalso. assert (S : rsum (map (fun i => nth i d 0) (seq 0 (length d))) = 0).
    { apply rsum_zero. intros i Hi. specialize (E i Hi). apply Rmult_integral in E. destruct E as [E|E]; [exact E|].
      exfalso. apply X. apply Exists_exists. exists i. split; [apply in_seq; lia|lra]. }
    lra.
Qed.

Lemma dist_margin y c (f : nat -> R) g : is_dist c -> length c = length y -> (forall i, (i < length y)%nat -> g <= nth i y 0 * f i) -> g <= edge_of y c f.
Proof.
  intros D L Hm. apply nth_is_dist in D. destruct D as [D1 D2]. rewrite L in *. unfold edge_of.
  replace g with (g * rsum (map (fun i => nth i c 0) (seq 0 (length y)))) by (rewrite D2; ring). rewrite <- rsum_map_mult.
  apply rsum_le_seq. intros i Hi. specialize (D1 i Hi). specialize (Hm i Hi). nra.
Qed.

Lemma vote_edge_ub {H} (conf : H -> nat -> R) y c ws hs g : is_dist ws -> length ws = length hs -> (forall h, In h hs -> edge_of y c (conf h) <= g) -> length c = length y ->
  edge_of y c (vote conf (combine ws hs)) <= g.
Proof.
  intros D L He Lc. rewrite (edge_vote_sum conf y hs c ws L). apply nth_is_dist in D. destruct D as [D1 D2]. rewrite L in *.
  replace g with (g * rsum (map (fun i => nth i ws 0) (seq 0 (length hs)))) by (rewrite D2; ring). rewrite <- rsum_map_mult.
  apply rsum_le_seq. intros t Ht. specialize (D1 t Ht). destruct (nth_error hs t) as [h|] eqn:E; [|apply nth_error_None in E; lia].
  rewrite <- (edge_marg conf y hs c t h Lc E). specialize (He h (nth_error_In _ _ E)). nra.
Qed.

Lemma some_below y d (f : nat -> R) g : is_dist d -> length d = length y -> edge_of y d f <= g -> exists i, (i < length y)%nat /\ nth i y 0 * f i <= g.
Proof.
  intros Dd Ld E1. destruct (Exists_dec (fun i => nth i y 0 * f i <= g) (seq 0 (length y)) (fun i => Rle_dec _ _)) as [X|X].
  - apply Exists_exists in X. destruct X as [i [Hi X]]. apply in_seq in Hi. exists i. split; [lia|exact X].
  - exfalso. assert (Hall : forall i, (i < length y)%nat -> g < nth i y 0 * f i).
    { intros i Hi. apply Rnot_le_lt. intros C. apply X. apply Exists_exists. exists i. split; [apply in_seq; lia|exact C]. }
    destruct (convex_attains d (margins_of y f) g Dd) as [i [Hi Ei]].
    + rewrite margins_length. symmetry. exact Ld.
    + intros i Hi. rewrite Ld in Hi. rewrite margins_nth by exact Hi. apply Rlt_le, Hall, Hi.
    + apply Rle_antisym.
      * eapply Rle_trans; [|exact E1]. right. unfold edge_of. rewrite Ld. apply rsum_map_ext. intros i Hi. apply in_seq in Hi. rewrite margins_nth by lia. reflexivity.
      * pose proof (dist_margin y d f g Dd Ld ltac:(intros; apply Rlt_le, Hall; assumption)) as P. unfold edge_of in P. rewrite Ld.
        rewrite (rsum_map_ext _ (fun i => nth i d 0 * (nth i y 0 * f i))) by (intros i Hi; apply in_seq in Hi; rewrite margins_nth by lia; reflexivity). exact P.
    + rewrite Ld in Hi. rewrite margins_nth in Ei by exact Hi. specialize (Hall i Hi). lra.
Qed.

Section Run.
  Context {H : Type}.
  Variable conf : H -> nat -> R.
  Variable solve : conic -> answer.
  Variable produce : nat -> list R -> H.
  Variable y : list R.
  Variable s0 : @lpboost H.
  Let n := length y.
  Let b := lpboost_booster conf solve produce y.
  Hypothesis Hex : forall p, lpb_asks conf solve produce y s0 p -> solves p (solve p).

  Definition LInv (t : nat) (s : @lpboost H) (tr : trace) : Prop :=
    (0 < n)%nat /\ 1 <= lb_nu s0 <= INR n /\ (1 <= t)%nat /\ length tr = (t - 1)%nat /\ Forall (fun d => is_dist d /\ length d = n) tr /\
    lb_hyps s = answers produce tr /\ lb_tol s = lb_tol s0 /\ lb_nu s = lb_nu s0 /\
    (exists m, lb_model s = Some m /\ lpm_ok conf y (lb_nu s0) (lb_hyps s) m) /\
    (forall e, In e (edges conf produce y tr) -> lb_gamma_hat s <= e) /\ (lb_gamma_hat s = 1 \/ In (lb_gamma_hat s) (edges conf produce y tr)) /\
    is_dist (lb_dist s) /\ length (lb_dist s) = n /\
    (t = 1%nat \/ exists g ws, length ws = length (lb_hyps s) /\ is_dist ws /\ (forall i, (i < n)%nat -> g <= nth i y 0 * vote conf (combine ws (lb_hyps s)) i) /\
       (forall h, In h (lb_hyps s) -> edge_of y (lb_dist s) (conf h) <= g) /\ g < lb_gamma_hat s - lb_tol s).

  Lemma linv_first s : b_pre b s0 = Ok s -> LInv 1 s [].
  Proof.
    change (b_pre b s0) with (lpb_pre y s0). unfold lpb_pre. destruct (is_valid_binary_instance y) as [[]|p] eqn:E; cbn [bind]; [|discriminate].
    apply valid_instance_nonempty in E. fold n in E. pose proof (lt_0_INR n E) as Hn.
    destruct (Rleb_spec 1 (lb_nu s0)) as [N1|N1], (Rleb_spec (lb_nu s0) (INR (length y))) as [N2|N2]; cbn [andb assert_ bind]; try discriminate.
    injection 1 as <-. unfold LInv. cbn [lb_hyps lb_tol lb_nu lb_model lb_gamma_hat lb_dist]. repeat split; auto; try lia; try (constructor; fail).
    - exists (lpm_init n (1 / lb_nu s0)). split; [reflexivity|apply lpm_init_ok].
    - intros e [].
    - intros x Hx. apply repeat_spec in Hx. subst x. apply Rlt_le, Rdiv_lt_0_compat; lra.
    - rewrite rsum_repeat. field. fold n. lra.
    - apply repeat_length.
  Qed.

  Lemma round_step t s tr : reach b s0 t s -> LInv t s tr ->
    exists m' ws d g, let h := produce t (lb_dist s) in let hs := lb_hyps s ++ [h] in let gh := Rmin (edge_of y (lb_dist s) (conf h)) (lb_gamma_hat s) in
      b_boost b t s = ([lb_dist s], Ok (if Rleb (gh - lb_tol s) g then (mkLpb (lb_dist s) gh (lb_tol s) (lb_nu s) (Some m') hs, Break t)
                                        else (mkLpb d gh (lb_tol s) (lb_nu s) (Some m') hs, Continue))) /\
      lpm_ok conf y (lb_nu s0) hs m' /\ lm_weights m' = ws /\ lm_dist m' = d /\ length ws = length hs /\ is_dist ws /\ length d = n /\ is_dist d /\
      (forall h', In h' hs -> edge_of y d (conf h') <= g) /\ edge_of y d (vote conf (combine ws hs)) = g /\ (forall i, (i < n)%nat -> g <= nth i y 0 * vote conf (combine ws hs) i).
  Proof.
    intros Hr [Hn [Hnu [Ht [Hl [Hq [Hh [Etol [Enu [[m [Em Om]] [G1 [G2 [Dd [Ld _]]]]]]]]]]]]].
    destruct (lpm_push_ok conf y (lb_nu s0) (lb_hyps s) m (produce t (lb_dist s)) Om) as [m1 [Ep Om1]].
    assert (S : solves (lp_conic conf y (lb_nu s0) (lb_hyps s ++ [produce t (lb_dist s)])) (solve (lp_conic conf y (lb_nu s0) (lb_hyps s ++ [produce t (lb_dist s)])))).
    { apply Hex. exists t, s, m, m1. auto. }
    set (p := lp_conic conf y (lb_nu s0) (lb_hyps s ++ [produce t (lb_dist s)])) in *. set (a := solve p) in *.
    destruct (lp_solved conf y _ (lb_nu s0) (proj1 Hnu) a S) as [L1 [L2 [Lw [Dw [Ld' [Dd' [E1 [E2 E3]]]]]]]].
    exists (mkLpm (lm_obj m1) (lm_bld m1) (lm_n m1) (lm_T m1) (skipn (1 + n) (a_x a)) (firstn n (a_z a))), (skipn (1 + n) (a_x a)), (firstn n (a_z a)), (- a_obj a).
    cbn zeta. split; [|split; [exact Om1|]; split; [reflexivity|]; split; [reflexivity|]; auto 10].
    change (b_boost b t s) with (lpb_boost conf solve produce y t s). unfold lpb_boost, lpm_update. rewrite Em, Ep. cbn [bind]. fold a.
    destruct Om1 as [_ [_ [En _]]]. rewrite En. unfold slice_from, slice_to. rewrite (proj2 (Nat.leb_le _ _) L1). cbn [bind]. rewrite (proj2 (Nat.leb_le _ _) L2). cbn [bind].
    rewrite edge_of_hypothesis_spec by exact Ld. cbn [lm_dist]. destruct (Rleb _ _); reflexivity.
  Qed.

  Lemma linv_step t s tr : reach b s0 t s -> LInv t s tr ->
    match b_boost b t s with
    | (q, Panic p) => False
    | (q, Ok (s', Continue)) => LInv (S t) s' (tr ++ q)
    | (q, Ok (s', Break _)) => match b_post b s' with
        | Panic p => False
        | Ok f => Forall (fun d => is_dist d /\ length d = n) (tr ++ q) /\
                  exists g, is_min_of (fun i => (i < n)%nat) (fun i => nth i y 0 * wm_confidence conf f i) g /\
                  (forall ws, length ws = length (answers produce (tr ++ q)) -> is_dist ws -> exists i, (i < n)%nat /\ nth i y 0 * vote conf (combine ws (answers produce (tr ++ q))) i <= g) /\
                  (exists gh, (gh = 1 \/ In gh (edges conf produce y (tr ++ q))) /\ (forall e, In e (edges conf produce y (tr ++ q)) -> gh <= e) /\ gh - lb_tol s0 <= g)
        end
    end.
  Proof.
    intros Hr HI. destruct (round_step t s tr Hr HI) as [m' [ws [d [g [Eb [Om [Ew [Ed [Lw [Dw [Ld [Dd [E1 [E2 E3]]]]]]]]]]]]]]. cbn zeta in *.
    destruct HI as [Hn [Hnu [Ht [Hl [Hq [Hh [Etol [Enu [[m [Em _]] [G1 [G2 [Ds [Ls _]]]]]]]]]]]]].
    rewrite Eb. clear Eb. set (h := produce t (lb_dist s)) in *. set (gh := Rmin (edge_of y (lb_dist s) (conf h)) (lb_gamma_hat s)) in *.
    assert (Ea : answers produce (tr ++ [lb_dist s]) = lb_hyps s ++ [h]) by (rewrite answers_app, Hh; replace (S (length tr)) with t by lia; reflexivity).
    assert (Ee : edges conf produce y (tr ++ [lb_dist s]) = edges conf produce y tr ++ [edge_of y (lb_dist s) (conf h)]) by (rewrite edges_app; replace (S (length tr)) with t by lia; reflexivity).
    assert (Q : Forall (fun d => is_dist d /\ length d = n) (tr ++ [lb_dist s])) by (apply Forall_app; split; [exact Hq|constructor; [split; assumption|constructor]]).
    assert (Gl : forall e, In e (edges conf produce y (tr ++ [lb_dist s])) -> gh <= e).
    { intros e He. rewrite Ee in He. apply in_app_or in He. unfold gh. destruct He as [He|[<-|[]]]; [specialize (G1 e He); pose proof (Rmin_r (edge_of y (lb_dist s) (conf h)) (lb_gamma_hat s)); lra|apply Rmin_l]. }
    assert (Gi : gh = 1 \/ In gh (edges conf produce y (tr ++ [lb_dist s]))).
    { rewrite Ee. unfold gh, Rmin. destruct (Rle_dec _ _); [right; apply in_or_app; right; left; reflexivity|]. destruct G2 as [->|G2]; [left; reflexivity|right; apply in_or_app; left; exact G2]. }
    destruct (Rleb_spec (gh - lb_tol s) g) as [B|B].
    - change (b_post b) with (@lpb_post H). unfold lpb_post. cbn [lb_model lb_hyps]. rewrite Ew.
      destruct (from_slices_dist conf ws _ Lw Dw) as [f [Ef Cf]]. rewrite Ef. split; [exact Q|]. exists g. split; [|split].
      + split; [|intros i Hi; rewrite Cf; apply E3, Hi].
        destruct (convex_attains d (margins_of y (vote conf (combine ws (lb_hyps s ++ [h])))) g Dd) as [i [Hi Ei]].
        * rewrite margins_length. symmetry. exact Ld.
        * intros i Hi. rewrite margins_nth by (rewrite Ld in Hi; exact Hi). apply E3. rewrite <- Ld. exact Hi.
        * etransitivity; [|exact E2]. unfold edge_of. rewrite Ld. apply rsum_map_ext. intros i Hi. apply in_seq in Hi. rewrite margins_nth by (fold n; lia). reflexivity.
        * rewrite Ld in Hi. exists i. split; [exact Hi|]. rewrite Cf, <- Ei. symmetry. apply margins_nth. exact Hi.
      + rewrite Ea. intros ws' Lw' Dw'. apply (some_below y d _ g Dd Ld). apply vote_edge_ub; assumption.
      + exists gh. rewrite Etol in B. auto.
    - unfold LInv. cbn [lb_hyps lb_tol lb_nu lb_model lb_gamma_hat lb_dist]. split; [exact Hn|]. split; [exact Hnu|]. split; [lia|]. split; [rewrite app_length; simpl; lia|].
      split; [exact Q|]. split; [symmetry; exact Ea|]. split; [exact Etol|]. split; [exact Enu|]. split; [exists m'; auto|]. split; [exact Gl|]. split; [exact Gi|]. split; [exact Dd|]. split; [exact Ld|].
      right. exists g, ws. split; [exact Lw|]. split; [exact Dw|]. split; [exact E3|]. split; [exact E1|lra].
  Qed.

  (** ** termination *)
  Hypothesis Htol : 0 <= lb_tol s0.
  Variable C : list (nat -> R).
  Hypothesis Hcls : forall t d, exists c, In c C /\ forall i, (i < n)%nat -> conf (produce t d) i = c i.

  Definition TInv (t : nat) (s : @lpboost H) (tr : trace) : Prop :=
    LInv t s tr /\ exists cs, NoDup cs /\ incl cs C /\ length cs = (t - 1)%nat /\
      (forall c, In c cs -> exists h, In h (lb_hyps s) /\ forall i, (i < n)%nat -> conf h i = c i).

  Lemma edge_ext_n d (f g : nat -> R) : (forall i, (i < n)%nat -> f i = g i) -> edge_of y d f = edge_of y d g.
  Proof. intros E. unfold edge_of. apply rsum_map_ext. intros i Hi. apply in_seq in Hi. rewrite E by (fold n in Hi; lia). reflexivity. Qed.

  Lemma tinv_step t s tr : reach b s0 t s -> TInv t s tr ->
    match b_boost b t s with
    | (q, Panic p) => False
    | (q, Ok (s', Continue)) => TInv (S t) s' (tr ++ q) /\ (t < S (length C))%nat
    | (q, Ok (s', Break _)) => match b_post b s' with Panic p => False | Ok f => (length (tr ++ q) <= S (length C))%nat end
    end.
  Proof.
    intros Hr [HI [cs [N1 [N2 [N3 N4]]]]]. pose proof (linv_step t s tr Hr HI) as St.
    destruct (round_step t s tr Hr HI) as [m' [ws [d [g [Eb [Om [Ew [Ed [Lw [Dw [Ld [Dd [E1 [E2 E3]]]]]]]]]]]]]]. cbn zeta in *.
    pose proof (NoDup_incl_length N1 N2) as Hlen.
    destruct HI as [Hn [Hnu [Ht [Hl [Hq [Hh [Etol [Enu [[m [Em _]] [G1 [G2 [Ds [Ls Hg]]]]]]]]]]]]].
    rewrite Eb in *. clear Eb. set (h := produce t (lb_dist s)) in *. set (gh := Rmin (edge_of y (lb_dist s) (conf h)) (lb_gamma_hat s)) in *.
    destruct (Rleb_spec (gh - lb_tol s) g) as [B|B].
    - destruct (b_post b _) as [f|p]; [|exact St]. rewrite app_length. simpl. lia.
    - destruct (Hcls t (lb_dist s)) as [c [Hc Ec]]. fold h in Ec.
      assert (Nc : ~ In c cs).
      { intros Hin. destruct (N4 c Hin) as [h' [Hh' Eh]]. destruct Hg as [->|[g0 [ws0 [Lw0 [Dw0 [F1 [F2 F3]]]]]]].
        - destruct cs; [destruct Hin|simpl in N3; lia].
        - specialize (F2 h' Hh'). rewrite (edge_ext_n (lb_dist s) (conf h') (conf h)) in F2 by (intros i Hi; rewrite Eh, Ec by exact Hi; reflexivity).
          assert (M1 : g0 <= edge_of y d (vote conf (combine ws0 (lb_hyps s)))) by (apply dist_margin; assumption).
          assert (M2 : edge_of y d (vote conf (combine ws0 (lb_hyps s))) <= g) by (apply vote_edge_ub; try assumption; intros h'' Hh''; apply E1; apply in_or_app; left; exact Hh'').
          pose proof (Rmin_l (edge_of y (lb_dist s) (conf h)) (lb_gamma_hat s)). fold gh in H0. lra. }
      assert (Nd' : NoDup (c :: cs)) by (constructor; assumption). assert (In' : incl (c :: cs) C) by (intros x [<-|Hx]; [exact Hc|apply N2, Hx]).
      pose proof (NoDup_incl_length Nd' In') as Hlen'. simpl in Hlen'. split; [|lia]. split; [exact St|]. exists (c :: cs).
      split; [exact Nd'|]. split; [exact In'|]. split; [simpl; lia|].
      intros c' [<-|Hc']; cbn [lb_hyps]; [exists h; split; [apply in_or_app; right; left; reflexivity|exact Ec]|].
      destruct (N4 c' Hc') as [h' [Hh' Eh]]. exists h'. split; [apply in_or_app; left; exact Hh'|exact Eh].
  Qed.
End Run.

Lemma lpm_updates_ok {H} (conf : H -> nat -> R) solve y nu hs : forall hs0 m m', lpm_ok conf y nu hs0 m -> lpm_updates conf solve y m hs = Ok m' -> lpm_ok conf y nu (hs0 ++ hs) m'.
Proof.
  induction hs as [|h hs IH]; intros hs0 m m' Om E; cbn [lpm_updates] in E; [injection E as <-; rewrite app_nil_r; exact Om|].
  unfold lpm_update in E. destruct (lpm_push_ok conf y nu hs0 m h Om) as [m1 [Ep Om1]]. rewrite Ep in E. cbn [bind] in E.
  destruct (slice_from _ _) as [ws|]; cbn [bind] in E; [|discriminate]. destruct (slice_to _ _) as [d|]; cbn [bind] in E; [|discriminate]. cbn [fst] in E.
  specialize (IH (hs0 ++ [h]) _ m' (Om1 : lpm_ok conf y nu (hs0 ++ [h]) (mkLpm (lm_obj m1) (lm_bld m1) (lm_n m1) (lm_T m1) ws d)) E). rewrite <- app_assoc in IH. exact IH.
Qed.

Lemma lp_matrix_ok {H} (conf : H -> nat -> R) y nu hs : csc_ok (k_A (lp_conic conf y nu hs)).
Proof.
  simpl k_A. apply csc_of_ok. intros col Hc. unfold lp_cols in Hc. apply in_app_or in Hc. destruct Hc as [[<-|[]]|Hc]; [|apply in_app_or in Hc; destruct Hc as [Hc|Hc]].
  - unfold rho_col. split.
    + intros e He. apply range_col_in in He. rewrite repeat_length in He. lia.
    + rewrite range_col_length. intros k Hk. rewrite !range_col_nth by lia. simpl. lia.
  - apply in_map_iff in Hc. destruct Hc as [r [<- Hr]]. apply in_seq in Hr. split.
    + intros e [<-|[<-|[]]]; simpl; lia.
    + intros [|k] Hk; simpl in *; lia.
  - apply in_map_iff in Hc. destruct Hc as [[t h] [<- Hth]]. apply in_combine_l in Hth. apply in_seq in Hth. cbn [fst snd]. unfold w_col.
    set (l := range_col 0 (map (fun yh => - yh) (margins_of y (conf h)))).
    assert (Ll : length l = length y) by (unfold l; rewrite range_col_length, map_length; apply margins_length).
    split.
    + intros e He. apply in_app_or in He. destruct He as [He|[<-|[<-|[]]]]; [|simpl; lia|simpl; lia]. apply range_col_in in He. rewrite map_length, margins_length in He. lia.
    + rewrite app_length, Ll. cbn [length]. intros k Hk. assert (N : forall j, (j < length y)%nat -> fst (nth j l (0%nat, 0)) = j).
      { intros j Hj. unfold l. rewrite range_col_nth by (rewrite map_length, margins_length; exact Hj). reflexivity. }
      destruct (Nat.lt_ge_cases (S k) (length y)) as [L|L].
      * rewrite !app_nth1 by lia. rewrite !N by lia. lia.
      * destruct (Nat.lt_ge_cases k (length y)) as [L'|L'].
        -- rewrite app_nth1 by lia. rewrite app_nth2 by lia. rewrite N by lia. replace (S k - length l)%nat with 0%nat by lia. simpl. lia.
        -- rewrite !app_nth2 by lia. replace (k - length l)%nat with 0%nat by lia. replace (S k - length l)%nat with 1%nat by lia. simpl. lia.
Qed.

(** ** C33, LPBoost: the program that is handed to the solver after any history of updates is well formed, its
    feasible points are exactly the feasible points of the documented soft margin program, but its objective weighs
    the slacks with nu instead of 1/nu *)
Lemma P_C33_lpboost_program :
  forall (H : Type) (conf : H -> nat -> R) solve y nu (hs : list H) h m, 1 <= nu ->
  lpm_updates conf solve y (lpm_init (length y) (1 / nu)) hs = Ok m ->
  exists m' p, lpm_push conf y m h = Ok (m', p) /\ csc_ok (k_A p) /\ csc_ok (k_P p) /\
    (forall x, feasible p x <-> exists rho xi ws, x = rho :: xi ++ ws /\ soft_constraints conf y (hs ++ [h]) rho xi ws) /\
    (forall rho xi ws, length xi = length y -> length ws = length (hs ++ [h]) -> objective p (rho :: xi ++ ws) = - (rho - nu * rsum xi)).
Proof.
  intros H conf solve y nu hs h m Hnu E. pose proof (lpm_updates_ok conf solve y nu hs [] _ m (lpm_init_ok conf y nu) E) as Om. simpl in Om.
  destruct (lpm_push_ok conf y nu hs m h Om) as [m' [Ep _]]. exists m', (lp_conic conf y nu (hs ++ [h])). split; [exact Ep|].
  split; [apply lp_matrix_ok|]. split; [apply zeros_ok|]. set (hs' := hs ++ [h]).
  assert (Nxi : forall rho xi ws i, (i < length y)%nat -> length xi = length y -> nth (1 + i) (rho :: xi ++ ws) 0 = nth i xi 0) by (intros; cbn [nth Nat.add]; apply app_nth1; lia).
  assert (Nws : forall rho xi ws t, length xi = length y -> nth (1 + length y + t) (rho :: xi ++ ws) 0 = nth t ws 0) by (intros; cbn [nth Nat.add]; rewrite app_nth2 by lia; f_equal; lia).
  split.
  - intros x. rewrite (lp_feasible conf y hs' nu x). split.
    + intros [L [F1 [F2 [F3 F4]]]]. destruct x as [|rho x]; [simpl in L; lia|]. exists rho, (firstn (length y) x), (skipn (length y) x). rewrite firstn_skipn. split; [reflexivity|].
      cbn [length Nat.add] in L. assert (Lx : length (firstn (length y) x) = length y) by (rewrite firstn_length; lia). assert (Lw : length (skipn (length y) x) = length hs') by (rewrite skipn_length; lia).
      rewrite <- (firstn_skipn (length y) x) in F1, F2, F3, F4. split; [exact Lx|]. split; [exact Lw|]. split; [|split].
      * intros i Hi. specialize (F1 i Hi). rewrite Nxi in F1 by assumption. rewrite (vote_marg conf y hs' _ i Lw Hi).
        rewrite (rsum_map_ext _ (fun t => nth t (skipn (length y) x) 0 * marg conf y hs' t i)) in F1 by (intros t _; rewrite Nws by exact Lx; reflexivity). exact F1.
      * apply is_dist_nth; rewrite Lw; [intros t Ht; specialize (F4 t Ht); rewrite Nws in F4 by exact Lx; exact F4|].
        rewrite (rsum_map_ext _ (fun t => nth t (skipn (length y) x) 0)) in F2 by (intros t _; rewrite Nws by exact Lx; reflexivity). exact F2.
      * intros v Hv. apply (In_nth _ _ 0) in Hv. destruct Hv as [i [Hi <-]]. rewrite Lx in Hi. specialize (F3 i Hi). rewrite Nxi in F3 by assumption. exact F3.
    + intros [rho [xi [ws [-> [Lx [Lw [F1 [F2 F3]]]]]]]]. apply nth_is_dist in F2. rewrite Lw in F2. destruct F2 as [F2 F4].
      split; [cbn [length]; rewrite app_length; lia|]. split; [|split; [|split]].
      * intros i Hi. specialize (F1 i Hi). rewrite Nxi by assumption. rewrite (vote_marg conf y hs' _ i Lw Hi) in F1.
        rewrite (rsum_map_ext _ (fun t => nth t ws 0 * marg conf y hs' t i)) by (intros t _; rewrite Nws by exact Lx; reflexivity). exact F1.
      * rewrite (rsum_map_ext _ (fun t => nth t ws 0)) by (intros t _; rewrite Nws by exact Lx; reflexivity). exact F4.
      * intros i Hi. rewrite Nxi by assumption. apply F3, nth_In. lia.
      * intros t Ht. rewrite Nws by exact Lx. apply F2, Ht.
  - intros rho xi ws Lx Lw. rewrite (lp_objective conf y hs' nu Hnu). cbn [nth]. rewrite (rsum_map_ext _ (fun i => nth i xi 0)).
    + rewrite <- Lx, rsum_nth. ring.
    + intros i Hi. apply in_seq in Hi. apply (Nxi rho xi ws i); [lia|exact Lx].
Qed.

(** ** C34: when LPBoost stops, the smallest margin g of the returned vote is within the tolerance of the smallest
    edge that it has seen; g is the largest smallest margin that any vote over the received hypotheses has *)
Lemma P_C34_certificate :
  forall (H : Type) (conf : H -> nat -> R) solve produce y (s : @lpboost H) fuel tr f,
  (forall p, lpb_asks conf solve produce y s p -> solves p (solve p)) ->
  run (lpboost_booster conf solve produce y) fuel s = Finished tr f ->
  Forall (fun d => is_dist d /\ length d = length y) tr /\
  exists g gh, is_min_of (fun i => (i < length y)%nat) (fun i => nth i y 0 * wm_confidence conf f i) g /\
    (forall ws, length ws = length (answers produce tr) -> is_dist ws ->
       exists i, (i < length y)%nat /\ nth i y 0 * vote conf (combine ws (answers produce tr)) i <= g) /\
    (gh = 1 \/ In gh (edges conf produce y tr)) /\ (forall e, In e (edges conf produce y tr) -> gh <= e) /\ gh - lb_tol s <= g.
Proof.
  intros H conf solve produce y s fuel tr f Hex.
  pose (F := fun o : outcome (wmajority H) => forall tr f, o = Finished tr f -> Forall (fun d => is_dist d /\ length d = length y) tr /\
    exists g gh, is_min_of (fun i => (i < length y)%nat) (fun i => nth i y 0 * wm_confidence conf f i) g /\
    (forall ws, length ws = length (answers produce tr) -> is_dist ws ->
       exists i, (i < length y)%nat /\ nth i y 0 * vote conf (combine ws (answers produce tr)) i <= g) /\
    (gh = 1 \/ In gh (edges conf produce y tr)) /\ (forall e, In e (edges conf produce y tr) -> gh <= e) /\ gh - lb_tol s <= g).
  intros E. refine (run_reach (lpboost_booster conf solve produce y) s (LInv conf produce y s) F _ _ _ _ fuel tr f E).
  - apply linv_first.
  - intros t s1 tr1 Hr HI. pose proof (linv_step conf solve produce y s Hex t s1 tr1 Hr HI) as St.
    destruct (b_boost _ t s1) as [q [[s' [|it]]|p]]; [exact St| |destruct St]. destruct (b_post _ s') as [f1|p]; [|destruct St].
    intros tr2 f2 E2. injection E2 as <- <-. destruct St as [Q [g [G1 [G3 [gh G2]]]]]. split; [exact Q|]. exists g, gh. destruct G2 as [A [B C]]. auto.
  - intros t s1 tr1 _ _ tr2 f2 E2. discriminate.
  - intros p _ tr2 f2 E2. discriminate.
Qed.

(** a weak learner that always answers with a hypothesis of largest edge in a class: the smallest margin of the
    returned vote is within the tolerance of that of every vote over the class *)
Lemma P_C34_hard_margin_optimal :
  forall (H : Type) (conf : H -> nat -> R) solve produce y (s : @lpboost H) fuel tr f (cls : H -> Prop),
  (forall p, lpb_asks conf solve produce y s p -> solves p (solve p)) ->
  (forall h i, cls h -> (i < length y)%nat -> -1 <= nth i y 0 * conf h i <= 1) ->
  (forall t d c, is_dist d -> cls c -> edge_of y d (conf c) <= edge_of y d (conf (produce t d))) ->
  run (lpboost_booster conf solve produce y) fuel s = Finished tr f ->
  forall ws hs v v', length ws = length hs -> is_dist ws -> (forall h, In h hs -> cls h) ->
  is_min_of (fun i => (i < length y)%nat) (fun i => nth i y 0 * vote conf (combine ws hs) i) v ->
  is_min_of (fun i => (i < length y)%nat) (fun i => nth i y 0 * wm_confidence conf f i) v' -> v - lb_tol s <= v'.
Proof.
  intros H conf solve produce y s fuel tr f cls Hex Hb Hbest E ws hs v v' Lw Dw Hcls [[i0 [Hi0 Ei0]] Hv] [[i1 [Hi1 Ei1]] Hv'].
  destruct (P_C34_certificate H conf solve produce y s fuel tr f Hex E) as [Q [g [gh [[[i2 [Hi2 Ei2]] Hg2] [_ [Gi [Gl Gt]]]]]]].
  assert (Eg : g = v') by (apply Rle_antisym; [rewrite <- Ei1; apply Hg2, Hi1|rewrite <- Ei2; apply Hv', Hi2]). subst g.
  assert (v <= gh); [|lra]. destruct Gi as [->|Gi].
  - rewrite <- Ei0. rewrite (vote_marg conf y hs ws i0 Lw Hi0). apply nth_is_dist in Dw. rewrite Lw in Dw. destruct Dw as [D1 D2].
    rewrite <- D2. apply rsum_le_seq. intros t Ht. destruct (nth_error hs t) as [h|] eqn:Eh; [|apply nth_error_None in Eh; lia].
    rewrite (marg_nth conf y hs t h i0 Eh Hi0). specialize (Hb h i0 (Hcls h (nth_error_In _ _ Eh)) Hi0). specialize (D1 t Ht). nra.
  - unfold edges in Gi. apply in_map_iff in Gi. destruct Gi as [[t d] [Ed Hin]]. cbn [fst snd] in Ed. apply in_combine_r in Hin.
    rewrite Forall_forall in Q. destruct (Q d Hin) as [Dd Ld]. rewrite <- Ed.
    apply Rle_trans with (edge_of y d (vote conf (combine ws hs))); [apply dist_margin; assumption|].
    apply vote_edge_ub; try assumption. intros h Hh. apply Hbest; [exact Dd|apply Hcls, Hh].
Qed.

(** ** C63: LPBoost stops after at most N + 1 rounds if the weak learner answers from N hypotheses (up to equality of
    the confidences on the sample), and it never panics *)
Lemma P_C63_lpboost_terminates :
  forall (H : Type) (conf : H -> nat -> R) solve produce y (s : @lpboost H) (C : list (nat -> R)),
  (forall p, lpb_asks conf solve produce y s p -> solves p (solve p)) ->
  is_valid_binary_instance y = Ok tt -> 1 <= lb_nu s <= INR (length y) -> 0 <= lb_tol s ->
  (forall t d, exists c, In c C /\ forall i, (i < length y)%nat -> conf (produce t d) i = c i) ->
  forall fuel, (length C < fuel)%nat ->
  exists tr f, run (lpboost_booster conf solve produce y) fuel s = Finished tr f /\ (length tr <= length C + 1)%nat.
Proof.
  intros H conf solve produce y s C Hex Hval Hnu Htol Hcls fuel Hf.
  refine (run_reach_bound (lpboost_booster conf solve produce y) s (S (length C)) (TInv conf produce y s C) (fun o => exists tr f, o = Finished tr f /\ (length tr <= length C + 1)%nat) _ _ _ fuel _).
  - intros s1 E1. split; [apply (linv_first conf solve); exact E1|]. exists []. split; [constructor|]. split; [intros x []|]. split; [reflexivity|]. intros c [].
  - intros t s1 tr Hr HI. pose proof (tinv_step conf solve produce y s Hex Htol C Hcls t s1 tr Hr HI) as St.
    destruct (b_boost _ t s1) as [q [[s' [|it]]|p]]; [exact St| |destruct St]. destruct (b_post _ s') as [f1|p]; [|destruct St]. exists (tr ++ q), f1. split; [reflexivity|lia].
  - change (b_pre (lpboost_booster conf solve produce y) s) with (lpb_pre y s). unfold lpb_pre. rewrite Hval. cbn [bind]. rewrite !Rleb_true by apply Hnu. cbn [andb assert_ bind]. discriminate.
  - lia.
Qed.

(** ** a run that needs two rounds: two examples, nu = 2, tolerance 1/10, two hypotheses with margins (1, -1/5) and
    (1/10, 1/10), the weak learner takes the one with the larger edge, the solver answers by table *)
Definition ex_conf (b : bool) (i : nat) : R := if b then match i with O => 1 | _ => 1 / 5 end else match i with O => 1 / 10 | _ => -1 / 10 end.
Definition ex_produce (t : nat) (d : list R) : bool := Rleb (edge_of y2 d (ex_conf false)) (edge_of y2 d (ex_conf true)).
Definition ex_solve (p : conic) : answer :=
  if Nat.eqb (length (k_q p)) 4 then mkAnswer [-1 / 5; 0; 0; 1] [0; 1; -1 / 5; 2; 1; 0] (1 / 5) Solved
  else mkAnswer [1 / 10; 0; 0; 0; 1] [0; 1; 1 / 10; 2; 1; 3 / 10; 0] (-1 / 10) Solved.
Definition ex_state : @lpboost bool := mkLpb [] 1 (1 / 10) 2 None [].

Ltac small_nat i Hi := destruct i as [|[|i]]; [| |cbn in Hi; lia].

Lemma ex_solves1 : solves (lp_conic ex_conf y2 2 [true]) (ex_solve (lp_conic ex_conf y2 2 [true])).
Proof.
  replace (ex_solve _) with (mkAnswer [-1 / 5; 0; 0; 1] [0; 1; -1 / 5; 2; 1; 0] (- nth 0 [-1 / 5; 0; 0; 1] 0 + 2 * rsum (map (fun i => nth (1 + i) [-1 / 5; 0; 0; 1] 0) (seq 0 (length y2)))) Solved).
  2:{ unfold ex_solve. cbn [lp_conic k_q y2 length repeat app Nat.eqb]. f_equal. simpl. lra. }
  apply lp_solves_intro; try reflexivity; try lra.
  all: try (intros i Hi; cbn in Hi; small_nat i Hi; cbn; try split; lra).
  all: try (intros [|t] Ht; [|cbn in Ht; lia]; cbn; lra).
  all: cbn; lra.
Qed.

Lemma ex_solves2 : solves (lp_conic ex_conf y2 2 [true; false]) (ex_solve (lp_conic ex_conf y2 2 [true; false])).
Proof.
  replace (ex_solve _) with (mkAnswer [1 / 10; 0; 0; 0; 1] [0; 1; 1 / 10; 2; 1; 3 / 10; 0] (- nth 0 [1 / 10; 0; 0; 0; 1] 0 + 2 * rsum (map (fun i => nth (1 + i) [1 / 10; 0; 0; 0; 1] 0) (seq 0 (length y2)))) Solved).
  2:{ unfold ex_solve. cbn [lp_conic k_q y2 length repeat app Nat.eqb]. f_equal. simpl. lra. }
  apply lp_solves_intro; try reflexivity; try lra.
  all: try (intros i Hi; cbn in Hi; small_nat i Hi; cbn; try split; lra).
  all: cbn; lra.
Qed.

Lemma boost_eq {H} (conf : H -> nat -> R) solve produce y nu t (s : @lpboost H) m :
  lb_model s = Some m -> lpm_ok conf y nu (lb_hyps s) m -> length (lb_dist s) = length y ->
  let h := produce t (lb_dist s) in let hs := lb_hyps s ++ [h] in let a := solve (lp_conic conf y nu hs) in
  (1 + length y <= length (a_x a))%nat -> (length y <= length (a_z a))%nat ->
  exists m', lpm_ok conf y nu hs m' /\ lm_weights m' = skipn (1 + length y) (a_x a) /\ lm_dist m' = firstn (length y) (a_z a) /\
    let gh := Rmin (edge_of y (lb_dist s) (conf h)) (lb_gamma_hat s) in
    lpb_boost conf solve produce y t s = ([lb_dist s], Ok (if Rleb (gh - lb_tol s) (- a_obj a) then (mkLpb (lb_dist s) gh (lb_tol s) (lb_nu s) (Some m') hs, Break t)
                                          else (mkLpb (firstn (length y) (a_z a)) gh (lb_tol s) (lb_nu s) (Some m') hs, Continue))).
Proof.
  intros Em Om Ld h hs a L1 L2. destruct (lpm_push_ok conf y nu (lb_hyps s) m h Om) as [m1 [Ep Om1]].
  exists (mkLpm (lm_obj m1) (lm_bld m1) (lm_n m1) (lm_T m1) (skipn (1 + length y) (a_x a)) (firstn (length y) (a_z a))).
  split; [exact Om1|]. split; [reflexivity|]. split; [reflexivity|]. cbn zeta. unfold lpb_boost, lpm_update. fold h. rewrite Em, Ep. cbn [bind]. fold hs. fold a.
  destruct Om1 as [_ [_ [En _]]]. rewrite En. unfold slice_from, slice_to. rewrite (proj2 (Nat.leb_le _ _) L1). cbn [bind]. rewrite (proj2 (Nat.leb_le _ _) L2). cbn [bind].
  rewrite edge_of_hypothesis_spec by exact Ld. cbn [lm_dist]. fold hs. destruct (Rleb _ _); reflexivity.
Qed.

Definition ExInv (t : nat) (s : @lpboost bool) : Prop :=
  lb_tol s = 1 / 10 /\ (exists m, lb_model s = Some m /\ lpm_ok ex_conf y2 2 (lb_hyps s) m) /\
  ((t = 1%nat /\ lb_dist s = [1 / 2; 1 / 2] /\ lb_hyps s = [] /\ lb_gamma_hat s = 1) \/
   (t = 2%nat /\ lb_dist s = [0; 1] /\ lb_hyps s = [true] /\ lb_gamma_hat s = 2 / 5)).

Lemma ex_pre : exists s, lpb_pre y2 ex_state = Ok s /\ ExInv 1 s.
Proof.
  unfold lpb_pre. rewrite y2_valid. cbn [bind ex_state lb_nu]. rewrite !Rleb_true by (simpl; lra). cbn [andb assert_ bind]. eexists. split; [reflexivity|].
  split; [reflexivity|]. split; [eexists; split; [reflexivity|apply lpm_init_ok]|]. left. cbn [lb_dist lb_hyps lb_gamma_hat]. simpl (INR _). repeat split.
Qed.

Lemma ex_first : ex_produce 1 [1 / 2; 1 / 2] = true.
Proof. apply Rleb_true. unfold edge_of. simpl. lra. Qed.
Lemma ex_second : ex_produce 2 [0; 1] = false.
Proof. apply Rleb_false. unfold edge_of. simpl. lra. Qed.

Lemma ex_step1 s : ExInv 1 s -> exists s', lpb_boost ex_conf ex_solve ex_produce y2 1 s = ([[1 / 2; 1 / 2]], Ok (s', Continue)) /\ ExInv 2 s'.
Proof.
  intros [Et [[m [Em Om]] [[_ [Ed [Eh Eg]]]|[C _]]]]; [|lia].
  pose proof (boost_eq ex_conf ex_solve ex_produce y2 2 1 s m Em Om) as B. cbn zeta in B. rewrite Eh, Ed, ex_first in B. cbn [app] in B.
  destruct (B eq_refl) as [m' [Om' [_ [_ Eb]]]]; [cbn; lia|cbn; lia|]. clear B. rewrite Eb, Eg, Et. change (ex_solve (lp_conic ex_conf y2 2 [true])) with (mkAnswer [-1 / 5; 0; 0; 1] [0; 1; -1 / 5; 2; 1; 0] (1 / 5) Solved). cbn [a_obj a_z].
  assert (E1 : Rmin (edge_of y2 [1 / 2; 1 / 2] (ex_conf true)) 1 = 2 / 5) by (unfold edge_of; simpl; rewrite Rmin_left; lra). rewrite E1. rewrite Rleb_false by lra.
  eexists. split; [reflexivity|]. split; [reflexivity|]. split; [exists m'; split; [reflexivity|exact Om']|]. right. repeat split.
Qed.

Lemma ex_step2 s : ExInv 2 s -> exists s', lpb_boost ex_conf ex_solve ex_produce y2 2 s = ([[0; 1]], Ok (s', Break 2)) /\
  lb_hyps s' = [true; false] /\ exists m, lb_model s' = Some m /\ lm_weights m = [0; 1].
Proof.
  intros [Et [[m [Em Om]] [[C _]|[_ [Ed [Eh Eg]]]]]]; [lia|].
  pose proof (boost_eq ex_conf ex_solve ex_produce y2 2 2 s m Em Om) as B. cbn zeta in B. rewrite Eh, Ed, ex_second in B. cbn [app] in B.
  destruct (B eq_refl) as [m' [Om' [Ew [_ Eb]]]]; [cbn; lia|cbn; lia|]. clear B. rewrite Eb, Eg, Et. change (ex_solve (lp_conic ex_conf y2 2 [true; false])) with (mkAnswer [1 / 10; 0; 0; 0; 1] [0; 1; 1 / 10; 2; 1; 3 / 10; 0] (-1 / 10) Solved) in *. cbn [a_obj a_z].
  assert (E1 : Rmin (edge_of y2 [0; 1] (ex_conf false)) (2 / 5) = 1 / 10) by (unfold edge_of; simpl; rewrite Rmin_left; lra). rewrite E1. rewrite Rleb_true by lra.
  eexists. split; [reflexivity|]. split; [reflexivity|]. exists m'. split; [reflexivity|exact Ew].
Qed.

Lemma ex_reach t s : reach (lpboost_booster ex_conf ex_solve ex_produce y2) ex_state t s -> ExInv t s.
Proof.
  induction 1 as [s E|t s q s' _ IH E].
  - destruct ex_pre as [s1 [E1 I1]]. change (b_pre (lpboost_booster ex_conf ex_solve ex_produce y2) ex_state) with (lpb_pre y2 ex_state) in E. rewrite E1 in E. injection E as <-. exact I1.
  - change (b_boost (lpboost_booster ex_conf ex_solve ex_produce y2)) with (lpb_boost ex_conf ex_solve ex_produce y2) in E.
    assert (Ht : t = 1%nat \/ t = 2%nat) by (destruct IH as [_ [_ [[-> _]|[-> _]]]]; auto). destruct Ht as [-> | ->].
    + destruct (ex_step1 s IH) as [s2 [E2 I2]]. rewrite E2 in E. injection E as _ <-. exact I2.
    + destruct (ex_step2 s IH) as [s2 [E2 _]]. rewrite E2 in E. discriminate.
Qed.

Lemma ex_exact p : lpb_asks ex_conf ex_solve ex_produce y2 ex_state p -> solves p (ex_solve p).
Proof.
  intros [t [s [m [m' [Hr [Em Ep]]]]]]. apply ex_reach in Hr. destruct Hr as [_ [[m1 [Em1 Om]] Hc]]. rewrite Em in Em1. injection Em1 as <-.
  destruct (lpm_push_ok ex_conf y2 2 (lb_hyps s) m (ex_produce t (lb_dist s)) Om) as [m2 [Ep2 _]]. rewrite Ep2 in Ep. injection Ep as _ <-.
  destruct Hc as [[-> [-> [-> _]]]|[-> [-> [-> _]]]]; [rewrite ex_first; apply ex_solves1|rewrite ex_second; apply ex_solves2].
Qed.

Lemma ex_best : forall t d c, is_dist d -> True -> edge_of y2 d (ex_conf c) <= edge_of y2 d (ex_conf (ex_produce t d)).
Proof. intros t d c _ _. unfold ex_produce. destruct (Rleb_spec (edge_of y2 d (ex_conf false)) (edge_of y2 d (ex_conf true))), c; lra. Qed.

Lemma ex_run : exists f, run (lpboost_booster ex_conf ex_solve ex_produce y2) 2 ex_state = Finished [[1 / 2; 1 / 2]; [0; 1]] f /\ forall i, wm_confidence ex_conf f i = ex_conf false i.
Proof.
  destruct ex_pre as [s1 [E1 I1]]. destruct (ex_step1 s1 I1) as [s2 [E2 I2]]. destruct (ex_step2 s2 I2) as [s3 [E3 [Eh [m [Em Ew]]]]].
  unfold run. change (b_pre (lpboost_booster ex_conf ex_solve ex_produce y2) ex_state) with (lpb_pre y2 ex_state). rewrite E1.
  cbn [run_from]. change (b_boost (lpboost_booster ex_conf ex_solve ex_produce y2)) with (lpb_boost ex_conf ex_solve ex_produce y2). rewrite E2, E3.
  change (b_post (lpboost_booster ex_conf ex_solve ex_produce y2) s3) with (lpb_post s3). unfold lpb_post. rewrite Em, Eh, Ew.
  destruct (from_slices_dist ex_conf [0; 1] [true; false] eq_refl) as [f [Ef Cf]]; [split; [intros x [<-|[<-|[]]]; lra|simpl; lra]|].
  rewrite Ef. exists f. split; [reflexivity|]. intros i. rewrite Cf. unfold vote. simpl. ring.
Qed.

Lemma capped2 d : capped 2 y2 d <-> d = [1 / 2; 1 / 2].
Proof.
  split; [|intros ->; split; [reflexivity|split; [intros x [<-|[<-|[]]]; lra|simpl; lra]]].
  intros [L [Hd Hs]]. destruct d as [|a [|b [|? ?]]]; try discriminate L. pose proof (Hd a (or_introl eq_refl)). pose proof (Hd b (or_intror (or_introl eq_refl))). simpl in Hs.
  assert (a = 1 / 2) by lra. assert (b = 1 / 2) by lra. subst. reflexivity.
Qed.

Lemma soft_margin2 f v : nth 0 y2 0 * f 0%nat + nth 1 y2 0 * f 1%nat = 2 * v -> soft_margin 2 y2 f v.
Proof.
  intros E. assert (Ev : edge_of y2 [1 / 2; 1 / 2] f = v) by (unfold edge_of; simpl in *; lra).
  split; [exists [1 / 2; 1 / 2]; split; [apply capped2; reflexivity|exact Ev]|]. intros a Ha. apply capped2 in Ha. subst a. lra.
Qed.

(** ** C33 refuted for LPBoost: nu = 2, one hypothesis with margins (1, -1/5).  The documented program has a point of
    value 2/5; the program handed to the solver has no value above -1/5. *)
Lemma P_C33_lpboost_objective_refuted :
  exists (conf : unit -> nat -> R) (y : list R) (nu : R) m' p, 1 <= nu <= INR (length y) /\ is_valid_binary_instance y = Ok tt /\
    lpm_push conf y (lpm_init (length y) (1 / nu)) tt = Ok (m', p) /\
    (exists rho xi ws, soft_constraints conf y [tt] rho xi ws /\ soft_value nu rho xi = 2 / 5) /\
    (forall x, feasible p x -> - objective p x <= - (1 / 5)).
Proof.
  pose (conf := fun (_ : unit) => ex_conf true).
  destruct (P_C33_lpboost_program unit conf ex_solve y2 2 [] tt (lpm_init (length y2) (1 / 2)) ltac:(lra) eq_refl) as [m' [p [Ep [_ [_ [F O]]]]]].
  exists conf, y2, 2, m', p. split; [simpl; lra|]. split; [exact y2_valid|]. split; [exact Ep|]. split.
  - exists 1, [0; 6 / 5], [1]. split; [|unfold soft_value; simpl; lra]. split; [reflexivity|]. split; [reflexivity|]. split; [|split].
    + intros i Hi. small_nat i Hi; unfold vote, conf; simpl; lra.
    + split; [intros x [<-|[]]; lra|simpl; lra].
    + intros v [<-|[<-|[]]]; lra.
  - intros x Hx. apply F in Hx. destruct Hx as [rho [xi [ws [-> [Lx [Lw [H1 [H2 H3]]]]]]]]. rewrite (O rho xi ws Lx Lw).
    destruct xi as [|a [|b [|? ?]]]; try discriminate Lx. destruct ws as [|w [|? ?]]; try discriminate Lw. destruct H2 as [_ H2]. simpl in H2.
    specialize (H1 1%nat ltac:(simpl; lia)). unfold vote, conf in H1. simpl in H1. pose proof (H3 a (or_introl eq_refl)). pose proof (H3 b (or_intror (or_introl eq_refl))). simpl. nra.
Qed.

(** ** C34 refuted as a statement on soft margins: although the solver is exact and the weak learner the best
    possible, the returned vote has soft margin 1/10 while a single hypothesis has soft margin 2/5, far more than the
    tolerance 1/10; and a distribution that is not capped by 1/nu is shown to the weak learner *)
Lemma P_C34_soft_margin_refuted :
  exists (conf : bool -> nat -> R) solve produce y (s : @lpboost bool) tr f d,
    1 <= lb_nu s <= INR (length y) /\ 0 < lb_tol s < 2 / 5 - 1 / 10 /\
    (forall p, lpb_asks conf solve produce y s p -> solves p (solve p)) /\
    (forall t d c, edge_of y d (conf c) <= edge_of y d (conf (produce t d))) /\
    run (lpboost_booster conf solve produce y) 2 s = Finished tr f /\
    soft_margin (lb_nu s) y (wm_confidence conf f) (1 / 10) /\ soft_margin (lb_nu s) y (conf true) (2 / 5) /\
    In d tr /\ ~ capped (lb_nu s) y d.
Proof.
  destruct ex_run as [f [Ef Cf]]. exists ex_conf, ex_solve, ex_produce, y2, ex_state, [[1 / 2; 1 / 2]; [0; 1]], f, [0; 1].
  cbn [ex_state lb_nu lb_tol]. split; [simpl; lra|]. split; [lra|]. split; [apply ex_exact|]. split; [|split; [exact Ef|]].
  - intros t d c. unfold ex_produce. destruct (Rleb_spec (edge_of y2 d (ex_conf false)) (edge_of y2 d (ex_conf true))), c; lra.
  - split; [apply soft_margin2; rewrite !Cf; simpl; lra|]. split; [apply soft_margin2; simpl; lra|]. split; [right; left; reflexivity|]. rewrite capped2. intros E. injection E. lra.
Qed.

(** ** the hypotheses of C34 and C63 are met by this run; its two rounds cannot be bounded by one *)
Example C34_hypotheses_met : exists fuel tr f, run (lpboost_booster ex_conf ex_solve ex_produce y2) fuel ex_state = Finished tr f /\ length tr = 2%nat /\
  (forall p, lpb_asks ex_conf ex_solve ex_produce y2 ex_state p -> solves p (ex_solve p)) /\
  (forall t d, exists c, In c [ex_conf true; ex_conf false] /\ forall i, (i < length y2)%nat -> ex_conf (ex_produce t d) i = c i).
Proof.
  destruct ex_run as [f [Ef _]]. exists 2%nat, [[1 / 2; 1 / 2]; [0; 1]], f. split; [exact Ef|]. split; [reflexivity|]. split; [apply ex_exact|].
  intros t d. exists (ex_conf (ex_produce t d)). split; [destruct (ex_produce t d); simpl; auto|reflexivity].
Qed.
