(** Facts about configuration: C67. *)
From Coq Require Import String.
From Verif Require Import Base Utils Booster AdaBoost AdaBoostV MadaBoost SmoothBoost FrankWolfe CERLP LPBoost ERLP SoftBoost MLP
  Feature Sample DTree Losses RTree BadLearner BuilderSpec Builders.
Open Scope R_scope.

Section Generic.
  Context {S A : Type}.
  Variable call : S -> A -> res S.

  Lemma calls_field {B} (field : S -> B) (pick : A -> option B) :
    (forall s a s', call s a = Ok s' -> field s' = match pick a with Some b => b | None => field s end) ->
    forall l s s', apply_calls call s l = Ok s' -> field s' = last_set pick (field s) l.
  Proof.
    intros Hstep l. induction l as [|a l IH]; intros s s' E; cbn [apply_calls] in E; [inversion E; reflexivity|].
    destruct (call s a) as [s1|] eqn:E1; [|discriminate]. cbn [bind] in E. rewrite (IH s1 s' E). rewrite (Hstep s a s1 E1). reflexivity.
  Qed.
  Lemma calls_inv (P : S -> Prop) : (forall s a s', P s -> call s a = Ok s' -> P s') -> forall l s s', P s -> apply_calls call s l = Ok s' -> P s'.
  Proof.
    intros Hstep l. induction l as [|a l IH]; intros s s' Hs E; cbn [apply_calls] in E; [inversion E; subst; exact Hs|].
    destruct (call s a) as [s1|] eqn:E1; [|discriminate]. cbn [bind] in E. apply (IH s1 s'); [apply (Hstep s a s1 Hs E1)|exact E].
  Qed.
  Lemma calls_ok (P : S -> Prop) (good : A -> Prop) : (forall s a, P s -> good a -> exists s', call s a = Ok s' /\ P s') ->
    forall l s, P s -> (forall a, In a l -> good a) -> exists s', apply_calls call s l = Ok s'.
  Proof.
    intros Hstep l. induction l as [|a l IH]; intros s Hs Hg; cbn [apply_calls]; [eauto|].
    destruct (Hstep s a Hs (Hg a (or_introl eq_refl))) as [s1 [E1 H1]]. rewrite E1. cbn [bind]. apply IH; [exact H1|]. intros b Hb. apply Hg. right. exact Hb.
  Qed.
  Lemma calls_bad (P : S -> Prop) k (bad : A) : (forall s a s', P s -> call s a = Ok s' -> P s') -> (forall s a q, P s -> call s a = Panic q -> q = k) -> (forall s, P s -> call s bad = Panic k) ->
    forall l s, P s -> In bad l -> apply_calls call s l = Panic k.
  Proof.
    intros Hinv Hp Hbad l. induction l as [|a l IH]; intros s Hs Hin; [destruct Hin|]. cbn [apply_calls].
    destruct (call s a) as [s1|q] eqn:E1; cbn [bind]; [|rewrite (Hp s a q Hs E1); reflexivity].
    destruct Hin as [->|Hin]; [rewrite (Hbad s Hs) in E1; discriminate|]. apply IH; [apply (Hinv s a s1 Hs E1)|exact Hin].
  Qed.
End Generic.

Lemma check_nu_iff nu n : check_nu nu n = Ok tt <-> 1 <= nu <= INR n.
Proof.
  unfold check_nu, assert_. destruct (Rleb_spec 1 nu), (Rleb_spec nu (INR n)); cbn [andb]; split; intros Q; try lra; try discriminate; reflexivity.
Qed.
Lemma check_nu_panic nu n : ~ (1 <= nu <= INR n) -> check_nu nu n = Panic AssertFailed.
Proof.
  intros Q. unfold check_nu, assert_. destruct (Rleb_spec 1 nu), (Rleb_spec nu (INR n)); cbn [andb]; try reflexivity. lra.
Qed.
Lemma check_nu_kind nu n q : check_nu nu n = Panic q -> q = AssertFailed.
Proof. unfold check_nu, assert_. destruct (Rleb 1 nu && Rleb nu (INR n))%bool; intros E; inversion E; reflexivity. Qed.



(** ** C67: AdaBoost, AdaBoostV, MadaBoost *)
Lemma P_C67_adaboost_family :
  forall (H : Type) (y : list R) (calls : list ada_call), let n := INR (length y) in
  (exists s : @ada H, apply_calls adaboost_call (ada_init y) calls = Ok s /\
     a_tolerance s = last_set ada_tol (1 / (n + 1)) calls /\ a_force_quit s = last_set ada_quit None calls) /\
  (exists s : @adav H, apply_calls adaboostv_call (adav_init y) calls = Ok s /\
     v_tolerance s = last_set ada_tol (1 / n) calls /\ v_force_quit s = last_set ada_quit None calls) /\
  (exists s : @mada H, apply_calls madaboost_call (mada_init y) calls = Ok s /\
     m_tolerance s = last_set ada_tol (1 / (n + 1)) calls /\ m_force_quit s = last_set ada_quit None calls).
Proof.
  intros H y calls n. split; [|split].
  - destruct (calls_ok (@adaboost_call H) (fun _ => True) (fun _ => True) ltac:(intros s a _ _; eexists; split; [reflexivity|exact I]) calls (ada_init y) I (fun _ _ => I)) as [s E]. exists s. split; [exact E|]. split.
    + refine (calls_field _ _ _ _ calls _ s E). intros s0 [it|t] s' E'; inversion E'; reflexivity.
    + refine (calls_field _ _ _ _ calls _ s E). intros s0 [it|t] s' E'; inversion E'; reflexivity.
  - destruct (calls_ok (@adaboostv_call H) (fun _ => True) (fun _ => True) ltac:(intros s a _ _; eexists; split; [reflexivity|exact I]) calls (adav_init y) I (fun _ _ => I)) as [s E]. exists s. split; [exact E|]. split.
    + refine (calls_field _ _ _ _ calls _ s E). intros s0 [it|t] s' E'; inversion E'; reflexivity.
    + refine (calls_field _ _ _ _ calls _ s E). intros s0 [it|t] s' E'; inversion E'; reflexivity.
  - destruct (calls_ok (@madaboost_call H) (fun _ => True) (fun _ => True) ltac:(intros s a _ _; eexists; split; [reflexivity|exact I]) calls (mada_init y) I (fun _ _ => I)) as [s E]. exists s. split; [exact E|]. split.
    + refine (calls_field _ _ _ _ calls _ s E). intros s0 [it|t] s' E'; inversion E'; reflexivity.
    + refine (calls_field _ _ _ _ calls _ s E). intros s0 [it|t] s' E'; inversion E'; reflexivity.
Qed.

(** ** C67: SmoothBoost; gamma must lie in [0, 1/2) *)
Lemma P_C67_smoothboost :
  forall (H : Type) umax (calls : list sb_call),
  ((forall g, In (SGamma g) calls -> 0 <= g < 1 / 2) -> exists s : @sb H, apply_calls smoothboost_call (sb_init umax) calls = Ok s /\
     sb_kappa s = last_set sb_kap (1 / 2) calls /\ sb_gamma s = last_set sb_gam (1 / 2) calls) /\
  (forall g, In (SGamma g) calls -> ~ (0 <= g < 1 / 2) -> apply_calls (@smoothboost_call H) (sb_init umax) calls = Panic AssertFailed).
Proof.
  intros H umax calls. split.
  - intros Hg. destruct (calls_ok (@smoothboost_call H) (fun _ => True) (fun c => match c with SGamma g => 0 <= g < 1 / 2 | _ => True end)) with (l := calls) (s := @sb_init H umax) as [s E].
    + intros s [k|g] _ Q; [eexists; split; [reflexivity|exact I]|]. unfold smoothboost_call, sb_set_gamma. rewrite Rleb_true by lra. rewrite Rltb_true by lra. eexists. split; [reflexivity|exact I].
    + exact I.
    + intros [k|g] Hin; [exact I|]. apply Hg, Hin.
    + exists s. split; [exact E|]. split.
      * refine (calls_field _ _ _ _ calls _ s E). intros s0 [k|g] s' E'; [inversion E'; reflexivity|]. unfold smoothboost_call, sb_set_gamma in E'. destruct (Rleb 0 g && Rltb g (1 / 2))%bool; inversion E'. reflexivity.
      * refine (calls_field _ _ _ _ calls _ s E). intros s0 [k|g] s' E'; [inversion E'; reflexivity|]. unfold smoothboost_call, sb_set_gamma in E'. destruct (Rleb 0 g && Rltb g (1 / 2))%bool; inversion E'. reflexivity.
  - intros g Hin Hng. apply (calls_bad (@smoothboost_call H) (fun _ => True) AssertFailed (SGamma g)); try exact I; try exact Hin; auto.
    + intros s [k|g'] q _ E'; [discriminate|]. unfold smoothboost_call, sb_set_gamma in E'. destruct (Rleb 0 g' && Rltb g' (1 / 2))%bool; inversion E'. reflexivity.
    + intros s _. unfold smoothboost_call, sb_set_gamma. destruct (Rleb_spec 0 g); [|reflexivity]. destruct (Rltb_spec g (1 / 2)); [|reflexivity]. lra.
Qed.


Ltac nu_ok := let s := fresh in let Q := fresh in
  intros s [nu|tol] _ Q; [|eexists; split; [reflexivity|exact I]]; cbn -[check_nu]; unfold lpb_nu, erlp_nu, soft_nu; rewrite (proj2 (check_nu_iff nu _) Q); eexists; split; [reflexivity|exact I].
Ltac nu_field := let s0 := fresh in let s' := fresh in let E' := fresh in
  intros s0 [nu|tol] s' E'; [|inversion E'; reflexivity]; cbn -[check_nu] in E'; unfold lpb_nu, erlp_nu, soft_nu in E'; destruct (check_nu nu _); [|discriminate]; inversion E'; reflexivity.
Ltac nu_kind := let s0 := fresh in let q := fresh in let E' := fresh in
  intros s0 [nuk|tolk] q _ E'; [|discriminate]; cbn -[check_nu] in E'; unfold lpb_nu, erlp_nu, soft_nu in E'; destruct (check_nu nuk _) eqn:?; [discriminate|]; cbn [bind] in E'; inversion E'; subst; eapply check_nu_kind; eassumption.
Ltac nu_bad Hn := let s := fresh in intros s _; cbn -[check_nu]; unfold lpb_nu, erlp_nu, soft_nu; erewrite check_nu_panic; [reflexivity|exact Hn].

(** ** C67: LPBoost, ERLPBoost, SoftBoost, TotalBoost; nu must lie in [1, n] *)
Lemma P_C67_lpboost :
  forall (H : Type) (y : list R) (calls : list lp_call), let n := length y in
  (nus_ok n calls -> exists s : @lpboost H, apply_calls (lpboost_call y) (lpb_init y) calls = Ok s /\
     lb_tol s = last_set lp_tol (1 / INR n) calls /\ lb_nu s = last_set lp_nu 1 calls) /\
  (~ nus_ok n calls -> apply_calls (@lpboost_call H y) (lpb_init y) calls = Panic AssertFailed).
Proof.
  intros H y calls n. split.
  - intros Hg. destruct (calls_ok (@lpboost_call H y) (fun _ => True) (fun c => match c with LNu nu => 1 <= nu <= INR (length y) | _ => True end)) with (l := calls) (s := @lpb_init H y) as [s E]; [nu_ok|exact I| |].
    + intros [nu|t] Hin; [apply Hg, Hin|exact I].
    + exists s. split; [exact E|]. split; refine (calls_field _ _ _ _ calls _ s E); nu_field.
  - intros Hn. assert (Hex : exists nu, In (LNu nu) calls /\ ~ (1 <= nu <= INR n)).
    { apply Classical_Prop.NNPP. intros Q. apply Hn. intros nu Hin. apply Classical_Prop.NNPP. intros Q2. apply Q. eauto. }
    destruct Hex as [nu [Hin Hbad]]. apply (calls_bad (@lpboost_call H y) (fun _ => True) AssertFailed (LNu nu)); try exact I; try exact Hin; auto; [nu_kind|nu_bad Hbad].
Qed.
Lemma P_C67_erlpboost :
  forall (H : Type) (y : list R) (calls : list lp_call), let n := length y in
  (nus_ok n calls -> exists s : @erlp H, apply_calls (erlpboost_call y) (erlp_init y) calls = Ok s /\
     er_half_tol s = last_set lp_tol (1 / 100) calls / 2 /\ er_nu s = last_set lp_nu 1 calls) /\
  (~ nus_ok n calls -> apply_calls (@erlpboost_call H y) (erlp_init y) calls = Panic AssertFailed).
Proof.
  intros H y calls n. split.
  - intros Hg. destruct (calls_ok (@erlpboost_call H y) (fun _ => True) (fun c => match c with LNu nu => 1 <= nu <= INR (length y) | _ => True end)) with (l := calls) (s := @erlp_init H y) as [s E]; [nu_ok|exact I| |].
    + intros [nu|t] Hin; [apply Hg, Hin|exact I].
    + exists s. split; [exact E|]. split; [|refine (calls_field _ _ _ _ calls _ s E); nu_field].
      assert (Q : 2 * er_half_tol s = last_set lp_tol (2 * er_half_tol (@erlp_init H y)) calls).
      { refine (calls_field _ (fun s => 2 * er_half_tol s) _ _ calls _ s E). intros s0 [nu|tol] s' E'; [|inversion E'; simpl; field]. cbn -[check_nu] in E'. unfold erlp_nu in E'. destruct (check_nu nu _); [|discriminate]. inversion E'. reflexivity. }
      change (er_half_tol (@erlp_init H y)) with (5 / 1000) in Q. replace (2 * (5 / 1000)) with (1 / 100) in Q by lra. lra.
  - intros Hn. assert (Hex : exists nu, In (LNu nu) calls /\ ~ (1 <= nu <= INR n)).
    { apply Classical_Prop.NNPP. intros Q. apply Hn. intros nu Hin. apply Classical_Prop.NNPP. intros Q2. apply Q. eauto. }
    destruct Hex as [nu [Hin Hbad]]. apply (calls_bad (@erlpboost_call H y) (fun _ => True) AssertFailed (LNu nu)); try exact I; try exact Hin; auto; [nu_kind|nu_bad Hbad].
Qed.
Lemma P_C67_softboost :
  forall (H : Type) (y : list R) (calls : list lp_call), let n := length y in (0 < n)%nat ->
  exists s0 : @soft H, soft_init y = Ok s0 /\
  (nus_ok n calls -> exists s : @soft H, apply_calls (softboost_call y) s0 calls = Ok s /\
     so_tol s = last_set lp_tol (1 / INR n) calls /\ so_nu s = last_set lp_nu 1 calls) /\
  (~ nus_ok n calls -> apply_calls (softboost_call y) s0 calls = Panic AssertFailed).
Proof.
  intros H y calls n Hn0.
  assert (E0 : soft_init (H := H) y = Ok (mkSoft (repeat (1 / INR n) n) 1 (1 / INR n) 1 None [] 0)) by (unfold soft_init; fold n; destruct n; [lia|reflexivity]).
  eexists. split; [exact E0|]. split.
  - intros Hg. destruct (calls_ok (@softboost_call H y) (fun _ => True) (fun c => match c with LNu nu => 1 <= nu <= INR (length y) | _ => True end)) with (l := calls) (s := @mkSoft H (repeat (1 / INR n) n) 1 (1 / INR n) 1 None [] 0) as [s E]; [nu_ok|exact I| |].
    + intros [nu|t] Hin; [apply Hg, Hin|exact I].
    + exists s. split; [exact E|]. split; refine (calls_field _ _ _ _ calls _ s E); nu_field.
  - intros Hn. assert (Hex : exists nu, In (LNu nu) calls /\ ~ (1 <= nu <= INR n)).
    { apply Classical_Prop.NNPP. intros Q. apply Hn. intros nu Hin. apply Classical_Prop.NNPP. intros Q2. apply Q. eauto. }
    destruct Hex as [nu [Hin Hbad]]. apply (calls_bad (@softboost_call H y) (fun _ => True) AssertFailed (LNu nu)); try exact I; try exact Hin; auto; [nu_kind|nu_bad Hbad].
Qed.
Lemma P_C67_totalboost :
  forall (H : Type) (y : list R) (tols : list R), let n := length y in (0 < n)%nat ->
  exists s0 s : @soft H, totalboost_init y = Ok s0 /\ apply_calls totalboost_call s0 tols = Ok s /\
    so_nu s = 1 /\ so_tol s = last tols (1 / INR n).
Proof.
  intros H y tols n Hn0.
  assert (E0 : totalboost_init (H := H) y = Ok (mkSoft (repeat (1 / INR n) n) 1 (1 / INR n) 1 None [] 0)).
  { unfold totalboost_init, soft_init. fold n. assert (Q : 1 <= INR n) by (apply (le_INR 1); lia). destruct n eqn:En; [lia|]. cbn [Nat.eqb negb assert_ bind]. unfold soft_nu. unfold n in En. rewrite En.
    rewrite (proj2 (check_nu_iff 1 _)) by lra. reflexivity. }
  destruct (calls_ok (@totalboost_call H) (fun _ => True) (fun _ => True) ltac:(intros s a _ _; eexists; split; [reflexivity|exact I]) tols (mkSoft (repeat (1 / INR n) n) 1 (1 / INR n) 1 None [] 0) I (fun _ _ => I)) as [s E].
  eexists _, s. split; [exact E0|]. split; [exact E|]. split.
  - refine (calls_inv (@totalboost_call H) (fun s => so_nu s = 1) _ tols _ s _ E); [|reflexivity]. intros s1 a s' Q E'. inversion E'. exact Q.
  - rewrite (calls_field (@totalboost_call H) (fun s => so_tol s) (fun t => Some t)) with (l := tols) (s := mkSoft (repeat (1 / INR n) n) 1 (1 / INR n) 1 None [] 0); [|intros s1 a s' E'; inversion E'; reflexivity|exact E].
    cbn [so_tol]. generalize (1 / INR n) as d. clear. induction tols as [|a l IH]; intros d; [reflexivity|]. unfold last_set in *. cbn [fold_left]. rewrite IH. destruct l; [reflexivity|]. cbn [last]. clear. revert r. induction l as [|b l IH]; intros r; [reflexivity|]. cbn [last] in *. apply IH.
Qed.

(** ** C67: the corrective ERLPBoost and MLPBoost *)
Lemma P_C67_cerlpboost :
  forall (H : Type) (y : list R) (calls : list fw_call), let n := length y in
  (fw_nus_ok n calls -> exists s : @cerlp H, apply_calls (cerlpboost_call y) (cerlp_init y) calls = Ok s /\
     ce_half_tol s = last_set fwc_tol (1 / 100) calls / 2 /\ fw_nu (ce_fw s) = last_set fwc_nu 1 calls /\ fw_type (ce_fw s) = last_set fwc_rule ShortStep calls) /\
  (~ fw_nus_ok n calls -> apply_calls (@cerlpboost_call H y) (cerlp_init y) calls = Panic AssertFailed).
Proof.
  intros H y calls n. split.
  - intros Hg. destruct (calls_ok (@cerlpboost_call H y) (fun _ => True) (fun c => match c with FNu nu => 1 <= nu <= INR (length y) | _ => True end)) with (l := calls) (s := @cerlp_init H y) as [s E].
    + intros s [nu|t|ty] _ Q; [|eexists; split; [reflexivity|exact I]..]. cbn -[check_nu]. unfold cerlp_nu. rewrite (proj2 (check_nu_iff nu _) Q). eexists. split; [reflexivity|exact I].
    + exact I.
    + intros [nu|t|ty] Hin; [apply Hg, Hin|exact I|exact I].
    + assert (F : forall (B : Type) (field : @cerlp H -> B) pick, (forall s0 c s', cerlpboost_call y s0 c = Ok s' -> match c with FNu nu => s' = mkCerlp (ce_dist s0) (ce_half_tol s0) (mkFw (fw_eta (ce_fw s0)) nu (fw_type (ce_fw s0))) (ce_weights s0) (ce_hyps s0) (ce_max_iter s0) | FTolerance t => s' = cerlp_tolerance s0 t | FRule ty => s' = cerlp_fw_type s0 ty end ->
          field s' = match pick c with Some b => b | None => field s0 end) -> field s = last_set pick (field (cerlp_init y)) calls).
      { intros B field pick Hst. refine (calls_field _ field pick _ calls _ s E). intros s0 c s' E'. apply (Hst s0 c s' E'). destruct c; cbn -[check_nu] in E'; [|inversion E'; reflexivity..]. unfold cerlp_nu in E'. destruct (check_nu nu _); [|discriminate]. inversion E'. reflexivity. }
      exists s. split; [exact E|]. split; [|split].
      * assert (Q : 2 * ce_half_tol s = last_set fwc_tol (2 * ce_half_tol (@cerlp_init H y)) calls) by (apply (F R (fun s => 2 * ce_half_tol s)); intros s0 [nu|t|ty] s' _ ->; simpl; try reflexivity; field).
        change (ce_half_tol (@cerlp_init H y)) with (5 / 1000) in Q. replace (2 * (5 / 1000)) with (1 / 100) in Q by lra. lra.
      * apply (F R (fun s => fw_nu (ce_fw s))). intros s0 [nu|t|ty] s' _ ->; reflexivity.
      * apply (F fwtype (fun s => fw_type (ce_fw s))). intros s0 [nu|t|ty] s' _ ->; reflexivity.
  - intros Hn. assert (Hex : exists nu, In (FNu nu) calls /\ ~ (1 <= nu <= INR n)).
    { apply Classical_Prop.NNPP. intros Q. apply Hn. intros nu Hin. apply Classical_Prop.NNPP. intros Q2. apply Q. eauto. }
    destruct Hex as [nu [Hin Hbad]]. apply (calls_bad (@cerlpboost_call H y) (fun _ => True) AssertFailed (FNu nu)); try exact I; try exact Hin; auto.
    + intros s0 [nu'|t|ty] q _ E'; [|discriminate..]. cbn -[check_nu] in E'. unfold cerlp_nu in E'. destruct (check_nu nu' _) eqn:Ec; [discriminate|]. cbn [bind] in E'. inversion E'; subst. eapply check_nu_kind; eassumption.
    + intros s0 _. cbn -[check_nu]. unfold cerlp_nu. erewrite check_nu_panic; [reflexivity|exact Hbad].
Qed.
Lemma P_C67_mlpboost :
  forall (H : Type) (y : list R) (calls : list fw_call), let n := length y in (0 < n)%nat ->
  exists s0 : @mlp H, mlp_init y = Ok s0 /\
  (fw_nus_ok n calls -> exists s : @mlp H, apply_calls (mlpboost_call y) s0 calls = Ok s /\
     ml_half_tol s = last_set fwc_tol (1 / 100) calls / 2 /\ fw_nu (ml_fw s) = last_set fwc_nu 1 calls /\ fw_type (ml_fw s) = last_set fwc_rule ShortStep calls) /\
  (~ fw_nus_ok n calls -> apply_calls (mlpboost_call y) s0 calls = Panic AssertFailed).
Proof.
  intros H y calls n Hn0. set (s0 := @mkMlp H (5 / 1000) (mkFw (ln (INR (length y) / 1) / (5 / 1000)) 1 ShortStep) None [] [] 0 1).
  exists s0. split; [unfold mlp_init; replace (Nat.eqb (length y) 0) with false by (symmetry; apply Nat.eqb_neq; unfold n in Hn0; lia); reflexivity|]. split.
  - intros Hg. destruct (calls_ok (@mlpboost_call H y) (fun _ => True) (fun c => match c with FNu nu => 1 <= nu <= INR (length y) | _ => True end)) with (l := calls) (s := s0) as [s E].
    + intros s [nu|t|ty] _ Q; [|eexists; split; [reflexivity|exact I]..]. cbn -[check_nu]. unfold mlp_nu. rewrite (proj2 (check_nu_iff nu _) Q). eexists. split; [reflexivity|exact I].
    + exact I.
    + intros [nu|t|ty] Hin; [apply Hg, Hin|exact I|exact I].
    + assert (F : forall (B : Type) (field : @mlp H -> B) pick, (forall s0 c s', mlpboost_call y s0 c = Ok s' -> match c with FNu nu => s' = mkMlp (ml_half_tol s0) (mkFw (fw_eta (ml_fw s0)) nu (fw_type (ml_fw s0))) (ml_secondary s0) (ml_weights s0) (ml_hyps s0) (ml_max_iter s0) (ml_gamma s0) | FTolerance t => s' = mlp_tolerance s0 t | FRule ty => s' = mlp_frank_wolfe s0 ty end ->
          field s' = match pick c with Some b => b | None => field s0 end) -> field s = last_set pick (field s0) calls).
      { intros B field pick Hst. refine (calls_field _ field pick _ calls _ s E). intros s1 c s' E'. apply (Hst s1 c s' E'). destruct c; cbn -[check_nu] in E'; [|inversion E'; reflexivity..]. unfold mlp_nu in E'. destruct (check_nu nu _); [|discriminate]. inversion E'. reflexivity. }
      exists s. split; [exact E|]. split; [|split].
      * assert (Q : 2 * ml_half_tol s = last_set fwc_tol (2 * ml_half_tol s0) calls) by (apply (F R (fun s => 2 * ml_half_tol s)); intros s1 [nu|t|ty] s' _ ->; simpl; try reflexivity; field).
        change (ml_half_tol s0) with (5 / 1000) in Q. replace (2 * (5 / 1000)) with (1 / 100) in Q by lra. lra.
      * apply (F R (fun s => fw_nu (ml_fw s))). intros s1 [nu|t|ty] s' _ ->; reflexivity.
      * apply (F fwtype (fun s => fw_type (ml_fw s))). intros s1 [nu|t|ty] s' _ ->; reflexivity.
  - intros Hn. assert (Hex : exists nu, In (FNu nu) calls /\ ~ (1 <= nu <= INR n)).
    { apply Classical_Prop.NNPP. intros Q. apply Hn. intros nu Hin. apply Classical_Prop.NNPP. intros Q2. apply Q. eauto. }
    destruct Hex as [nu [Hin Hbad]]. apply (calls_bad (@mlpboost_call H y) (fun _ => True) AssertFailed (FNu nu)); try exact I; try exact Hin; auto.
    + intros s1 [nu'|t|ty] q _ E'; [|discriminate..]. cbn -[check_nu] in E'. unfold mlp_nu in E'. destruct (check_nu nu' _) eqn:Ec; [discriminate|]. cbn [bind] in E'. inversion E'; subst. eapply check_nu_kind; eassumption.
    + intros s1 _. cbn -[check_nu]. unfold mlp_nu. erewrite check_nu_panic; [reflexivity|exact Hbad].
Qed.

(** ** C67: the builders of the weak learners *)

Lemma sm_get_set (m : list (string * nat)) nm n name v : sm_get m name = Ok v ->
  sm_get (map (fun p => if String.eqb (fst p) nm then (fst p, n) else p) m) name = Ok (if String.eqb nm name then n else v).
Proof.
  unfold sm_get. rewrite <- map_rev. induction (rev m) as [|[k w] l IH]; cbn [find map]; [discriminate|]. cbn [fst].
  destruct (String.eqb_spec k nm) as [->|Hk]; cbn [fst].
  - destruct (String.eqb_spec nm name) as [->|Hn]; intros E; [reflexivity|]. specialize (IH E). destruct (String.eqb_spec nm name); [congruence|]. exact IH.
  - destruct (String.eqb_spec k name) as [->|Hn]; intros E.
    + cbn [snd] in *. inversion E. destruct (String.eqb_spec nm name) as [->|Q]; [congruence|reflexivity].
    + exact (IH E).
Qed.
Lemma sm_get_keys (m : list (string * nat)) name : In name (map fst m) <-> exists v, sm_get m name = Ok v.
Proof.
  unfold sm_get. rewrite <- (rev_involutive m) at 1. rewrite map_rev. rewrite <- in_rev. induction (rev m) as [|[k w] l IH]; cbn [find map fst].
  - split; [intros []|intros [v E]; discriminate].
  - destruct (String.eqb_spec k name) as [->|Hn]; cbn [snd].
    + split; [intros _; eauto|intros _; left; reflexivity].
    + rewrite <- IH. simpl. split; [intros [Q|Q]; [congruence|exact Q]|intros Q; right; exact Q].
Qed.
Lemma sm_get_kind {V} (m : list (string * V)) nm q : sm_get m nm = Panic q -> q = UnwrapNone.
Proof. unfold sm_get. destruct (find _ _); intros E; inversion E; reflexivity. Qed.
Lemma set_keys (m : list (string * nat)) nm n : map fst (map (fun p => if String.eqb (fst p) nm then (fst p, n) else p) m) = map fst m.
Proof. rewrite map_map. apply map_ext. intros [k w]. cbn [fst]. destruct (String.eqb k nm); reflexivity. Qed.


Lemma P_C67_decision_tree :
  forall (s : sample) (calls : list dt_call),
  ((forall d, In (DMaxDepth d) calls -> (0 < d)%nat) -> (forall nm n, In (DNBins nm n) calls -> In nm (map feat_name (s_features s))) ->
   exists b, apply_calls dtree_call (tb_new s) calls = Ok b /\
     tb_depth b = last_set dt_dep 2%nat calls /\ tb_criterion b = last_set dt_crit Entropy calls /\
     forall f, In f (s_features s) -> exists v, default_bins s (feat_name f) v /\ sm_get (tb_nbins b) (feat_name f) = Ok (last_set (dt_bin (feat_name f)) v calls)) /\
  ((exists nm n, In (DNBins nm n) calls /\ ~ In nm (map feat_name (s_features s))) \/ In (DMaxDepth 0) calls -> exists q, apply_calls dtree_call (tb_new s) calls = Panic q).
Proof.
  intros s calls. assert (K0 : map fst (tb_nbins (tb_new s)) = map feat_name (s_features s)) by (unfold tb_new; simpl; rewrite map_map; reflexivity).
  assert (Kinv : forall b c b', map fst (tb_nbins b) = map feat_name (s_features s) -> dtree_call b c = Ok b' -> map fst (tb_nbins b') = map feat_name (s_features s)).
  { intros b [d|c|nm n] b' K E; cbn [dtree_call] in E.
    - unfold tb_max_depth in E. destruct (Nat.ltb 0 d); [|discriminate]. inversion E. exact K.
    - inversion E. exact K.
    - unfold tb_set_nbins in E. destruct (sm_get (tb_nbins b) nm); [|discriminate]. inversion E. cbn [tb_nbins]. rewrite set_keys. exact K. }
  split.
  - intros H1 H2.
    destruct (calls_ok dtree_call (fun b => map fst (tb_nbins b) = map feat_name (s_features s)) (fun c => match c with DMaxDepth d => (0 < d)%nat | DNBins nm _ => In nm (map feat_name (s_features s)) | _ => True end)) with (l := calls) (s := tb_new s) as [b E].
    + intros b [d|c|nm n] K Q; cbn [dtree_call].
      * unfold tb_max_depth. rewrite (proj2 (Nat.ltb_lt 0 d) Q). cbn [assert_ bind]. eexists. split; [reflexivity|exact K].
      * eexists. split; [reflexivity|exact K].
      * unfold tb_set_nbins. rewrite <- K in Q. apply (proj1 (sm_get_keys _ _)) in Q. destruct Q as [v Q]. rewrite Q. cbn [bind]. eexists. split; [reflexivity|]. cbn [tb_nbins]. rewrite set_keys. exact K.
    + exact K0.
    + intros [d|c|nm n] Hin; [apply H1, Hin|exact I|apply (H2 nm n Hin)].
    + exists b. split; [exact E|]. split; [|split].
      * refine (calls_field dtree_call _ _ _ calls _ b E). intros b0 [d|c|nm n] b' E'; cbn [dtree_call] in E'; [unfold tb_max_depth in E'; destruct (Nat.ltb 0 d); [|discriminate]; inversion E'; reflexivity|inversion E'; reflexivity|]. unfold tb_set_nbins in E'. destruct (sm_get (tb_nbins b0) nm); [|discriminate]. inversion E'. reflexivity.
      * refine (calls_field dtree_call _ _ _ calls _ b E). intros b0 [d|c|nm n] b' E'; cbn [dtree_call] in E'; [unfold tb_max_depth in E'; destruct (Nat.ltb 0 d); [|discriminate]; inversion E'; reflexivity|inversion E'; reflexivity|]. unfold tb_set_nbins in E'. destruct (sm_get (tb_nbins b0) nm); [|discriminate]. inversion E'. reflexivity.
      * intros f Hf. assert (Hk : In (feat_name f) (map fst (tb_nbins (tb_new s)))) by (rewrite K0; apply in_map, Hf). apply (proj1 (sm_get_keys _ _)) in Hk. destruct Hk as [v Hv]. exists v. split; [exact Hv|].
        clear K0 H1 H2. revert v Hv E. generalize (tb_new s) as b0. induction calls as [|c calls IH]; intros b0 v Hv E; cbn [apply_calls] in E; [inversion E; subst; exact Hv|].
        destruct (dtree_call b0 c) as [b1|] eqn:E1; [|discriminate]. cbn [bind] in E. unfold last_set. cbn [fold_left]. apply (IH b1); [|exact E].
        destruct c as [d|c|nm n]; cbn [dtree_call dt_bin] in E1 |- *; [unfold tb_max_depth in E1; destruct (Nat.ltb 0 d); [|discriminate]; inversion E1; exact Hv|inversion E1; exact Hv|].
        unfold tb_set_nbins in E1. destruct (sm_get (tb_nbins b0) nm); [|discriminate]. inversion E1. cbn [tb_nbins]. rewrite (sm_get_set _ _ _ _ v Hv). destruct (String.eqb nm (feat_name f)); reflexivity.
  - intros Hbad. destruct (apply_calls dtree_call (tb_new s) calls) as [b|q] eqn:E; [exfalso|eauto]. revert K0 E. generalize (tb_new s) as b0.
    induction calls as [|c calls IH]; intros b0 K0 E; [destruct Hbad as [[nm [n [[] _]]]|[]]|]. cbn [apply_calls] in E. destruct (dtree_call b0 c) as [b1|] eqn:E1; [|discriminate]. cbn [bind] in E.
    assert (Hc : ~ ((exists nm n, c = DNBins nm n /\ ~ In nm (map feat_name (s_features s))) \/ c = DMaxDepth 0)).
    { intros [[nm [n [-> Q]]]| ->]; cbn [dtree_call] in E1; [|unfold tb_max_depth in E1; simpl in E1; discriminate].
      unfold tb_set_nbins in E1. destruct (sm_get (tb_nbins b0) nm) eqn:Eg; [|discriminate]. apply Q. rewrite <- K0. apply (proj2 (sm_get_keys _ _)). eauto. }
    refine (IH _ b1 (Kinv b0 c b1 K0 E1) E). destruct Hbad as [[nm [n [[Q|Q] Hn]]]|[Q|Q]].
    + exfalso. apply Hc. left. eauto.
    + left. eauto.
    + exfalso. apply Hc. right. exact Q.
    + right. exact Q.
Qed.

Lemma P_C67_regression_tree :
  forall (s : sample) (calls : list rt_call),
  (forall d, In (RMaxDepth d) calls -> (0 < d)%nat) -> (forall nm n, In (RNBins nm n) calls -> In nm (map feat_name (s_features s))) ->
  exists b, apply_calls rtree_call (rb_new s) calls = Ok b /\
    rb_depth b = last_set rt_dep 2%nat calls /\ rb_lambda b = last_set rt_lam (/ 100) calls /\ rb_loss b = last_set rt_los None calls /\
    (forall f, In f (s_features s) -> exists v, default_bins s (feat_name f) v /\ sm_get (rb_nbins b) (feat_name f) = Ok (last_set (rt_bin (feat_name f)) v calls)) /\
    (* what is built uses these values *)
    (forall t, rb_build b s = Ok t -> rt_depth t = last_set rt_dep 2%nat calls /\ rt_lambda t = last_set rt_lam (/ 100) calls /\ Some (rt_loss t) = last_set rt_los None calls).
Proof.
  intros s calls H1 H2. assert (K0 : map fst (rb_nbins (rb_new s)) = map feat_name (s_features s)) by (unfold rb_new; simpl; rewrite map_map; reflexivity).
  destruct (calls_ok rtree_call (fun b => map fst (rb_nbins b) = map feat_name (s_features s)) (fun c => match c with RMaxDepth d => (0 < d)%nat | RNBins nm _ => In nm (map feat_name (s_features s)) | _ => True end)) with (l := calls) (s := rb_new s) as [b E].
  - intros b [d|x|l|nm n] K Q; cbn [rtree_call].
    + unfold rb_max_depth. rewrite (proj2 (Nat.ltb_lt 0 d) Q). cbn [assert_ bind]. eexists. split; [reflexivity|exact K].
    + eexists. split; [reflexivity|exact K].
    + eexists. split; [reflexivity|exact K].
    + unfold rb_set_nbins. rewrite <- K in Q. apply (proj1 (sm_get_keys _ _)) in Q. destruct Q as [v Q]. rewrite Q. cbn [bind]. eexists. split; [reflexivity|]. cbn [rb_nbins]. rewrite set_keys. exact K.
  - exact K0.
  - intros [d|x|l|nm n] Hin; [apply H1, Hin|exact I|exact I|apply (H2 nm n Hin)].
  - assert (F : forall (B : Type) (field : rt_builder -> B) pick,
        (forall b0 c b', match c with RMaxDepth d => b' = mkRTB (rb_nbins b0) d (rb_lambda b0) (rb_loss b0) | RLambda x => b' = rb_lambda_l2 b0 x | RLoss l => b' = rb_set_loss b0 l | RNBins nm n => b' = mkRTB (map (fun p => if String.eqb (fst p) nm then (fst p, n) else p) (rb_nbins b0)) (rb_depth b0) (rb_lambda b0) (rb_loss b0) end ->
           field b' = match pick c with Some v => v | None => field b0 end) -> field b = last_set pick (field (rb_new s)) calls).
    { intros B field pick Hst. refine (calls_field rtree_call field pick _ calls _ b E). intros b0 c b' E'. apply (Hst b0 c b'). destruct c; cbn [rtree_call] in E'; try (inversion E'; reflexivity).
      - unfold rb_max_depth in E'. destruct (Nat.ltb 0 d); [|discriminate]. inversion E'. reflexivity.
      - unfold rb_set_nbins in E'. destruct (sm_get (rb_nbins b0) name); [|discriminate]. inversion E'. reflexivity. }
    assert (F1 : rb_depth b = last_set rt_dep 2%nat calls) by (apply (F nat rb_depth); intros b0 [d|x|l|nm n] b' ->; reflexivity).
    assert (F2 : rb_lambda b = last_set rt_lam (/ 100) calls) by (apply (F R rb_lambda); intros b0 [d|x|l|nm n] b' ->; reflexivity).
    assert (F3 : rb_loss b = last_set rt_los None calls) by (apply (F (option gbm_loss) rb_loss); intros b0 [d|x|l|nm n] b' ->; reflexivity).
    exists b. split; [exact E|]. split; [exact F1|]. split; [exact F2|]. split; [exact F3|]. split.
    + intros f Hf. assert (Hk : In (feat_name f) (map fst (rb_nbins (rb_new s)))) by (rewrite K0; apply in_map, Hf). apply (proj1 (sm_get_keys _ _)) in Hk. destruct Hk as [v Hv]. exists v. split; [exact Hv|].
      clear K0 H1 H2 F F1 F2 F3. revert v Hv E. generalize (rb_new s) as b0. induction calls as [|c calls IH]; intros b0 v Hv E; cbn [apply_calls] in E; [inversion E; subst; exact Hv|].
      destruct (rtree_call b0 c) as [b1|] eqn:E1; [|discriminate]. cbn [bind] in E. unfold last_set. cbn [fold_left]. apply (IH b1); [|exact E].
      destruct c as [d|x|l|nm n]; cbn [rtree_call rt_bin] in E1 |- *; [unfold rb_max_depth in E1; destruct (Nat.ltb 0 d); [|discriminate]; inversion E1; exact Hv|inversion E1; exact Hv|inversion E1; exact Hv|].
      unfold rb_set_nbins in E1. destruct (sm_get (rb_nbins b0) nm); [|discriminate]. inversion E1. cbn [rb_nbins]. rewrite (sm_get_set _ _ _ _ v Hv). destruct (String.eqb nm (feat_name f)); reflexivity.
    + intros t Et. unfold rb_build in Et. destruct (cut_all (rb_nbins b) (s_features s)); [|discriminate]. cbn [bind] in Et. destruct (rb_loss b) as [l|] eqn:El; [|discriminate]. inversion Et. cbn [rt_depth rt_lambda rt_loss]. rewrite <- F1, <- F2, <- F3. auto.
Qed.

Lemma P_C67_worst_case_learner :
  forall (y : list R) (calls : list lp_call), let n := INR (length y) in
  (forall nu, In (LNu nu) calls -> 1 <= nu < n) -> exists b, apply_calls badlearner_call (bb_init y) calls = Ok b /\
    bb_n b = length y /\ bb_tol b = last_set lp_tol (1 / 10 ^ 9) calls /\ bb_nu b = last_set lp_nu 1 calls.
Proof.
  intros y calls n Hg.
  destruct (calls_ok badlearner_call (fun b => bb_n b = length y) (fun c => match c with LNu nu => 1 <= nu < n | _ => True end)) with (l := calls) (s := bb_init y) as [b E].
  - intros b [nu|t] K Q; cbn [badlearner_call]; [|eexists; split; [reflexivity|exact K]]. unfold bb_nu_set. rewrite K. fold n. rewrite Rleb_true by lra. rewrite Rltb_true by lra. cbn [andb assert_ bind]. eexists. split; reflexivity.
  - reflexivity.
  - intros [nu|t] Hin; [apply Hg, Hin|exact I].
  - exists b. split; [exact E|].
    assert (F : forall (B : Type) (field : badb -> B) pick, (forall b0 c b', match c with LNu nu => b' = mkBadB (bb_n b0) (bb_tol b0) nu | LTolerance t => b' = bb_tolerance b0 t end -> field b' = match pick c with Some v => v | None => field b0 end) -> field b = last_set pick (field (bb_init y)) calls).
    { intros B field pick Hst. refine (calls_field badlearner_call field pick _ calls _ b E). intros b0 c b' E'. apply (Hst b0 c b'). destruct c as [nu|t]; cbn [badlearner_call] in E'; [|inversion E'; reflexivity]. unfold bb_nu_set in E'. destruct (Rleb 1 nu && Rltb nu (INR (bb_n b0)))%bool; [|discriminate]. inversion E'. reflexivity. }
    split; [|split; [apply (F R bb_tol)|apply (F R bb_nu)]; intros b0 [nu|t] b' ->; reflexivity].
    rewrite (F nat bb_n (fun _ => None)) by (intros b0 [nu|t] b' ->; reflexivity). apply last_set_default. reflexivity.
Qed.

Example C67_ex : last_set lp_nu 1 [LNu 2; LTolerance (1 / 2); LNu 3] = 3 /\ last_set lp_tol 1 [LNu 2; LTolerance (1 / 2); LNu 3] = 1 / 2 /\ nus_ok 4 [LNu 2; LTolerance (1 / 2); LNu 3].
Proof.
  split; [reflexivity|]. split; [reflexivity|]. intros nu [E|[E|[E|[]]]]; inversion E; simpl; lra.
Qed.
