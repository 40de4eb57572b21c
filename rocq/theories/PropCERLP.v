(** Property C62: Corrective ERLPBoost. *)
From Verif Require Import Base Spec RegSpec SortLib Utils UtilsProofs WMajority WMajorityProofs Booster AdaBoost AdaBoostProofs AdaBoostMain AdaBoostMore Num Hoeffding FrankWolfe FrankWolfeProofs FrankWolfeFacts CERLP CERLPProofs CERLPFacts.
Open Scope R_scope.


(** ** C62: every distribution shown to the weak learner is capped by 1/nu, for every step-size rule *)

Theorem C62_cerlp_queries_capped :
  forall (H : Type) (conf : H -> nat -> R) (eqH : H -> H -> bool) (produce : nat -> list R -> H) (y : list R) (s : cerlp) (fuel : nat) d,
  1 <= fw_nu (ce_fw s) <= INR (length y) ->
  In d (trace_of (run (cerlpboost conf eqH produce y) fuel s)) -> capped (fw_nu (ce_fw s)) y d.
Proof. exact P_C62_cerlp_queries_capped. Qed.
Print Assumptions C62_cerlp_queries_capped.

(** ** at most max_loop() rounds, for every rule *)

Theorem C62_cerlp_round_limit :
  forall (H : Type) (conf : H -> nat -> R) (eqH : H -> H -> bool) (produce : nat -> list R -> H) (y : list R) (s : cerlp) (fuel : nat),
  1 <= fw_nu (ce_fw s) <= INR (length y) ->
  let limit := ceil_usize (8 * ln (INR (length y) / fw_nu (ce_fw s)) / ce_half_tol s ^ 2) in
  (length (trace_of (run (cerlpboost conf eqH produce y) fuel s)) <= limit)%nat /\
  ((limit < fuel)%nat -> match run (cerlpboost conf eqH produce y) fuel s with Unfinished _ => False | _ => True end).
Proof. exact P_C62_cerlp_round_limit. Qed.
Print Assumptions C62_cerlp_round_limit.

(** ** the guarantee, for the classic and the (default) short-step rule: if every round's hypothesis has edge at least [g],
    the soft margin of the returned vote is at least g - tolerance *)

Theorem C62_cerlp_guarantee :
  forall (H : Type) (conf : H -> nat -> R) (eqH : H -> H -> bool) (produce : nat -> list R -> H) (y : list R) (s : cerlp) (fuel : nat) tr f g,
  fw_type (ce_fw s) = Classic \/ fw_type (ce_fw s) = ShortStep ->
  1 <= fw_nu (ce_fw s) <= INR (length y) -> 0 < ce_half_tol s ->
  (forall h i, (i < length y)%nat -> -1 <= nth i y 0 * conf h i <= 1) ->
  (forall f h, eqH f h = true -> forall i, (i < length y)%nat -> conf f i = conf h i) ->
  run (cerlpboost conf eqH produce y) fuel s = Finished tr f ->
  Forall (fun e => g <= e) (edges conf produce y tr) ->
  forall v, soft_margin (fw_nu (ce_fw s)) y (wm_confidence conf f) v -> g - 2 * ce_half_tol s <= v.
Proof. exact P_C62_cerlp_guarantee. Qed.
Print Assumptions C62_cerlp_guarantee.

(** ** consequence: with a weak learner that is at least as good as every hypothesis of a class [C], the returned vote
    maximises the soft margin over the convex hull of [C] up to the tolerance *)

Theorem C62_cerlp_optimal :
  forall (H : Type) (conf : H -> nat -> R) (eqH : H -> H -> bool) (produce : nat -> list R -> H) (y : list R) (s : cerlp) (fuel : nat) tr f (C : H -> Prop),
  fw_type (ce_fw s) = Classic \/ fw_type (ce_fw s) = ShortStep ->
  1 <= fw_nu (ce_fw s) <= INR (length y) -> 0 < ce_half_tol s ->
  (forall h i, (i < length y)%nat -> -1 <= nth i y 0 * conf h i <= 1) ->
  (forall f h, eqH f h = true -> forall i, (i < length y)%nat -> conf f i = conf h i) ->
  (forall t d h, C h -> edge_of y d (conf h) <= edge_of y d (conf (produce t d))) ->
  run (cerlpboost conf eqH produce y) fuel s = Finished tr f ->
  forall ws hs v v', length ws = length hs -> is_dist ws -> (forall h, In h hs -> C h) ->
  soft_margin (fw_nu (ce_fw s)) y (vote conf (combine ws hs)) v' -> soft_margin (fw_nu (ce_fw s)) y (wm_confidence conf f) v ->
  v' - 2 * ce_half_tol s <= v.
Proof. exact P_C62_cerlp_optimal. Qed.
Print Assumptions C62_cerlp_optimal.

(** ** when it panics *)

Theorem C62_cerlp_crash_only_when :
  forall (H : Type) (conf : H -> nat -> R) (eqH : H -> H -> bool) (produce : nat -> list R -> H) (y : list R) (s : cerlp) (fuel : nat) tr p,
  fw_type (ce_fw s) = Classic \/ fw_type (ce_fw s) = ShortStep ->
  is_valid_binary_instance y = Ok tt -> 1 <= fw_nu (ce_fw s) < INR (length y) -> 0 < ce_half_tol s ->
  (forall h i, (i < length y)%nat -> -1 <= nth i y 0 * conf h i <= 1) ->
  (forall f h, eqH f h = true -> forall i, (i < length y)%nat -> conf f i = conf h i) ->
  run (cerlpboost conf eqH produce y) fuel s = Crashed tr p ->
  let u := repeat (1 / INR (length y)) (length y) in
  p = AssertFailed /\ tr = [u] /\ edge_of y u (conf (produce 1%nat u)) <= ce_half_tol s.
Proof. exact P_C62_cerlp_crash_only_when. Qed.
Print Assumptions C62_cerlp_crash_only_when.

(** a first hypothesis with edge at most half the tolerance makes the run panic, so does nu = n: nothing was learned yet
    and the empty vote cannot be normalised *)
Theorem C62_cerlp_always_answers_refuted :
  forall (H : Type) (conf : H -> nat -> R) (eqH : H -> H -> bool) (produce : nat -> list R -> H) (y : list R) (s : cerlp) (fuel : nat),
  is_valid_binary_instance y = Ok tt -> 0 < ce_half_tol s -> 1 <= fw_nu (ce_fw s) <= INR (length y) ->
  let u := repeat (1 / INR (length y)) (length y) in
  fw_nu (ce_fw s) = INR (length y) \/ edge_of y u (conf (produce 1%nat u)) <= ce_half_tol s ->
  exists tr, run (cerlpboost conf eqH produce y) (S fuel) s = Crashed tr AssertFailed.
Proof. exact P_C62_cerlp_always_answers_refuted. Qed.
Print Assumptions C62_cerlp_always_answers_refuted.

Example C62_nonvacuous :
  let conf := fun (_ : unit) (i : nat) => nth i y2 0 in
  exists fuel tr f, run (cerlpboost conf (fun _ _ => true) (fun _ _ => tt) y2) fuel (cerlp_init y2) = Finished tr f /\
  Forall (fun e => 1 <= e) (edges conf (fun _ _ => tt) y2 tr).
Proof.
  intros conf. set (pr := fun (_ : nat) (_ : list R) => tt). set (s := @cerlp_init unit y2).
  assert (Hm : forall (h : unit) i, (i < length y2)%nat -> -1 <= nth i y2 0 * conf h i <= 1) by (unfold conf; intros h [|[|i]] Hi; simpl in *; try lia; lra).
  assert (Hd : forall d t, capped 1 y2 d -> edge_of y2 d (conf t) = 1).
  { intros d t [L [_ S]]. destruct d as [|a [|b [|]]]; simpl in L; try lia. unfold edge_of, conf, y2. simpl in *. lra. }
  pose proof (P_C62_cerlp_round_limit unit conf (fun _ _ => true) pr y2 s) as Lim.
  assert (Hnu : 1 <= fw_nu (ce_fw s) <= INR (length y2)) by (simpl; lra).
  set (limit := ceil_usize (8 * ln (INR (length y2) / fw_nu (ce_fw s)) / ce_half_tol s ^ 2)) in *.
  destruct (Lim (S limit) Hnu) as [_ T]. specialize (T ltac:(lia)). clear Lim.
  assert (HE : forall tr, trace_of (run (cerlpboost conf (fun _ _ => true) pr y2) (S limit) s) = tr -> Forall (fun e => 1 <= e) (edges conf pr y2 tr)).
  { intros tr Etr. apply Forall_forall. intros e He. unfold edges in He. apply in_map_iff in He. destruct He as [[t d] [<- Hp]]. cbn [fst snd]. apply in_combine_r in Hp. rewrite <- Etr in Hp.
    apply P_C62_cerlp_queries_capped in Hp; [|exact Hnu]. rewrite (Hd d _ Hp). lra. }
  exists (S limit). destruct (run (cerlpboost conf (fun _ _ => true) pr y2) (S limit) s) as [tr f|tr p|tr] eqn:E.
  - exists tr, f. split; [reflexivity|]. apply HE. reflexivity.
  - exfalso. apply P_C62_cerlp_crash_only_when in E; [|right; reflexivity|apply y2_valid|simpl; lra|simpl; lra|exact Hm|intros; reflexivity].
    destruct E as [_ [_ E]]. rewrite Hd in E; [simpl in E; lra|]. apply (capped_uniform 1 y2); [simpl; lia|exact Hnu].
  - contradiction.
Qed.
