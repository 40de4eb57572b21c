(** Properties C38, C65 and the MLPBoost part of C33. *)
From Verif Require Import Base Spec RegSpec LPSpec SortLib Utils UtilsProofs WMajority WMajorityProofs Booster AdaBoost AdaBoostProofs AdaBoostMain AdaBoostMore Num Hoeffding FrankWolfe FrankWolfeProofs FrankWolfeFacts CERLP CERLPProofs CERLPFacts Csc ConicSpec CscProofs Reach LPBoost LPBoostProofs LPBoostFacts EdgeLP EdgeProofs ERLP ERLPProofs ERLPFacts SoftBoost SoftProofs MLP MLPSolveSpec MLPProofs MLPFacts.
Open Scope R_scope.


(** ** C38: what MLPBoost computes for a weighting is the entropy-regularised soft margin of its vote *)

Theorem C38_objval : forall (H : Type) (conf : H -> nat -> R) y (c : fw) ws (hs : list H),
  (0 < length y)%nat -> 1 <= fw_nu c <= INR (length y) -> 0 < fw_eta c ->
  exists v, objval conf y c hs ws = Ok v /\ soft_objective (fw_eta c) (fw_nu c) y (vote conf (combine ws hs)) v.
Proof. exact P_C38_objval. Qed.
Print Assumptions C38_objval.

(** ** C38: of two weightings the better one is kept, whatever they are *)

Theorem C38_better_weight : forall (H : Type) (conf : H -> nat -> R) y (c : fw) (hs : list H) w1 w2,
  (0 < length y)%nat -> 1 <= fw_nu c <= INR (length y) -> 0 < fw_eta c ->
  exists w, better_weight conf y c hs w1 w2 = Ok w /\ (w = w1 \/ w = w2) /\
  forall v1 v2 v, soft_objective (fw_eta c) (fw_nu c) y (vote conf (combine w1 hs)) v1 ->
    soft_objective (fw_eta c) (fw_nu c) y (vote conf (combine w2 hs)) v2 ->
    soft_objective (fw_eta c) (fw_nu c) y (vote conf (combine w hs)) v -> v = Rmax v1 v2.
Proof. exact P_C38_better_weight. Qed.
Print Assumptions C38_better_weight.

(** ** C38: in every round after the first, the new weights are the better ones of the Frank-Wolfe step and of the answer of
    the linear program, for every solver, rule and weak learner *)

Theorem C38_round : forall (H : Type) (conf : H -> nat -> R) eqH solve noise produce y (s0 : @mlp H) t s q s',
  1 <= fw_nu (ml_fw s0) <= INR (length y) -> 0 < ml_half_tol s0 -> fw_nu (ml_fw s0) < INR (length y) ->
  reach (mlpboost conf eqH solve noise produce y) s0 t s -> (2 <= t)%nat ->
  b_boost (mlpboost conf eqH solve noise produce y) t s = (q, Ok (s', Continue)) ->
  let eta := ln (INR (length y) / fw_nu (ml_fw s0)) / ml_half_tol s0 in let nu := fw_nu (ml_fw s0) in let hs := ml_hyps s' in
  exists d pos prim m seco, q = [d] /\
    next_iterate conf y (mkFw eta nu (fw_type (ml_fw s0))) t d hs pos (ml_weights s ++ repeat 0 (length hs - length (ml_hyps s))) = Ok prim /\
    ml_secondary s' = Some m /\
    (exists m0, ml_secondary s = Some m0 /\ plp_update conf solve noise y m0 (if Nat.eqb (length hs) (length (ml_hyps s)) then None else Some (produce t d)) = Ok (m, seco)) /\
    (ml_weights s' = prim \/ ml_weights s' = seco) /\
    forall v1 v2 v, soft_objective eta nu y (vote conf (combine prim hs)) v1 -> soft_objective eta nu y (vote conf (combine seco hs)) v2 ->
      soft_objective eta nu y (vote conf (combine (ml_weights s') hs)) v -> v = Rmax v1 v2.
Proof. exact P_C38_round. Qed.
Print Assumptions C38_round.

(** ** C38: with the (default) short-step rule no round makes the objective worse, whatever the solver answers as long as
    the weights it answers form a distribution (an exact solver does: C65_exact_answers_are_usable) *)

Theorem C38_monotone : forall (H : Type) (conf : H -> nat -> R) eqH solve noise produce y (s0 : @mlp H) t s q s',
  fw_type (ml_fw s0) = ShortStep -> 1 <= fw_nu (ml_fw s0) < INR (length y) -> 0 < ml_half_tol s0 ->
  (forall h i, (i < length y)%nat -> -1 <= nth i y 0 * conf h i <= 1) ->
  (forall f h, eqH f h = true -> forall i, (i < length y)%nat -> conf f i = conf h i) ->
  (forall k, 0 < noise k < 1) ->
  (forall hs p, mlp_asks conf eqH solve noise produce y s0 hs p -> usable_answer (length y) (length hs) (solve p)) ->
  reach (mlpboost conf eqH solve noise produce y) s0 t s -> (2 <= t)%nat ->
  b_boost (mlpboost conf eqH solve noise produce y) t s = (q, Ok (s', Continue)) ->
  let eta := ln (INR (length y) / fw_nu (ml_fw s0)) / ml_half_tol s0 in let nu := fw_nu (ml_fw s0) in
  forall v v', soft_objective eta nu y (vote conf (combine (ml_weights s) (ml_hyps s))) v ->
    soft_objective eta nu y (vote conf (combine (ml_weights s') (ml_hyps s'))) v' -> v <= v'.
Proof. exact P_C38_monotone. Qed.
Print Assumptions C38_monotone.

(** ** C33, MLPBoost: every linear program handed to the solver is well formed; its objective is the documented one, with
    Gumbel noise -ln(-ln r); its feasible points are all distributions, capped or not, with every edge at most gamma *)

Theorem C33_mlpboost_program : forall (H : Type) (conf : H -> nat -> R) eqH solve noise produce y (s0 : @mlp H) hs p,
  1 <= fw_nu (ml_fw s0) < INR (length y) -> 0 < ml_half_tol s0 -> (forall k, 0 < noise k < 1) ->
  mlp_asks conf eqH solve noise produce y s0 hs p ->
  csc_ok (k_A p) /\
  (forall x, feasible p x <-> exists g d, x = g :: d /\ length d = length y /\ is_dist d /\ (forall h, In h hs -> edge_of y d (conf h) <= g)) /\
  exists k, forall g d, objective p (g :: d) =
    g - ml_half_tol s0 / ln (INR (length y) / fw_nu (ml_fw s0)) * rsum (map (fun i => - ln (- ln (noise (k + i)%nat)) * nth i d 0) (seq 0 (length y))).
Proof. exact P_C33_mlpboost_program. Qed.
Print Assumptions C33_mlpboost_program.

(** ** C33 refuted for MLPBoost: the documented caps 1/nu are missing from every program of every run with nu > 1 *)

Theorem C33_mlpboost_caps_refuted : forall (H : Type) (conf : H -> nat -> R) eqH solve noise produce y (s0 : @mlp H) hs p,
  1 < fw_nu (ml_fw s0) < INR (length y) -> 0 < ml_half_tol s0 -> (forall k, 0 < noise k < 1) ->
  mlp_asks conf eqH solve noise produce y s0 hs p ->
  exists g d, feasible p (g :: d) /\ ~ edge_constraints conf (fw_nu (ml_fw s0)) y hs g d.
Proof. exact P_C33_mlpboost_caps_refuted. Qed.
Print Assumptions C33_mlpboost_caps_refuted.

(** ** C65: MLPBoost asks the weak learner at most max_loop() times, and only with distributions capped by 1/nu; for every
    rule, solver and weak learner *)

Theorem C65_rounds : forall (H : Type) (conf : H -> nat -> R) eqH solve noise produce y (s : @mlp H) fuel,
  1 <= fw_nu (ml_fw s) <= INR (length y) ->
  let tr := trace_of (run (mlpboost conf eqH solve noise produce y) fuel s) in
  (length tr <= mlp_max_loop (ml_half_tol s) (fw_nu (ml_fw s)) (length y))%nat /\ forall d, In d tr -> capped (fw_nu (ml_fw s)) y d.
Proof. exact P_C65_rounds. Qed.
Print Assumptions C65_rounds.

(** ** C65: whatever the LP solver answers, as long as the hypothesis weights in its answers form a distribution, with the
    classic or the (default) short-step rule the run ends within max_loop() rounds
    without a panic, and if every hypothesis received had edge at least [g], the soft margin of the returned vote is at
    least g - tolerance *)

Theorem C65_guarantee_any_answers : forall (H : Type) (conf : H -> nat -> R) eqH solve noise produce y (s : @mlp H) fuel,
  fw_type (ml_fw s) = Classic \/ fw_type (ml_fw s) = ShortStep ->
  is_valid_binary_instance y = Ok tt -> 1 <= fw_nu (ml_fw s) < INR (length y) -> 0 < ml_half_tol s ->
  (forall h i, (i < length y)%nat -> -1 <= nth i y 0 * conf h i <= 1) ->
  (forall f h, eqH f h = true -> forall i, (i < length y)%nat -> conf f i = conf h i) ->
  (forall k, 0 < noise k < 1) ->
  (forall hs p, mlp_asks conf eqH solve noise produce y s hs p -> usable_answer (length y) (length hs) (solve p)) ->
  (mlp_max_loop (ml_half_tol s) (fw_nu (ml_fw s)) (length y) < fuel)%nat ->
  exists tr f, run (mlpboost conf eqH solve noise produce y) fuel s = Finished tr f /\
    forall g v, Forall (fun e => g <= e) (edges conf produce y tr) -> soft_margin (fw_nu (ml_fw s)) y (wm_confidence conf f) v -> g - 2 * ml_half_tol s <= v.
Proof. exact P_C65_guarantee_any_answers. Qed.
Print Assumptions C65_guarantee_any_answers.

(** an exact solver answers like that *)
Theorem C65_exact_answers_are_usable : forall (H : Type) (conf : H -> nat -> R) eqH solve noise produce y (s : @mlp H) hs p,
  1 <= fw_nu (ml_fw s) < INR (length y) -> 0 < ml_half_tol s -> (forall k, 0 < noise k < 1) ->
  mlp_asks conf eqH solve noise produce y s hs p -> solves p (solve p) -> usable_answer (length y) (length hs) (solve p).
Proof. exact P_C65_exact_answers_are_usable. Qed.
Print Assumptions C65_exact_answers_are_usable.

(** ** C65: in particular with an exact solver *)

Theorem C65_guarantee : forall (H : Type) (conf : H -> nat -> R) eqH solve noise produce y (s : @mlp H) fuel,
  fw_type (ml_fw s) = Classic \/ fw_type (ml_fw s) = ShortStep ->
  is_valid_binary_instance y = Ok tt -> 1 <= fw_nu (ml_fw s) < INR (length y) -> 0 < ml_half_tol s ->
  (forall h i, (i < length y)%nat -> -1 <= nth i y 0 * conf h i <= 1) ->
  (forall f h, eqH f h = true -> forall i, (i < length y)%nat -> conf f i = conf h i) ->
  (forall k, 0 < noise k < 1) ->
  (forall hs p, mlp_asks conf eqH solve noise produce y s hs p -> solves p (solve p)) ->
  (mlp_max_loop (ml_half_tol s) (fw_nu (ml_fw s)) (length y) < fuel)%nat ->
  exists tr f, run (mlpboost conf eqH solve noise produce y) fuel s = Finished tr f /\
    forall g v, Forall (fun e => g <= e) (edges conf produce y tr) -> soft_margin (fw_nu (ml_fw s)) y (wm_confidence conf f) v -> g - 2 * ml_half_tol s <= v.
Proof. exact P_C65_guarantee. Qed.
Print Assumptions C65_guarantee.

(** ** C65: with an edge-maximising weak learner, and again for every solver, the returned vote maximises the soft margin over the convex hull of the
    class, up to the tolerance *)

Theorem C65_optimal_any_answers : forall (H : Type) (conf : H -> nat -> R) eqH solve noise produce y (s : @mlp H) fuel (C : H -> Prop),
  fw_type (ml_fw s) = Classic \/ fw_type (ml_fw s) = ShortStep ->
  is_valid_binary_instance y = Ok tt -> 1 <= fw_nu (ml_fw s) < INR (length y) -> 0 < ml_half_tol s ->
  (forall h i, (i < length y)%nat -> -1 <= nth i y 0 * conf h i <= 1) ->
  (forall f h, eqH f h = true -> forall i, (i < length y)%nat -> conf f i = conf h i) ->
  (forall k, 0 < noise k < 1) ->
  (forall hs p, mlp_asks conf eqH solve noise produce y s hs p -> usable_answer (length y) (length hs) (solve p)) ->
  (forall t d h, C h -> edge_of y d (conf h) <= edge_of y d (conf (produce t d))) ->
  (mlp_max_loop (ml_half_tol s) (fw_nu (ml_fw s)) (length y) < fuel)%nat ->
  exists tr f, run (mlpboost conf eqH solve noise produce y) fuel s = Finished tr f /\
  forall ws hs v v', length ws = length hs -> is_dist ws -> (forall h, In h hs -> C h) ->
  soft_margin (fw_nu (ml_fw s)) y (vote conf (combine ws hs)) v' -> soft_margin (fw_nu (ml_fw s)) y (wm_confidence conf f) v ->
  v' - 2 * ml_half_tol s <= v.
Proof. exact P_C65_optimal_any_answers. Qed.
Print Assumptions C65_optimal_any_answers.

Theorem C65_optimal : forall (H : Type) (conf : H -> nat -> R) eqH solve noise produce y (s : @mlp H) fuel (C : H -> Prop),
  fw_type (ml_fw s) = Classic \/ fw_type (ml_fw s) = ShortStep ->
  is_valid_binary_instance y = Ok tt -> 1 <= fw_nu (ml_fw s) < INR (length y) -> 0 < ml_half_tol s ->
  (forall h i, (i < length y)%nat -> -1 <= nth i y 0 * conf h i <= 1) ->
  (forall f h, eqH f h = true -> forall i, (i < length y)%nat -> conf f i = conf h i) ->
  (forall k, 0 < noise k < 1) ->
  (forall hs p, mlp_asks conf eqH solve noise produce y s hs p -> solves p (solve p)) ->
  (forall t d h, C h -> edge_of y d (conf h) <= edge_of y d (conf (produce t d))) ->
  (mlp_max_loop (ml_half_tol s) (fw_nu (ml_fw s)) (length y) < fuel)%nat ->
  exists tr f, run (mlpboost conf eqH solve noise produce y) fuel s = Finished tr f /\
  forall ws hs v v', length ws = length hs -> is_dist ws -> (forall h, In h hs -> C h) ->
  soft_margin (fw_nu (ml_fw s)) y (vote conf (combine ws hs)) v' -> soft_margin (fw_nu (ml_fw s)) y (wm_confidence conf f) v ->
  v' - 2 * ml_half_tol s <= v.
Proof. exact P_C65_optimal. Qed.
Print Assumptions C65_optimal.

(** ** C65: the same in terms of what the user configures; the default tolerance is 0.01 and the default nu is 1 *)

Theorem C65_configured : forall (H : Type) (conf : H -> nat -> R) eqH solve noise produce y nu tol fuel,
  is_valid_binary_instance y = Ok tt -> 1 <= nu < INR (length y) -> 0 < tol ->
  (forall h i, (i < length y)%nat -> -1 <= nth i y 0 * conf h i <= 1) ->
  (forall f h, eqH f h = true -> forall i, (i < length y)%nat -> conf f i = conf h i) ->
  (forall k, 0 < noise k < 1) ->
  exists s s' : @mlp H, mlp_init y = Ok s /\ mlp_nu y (mlp_tolerance s tol) nu = Ok s' /\
  ((forall hs p, mlp_asks conf eqH solve noise produce y s' hs p -> solves p (solve p)) ->
   32 * ln (INR (length y) / nu) / tol ^ 2 < INR fuel ->
   exists tr f, run (mlpboost conf eqH solve noise produce y) (S fuel) s' = Finished tr f /\
     forall g v, Forall (fun e => g <= e) (edges conf produce y tr) -> soft_margin nu y (wm_confidence conf f) v -> g - tol <= v) /\
  ((forall hs p, mlp_asks conf eqH solve noise produce y s hs p -> solves p (solve p)) ->
   320000 * ln (INR (length y)) < INR fuel -> (1 < length y)%nat ->
   exists tr f, run (mlpboost conf eqH solve noise produce y) (S fuel) s = Finished tr f /\
     forall g v, Forall (fun e => g <= e) (edges conf produce y tr) -> soft_margin 1 y (wm_confidence conf f) v -> g - 1 / 100 <= v).
Proof. exact P_C65_configured. Qed.
Print Assumptions C65_configured.

(** ** C65 refuted for nu = n (allowed by [nu]): MLPBoost never asks the weak learner and panics *)

Theorem C65_full_cap_refuted : forall (H : Type) (conf : H -> nat -> R) eqH solve noise produce y (s : @mlp H) fuel,
  is_valid_binary_instance y = Ok tt -> 0 < ml_half_tol s -> fw_nu (ml_fw s) = INR (length y) -> (1 <= fuel)%nat ->
  run (mlpboost conf eqH solve noise produce y) fuel s = Crashed [] AssertFailed.
Proof. exact P_C65_full_cap_refuted. Qed.
Print Assumptions C65_full_cap_refuted.

Example C65_hypotheses_met : exists fuel tr f,
  (forall hs p, mlp_asks mx_conf (fun _ _ => true) (fun _ => mx_answer) (fun _ => 1 / 2) (fun _ _ => tt) y2 mx_state hs p -> solves p mx_answer) /\
  mlp_init y2 = Ok mx_state /\
  run (mlpboost mx_conf (fun _ _ => true) (fun _ => mx_answer) (fun _ => 1 / 2) (fun _ _ => tt) y2) fuel mx_state = Finished tr f /\
  Forall (fun e => 1 <= e) (edges mx_conf (fun _ _ => tt) y2 tr).
Proof.
  set (fuel := S (mlp_max_loop (ml_half_tol mx_state) (fw_nu (ml_fw mx_state)) (length y2))).
  destruct (P_C65_guarantee unit mx_conf (fun _ _ => true) (fun _ => mx_answer) (fun _ => 1 / 2) (fun _ _ => tt) y2 mx_state fuel) as [tr [f [Er _]]].
  - right. reflexivity.
  - apply y2_valid.
  - simpl. lra.
  - simpl. lra.
  - unfold mx_conf. intros h [|[|i]] Hi; simpl in *; try lia; lra.
  - intros [] [] _ i _. reflexivity.
  - intros k. lra.
  - apply mx_asks.
  - unfold fuel. lia.
  - exists fuel, tr, f. split; [apply mx_asks|]. split; [reflexivity|]. split; [exact Er|].
    apply Forall_forall. intros e He. unfold edges in He. apply in_map_iff in He. destruct He as [[t d] [<- Hp]]. cbn [fst snd]. apply in_combine_r in Hp.
    assert (Cd : capped 1 y2 d) by (apply (P_C65_rounds unit mx_conf (fun _ _ => true) (fun _ => mx_answer) (fun _ => 1 / 2) (fun _ _ => tt) y2 mx_state fuel); [simpl; lra|rewrite Er; exact Hp]).
    destruct Cd as [L [_ S]]. destruct d as [|a [|b [|]]]; simpl in L; try lia. unfold edge_of, mx_conf, y2. simpl in *. lra.
Qed.

Example C65_any_answers_met : forall (H : Type) (conf : H -> nat -> R) eqH noise produce y (s : @mlp H) hs p,
  1 <= fw_nu (ml_fw s) < INR (length y) -> 0 < ml_half_tol s -> (forall k, 0 < noise k < 1) ->
  mlp_asks conf eqH (lazy_solver (length y)) noise produce y s hs p -> usable_answer (length y) (length hs) (lazy_solver (length y) p).
Proof.
  intros H conf eqH noise produce y s hs p Hnu Hht Hno Ha. destruct (mlp_asks_program conf eqH _ noise produce y s hs p Hnu Hht Hno Ha) as [k Ep].
  assert (Hh : (0 < length hs)%nat) by (destruct Ha as [t [s1 [m [d [_ [_ [_ [_ [_ [-> _]]]]]]]]]]; rewrite app_length; simpl; lia).
  assert (Lb : length (k_b p) = (2 * length y + 1 + length hs)%nat).
  { rewrite Ep. unfold gamma_conic, edge_rhs. cbn [k_b length]. rewrite !app_length, !repeat_length. lia. }
  unfold usable_answer, lazy_solver. cbn [a_x a_z]. rewrite Lb, repeat_length, app_length, repeat_length. split; [reflexivity|]. split; [simpl; lia|].
  rewrite skipn_app, repeat_length. replace (2 * length y + 1 - (2 * length y + 1 + length hs - 1))%nat with 0%nat by lia. cbn [skipn].
  assert (Z : forall a b, skipn a (repeat 0 b) = repeat 0 (b - a)) by (induction a; intros [|b]; try reflexivity; apply IHa). rewrite Z. split.
  - intros x Hx. apply in_app_or in Hx. destruct Hx as [Hx|[<-|[]]]; [apply repeat_spec in Hx; lra|lra].
  - rewrite rsum_app, rsum_repeat. simpl. lra.
Qed.
