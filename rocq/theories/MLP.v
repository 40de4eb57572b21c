(** Model of src/booster/mlpboost/perturbed_lp_model.rs and src/booster/mlpboost/mlpboost_algorithm.rs. *)
From Verif Require Import Base Utils WMajority Booster AdaBoost Num FrankWolfe CERLP Csc Reach LPBoost EdgeLP.
Open Scope R_scope.

Section MLP.
  Context {H : Type}.
  Variable conf : H -> nat -> R.
  (** [PartialEq] of the hypothesis type *)
  Variable eqH : H -> H -> bool.
  (** the LP solver *)
  Variable solve : conic -> answer.
  (** the numbers that [rng.gen::<f64>()] yields, in order *)
  Variable noise : nat -> R.
  Variable produce : nat -> list R -> H.
  Variable y : list R.

  (** perturbed_lp_model.rs:65-74 (the field [dist] is written only; the generator is the number of draws so far) *)
  Record plp := mkPlp { pl_n : nat; pl_T : nat; pl_margins : list (list R); pl_weights : list R; pl_drawn : nat; pl_cap : R; pl_eta : R }.

  (** perturbed_lp_model.rs:82-94 [LPModel::init] *)
  Definition plp_init (eta : R) (size : nat) (ub : R) : plp := mkPlp size 0 (repeat [] size) [] 0 ub eta.

  (** perturbed_lp_model.rs:108-111: the part of [update] that adds a hypothesis *)
  Definition plp_push (m : plp) (h : H) : plp :=
    mkPlp (pl_n m) (S (pl_T m)) (zip_push (pl_margins m) (margins_of_hypothesis conf y h)) (pl_weights m) (pl_drawn m) (pl_cap m) (pl_eta m).

  (** perturbed_lp_model.rs:145-152 [build_linear_part_objective].  A draw of 0 (the generator yields numbers in [0, 1))
      gives an infinite coefficient, and so does a zero eta: the model stops there. *)
  Definition plp_linear (m : plp) : res (list R) :=
    let rs := map (fun i => noise (pl_drawn m + i)%nat) (seq 0 (pl_n m)) in
    if negb (forallb (fun r => andb (Rltb 0 r) (Rltb r 1)) rs) then Panic NonFinite else
    if Reqb (pl_eta m) 0 then Panic NonFinite else
    Ok (1 :: map (fun r => ln (ln (1 / r)) / pl_eta m) rs).

  (** perturbed_lp_model.rs:112-132: the program handed to the solver *)
  Definition plp_program (m : plp) : res conic :=
    let* A := gamma_matrix (pl_cap m) (pl_n m) (pl_T m) (pl_margins m) in
    let* q := plp_linear m in
    solver_new (csc_zeros (pl_n m + 1) (pl_n m + 1)) q A (edge_rhs (pl_cap m) 0 (pl_n m) (pl_T m)) (edge_sense (pl_n m) (pl_T m)).

  (** perturbed_lp_model.rs:100-142 [update] *)
  Definition plp_update (m : plp) (opt_h : option H) : res (plp * list R) :=
    match opt_h with
    | None => Ok (m, pl_weights m)
    | Some h =>
        let m := plp_push m h in
        let* p := plp_program m in
        let a := solve p in
        let* ws := slice_from (2 * pl_n m + 1) (a_z a) in
        let* _ := slice_from 1 (a_x a) in
        Ok (mkPlp (pl_n m) (pl_T m) (pl_margins m) ws (pl_drawn m + pl_n m) (pl_cap m) (pl_eta m), ws)
    end.

  (** mlpboost_algorithm.rs:142-184; [terminated] is written only; [eta] and [nu] are those of the Frank-Wolfe object
      (231, 262) *)
  Record mlp := mkMlp {
    ml_half_tol : R;
    ml_fw : fw;
    ml_secondary : option plp;
    ml_weights : list R;
    ml_hyps : list H;
    ml_max_iter : nat;
    ml_gamma : R;
  }.

  (** mlpboost_algorithm.rs:190-220 [init] (max_iter = usize::MAX is overwritten by preprocess) *)
  Definition mlp_init : res mlp :=
    let* _ := assert_ (negb (Nat.eqb (length y) 0)) in
    Ok (mkMlp (5 / 1000) (mkFw (ln (INR (length y) / 1) / (5 / 1000)) 1 ShortStep) None [] [] 0 1).

  (** mlpboost_algorithm.rs:227-233 [nu] *)
  Definition mlp_nu (s : mlp) (nu : R) : res mlp :=
    let* _ := check_nu nu (length y) in
    Ok (mkMlp (ml_half_tol s) (mkFw (fw_eta (ml_fw s)) nu (fw_type (ml_fw s))) (ml_secondary s) (ml_weights s) (ml_hyps s) (ml_max_iter s) (ml_gamma s)).

  (** mlpboost_algorithm.rs:240-243 [frank_wolfe] *)
  Definition mlp_frank_wolfe (s : mlp) (ty : fwtype) : mlp :=
    mkMlp (ml_half_tol s) (mkFw (fw_eta (ml_fw s)) (fw_nu (ml_fw s)) ty) (ml_secondary s) (ml_weights s) (ml_hyps s) (ml_max_iter s) (ml_gamma s).

  (** mlpboost_algorithm.rs:250-253 [tolerance] *)
  Definition mlp_tolerance (s : mlp) (tol : R) : mlp :=
    mkMlp (tol / 2) (ml_fw s) (ml_secondary s) (ml_weights s) (ml_hyps s) (ml_max_iter s) (ml_gamma s).

  (** mlpboost_algorithm.rs:298-301 [max_loop] for n examples *)
  Definition mlp_max_loop (ht nu : R) (n : nat) : nat := ceil_usize (8 * ln (INR n / nu) / ht ^ 2).

  (** mlpboost_algorithm.rs:397-417 [preprocess] with 260-264 [eta], 270-277 [init_solver], 285-291 [init_params].
      A zero tolerance makes eta infinite (or NaN). *)
  Definition mlp_pre (s : mlp) : res mlp :=
    let* _ := is_valid_binary_instance y in
    let n := length y in
    if Reqb (ml_half_tol s) 0 then Panic NonFinite else
    let nu := fw_nu (ml_fw s) in
    let eta := ln (INR n / nu) / ml_half_tol s in
    Ok (mkMlp (ml_half_tol s) (mkFw eta nu (fw_type (ml_fw s))) (Some (plp_init eta n (1 / nu))) [] []
              (mlp_max_loop (ml_half_tol s) nu n) 1).

  (** mlpboost_algorithm.rs:316-321 [secondary_update] *)
  Definition secondary_update (s : mlp) (opt_h : option H) : res (plp * list R) :=
    match ml_secondary s with None => Panic UnwrapNone | Some m => plp_update m opt_h end.

  (** mlpboost_algorithm.rs:338-350 [objval] *)
  Definition objval (c : fw) (hs : list H) (ws : list R) : res R :=
    let* dist := exp_distribution conf (fw_eta c) (fw_nu c) y ws hs in
    let edge := edge_of_weighted_hypothesis conf y dist ws hs in
    let entropy := entropy_from_uni_distribution dist in
    Ok (edge + entropy / fw_eta c).

  (** mlpboost_algorithm.rs:359-365 [better_weight] *)
  Definition better_weight (c : fw) (hs : list H) (w1 w2 : list R) : res (list R) :=
    let* v1 := objval c hs w1 in
    let* v2 := objval c hs w2 in
    Ok (if Rleb v2 v1 then w1 else w2).

  (** mlpboost_algorithm.rs:420-515 [boost] *)
  Definition mlp_boost (it : nat) (s : mlp) : trace * res (mlp * cflow) :=
    if Nat.ltb (ml_max_iter s) it then ([], Ok (s, Break (ml_max_iter s))) else
    match exp_distribution conf (fw_eta (ml_fw s)) (fw_nu (ml_fw s)) y (ml_weights s) (ml_hyps s) with
    | Panic p => ([], Panic p)
    | Ok dist =>
        let h := produce it dist in
        let edge_h := edge_of_hypothesis conf y dist h in
        let gamma := Rmin (ml_gamma s) edge_h in
        ([dist],
         if Nat.eqb it 1 then
           let* r := secondary_update s (Some h) in
           Ok (mkMlp (ml_half_tol s) (ml_fw s) (Some (fst r)) (ml_weights s ++ [1]) (ml_hyps s ++ [h]) (ml_max_iter s) gamma, Continue)
         else
           let* v := objval (ml_fw s) (ml_hyps s) (ml_weights s) in
           if Rleb (gamma - v) (ml_half_tol s) then
             Ok (mkMlp (ml_half_tol s) (ml_fw s) (ml_secondary s) (ml_weights s) (ml_hyps s) (ml_max_iter s) gamma, Break it)
           else
             let '(pos, hyps, ws, opt_h) :=
               match position (fun f => eqH f h) (ml_hyps s) with
               | Some pos => (pos, ml_hyps s, ml_weights s, None)
               | None => (length (ml_hyps s), ml_hyps s ++ [h], ml_weights s ++ [0], Some h)
               end in
             let* prim := next_iterate conf y (ml_fw s) it dist hyps pos ws in
             let* r := secondary_update s opt_h in
             let* w := better_weight (ml_fw s) hyps prim (snd r) in
             let* _ := check_capped_simplex_condition w 1 in
             Ok (mkMlp (ml_half_tol s) (ml_fw s) (Some (fst r)) w hyps (ml_max_iter s) gamma, Continue))
    end.

  (** mlpboost_algorithm.rs:518-525 [postprocess] (also current_hypothesis, 534-536) *)
  Definition mlp_post (s : mlp) : res (wmajority H) := from_slices (ml_weights s) (ml_hyps s).

  Definition mlpboost : booster mlp (wmajority H) := mkBooster mlp_pre mlp_boost mlp_post.
End MLP.

(** the linear programs that a run of MLPBoost from [s0] hands to the solver, with the hypotheses whose margins they hold:
    in round [t] the weak learner, shown [d], answers with a hypothesis that was not received before (a round that stops
    hands over nothing; its program is counted as well) *)
Definition mlp_asks {H} (conf : H -> nat -> R) eqH solve noise produce y (s0 : @mlp H) (hs : list H) (p : conic) : Prop :=
  exists t s m d, reach (mlpboost conf eqH solve noise produce y) s0 t s /\ (t <= ml_max_iter s)%nat /\ ml_secondary s = Some m /\
    exp_distribution conf (fw_eta (ml_fw s)) (fw_nu (ml_fw s)) y (ml_weights s) (ml_hyps s) = Ok d /\
    (forall f, In f (ml_hyps s) -> eqH f (produce t d) = false) /\
    hs = ml_hyps s ++ [produce t d] /\ plp_program noise (plp_push conf y m (produce t d)) = Ok p.
