(** Model of src/booster/erlpboost/qp_model.rs and src/booster/erlpboost/erlpboost_algorithm.rs. *)
From Verif Require Import Base Utils WMajority Booster AdaBoost Num Csc Reach LPBoost EdgeLP.
Open Scope R_scope.

(** qp_model.rs:14-15 *)
Definition QP_EPS : R := / 10 ^ 100.
Definition QP_TOLERANCE : R := / 1000000000.

(** qp_model.rs:157-163: the three accepted statuses, and 166 *)
Definition status_accepted (st : status) : bool := match st with OtherStatus => false | _ => true end.
Definition status_stuck (st : status) : bool := match st with InsufficientProgress => true | _ => false end.

Section ERLP.
  Context {H : Type}.
  Variable conf : H -> nat -> R.
  (** the QP solver *)
  Variable solve : conic -> answer.
  Variable produce : nat -> list R -> H.
  Variable y : list R.

  (** qp_model.rs:77-85 *)
  Record qpmodel := mkQpm {
    qm_n : nat;
    qm_T : nat;
    qm_margins : list (list R);
    qm_weights : list R;
    qm_dist : list R;
    qm_cap : R;
    qm_eta : R;
  }.

  (** qp_model.rs:93-109 [QPModel::init] *)
  Definition qm_init (eta : R) (size : nat) (ub : R) : qpmodel :=
    mkQpm size 0 (repeat [] size) [] (repeat (1 / INR size) size) ub eta.

  (** qp_model.rs:183-195 [build_linear_part_objective]; [assert!(coef.is_finite())] fails exactly if the logarithm is
      taken of a number that is not positive *)
  Definition qm_linear (m : qpmodel) : res (list R) :=
    let* _ := assert_ (forallb (fun d => Rltb 0 (d + QP_EPS)) (qm_dist m)) in
    Ok (1 :: map (fun d => ln (d + QP_EPS) / qm_eta m) (qm_dist m)).

  (** qp_model.rs:198-213 [build_quadratic_part_objective] *)
  Definition qm_quad (m : qpmodel) : res csc :=
    let n := length (qm_dist m) in
    csc_new (n + 1) (n + 1) (0%nat :: seq 0 (n + 1)) (seq 1 n) (map (fun d => 1 / ((d + QP_EPS) * qm_eta m)) (qm_dist m)).

  (** qp_model.rs:122-139: the part of [update] before the loop *)
  Definition qm_start (m : qpmodel) (h : H) : qpmodel :=
    mkQpm (qm_n m) (S (qm_T m)) (zip_push (qm_margins m) (margins_of_hypothesis conf y h)) (qm_weights m)
          (repeat (1 / INR (qm_n m)) (length (qm_dist m))) (qm_cap m) (qm_eta m).

  (** qp_model.rs:127-129 and 141-154: the program of one turn of the loop.  (The constraint matrix, the senses and the
      right-hand side are computed once, before the loop, from fields that the loop does not change.) *)
  Definition qm_program (m : qpmodel) : res conic :=
    let* A := gamma_matrix 1 (qm_n m) (qm_T m) (qm_margins m) in
    let* linear := qm_linear m in
    let* quad := qm_quad m in
    solver_new quad linear A (edge_rhs (qm_cap m) 0 (qm_n m) (qm_T m)) (edge_sense (qm_n m) (qm_T m)).

  (** qp_model.rs:171-178 *)
  Definition qm_accept (m : qpmodel) (a : answer) : res qpmodel :=
    let* d := slice_from 1 (a_x a) in
    let* w := slice_from (1 + 2 * qm_n m) (a_z a) in
    Ok (mkQpm (qm_n m) (qm_T m) (qm_margins m) (map (fun wi => Rmax wi 0) w) (map (fun di => Rmax di 0) d) (qm_cap m) (qm_eta m)).

  (** qp_model.rs:140-179: the loop; [fuel] bounds the turns that are observed *)
  Fixpoint qm_loop (fuel : nat) (m : qpmodel) (old : R) : res qpmodel :=
    match fuel with
    | O => Panic OutOfFuel
    | S fuel' =>
        let* p := qm_program m in
        let a := solve p in
        let* _ := assert_ (status_accepted (a_status a)) in
        if Rltb (old - a_obj a) QP_TOLERANCE || status_stuck (a_status a) then Ok m
        else let* m' := qm_accept m a in qm_loop fuel' m' (a_obj a)
    end.

  (** qp_model.rs:115-180 [update] *)
  Definition qm_update (fuel : nat) (m : qpmodel) (h : H) : res qpmodel := qm_loop fuel (qm_start m h) 1000.

  (** erlpboost_algorithm.rs:112-143 (the fields [weights] and [terminated] are written only; [n_sample] is the
      length of the sample) *)
  Record erlp := mkErlp {
    er_dist : list R;
    er_gamma_hat : R;
    er_gamma_star : R;
    er_eta : R;
    er_half_tol : R;
    er_model : option qpmodel;
    er_hyps : list H;
    er_nu : R;
    er_max_iter : nat;
  }.

  (** erlpboost_algorithm.rs:242-247 [regularization_param] *)
  Definition erlp_eta (ht nu : R) (n : nat) : R := Rmax (1 / 2) (ln (INR n / nu) / ht).

  (** erlpboost_algorithm.rs:150-190 [init].  gamma_star = f64::MIN and max_iter = usize::MAX are overwritten by
      preprocess. *)
  Definition erlp_init : erlp :=
    mkErlp [] 1 0 (erlp_eta (5 / 1000) 1 (length y)) (5 / 1000) None [] 1 0.

  (** erlpboost_algorithm.rs:209-215 [nu] *)
  Definition erlp_nu (s : erlp) (nu : R) : res erlp :=
    let* _ := check_nu nu (length y) in
    Ok (mkErlp (er_dist s) (er_gamma_hat s) (er_gamma_star s) (erlp_eta (er_half_tol s) nu (length y)) (er_half_tol s) (er_model s) (er_hyps s) nu (er_max_iter s)).

  (** erlpboost_algorithm.rs:232-235 [tolerance] *)
  Definition erlp_tolerance (s : erlp) (tol : R) : erlp :=
    mkErlp (er_dist s) (er_gamma_hat s) (er_gamma_star s) (er_eta s) (tol / 2) (er_model s) (er_hyps s) (er_nu s) (er_max_iter s).

  (** erlpboost_algorithm.rs:255-269 [max_loop] for n examples *)
  Definition erlp_max_loop (ht nu : R) (n : nat) : nat :=
    ceil_usize (Rmax (4 / ht) (8 * ln (INR n / nu) / ht ^ 2)).

  (** erlpboost_algorithm.rs:358-382 [preprocess] with 193-203 [init_solver].  The code accepts a zero tolerance, which
      makes eta infinite (or NaN): the model stops there. *)
  Definition erlp_pre (s : erlp) : res erlp :=
    let* _ := is_valid_binary_instance y in
    let n := length y in
    let* _ := assert_ (Rleb 0 (er_half_tol s) && Rltb (er_half_tol s) 1) in
    if Reqb (er_half_tol s) 0 then Panic NonFinite else
    let eta := erlp_eta (er_half_tol s) (er_nu s) n in
    let* _ := check_nu (er_nu s) n in
    Ok (mkErlp (repeat (1 / INR n) n) 1 (-1) eta (er_half_tol s) (Some (qm_init eta n (1 / er_nu s))) [] (er_nu s)
               (erlp_max_loop (er_half_tol s) (er_nu s) n)).

  (** erlpboost_algorithm.rs:280-293 [update_gamma_hat_mut] *)
  Definition er_new_gamma_hat (s : erlp) (h : H) : R :=
    Rmin (er_gamma_hat s) (edge_of_hypothesis conf y (er_dist s) h + entropy_from_uni_distribution (er_dist s) / er_eta s).

  (** [iter.map(f).reduce(f64::max)] *)
  Definition reduce_max (l : list R) : option R := match l with [] => None | a :: t => Some (fold_left Rmax t a) end.

  (** erlpboost_algorithm.rs:296-309 [update_gamma_star_mut] *)
  Definition er_new_gamma_star (d : list R) (eta : R) (hs : list H) : res R :=
    match reduce_max (map (edge_of_hypothesis conf y d) hs) with
    | None => Panic UnwrapNone
    | Some e => Ok (e + entropy_from_uni_distribution d / eta)
    end.

  (** erlpboost_algorithm.rs:407-411: the stopping criterion *)
  Definition er_stops (s : erlp) (h : H) : bool := Rleb (er_new_gamma_hat s h - er_gamma_star s) (er_half_tol s).

  (** erlpboost_algorithm.rs:385-425 [boost]; [inner] bounds the turns of the loop in [qm_update] *)
  Definition erlp_boost (inner it : nat) (s : erlp) : trace * res (erlp * cflow) :=
    if Nat.ltb (er_max_iter s) it then ([], Ok (s, Break (er_max_iter s))) else
    let h := produce it (er_dist s) in
    ([er_dist s],
     let gh := er_new_gamma_hat s h in
     if er_stops s h then
       Ok (mkErlp (er_dist s) gh (er_gamma_star s) (er_eta s) (er_half_tol s) (er_model s) (er_hyps s) (er_nu s) (er_max_iter s), Break it)
     else
       match er_model s with
       | None => Panic UnwrapNone
       | Some m =>
           let* m' := qm_update inner m h in
           let d := qm_dist m' in
           let hs := er_hyps s ++ [h] in
           let* gs := er_new_gamma_star d (er_eta s) hs in
           Ok (mkErlp d gh gs (er_eta s) (er_half_tol s) (Some m') hs (er_nu s) (er_max_iter s), Continue)
       end).

  (** erlpboost_algorithm.rs:428-441 [postprocess] (also current_hypothesis, 448-456) *)
  Definition erlp_post (s : erlp) : res (wmajority H) :=
    match er_model s with
    | None => Panic UnwrapNone
    | Some m => from_slices (qm_weights m) (er_hyps s)
    end.

  Definition erlpboost (inner : nat) : booster erlp (wmajority H) := mkBooster erlp_pre (erlp_boost inner) erlp_post.

  (** the turns of the inner loop: from ([m0], [old0]) it comes to the top with ([m], [old]) *)
  Inductive qm_turns (m0 : qpmodel) (old0 : R) : qpmodel -> R -> Prop :=
  | qm_first : qm_turns m0 old0 m0 old0
  | qm_next m old p m' : qm_turns m0 old0 m old -> qm_program m = Ok p -> status_accepted (a_status (solve p)) = true ->
      Rltb (old - a_obj (solve p)) QP_TOLERANCE || status_stuck (a_status (solve p)) = false ->
      qm_accept m (solve p) = Ok m' -> qm_turns m0 old0 m' (a_obj (solve p)).
End ERLP.

(** the quadratic programs that a run of ERLPBoost from [s0] hands to the solver *)
Definition erlp_asks {H} (conf : H -> nat -> R) solve produce y inner (s0 : @erlp H) (p : conic) : Prop :=
  exists t s m m1 old, reach (erlpboost conf solve produce y inner) s0 t s /\ er_model s = Some m /\
    (t <= er_max_iter s)%nat /\ er_stops conf y s (produce t (er_dist s)) = false /\
    qm_turns solve (qm_start conf y m (produce t (er_dist s))) 1000 m1 old /\ qm_program m1 = Ok p.
