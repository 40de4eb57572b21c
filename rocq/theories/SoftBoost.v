(** Model of src/booster/softboost/qp_model.rs, src/booster/softboost/softboost_algorithm.rs and
    src/booster/totalboost/totalboost_algorithm.rs. *)
From Verif Require Import Base Utils WMajority Booster AdaBoost Num Csc Reach LPBoost EdgeLP ERLP.
Open Scope R_scope.

(** [dist.iter_mut().zip(solution).for_each(|(di, s)| *di = *s)] qp_model.rs:147-149 *)
Fixpoint zip_assign (d x : list R) : list R :=
  match d, x with
  | _ :: d', v :: x' => v :: zip_assign d' x'
  | _, _ => d
  end.

Section Soft.
  Context {H : Type}.
  Variable conf : H -> nat -> R.
  (** the QP/LP solver *)
  Variable solve : conic -> answer.
  Variable produce : nat -> list R -> H.
  Variable y : list R.

  (** qp_model.rs:78-83 *)
  Record softqp := mkSqp { sq_n : nat; sq_T : nat; sq_margins : list (list R); sq_cap : R }.

  (** qp_model.rs:91-99 [QPModel::init] *)
  Definition sq_init (size : nat) (ub : R) : softqp := mkSqp size 0 (repeat [] size) ub.

  (** qp_model.rs:114-118: the part of [update] that changes the model *)
  Definition sq_push (m : softqp) (h : H) : softqp :=
    mkSqp (sq_n m) (S (sq_T m)) (zip_push (sq_margins m) (margins_of_hypothesis conf y h)) (sq_cap m).

  (** qp_model.rs:162-164 [all_positive] *)
  Definition all_positive (x : list R) : bool := forallb (fun d => Rltb 0 d) x.

  (** qp_model.rs:169-176 [build_linear_part_objective] (every entry of the argument is positive in all states of a
      run, so that the logarithm is finite) *)
  Definition sq_linear (d : list R) : list R := map ln d.

  (** qp_model.rs:188-212 [build_quadratic_part_objective] *)
  Definition sq_quad (m : softqp) (d : list R) : res csc :=
    csc_new (sq_n m) (sq_n m) (seq 0 (length d) ++ [length d]) (seq 0 (length d)) (map (fun di => 1 / di) d).

  (** qp_model.rs:119-142: the program of one turn of the loop.  (The constraint matrix, the senses and the right-hand
      side are computed once, before the loop, from fields that the loop does not change.) *)
  Definition sq_program (m : softqp) (ghat : R) (d : list R) : res conic :=
    let* A := plain_matrix (sq_cap m) (sq_n m) (sq_T m) (sq_margins m) in
    let* quad := sq_quad m d in
    solver_new quad (sq_linear d) A (edge_rhs (sq_cap m) ghat (sq_n m) (sq_T m)) (edge_sense (sq_n m) (sq_T m)).

  (** qp_model.rs:124-157: the loop, from the line [let mut old_objval = 1e9] on; the status of the answer is not looked
      at.  The result is the vector [dist] that the caller sees, and whether [Some(())] is returned.  [fuel] bounds the
      turns that are observed. *)
  Fixpoint sq_loop (fuel : nat) (m : softqp) (ghat : R) (d : list R) (old : R) : res (list R * bool) :=
    match fuel with
    | O => Panic OutOfFuel
    | S fuel' =>
        let* p := sq_program m ghat d in
        let a := solve p in
        if negb (all_positive (a_x a)) then Ok (d, false) else
        let d' := zip_assign d (a_x a) in
        if Rltb (old - a_obj a) QP_TOLERANCE then Ok (d', true)
        else sq_loop fuel' m ghat d' (a_obj a)
    end.

  (** qp_model.rs:182-186, 260-303, 317-319, 335-343 and 347-377: the linear program of [weights] *)
  Definition sq_final (m : softqp) : res conic :=
    let* A := gamma_matrix 1 (sq_n m) (sq_T m) (sq_margins m) in
    solver_new (csc_zeros (sq_n m + 1) (sq_n m + 1)) (1 :: repeat 0 (sq_n m)) A
               (edge_rhs (sq_cap m) 0 (sq_n m) (sq_T m)) (edge_sense (sq_n m) (sq_T m)).

  (** qp_model.rs:347-380 [weights] *)
  Definition sq_weights (m : softqp) : res (list R) :=
    let* p := sq_final m in
    slice_from (1 + 2 * sq_n m) (a_z (solve p)).

  (** softboost_algorithm.rs:116-138 (the fields [sub_tolerance], [terminated] and [weights] are written only) *)
  Record soft := mkSoft {
    so_dist : list R;
    so_gamma : R;
    so_tol : R;
    so_nu : R;
    so_model : option softqp;
    so_hyps : list H;
    so_max_iter : nat;
  }.

  (** softboost_algorithm.rs:145-175 [init] ([max_iter] = usize::MAX is overwritten by preprocess) *)
  Definition soft_init : res soft :=
    let n := length y in
    let* _ := assert_ (negb (Nat.eqb n 0)) in
    Ok (mkSoft (repeat (1 / INR n) n) 1 (1 / INR n) 1 None [] 0).

  (** softboost_algorithm.rs:182-188 [nu] *)
  Definition soft_nu (s : soft) (nu : R) : res soft :=
    let* _ := check_nu nu (length y) in
    Ok (mkSoft (so_dist s) (so_gamma s) (so_tol s) nu (so_model s) (so_hyps s) (so_max_iter s)).

  (** softboost_algorithm.rs:195-198 [tolerance] *)
  Definition soft_tolerance (s : soft) (tol : R) : soft :=
    mkSoft (so_dist s) (so_gamma s) tol (so_nu s) (so_model s) (so_hyps s) (so_max_iter s).

  (** softboost_algorithm.rs:217-225 [max_loop] for n examples *)
  Definition soft_max_loop (tol nu : R) (n : nat) : nat := ceil_usize (2 * ln (INR n / nu) / tol ^ 2).

  (** softboost_algorithm.rs:287-308 [preprocess] with 201-209 [init_solver].  The code accepts a zero tolerance, which
      makes the number of rounds infinite (or NaN): the model stops there. *)
  Definition soft_pre (s : soft) : res soft :=
    let* _ := is_valid_binary_instance y in
    let n := length y in
    if Reqb (so_tol s) 0 then Panic NonFinite else
    let* _ := check_nu (so_nu s) n in
    Ok (mkSoft (repeat (1 / INR n) n) 1 (so_tol s) (so_nu s) (Some (sq_init n (1 / so_nu s))) []
               (soft_max_loop (so_tol s) (so_nu s) n)).

  (** softboost_algorithm.rs:311-344 [boost] with 250-256 [update_params_mut]; [inner] bounds the turns of the loop *)
  Definition soft_boost (inner it : nat) (s : soft) : trace * res (soft * cflow) :=
    if Nat.ltb (so_max_iter s) it then ([], Ok (s, Break (so_max_iter s))) else
    let h := produce it (so_dist s) in
    ([so_dist s],
     let edge := edge_of_hypothesis conf y (so_dist s) h in
     let g := if Rltb edge (so_gamma s) then edge else so_gamma s in
     let hs := so_hyps s ++ [h] in
     match so_model s with
     | None => Panic UnwrapNone
     | Some m =>
         let m' := sq_push m h in
         let* r := sq_loop inner m' g (so_dist s) 1000000000 in
         Ok (mkSoft (fst r) g (so_tol s) (so_nu s) (Some m') hs (so_max_iter s), if snd r then Continue else Break it)
     end).

  (** softboost_algorithm.rs:347-358 [postprocess] with 234-245 [set_weights] (also current_hypothesis, 363-375) *)
  Definition soft_post (s : soft) : res (wmajority H) :=
    match so_model s with
    | None => Panic UnwrapNone
    | Some m => let* ws := sq_weights m in from_slices ws (so_hyps s)
    end.

  Definition softboost (inner : nat) : booster soft (wmajority H) := mkBooster soft_pre (soft_boost inner) soft_post.

  (** the turns of the inner loop: from [d0] it comes to the top with ([d], [old]) *)
  Inductive sq_turns (m : softqp) (g : R) (d0 : list R) : list R -> R -> Prop :=
  | sq_first : sq_turns m g d0 d0 1000000000
  | sq_next d old p : sq_turns m g d0 d old -> sq_program m g d = Ok p -> all_positive (a_x (solve p)) = true ->
      Rltb (old - a_obj (solve p)) QP_TOLERANCE = false -> sq_turns m g d0 (zip_assign d (a_x (solve p))) (a_obj (solve p)).
End Soft.

(** totalboost_algorithm.rs:120-125 [TotalBoost::init] and 131-134 [tolerance]; all methods of the booster are those of the
    inner SoftBoost (138-194) *)
Definition totalboost_init {H} (y : list R) : res (@soft H) := let* s := soft_init y in soft_nu y s 1.
Definition totalboost_tolerance {H} (s : @soft H) (tol : R) : @soft H := soft_tolerance s tol.

(** the smallest edge seen after the hypothesis of round t is received, and the hypotheses then *)
Definition soft_ghat {H} (conf : H -> nat -> R) (produce : nat -> list R -> H) (y : list R) (t : nat) (s : @soft H) : R :=
  let edge := edge_of_hypothesis conf y (so_dist s) (produce t (so_dist s)) in
  if Rltb edge (so_gamma s) then edge else so_gamma s.

(** the quadratic programs that a run of SoftBoost from [s0] hands to the solver *)
Definition soft_asks {H} (conf : H -> nat -> R) solve produce y inner (s0 : @soft H) (p : conic) : Prop :=
  exists t s m d old, reach (softboost conf solve produce y inner) s0 t s /\ so_model s = Some m /\ (t <= so_max_iter s)%nat /\
    let m' := sq_push conf y m (produce t (so_dist s)) in let g := soft_ghat conf produce y t s in
    sq_turns solve m' g (so_dist s) d old /\ sq_program m' g d = Ok p.

(** the linear programs that the final step hands to the solver, with hypotheses [hs] received *)
Definition soft_asks_final {H} (conf : H -> nat -> R) solve produce y inner (s0 : @soft H) (hs : list H) (p : conic) : Prop :=
  exists t s q s' it m, reach (softboost conf solve produce y inner) s0 t s /\
    b_boost (softboost conf solve produce y inner) t s = (q, Ok (s', Break it)) /\ so_hyps s' = hs /\
    so_model s' = Some m /\ sq_final m = Ok p.
