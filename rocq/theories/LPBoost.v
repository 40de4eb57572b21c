(** Model of src/booster/lpboost/lp_model.rs and src/booster/lpboost/lpboost_algorithm.rs. *)
From Verif Require Import Base Utils WMajority Booster AdaBoost Csc Reach.
Open Scope R_scope.

(** [v[k..]] and [v[..k]]: both panic if the vector is too short *)
Definition slice_from (k : nat) (v : list R) : res (list R) := if Nat.leb k (length v) then Ok (skipn k v) else Panic IndexOutOfBounds.
Definition slice_to (k : nat) (v : list R) : res (list R) := if Nat.leb k (length v) then Ok (firstn k v) else Panic IndexOutOfBounds.

Section LPBoost.
  Context {H : Type}.
  Variable conf : H -> nat -> R.
  (** the LP solver *)
  Variable solve : conic -> answer.
  Variable produce : nat -> list R -> H.
  Variable y : list R.

  (** lp_model.rs:59-72 *)
  Record lpmodel := mkLpm {
    lm_obj : list R;
    lm_bld : bld;              (* col_ptr, row_val, nonzero *)
    lm_n : nat;
    lm_T : nat;
    lm_weights : list R;
    lm_dist : list R;
  }.

  (** lp_model.rs:80-112 [LPModel::init] *)
  Definition lpm_init (n : nat) (ub : R) : lpmodel :=
    mkLpm (upd 0 (-1) (repeat (1 / ub) (n + 1)))
          (fold_left (fun b r => push_ents [(r, -1); ((n + 1 + r)%nat, -1)] (push_col b)) (seq 0 n)
                     (mkBld [0%nat] (seq 0 n) (repeat 1 n)))
          n 0 [] [].

  (** lp_model.rs:125-175: the new column of the hypothesis, and the program handed to the solver *)
  Definition lpm_push (m : lpmodel) (h : H) : res (lpmodel * conic) :=
    let T := S (lm_T m) in
    let n := lm_n m in
    let margins := margins_of_hypothesis conf y h in
    let b := push_col (lm_bld m) in
    let b := push_ents (combine (seq 0 (length margins)) (map (fun yh => - yh) margins)) b in
    let b := push_ent b (n, 1) in
    let b := push_ent b ((2 * n + T)%nat, -1) in
    let* A := csc_new (2 * n + T + 1) (n + T + 1) (b_ptr b ++ [length (b_row b)]) (b_row b) (b_val b) in
    let rhs := upd n 1 (repeat 0 (2 * n + T + 1)) in
    let cones := [NonnegCone n; ZeroCone 1; NonnegCone n; NonnegCone T] in
    let obj := lm_obj m ++ [0] in
    let* p := solver_new (csc_zeros (1 + n + T) (1 + n + T)) obj A rhs cones in
    Ok (mkLpm obj b n T (lm_weights m) (lm_dist m), p).

  (** lp_model.rs:118-206 [LPModel::update] (the warnings that are printed are dropped) *)
  Definition lpm_update (m : lpmodel) (h : H) : res (lpmodel * R) :=
    let* mp := lpm_push m h in
    let '(m', p) := mp in
    let a := solve p in
    let* ws := slice_from (1 + lm_n m') (a_x a) in
    let* d := slice_to (lm_n m') (a_z a) in
    Ok (mkLpm (lm_obj m') (lm_bld m') (lm_n m') (lm_T m') ws d, - a_obj a).

  (** a history of updates *)
  Fixpoint lpm_updates (m : lpmodel) (hs : list H) : res lpmodel :=
    match hs with
    | [] => Ok m
    | h :: t => let* mg := lpm_update m h in lpm_updates (fst mg) t
    end.

  (** lpboost_algorithm.rs:118-148 (the fields [weights] and [terminated] are written only) *)
  Record lpboost := mkLpb {
    lb_dist : list R;
    lb_gamma_hat : R;
    lb_tol : R;
    lb_nu : R;
    lb_model : option lpmodel;
    lb_hyps : list H;
  }.

  (** lpboost_algorithm.rs:158-180 [init] *)
  Definition lpb_init : lpboost := mkLpb [] 1 (1 / INR (length y)) 1 None [].

  (** lpboost_algorithm.rs:186-191 [nu] *)
  Definition lpb_nu (s : lpboost) (nu : R) : res lpboost :=
    let* _ := check_nu nu (length y) in
    Ok (mkLpb (lb_dist s) (lb_gamma_hat s) (lb_tol s) nu (lb_model s) (lb_hyps s)).

  (** lpboost_algorithm.rs:214-217 [tolerance] *)
  Definition lpb_tolerance (s : lpboost) (tol : R) : lpboost :=
    mkLpb (lb_dist s) (lb_gamma_hat s) tol (lb_nu s) (lb_model s) (lb_hyps s).

  (** lpboost_algorithm.rs:195-204 and 272-289 [init_solver], [preprocess] *)
  Definition lpb_pre (s : lpboost) : res lpboost :=
    let* _ := is_valid_binary_instance y in
    let n := length y in
    let* _ := assert_ (Rleb 1 (lb_nu s) && Rleb (lb_nu s) (INR n)) in
    Ok (mkLpb (repeat (1 / INR n) n) 1 (lb_tol s) (lb_nu s) (Some (lpm_init n (1 / lb_nu s))) []).

  (** lpboost_algorithm.rs:292-325 [boost] *)
  Definition lpb_boost (it : nat) (s : lpboost) : trace * res (lpboost * cflow) :=
    let h := produce it (lb_dist s) in
    ([lb_dist s],
     let ghat := edge_of_hypothesis conf y (lb_dist s) h in
     let gamma_hat := Rmin ghat (lb_gamma_hat s) in
     match lb_model s with
     | None => Panic UnwrapNone
     | Some m =>
         let* mg := lpm_update m h in
         let '(m', gamma_star) := mg in
         if Rleb (gamma_hat - lb_tol s) gamma_star then
           Ok (mkLpb (lb_dist s) gamma_hat (lb_tol s) (lb_nu s) (Some m') (lb_hyps s ++ [h]), Break it)
         else
           Ok (mkLpb (lm_dist m') gamma_hat (lb_tol s) (lb_nu s) (Some m') (lb_hyps s ++ [h]), Continue)
     end).

  (** lpboost_algorithm.rs:328-341 [postprocess] (also current_hypothesis, 349-357) *)
  Definition lpb_post (s : lpboost) : res (wmajority H) :=
    match lb_model s with
    | None => Panic UnwrapNone
    | Some m => from_slices (lm_weights m) (lb_hyps s)
    end.

  Definition lpboost_booster : booster lpboost (wmajority H) := mkBooster lpb_pre lpb_boost lpb_post.
End LPBoost.

(** the linear programs that a run of LPBoost from [s0] hands to the solver *)
Definition lpb_asks {H} (conf : H -> nat -> R) solve produce y (s0 : @lpboost H) (p : conic) : Prop :=
  exists t s m m', reach (lpboost_booster conf solve produce y) s0 t s /\ lb_model s = Some m /\
    lpm_push conf y m (produce t (lb_dist s)) = Ok (m', p).
