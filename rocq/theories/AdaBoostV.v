(** Model of src/booster/adaboostv/adaboostv_algorithm.rs. *)
From Verif Require Import Base Utils SortLib WMajority Booster AdaBoost.
Open Scope R_scope.

Section AdaBoostV.
  Context {H : Type}.
  Variable conf : H -> nat -> R.
  Variable produce : nat -> list R -> H.
  Variable y : list R.

  (** adaboostv_algorithm.rs:110-138; [terminated] is never read *)
  Record adav := mkAdav {
    v_tolerance : R;
    v_rho : R;
    v_gamma : R;
    v_dist : list R;
    v_weights : list R;
    v_hyps : list H;
    v_max_iter : nat;
    v_force_quit : option nat;
  }.

  (** adaboostv_algorithm.rs:146-165 [init] (max_iter = usize::MAX is overwritten by preprocess) *)
  Definition adav_init : adav := mkAdav (1 / INR (length y)) 1 1 [] [] [] 0 None.

  (** adaboostv_algorithm.rs:174-178 / 212-215 *)
  Definition adav_tolerance (s : adav) (tol : R) : adav :=
    mkAdav tol (v_rho s) (v_gamma s) (v_dist s) (v_weights s) (v_hyps s) (v_max_iter s) (v_force_quit s).
  Definition adav_force_quit_at (s : adav) (it : nat) : adav :=
    mkAdav (v_tolerance s) (v_rho s) (v_gamma s) (v_dist s) (v_weights s) (v_hyps s) (v_max_iter s) (Some it).

  (** adaboostv_algorithm.rs:190-194 [max_loop] *)
  Definition adav_max_loop (s : adav) : nat :=
    as_usize (2 * ln (INR (length y)) / (v_tolerance s) ^ 2).

  (** adaboostv_algorithm.rs:307-331 [preprocess] *)
  Definition adav_pre (s : adav) : res adav :=
    let* _ := is_valid_binary_instance y in
    let n := length y in
    let mi := match v_force_quit s with Some it => it | None => adav_max_loop s end in
    Ok (mkAdav (v_tolerance s) 1 1 (repeat (1 / INR n) n) [] [] mi (v_force_quit s)).

  (** adaboostv_algorithm.rs:228-275 [update_params].  Simplification: for rho outside (-1,1) the Rust code
      computes ln of a non-positive or infinite number; for rho <= -1 all of the distribution becomes NaN and
      partial_cmp(..).unwrap() panics (at least two examples), for rho >= 1 (a tolerance <= 0) it continues with
      infinities.  The model panics in both cases. *)
  Definition adav_update (s : adav) (margins : list R) (edge : R) : res (adav * R) :=
    let gamma := Rmin edge (v_gamma s) in                        (* 234 *)
    let rho := gamma - v_tolerance s in                          (* 235 *)
    if Rleb rho (-1) || Rleb 1 rho then Panic UnwrapNone else
    let weight := ln ((1 + edge) / (1 - edge)) / 2 - ln ((1 + rho) / (1 - rho)) / 2 in   (* 238-243 *)
    let* d := exp_update (v_dist s) margins weight in            (* 247-272, same code as AdaBoost *)
    Ok (mkAdav (v_tolerance s) rho gamma d (v_weights s) (v_hyps s) (v_max_iter s) (v_force_quit s), weight).

  (** adaboostv_algorithm.rs:334-372 [boost] *)
  Definition adav_boost (it : nat) (s : adav) : trace * res (adav * cflow) :=
    if Nat.ltb (v_max_iter s) it then ([], Ok (s, Break (v_max_iter s))) else
    let h := produce it (v_dist s) in
    let margins := margins_of_hypothesis conf y h in
    let edge := inner_product margins (v_dist s) in
    ([v_dist s],
     if Rleb 1 (Rabs edge) then
       Ok (mkAdav (v_tolerance s) (v_rho s) (v_gamma s) (v_dist s) [rsignum edge] [h] (v_max_iter s) (v_force_quit s),
           Break it)
     else
       let* (s', w) := adav_update s margins edge in
       Ok (mkAdav (v_tolerance s') (v_rho s') (v_gamma s') (v_dist s') (v_weights s' ++ [w]) (v_hyps s' ++ [h])
                  (v_max_iter s') (v_force_quit s'), Continue)).

  (** adaboostv_algorithm.rs:376-383 [postprocess] (also current_hypothesis, 391-393) *)
  Definition adav_post (s : adav) : res (wmajority H) := from_slices (v_weights s) (v_hyps s).

  Definition adaboostv : booster adav (wmajority H) := mkBooster adav_pre adav_boost adav_post.
End AdaBoostV.
