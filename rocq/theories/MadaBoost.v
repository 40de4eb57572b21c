(** Model of src/booster/madaboost/madaboost_algorithm.rs. *)
From Verif Require Import Base Utils SortLib WMajority Booster AdaBoost AdaBoostMore Num.
Open Scope R_scope.

Section MadaBoost.
  Context {H : Type}.
  Variable conf : H -> nat -> R.
  Variable produce : nat -> list R -> H.
  Variable y : list R.

  (** madaboost_algorithm.rs:88-119; [terminated] is never read *)
  Record mada := mkMada {
    m_tolerance : R;
    m_betas : list R;
    m_alphas : list R;
    m_hyps : list H;
    m_max_iter : nat;
    m_force_quit : option nat;
  }.

  (** madaboost_algorithm.rs:127-143 [init] *)
  Definition mada_init : mada := mkMada (1 / (INR (length y) + 1)) [] [] [] 0 None.

  (** madaboost_algorithm.rs:177-180 / 166-169 *)
  Definition mada_tolerance (s : mada) (tol : R) : mada :=
    mkMada tol (m_betas s) (m_alphas s) (m_hyps s) (m_max_iter s) (m_force_quit s).
  Definition mada_force_quit_at (s : mada) (it : nat) : mada :=
    mkMada (m_tolerance s) (m_betas s) (m_alphas s) (m_hyps s) (m_max_iter s) (Some it).

  (** madaboost_algorithm.rs:154-158 [max_loop] *)
  Definition mada_max_loop (s : mada) : nat :=
    ceil_usize ((INR (length y) - 1) / (m_tolerance s) ^ 2).

  (** madaboost_algorithm.rs:290-311 [preprocess] *)
  Definition mada_pre (s : mada) : res mada :=
    let* _ := is_valid_binary_instance y in
    let n := length y in
    let mi := match m_force_quit s with Some it => it | None => mada_max_loop s end in
    Ok (mkMada (m_tolerance s) (repeat (1 / INR n) n) [] [] mi (m_force_quit s)).

  (** madaboost_algorithm.rs:221-256 [beta2distribution]; the normaliser loop is the same code as AdaBoost's *)
  Definition beta2distribution (betas : list R) : res (list R) :=
    let weights := map (fun b => Rmin b 1) betas in
    let indices := isort (key_asc weights) (seq 0 (length y)) in
    let* z := log_normalizer weights indices in
    Ok (map (fun b => exp (b - z)) weights).

  (** madaboost_algorithm.rs:201-204: the factor computed from the edge *)
  Definition mada_beta (edge : R) : R :=
    let eps := 1 / 2 * (1 - edge) in
    let eps2 := sqrt (1 / 2 * eps) in
    sqrt (eps2 / (1 - eps2)).

  (** madaboost_algorithm.rs:193-218 [update_params] *)
  Definition mada_update (betas margins : list R) (edge : R) : res (list R * R) :=
    let eps := 1 / 2 * (1 - edge) in
    if negb (Rleb 0 eps && Rltb eps 1) then Panic AssertFailed else     (* 202 *)
    let beta := mada_beta edge in
    let alpha := ln (1 / beta) in                                       (* 208 *)
    Ok (map (fun p => fst p + snd p * beta) (combine betas margins), alpha).  (* 212-214 *)

  (** madaboost_algorithm.rs:314-355 [boost] *)
  Definition mada_boost (it : nat) (s : mada) : trace * res (mada * cflow) :=
    if Nat.ltb (m_max_iter s) it then ([], Ok (s, Break (m_max_iter s))) else
    match beta2distribution (m_betas s) with
    | Panic p => ([], Panic p)
    | Ok dist =>
      let h := produce it dist in
      let margins := margins_of_hypothesis conf y h in
      let edge := inner_product margins dist in
      ([dist],
       if Rleb 1 (Rabs edge) then
         Ok (mkMada (m_tolerance s) (m_betas s) [rsignum edge] [h] (m_max_iter s) (m_force_quit s), Break it)
       else
         let* (b, a) := mada_update (m_betas s) margins edge in
         Ok (mkMada (m_tolerance s) b (m_alphas s ++ [a]) (m_hyps s ++ [h]) (m_max_iter s) (m_force_quit s), Continue))
    end.

  (** madaboost_algorithm.rs:358-365 [postprocess] (also current_hypothesis, 373-375) *)
  Definition mada_post (s : mada) : res (wmajority H) := from_slices (m_alphas s) (m_hyps s).

  Definition madaboost : booster mada (wmajority H) := mkBooster mada_pre mada_boost mada_post.
End MadaBoost.
