(** Model of src/booster/cerlpboost/cerlpboost_algorithm.rs. *)
From Verif Require Import Base Utils WMajority Booster AdaBoost Num FrankWolfe.
Open Scope R_scope.

(** [iter().position(p)] *)
Fixpoint position {A} (p : A -> bool) (l : list A) : option nat :=
  match l with
  | [] => None
  | a :: t => if p a then Some 0%nat else option_map S (position p t)
  end.

Section CERLP.
  Context {H : Type}.
  Variable conf : H -> nat -> R.
  (** [PartialEq] of the hypothesis type *)
  Variable eqH : H -> H -> bool.
  Variable produce : nat -> list R -> H.
  Variable y : list R.

  (** cerlpboost_algorithm.rs:117-136; [terminated] is never read; the Frank-Wolfe object is its three fields *)
  Record cerlp := mkCerlp {
    ce_dist : list R;
    ce_half_tol : R;
    ce_fw : fw;                  (* eta and nu are kept equal to the booster's own (180, 216) *)
    ce_weights : list R;
    ce_hyps : list H;
    ce_max_iter : nat;
  }.

  (** cerlpboost_algorithm.rs:143-172 [init]; max_iter = usize::MAX is overwritten by preprocess *)
  Definition cerlp_init : cerlp :=
    mkCerlp [] (5 / 1000) (mkFw (ln (INR (length y) / 1) / (5 / 1000)) 1 ShortStep) [] [] 0.

  (** cerlpboost_algorithm.rs:177-186 [nu].  Simplification: the eta computed here from the still empty [dist] (an
      infinity) is overwritten by preprocess, and is left unchanged in the model. *)
  Definition cerlp_nu (s : cerlp) (nu : R) : res cerlp :=
    let* _ := check_nu nu (length y) in
    Ok (mkCerlp (ce_dist s) (ce_half_tol s) (mkFw (fw_eta (ce_fw s)) nu (fw_type (ce_fw s))) (ce_weights s) (ce_hyps s) (ce_max_iter s)).

  (** cerlpboost_algorithm.rs:193-196 [tolerance] *)
  Definition cerlp_tolerance (s : cerlp) (tol : R) : cerlp :=
    mkCerlp (ce_dist s) (tol / 2) (ce_fw s) (ce_weights s) (ce_hyps s) (ce_max_iter s).

  (** cerlpboost_algorithm.rs:201-204 and 240-243 [fw_type] / [variant] *)
  Definition cerlp_fw_type (s : cerlp) (ty : fwtype) : cerlp :=
    mkCerlp (ce_dist s) (ce_half_tol s) (mkFw (fw_eta (ce_fw s)) (fw_nu (ce_fw s)) ty) (ce_weights s) (ce_hyps s) (ce_max_iter s).

  (** cerlpboost_algorithm.rs:225-233 [max_loop] for n examples *)
  Definition cerlp_max_loop (ht nu : R) (n : nat) : nat := ceil_usize (8 * ln (INR n / nu) / ht ^ 2).

  (** cerlpboost_algorithm.rs:287-307 [preprocess].  A zero tolerance makes eta infinite (or NaN). *)
  Definition cerlp_pre (s : cerlp) : res cerlp :=
    let* _ := is_valid_binary_instance y in
    let n := length y in
    let uni := 1 / INR n in
    if Reqb (ce_half_tol s) 0 then Panic NonFinite else
    let eta := ln (INR n / fw_nu (ce_fw s)) / ce_half_tol s in           (* 212-219 *)
    Ok (mkCerlp (repeat uni n) (ce_half_tol s) (mkFw eta (fw_nu (ce_fw s)) (fw_type (ce_fw s))) [] []
                (cerlp_max_loop (ce_half_tol s) (fw_nu (ce_fw s)) n)).

  (** cerlpboost_algorithm.rs:310-382 [boost] *)
  Definition cerlp_boost (it : nat) (s : cerlp) : trace * res (cerlp * cflow) :=
    if Nat.ltb (ce_max_iter s) it then ([], Ok (s, Break (ce_max_iter s))) else
    match exp_distribution conf (fw_eta (ce_fw s)) (fw_nu (ce_fw s)) y (ce_weights s) (ce_hyps s) with   (* 251-256 *)
    | Panic p => ([], Panic p)
    | Ok dist =>
        let h := produce it dist in
        let new_edge := edge_of_hypothesis conf y dist h in
        let old_edge := edge_of_weighted_hypothesis conf y dist (ce_weights s) (ce_hyps s) in
        let diff := new_edge - old_edge in
        ([dist],
         if Rleb diff (ce_half_tol s) then
           Ok (mkCerlp dist (ce_half_tol s) (ce_fw s) (ce_weights s) (ce_hyps s) (ce_max_iter s), Break it)
         else
           let '(pos, hyps, ws) :=
             match position (fun f => eqH f h) (ce_hyps s) with
             | Some pos => (pos, ce_hyps s, ce_weights s)
             | None => (length (ce_hyps s), ce_hyps s ++ [h], ce_weights s ++ [0])
             end in
           let* ws' := next_iterate conf y (ce_fw s) it dist hyps pos ws in
           Ok (mkCerlp dist (ce_half_tol s) (ce_fw s) ws' hyps (ce_max_iter s), Continue))
    end.

  (** cerlpboost_algorithm.rs:385-392 [postprocess] (also current_hypothesis, 400-402) *)
  Definition cerlp_post (s : cerlp) : res (wmajority H) := from_slices (ce_weights s) (ce_hyps s).

  Definition cerlpboost : booster cerlp (wmajority H) := mkBooster cerlp_pre cerlp_boost cerlp_post.
End CERLP.
