(** Model of src/booster/smoothboost/smoothboost_algorithm.rs. *)
From Verif Require Import Base Utils WMajority Booster AdaBoost Num.
Open Scope R_scope.

Section SmoothBoost.
  Context {H : Type}.
  Variable conf : H -> nat -> R.
  Variable produce : nat -> list R -> H.
  Variable y : list R.
  (** usize::MAX of the platform *)
  Variable umax : nat.

  (** smoothboost_algorithm.rs:94-126.  [n_sample] is the length of the target; [current] is never read. *)
  Record sb := mkSb {
    sb_kappa : R;
    sb_theta : R;
    sb_gamma : R;
    sb_terminated : nat;
    sb_max_iter : nat;
    sb_hyps : list H;
    sb_m : list R;
    sb_n : list R;
  }.

  (** smoothboost_algorithm.rs:131-157 [init] *)
  Definition sb_init : sb :=
    let g := 1 / 2 in mkSb (1 / 2) (g / (2 + g)) g umax umax [] [] [].

  (** smoothboost_algorithm.rs:160-166 [tolerance] *)
  Definition sb_tolerance (s : sb) (kappa : R) : sb :=
    mkSb kappa (sb_theta s) (sb_gamma s) (sb_terminated s) (sb_max_iter s) (sb_hyps s) (sb_m s) (sb_n s).

  (** smoothboost_algorithm.rs:176-182 [gamma]: asserts 0 <= gamma < 1/2 *)
  Definition sb_set_gamma (s : sb) (g : R) : res sb :=
    if Rleb 0 g && Rltb g (1 / 2) then
      Ok (mkSb (sb_kappa s) (sb_theta s) g (sb_terminated s) (sb_max_iter s) (sb_hyps s) (sb_m s) (sb_n s))
    else Panic AssertFailed.

  (** smoothboost_algorithm.rs:193-200 [max_loop]; a zero denominator gives +inf, cast to usize::MAX.
      Simplification: no saturation for a positive denominator (see [as_usize]). *)
  Definition sb_max_loop (kappa gamma : R) : nat :=
    let denom := kappa * gamma ^ 2 * sqrt (1 - gamma) in
    if Reqb denom 0 then umax else ceil_usize (2 / denom).

  (** smoothboost_algorithm.rs:203-219 [check_preconditions] *)
  Definition sb_check (kappa theta gamma : R) : res unit :=
    if negb (Rleb 0 kappa && Rltb kappa 1) || Rleb kappa 0 then Panic AssertFailed
    else if negb (Rleb theta gamma && Rltb gamma (1 / 2)) then Panic AssertFailed
    else Ok tt.

  (** smoothboost_algorithm.rs:249-273 [preprocess] *)
  Definition sb_pre (s : sb) : res sb :=
    let* _ := is_valid_binary_instance y in
    let theta := sb_gamma s / (2 + sb_gamma s) in          (* theta(), 186-188 *)
    let* _ := sb_check (sb_kappa s) theta (sb_gamma s) in
    let mi := sb_max_loop (sb_kappa s) (sb_gamma s) in
    let ones := repeat 1 (length y) in
    Ok (mkSb (sb_kappa s) theta (sb_gamma s) mi mi [] ones ones).

  (** smoothboost_algorithm.rs:322-330: m from n; powf of a positive base *)
  Definition sb_weight (gamma nj : R) : R :=
    if Rleb nj 0 then 1 else Rpower (1 - gamma) (nj * (1 / 2)).

  (** smoothboost_algorithm.rs:276-338 [boost]; the parallel update of [m] is element-wise (Rayon.v) *)
  Definition sb_boost (it : nat) (s : sb) : trace * res (sb * cflow) :=
    if Nat.ltb (sb_max_iter s) it then ([], Ok (s, Break (sb_max_iter s))) else
    let sum := rsum (sb_m s) in
    if Rltb sum (INR (length y) * sb_kappa s) then
      ([], Ok (mkSb (sb_kappa s) (sb_theta s) (sb_gamma s) (it - 1) (sb_max_iter s) (sb_hyps s) (sb_m s) (sb_n s),
               Break it))
    else
      let dist := map (fun mj => mj / sum) (sb_m s) in
      let h := produce it dist in
      let margins := map (fun p => snd p * conf h (fst p)) (combine (seq 0 (length y)) y) in
      let n' := map (fun p => fst p + snd p - sb_theta s) (combine (sb_n s) margins) in
      let m' := map (sb_weight (sb_gamma s)) n' in
      ([dist], Ok (mkSb (sb_kappa s) (sb_theta s) (sb_gamma s) (sb_terminated s) (sb_max_iter s)
                        (sb_hyps s ++ [h]) m' n', Continue)).

  (** smoothboost_algorithm.rs:341-350 [postprocess] (also current_hypothesis): n_sample equal weights are
      zipped with the hypotheses.  A zero [terminated] would make the weight infinite. *)
  Definition sb_post (s : sb) : res (wmajority H) :=
    if Nat.eqb (sb_terminated s) 0 then Panic NonFinite else
    from_slices (repeat (1 / INR (sb_terminated s)) (length y)) (sb_hyps s).

  Definition smoothboost : booster sb (wmajority H) := mkBooster sb_pre sb_boost sb_post.
End SmoothBoost.
