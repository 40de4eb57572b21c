(** Model of src/weak_learner/bad_learner/{builder,worstcase_classifier,worstcase_lpboost}.rs: the weak learner that
    demonstrates the worst case of LPBoost. *)
From Verif Require Import Base Utils Num.
Open Scope R_scope.

(** worstcase_classifier.rs:10-16 *)
Record badh := mkBad { bd_tag : nat; bd_index : nat; bd_shift : nat; bd_gap : R; bd_eps : R }.

(** worstcase_classifier.rs:53-82 without the factor [y]: the value before it is multiplied by the label *)
Definition bad_value (h : badh) (row : nat) : R :=
  if Nat.eqb (bd_tag h) 0 then
    if Nat.ltb row (bd_index h) then 1
    else if Nat.leb (bd_index h) row && Nat.ltb row (bd_index h + bd_shift h) then -1 + 2 * bd_eps h
    else -1 + 3 * bd_eps h
  else if Nat.eqb (bd_tag h) 1 then
    let lef := bd_index h in
    let mid := (lef + bd_shift h)%nat in
    let rig := (mid + bd_shift h)%nat in
    if Nat.leb lef row && Nat.ltb row mid then 1
    else if Nat.leb mid row && Nat.ltb row rig then -1 + (bd_gap h - 1) * bd_eps h
    else -1 + bd_gap h * bd_eps h
  else if Nat.ltb row (bd_index h) then -1 + bd_eps h
  else 1 - bd_eps h.

(** worstcase_classifier.rs:53-82 [confidence] (a row out of range, a panic in the code, is read as label 0) *)
Definition bad_conf (y : list R) (h : badh) (row : nat) : R := bad_value h row * nth row y 0.

(** worstcase_lpboost.rs:32-45: the loop that appends the hypotheses of tag 1 *)
Fixpoint bad_loop (half shift : nat) (eps : R) (ks : list nat) (gap : R) (acc : list badh) : res (list badh * R) :=
  match ks with
  | [] => Ok (acc, gap)
  | k :: t =>
      let gap := gap + 2 in
      let acc := acc ++ [mkBad 1 (half + k) shift gap eps] in
      let* _ := assert_ (Rleb (eps * gap) 1) in
      bad_loop half shift eps t gap acc
  end.

(** worstcase_lpboost.rs:20-50 [BadBaseLearner::new]; [half-1] panics for an empty sample *)
Definition bad_new (n : nat) (tolerance nu : R) : res (list badh) :=
  let half := Nat.div (n + 1) 2 in
  let eps := tolerance / (2 * INR n) in
  let shift := ceil_usize nu in
  if Nat.ltb half 1 then Panic Arith else
  let* lg := bad_loop half shift eps (seq 0 (half - 1)) 3 [mkBad 0 half shift 3 eps] in
  let '(cs, gap) := lg in
  Ok (cs ++ [mkBad 2 half shift gap eps]).

(** Iterator::max_by: of several largest elements the last *)
Fixpoint max_by_last {A} (key : A -> R) (best : A) (l : list A) : A :=
  match l with [] => best | a :: t => max_by_last key (if Rltb (key a) (key best) then best else a) t end.

(** worstcase_lpboost.rs:60-71 [produce] *)
Definition bad_produce (y : list R) (pool : list badh) (dist : list R) : res badh :=
  match pool with
  | [] => Panic UnwrapNone
  | h :: t => Ok (max_by_last (fun h => edge_of_hypothesis (bad_conf y) y dist h) h t)
  end.

(** builder.rs:11-19 *)
Record badb := mkBadB { bb_n : nat; bb_tol : R; bb_nu : R }.

(** builder.rs:24-31 [new]: tolerance 1e-9, nu 1 *)
Definition bb_init (y : list R) : badb := mkBadB (length y) (1 / 10 ^ 9) 1.

(** builder.rs:36-39 [tolerance] *)
Definition bb_tolerance (b : badb) (tol : R) : badb := mkBadB (bb_n b) tol (bb_nu b).

(** builder.rs:44-51 [nu]: a half-open range *)
Definition bb_nu_set (b : badb) (nu : R) : res badb :=
  let* _ := assert_ (Rleb 1 nu && Rltb nu (INR (bb_n b))) in
  Ok (mkBadB (bb_n b) (bb_tol b) nu).

(** builder.rs:55-57 [build] *)
Definition bb_build (b : badb) : res (list badh) := bad_new (bb_n b) (bb_tol b) (bb_nu b).
