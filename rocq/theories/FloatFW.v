(** The Frank-Wolfe updates of the hypothesis weights in binary64 arithmetic (src/common/frank_wolfe.rs). *)
From Coq Require Import ZArith List Bool Reals.
From Flocq Require Import Core.Core IEEE754.BinarySingleNaN.
From Verif Require Import Base Float FloatTree FloatRounds.
Import ListNotations.

(** common/checker.rs:36-39 [check_stepsize] *)
Definition f_check_stepsize (s : f64) : res unit := assert_ (fle f0 s && fle s f1).

(** frank_wolfe.rs:418-434 [interior_point]: one entry, and all of them *)
Definition f_interior_entry (step : f64) (target : bool) (b : f64) : f64 :=
  fadd b (fmul step (if target then fsub f1 b else fopp b)).
Definition f_interior_point (step : f64) (k : nat) (base : list f64) : res (list f64) :=
  let* _ := f_check_stepsize step in
  Ok (map (fun p => f_interior_entry step (Nat.eqb (fst p) k) (snd p)) (combine (seq 0 (length base)) base)).

(** frank_wolfe.rs:125-137 [classic] *)
Definition f_fw_classic (it k : nat) (ws : list f64) : res (list f64) :=
  f_interior_point (fdiv (f_of_usize 2) (f_of_usize (it + 1))) k ws.

(** f64::clamp(0.0, 1.0): a NaN stays a NaN *)
Definition f_clamp01 (x : f64) : f64 := if flt x f0 then f0 else if flt f1 x then f1 else x.
(** frank_wolfe.rs:154-171: numerator and denominator; f64::MIN starts the maximum *)
Definition f_lowest : f64 := binary_normalize 53 1024 eq_refl eq_refl mode_NE (-9007199254740991) 971 false.
Definition f_short_quotient (eta : f64) (dist new_m old_m : list f64) : f64 :=
  let ps := combine (map (fun p => fsub (fst p) (snd p)) (combine new_m old_m)) dist in
  let numer := fold_left (fun a p => fadd a (fmul (snd p) (fst p))) ps f0 in
  let denom := fold_left (fun a p => f_max a (fabs (fst p))) ps f_lowest in
  fdiv numer (fmul eta (f_square denom)).
(** frank_wolfe.rs:140-183 [short_step].  Simplification: the margins of the new hypothesis and of the current vote (150-153) are
    given *)
Definition f_fw_short_step (eta : f64) (dist new_m old_m : list f64) (hyps k : nat) (ws : list f64) : res (list f64) :=
  if Nat.eqb hyps 1 then Ok [f1] else f_interior_point (f_clamp01 (f_short_quotient eta dist new_m old_m)) k ws.

(** cerlpboost_algorithm.rs:349-373: the weights over the rounds of a run with the classic rule, from round [t]; the j-th
    number is the position of the hypothesis of that round, which is the length of the list when the hypothesis is new *)
Fixpoint f_classic_run (t : nat) (ps : list nat) (ws : list f64) : res (list f64) :=
  match ps with
  | [] => Ok ws
  | p :: ps =>
      let ws := if Nat.eqb p (length ws) then ws ++ [f0] else ws in
      let* ws := f_fw_classic t p ws in
      f_classic_run (S t) ps ws
  end.
