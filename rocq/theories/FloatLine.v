(** The line-search and pairwise Frank-Wolfe updates in binary64 arithmetic (src/common/frank_wolfe.rs). *)
From Coq Require Import ZArith List Bool Reals.
From Flocq Require Import Core.Core IEEE754.BinarySingleNaN.
From Verif Require Import Base Float FloatRounds FloatFW.
Import ListNotations.

(** frank_wolfe.rs:12 SUB_TOLERANCE: the double closest to 1e-9 *)
Definition f_sub_tolerance : f64 := binary_normalize 53 1024 eq_refl eq_refl mode_NE 4835703278458517 (-82) false.

Definition f_middle (lb ub : f64) : f64 := fdiv (fadd lb ub) (f_of_usize 2).

(** frank_wolfe.rs:236-263 and 374-402: the loop, and the step size after it.  [grad s] is the inner product the loop computes
    at step [s] (241-250, 379-388): any function, or a panic.  [fuel] bounds the evaluations. *)
Fixpoint f_bisect (fuel : nat) (grad : f64 -> res f64) (lb ub : f64) : res f64 :=
  if flt f_sub_tolerance (fsub ub lb) then
    match fuel with
    | O => Panic Unreachable
    | S fuel =>
        let step := f_middle lb ub in
        let* dot := grad step in
        if flt dot f0 then f_bisect fuel grad step ub
        else if flt f0 dot then f_bisect fuel grad lb step
        else Ok (f_middle lb ub)
    end
  else Ok (f_middle lb ub).

(** frank_wolfe.rs:187-266 [line_search]; [full] is the inner product of lines 214-222 *)
Definition f_fw_line_search (fuel : nat) (full : f64) (grad : f64 -> res f64) (k : nat) (ws : list f64) : res (list f64) :=
  if fle full f0 then
    if Nat.ltb k (length ws) then Ok (upd k f1 (repeat f0 (length ws))) else Panic IndexOutOfBounds
  else
    let* step := f_bisect fuel grad f0 f1 in
    f_interior_point step k ws.

(** frank_wolfe.rs:328-408 [blended_pairwise], the pairwise update, once the hypotheses [loc] and [worst] are chosen; [full] is
    the inner product of line 366 *)
Definition f_fw_pairwise (fuel : nat) (full : f64) (grad : f64 -> res f64) (loc worst k : nat) (ws : list f64) : res (list f64) :=
  if negb (Nat.ltb worst (length ws)) then Panic IndexOutOfBounds else
  let max_step := nth worst ws f0 in
  if fle full f0 then
    if Nat.ltb k (length ws) then Ok (upd worst f0 (upd k max_step ws)) else Panic IndexOutOfBounds
  else
    let* step := f_bisect fuel grad f0 max_step in
    if negb (Nat.ltb loc (length ws)) then Panic IndexOutOfBounds else
    let ws1 := upd loc (fadd (nth loc ws f0) step) ws in
    Ok (upd worst (fsub (nth worst ws1 f0) step) ws1).
