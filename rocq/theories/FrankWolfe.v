(** Model of src/common/frank_wolfe.rs. *)
From Verif Require Import Base Utils AdaBoost AdaBoostMore Num.
Open Scope R_scope.

(** frank_wolfe.rs:17-33 *)
Inductive fwtype := Classic | ShortStep | LineSearch | BlendedPairwise.

(** frank_wolfe.rs:49-53 *)
Record fw := mkFw { fw_eta : R; fw_nu : R; fw_type : fwtype }.

(** frank_wolfe.rs:12 SUB_TOLERANCE = 1e-9 *)
Definition SUB_TOLERANCE : R := / 1000000000.

(** frank_wolfe.rs:418-434 [interior_point] *)
Definition interior_point (step : R) (k : nat) (base : list R) : res (list R) :=
  let* _ := check_stepsize step in
  Ok (map (fun p => let dir := if Nat.eqb (fst p) k then 1 - snd p else - snd p in snd p + step * dir)
          (combine (seq 0 (length base)) base)).

(** frank_wolfe.rs:125-137 [classic] *)
Definition fw_classic (it k : nat) (ws : list R) : res (list R) :=
  interior_point (2 / INR (it + 1)) k ws.

(** frank_wolfe.rs:236-259 and 374-399: bisection on the step size; [grad s] is the inner product of [dir_margins]
    with the distribution at step [s].  [fuel] bounds the iterations (proved sufficient: [bisect_fuel]). *)
Fixpoint bisect (fuel : nat) (grad : R -> res R) (lb ub : R) : res R :=
  if Rltb SUB_TOLERANCE (ub - lb) then
    match fuel with
    | O => Panic Unreachable
    | S fuel' =>
        let step := (lb + ub) / 2 in
        let* dot := grad step in
        if Rltb dot 0 then bisect fuel' grad step ub
        else if Rltb 0 dot then bisect fuel' grad lb step
        else Ok ((lb + ub) / 2)
    end
  else Ok ((lb + ub) / 2).

(** enough iterations for an interval of length [w] *)
Definition bisect_fuel (w : R) : nat := S (ceil_usize (w * 1000000000)).

Section FW.
  Context {H : Type}.
  Variable conf : H -> nat -> R.
  Variable y : list R.

  (** the gradient evaluated inside both bisection loops (frank_wolfe.rs:241-250, 379-388) *)
  Definition seg_margins (base dir : list R) (s : R) : list R :=
    map (fun p => fst p + s * snd p) (combine base dir).
  Definition seg_grad (c : fw) (base dir : list R) (s : R) : res R :=
    let* d := exp_distribution_from_margins (fw_eta c) (fw_nu c) (seg_margins base dir s) in
    Ok (inner_product d dir).

  (** frank_wolfe.rs:140-183 [short_step].  [denom] starts at f64::MIN: on a non-empty sample this is the same as
      starting at 0.  A zero divisor gives +inf, -inf or NaN; clamp leaves 1, 0 or NaN, and NaN fails the assertion
      of [check_stepsize]. *)
  Definition fw_short_step (c : fw) (dist : list R) (hs : list H) (k : nat) (ws : list R) : res (list R) :=
    if Nat.eqb (length hs) 1 then Ok [1] else
    match nth_error hs k with
    | None => Panic IndexOutOfBounds
    | Some h =>
        let old_margins := margins_of_weighted_hypothesis conf y ws hs in
        let new_margins := margins_of_hypothesis conf y h in
        let ps := combine (map (fun p => fst p - snd p) (combine new_margins old_margins)) dist in
        let numer := fold_left (fun a p => a + snd p * fst p) ps 0 in
        let denom := fold_left (fun a p => Rmax a (Rabs (fst p))) ps 0 in
        let q := fw_eta c * denom ^ 2 in
        if Reqb q 0 then
          if Rltb 0 numer then interior_point 1 k ws
          else if Rltb numer 0 then interior_point 0 k ws
          else Panic AssertFailed
        else interior_point (rclamp 0 1 (numer / q)) k ws
    end.

  (** frank_wolfe.rs:187-266 [line_search] *)
  Definition fw_line_search (c : fw) (hs : list H) (k : nat) (ws : list R) : res (list R) :=
    let dir := map (fun p => if Nat.eqb (fst p) k then 1 - snd p else - snd p) (combine (seq 0 (length ws)) ws) in
    let dir_margins := margins_of_weighted_hypothesis conf y dir hs in
    let base_margins := margins_of_weighted_hypothesis conf y ws hs in
    let* d := exp_distribution conf (fw_eta c) (fw_nu c) y dir hs in
    let dot := inner_product d dir_margins in
    if Rleb dot 0 then
      if Nat.ltb k (length ws) then Ok (upd k 1 (repeat 0 (length ws))) else Panic IndexOutOfBounds
    else
      let* step := bisect (bisect_fuel 1) (seg_grad c base_margins dir_margins) 0 1 in
      interior_point step k ws.

  (** frank_wolfe.rs:279-312: (worst edge, its position), (local best edge, position), (global best edge, position) *)
  Definition bp_state := ((R * nat) * (R * nat) * (R * nat))%type.
  Definition bp_step (k : nat) (st : bp_state) (je : nat * R) : bp_state :=
    let '(worst, loc, glob) := st in
    let '(j, e) := je in
    let loc := if negb (Nat.eqb j k) && Rltb (fst loc) e then (e, j) else loc in
    let glob := if Rltb (fst glob) e then (e, j) else glob in
    let worst := if Rltb e (fst worst) then (e, j) else worst in
    (worst, loc, glob).
  Definition bp_edges (dist : list R) (hs : list H) (ws : list R) : list (nat * R) :=
    map (fun p => (fst p, edge_of_hypothesis conf y dist (snd (snd p))))
        (filter (fun p => negb (Rleb (fst (snd p)) 0)) (combine (seq 0 (length (combine ws hs))) (combine ws hs))).

  (** frank_wolfe.rs:269-415 [blended_pairwise] *)
  Definition fw_blended_pairwise (c : fw) (dist : list R) (hs : list H) (k : nat) (ws : list R) : res (list R) :=
    let '(worst, loc, glob) :=
      fold_left (bp_step k) (bp_edges dist hs ws) ((2, length hs), (-2, length hs), (-2, k)) in
    let loc := if negb (Nat.eqb (snd glob + 1) (length hs)) then glob else loc in        (* 318-321 *)
    let current := edge_of_weighted_hypothesis conf y dist ws hs in
    let lhs := fst loc - fst worst in
    let rhs := fst glob - current in
    if Rleb rhs lhs then
      if negb (Nat.ltb (snd worst) (length ws)) then Panic IndexOutOfBounds else
      let max_step := nth (snd worst) ws 0 in
      match nth_error hs (snd loc), nth_error hs (snd worst) with
      | Some hl, Some hw =>
          let dir_margins := map (fun p => fst p - snd p)
            (combine (margins_of_hypothesis conf y hl) (margins_of_hypothesis conf y hw)) in
          let base_margins := margins_of_weighted_hypothesis conf y ws hs in
          let margins := map (fun p => snd p + max_step * fst p) (combine dir_margins base_margins) in
          (* 357-359: the margins are passed as the weights *)
          let* d := exp_distribution conf (fw_eta c) (fw_nu c) y margins hs in
          if Rleb (inner_product d dir_margins) 0 then
            if Nat.ltb k (length ws) then Ok (upd (snd worst) 0 (upd k max_step ws)) else Panic IndexOutOfBounds
          else
            let* step := bisect (bisect_fuel max_step) (seg_grad c base_margins dir_margins) 0 max_step in
            if negb (Nat.ltb (snd loc) (length ws)) then Panic IndexOutOfBounds else
            let ws1 := upd (snd loc) (nth (snd loc) ws 0 + step) ws in
            Ok (upd (snd worst) (nth (snd worst) ws1 0 - step) ws1)
      | _, _ => Panic IndexOutOfBounds
      end
    else fw_line_search c hs k ws.

  (** frank_wolfe.rs:93-122 [next_iterate] *)
  Definition next_iterate (c : fw) (it : nat) (dist : list R) (hs : list H) (k : nat) (ws : list R) : res (list R) :=
    if negb (Nat.ltb k (length hs)) then Panic AssertFailed else
    match fw_type c with
    | Classic => fw_classic it k ws
    | ShortStep => fw_short_step c dist hs k ws
    | LineSearch => fw_line_search c hs k ws
    | BlendedPairwise => fw_blended_pairwise c dist hs k ws
    end.
End FW.
