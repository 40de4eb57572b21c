(** Model of the histogram bins: src/weak_learner/decision_tree/bin.rs and src/weak_learner/regression_tree/bin.rs
    (the two files differ in what is packed into a bin only; the common part is generic here).
    Feature values are exact reals in the range of f64. *)
From Verif Require Import Base BinSearch Feature.
Open Scope R_scope.

(** f64::MAX = (2 - 2^-52) 2^1023, f64::MIN = - f64::MAX *)
Definition F64MAX : R := (2 - / 2 ^ 52) * 2 ^ 1023.
Definition F64MIN : R := - F64MAX.

(** decision_tree/bin.rs:26-43 *)
Record bin := mkBin { b_start : R; b_end : R }.
Definition bin_contains (b : bin) (x : R) : bool := andb (Rleb (b_start b) x) (Rltb x (b_end b)).

(** lines 97-104, 139-146: the smallest and the largest value, starting from f64::MAX and f64::MIN *)
Definition vmin (v : list R) : R := fold_left Rmin v F64MAX.
Definition vmax (v : list R) : R := fold_left Rmax v F64MIN.

(** lines 121-130, 165-174 (while loop): bins [left, left + w), stopping at max; bins narrower than 1e-9 at the end are
    not split off.  [fuel] bounds the number of iterations; it is never exhausted (BinsFacts.cut_loop_spec). *)
Fixpoint cut_loop (fuel : nat) (mx w left : R) : res (list bin) :=
  match fuel with
  | O => Panic Unreachable
  | S fuel' =>
      if Rltb left mx then
        let right := left + w in
        if Rltb (Rabs (right - mx)) (/ 10 ^ 9) then Ok [mkBin left right]
        else let* r := cut_loop fuel' mx w right in Ok (mkBin left right :: r)
      else Ok []
  end.

(** lines 109-135, 160-179: perturb a constant column by 0.001, cut into n bins of the same width.
    For n = 0 the width is not finite and the assertion or the unwrap of the caller fails. *)
Definition cut_range (mn mx : R) (n : nat) : res (list bin) :=
  let '(mn, mx) := if Reqb mn mx then (mn - / 1000, mx + / 1000) else (mn, mx) in
  if Nat.eqb n 0 then Panic AssertFailed else
  let* bins := cut_loop (S n) mx ((mx - mn) / INR n) mn in
  let* _ := assert_ (Nat.eqb (length bins) n) in
  Ok bins.

(** lines 56-71 [cut]: the first bin starts at f64::MIN, the last one ends at f64::MAX *)
Fixpoint set_last_end (e : R) (l : list bin) : list bin :=
  match l with
  | [] => []
  | b :: t => match t with [] => [mkBin (b_start b) e] | _ => b :: set_last_end e t end
  end.
Definition set_first_start (s : R) (l : list bin) : list bin :=
  match l with [] => [] | b :: t => mkBin s (b_end b) :: t end.

Definition cut (f : feature) (n : nat) : res (list bin) :=
  let* bins :=
    match f with
    | Dense _ v => cut_range (vmin v) (vmax v) n
    | Sparse _ e m =>
        let v := map snd e in
        let mn := if andb (Rltb 0 (vmin v)) (has_zero e m) then 0 else vmin v in
        let mx := if andb (Rltb (vmax v) 0) (has_zero e m) then 0 else vmax v in
        cut_range mn mx n
    end in
  match bins with
  | [] => Panic UnwrapNone
  | _ => Ok (set_last_end F64MAX (set_first_start F64MIN bins))
  end.

(** lines 199-206: binary search for the bin that contains x; unwrap panics if there is none *)
Definition cmp_bin (b : bin) (x : R) : comparison :=
  if bin_contains b x then Eq else if Rltb (b_start b) x then Lt else if Rltb x (b_start b) then Gt else Eq.
Definition find_bin (bins : list bin) (x : R) : res nat :=
  match binary_search (fun k => cmp_bin (nth k bins (mkBin 0 0)) x) (length bins) with
  | Found k => Ok k
  | Missing _ => Panic UnwrapNone
  end.

(** lines 191-209: [add i] adds example i to what its bin holds *)
Fixpoint pack_loop {P} (add : nat -> P -> res P) (d : P) (bins : list bin) (f : feature) (indices : list nat) (packs : list P) : res (list P) :=
  match indices with
  | [] => Ok packs
  | i :: rest =>
      let* x := feat_index f i in
      let* k := find_bin bins x in
      let* p := add i (nth k packs d) in
      pack_loop add d bins f rest (upd k p packs)
  end.

(** lines 252-286 [remove_zero_weight_pack_and_normalize]: bins without an example are removed; the boundary moves to
    the middle of the gap *)
Fixpoint merge_loop {P} (pb : bin) (pp : P) (rest : list (bin * P)) : list (bin * P) :=
  match rest with
  | [] => [(pb, pp)]
  | (nb, np) :: rest' =>
      let e := (b_end pb + b_start nb) / 2 in
      (mkBin (b_start pb) e, pp) :: merge_loop (mkBin e (b_end nb)) np rest'
  end.
Definition remove_empty {P} (empty : P -> bool) (bins : list bin) (packs : list P) : res (list (bin * P)) :=
  match combine bins packs with
  | [] => Panic UnwrapNone
  | (b0, p0) :: rest0 =>
      let rest := filter (fun bp => negb (empty (snd bp))) rest0 in
      if empty p0 then
        match rest with
        | [] => Panic UnwrapNone
        | (nb, np) :: rest' => Ok (merge_loop (mkBin (b_start b0) (b_end nb)) np rest')
        end
      else Ok (merge_loop b0 p0 rest)
  end.
