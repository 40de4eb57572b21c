(** The projection onto the capped simplex (src/common/utils.rs) in binary64 arithmetic.
    [fexp] and [fln] are f64::exp and f64::ln of the platform. *)
From Coq Require Import ZArith List Bool Reals.
From Flocq Require Import Core.Core IEEE754.BinarySingleNaN.
From Verif Require Import Base SortLib Float.
Import ListNotations.

(** f64::min, f64::max: a NaN argument is ignored *)
Definition f_min2 (a b : f64) : f64 := if is_nan a then b else if is_nan b then a else if flt b a then b else a.
Definition f_max2 (a b : f64) : f64 := if is_nan a then b else if is_nan b then a else if flt a b then b else a.

Section Platform.
  Variables (fexp fln : f64 -> f64).

  (** utils.rs:200-206: the next logsum *)
  Definition f_logsum_next (v d : f64) : f64 :=
    let small := f_min2 v d in
    let large := f_max2 v d in
    fadd large (fln (fadd f1 (fexp (fsub small large)))).

  (** utils.rs:196-210: [logsums], pushed in ascending order and read backwards (the head is the last one pushed) *)
  Definition f_logsum_step (x : list f64) (acc : list f64) (i : nat) : list f64 :=
    match acc with
    | [] => [nth i x f0]
    | v :: _ => f_logsum_next v (nth i x f0) :: acc
    end.
  Definition f_logsums (x : list f64) (ix : list nat) : list f64 := fold_left (f_logsum_step x) (rev ix) [].

  (** utils.rs:240-242: the inner loop after the stopping criterion fired *)
  Definition f_proj_rest (log_xi : f64) (rest : list (nat * f64)) (dist : list f64) : list f64 :=
    fold_left (fun ds it => upd (fst it) (fexp (fadd log_xi (nth (fst it) ds f0))) ds) rest dist.

  (** utils.rs:232-247: the projection loop; a comparison with NaN is false *)
  Fixpoint f_proj_loop (ub log_nu : f64) (i : nat) (items : list (nat * f64)) (dist : list f64) : list f64 :=
    match items with
    | [] => dist
    | (i_sorted, logsum) :: rest =>
        let log_xi := fsub (fln (fsub f1 (fmul ub (f_of_usize i)))) logsum in
        let d := nth i_sorted dist f0 in
        if fle (fadd (fadd log_xi d) log_nu) f0 then
          f_proj_rest log_xi rest (upd i_sorted (fexp (fadd log_xi d)) dist)
        else
          f_proj_loop ub log_nu (S i) rest (upd i_sorted ub dist)
    end.

  (** utils.rs:191-193: the indices in descending order of the entries (stable) *)
  Definition f_sorted_indices (x : list f64) : list nat := isort (fun i j => fle (nth j x f0) (nth i x f0)) (seq 0 (length x)).

  (** utils.rs:181-250 [project_log_distribution_to_capped_simplex].  With at least two entries the sort compares every
      entry with another one, and partial_cmp(..).unwrap() panics on NaN *)
  Definition f_project (nu : f64) (x : list f64) : res (list f64) :=
    if andb (Nat.ltb 1 (length x)) (existsb is_nan x) then Panic UnwrapNone else
    let ix := f_sorted_indices x in
    let dist := f_proj_loop (fdiv f1 nu) (fln nu) 0 (combine ix (f_logsums x ix)) x in
    let* _ := f_check_capped_simplex dist nu in
    Ok dist.
End Platform.
