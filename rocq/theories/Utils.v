(** Model of src/common/utils.rs and src/common/checker.rs. *)
From Verif Require Import Base SortLib.
Open Scope R_scope.

Section WithHypothesis.
  (** [Classifier] trait: confidence of hypothesis [h] on row [i] of the sample at hand
      (src/hypothesis/hypothesis_traits.rs:11). *)
  Context {H : Type}.
  Variable conf : H -> nat -> R.

  (** utils.rs:35-45 [margins_of_hypothesis] *)
  Definition margins_of_hypothesis (y : list R) (h : H) : list R :=
    map (fun p => snd p * conf h (fst p)) (combine (seq 0 (length y)) y).

  (** utils.rs:15-27 [edge_of_hypothesis] *)
  Definition edge_of_hypothesis (y dist : list R) (h : H) : R :=
    rsum (map (fun p => snd p * fst p) (combine (margins_of_hypothesis y h) dist)).

  (** utils.rs:77-97 [margins_of_weighted_hypothesis] *)
  Definition margins_of_weighted_hypothesis (y ws : list R) (hs : list H) : list R :=
    map (fun p =>
           let fx := rsum (map (fun wh => fst wh * conf (snd wh) (fst p)) (combine ws hs)) in
           snd p * fx)
        (combine (seq 0 (length y)) y).

  (** utils.rs:54-67 [edge_of_weighted_hypothesis] *)
  Definition edge_of_weighted_hypothesis (y dist ws : list R) (hs : list H) : R :=
    rsum (map (fun p => snd p * fst p) (combine (margins_of_weighted_hypothesis y ws hs) dist)).

  (** utils.rs:112-123 [log_exp_distribution] *)
  Definition log_exp_distribution (eta : R) (y ws : list R) (hs : list H) : list R :=
    map (fun yf => - eta * yf) (margins_of_weighted_hypothesis y ws hs).
End WithHypothesis.

(** checker.rs:6 SIMPLEX_TOLERANCE = 1e-5 *)
Definition SIMPLEX_TOLERANCE : R := / 100000.

(** checker.rs:29-32 [check_nu] *)
Definition check_nu (nu : R) (n : nat) : res unit :=
  assert_ (andb (Rleb 1 nu) (Rleb nu (INR n))).

(** checker.rs:36-38 [check_stepsize] *)
Definition check_stepsize (s : R) : res unit := assert_ (andb (Rleb 0 s) (Rleb s 1)).

(** checker.rs:42-64 [check_capped_simplex_condition] (the prints are dropped) *)
Definition check_capped_simplex_condition (v : list R) (nu : R) : res unit :=
  let* _ := check_nu nu (length v) in
  let* _ := assert_ (Rltb (Rabs (rsum v - 1)) SIMPLEX_TOLERANCE) in
  assert_ (forallb (fun s => andb (Rleb 0 s) (Rleb s (1 / nu))) v).

(** utils.rs:197-211: the vector [logsums] (pushed in the order of [ix] reversed, then reversed).
    The accumulator is the Rust vector with its last element first, i.e. already in the final order. *)
Definition logsum_step (x : list R) (acc : list R) (i : nat) : list R :=
  match acc with
  | [] => [nth i x 0]
  | v :: _ => (let small := Rmin v (nth i x 0) in
               let large := Rmax v (nth i x 0) in lse large small) :: acc
  end.
Definition logsums (x : list R) (ix : list nat) : list R :=
  fold_left (logsum_step x) (rev ix) [].

(** utils.rs:240-242: the inner loop after the stopping criterion fired *)
Definition proj_rest (log_xi : R) (rest : list (nat * R)) (dist : list R) : list R :=
  fold_left (fun ds it => upd (fst it) (exp (log_xi + nth (fst it) ds 0)) ds) rest dist.

(** utils.rs:232-247: the projection loop.  [ln] of a non-positive number is NaN/-inf in Rust: explicit
    [Panic NonFinite] in the model. *)
Fixpoint proj_loop (ub log_nu : R) (i : nat) (items : list (nat * R)) (dist : list R) : res (list R) :=
  match items with
  | [] => Ok dist
  | (i_sorted, logsum) :: rest =>
      let arg := 1 - ub * INR i in
      if Rleb arg 0 then Panic NonFinite else
      let log_xi := ln arg - logsum in
      let d := nth i_sorted dist 0 in
      if Rleb (log_xi + d + log_nu) 0 then
        Ok (proj_rest log_xi rest (upd i_sorted (exp (log_xi + d)) dist))
      else
        proj_loop ub log_nu (S i) rest (upd i_sorted ub dist)
  end.

(** utils.rs:181-250 with an arbitrary outcome [ix] of the sort on line 193 *)
Definition project_with (ix : list nat) (nu : R) (x : list R) : res (list R) :=
  if Rleb nu 0 then Panic NonFinite else
  let ub := 1 / nu in
  let log_nu := ln nu in
  let* dist := proj_loop ub log_nu 0 (combine ix (logsums x ix)) x in
  let* _ := check_capped_simplex_condition dist nu in
  Ok dist.

(** utils.rs:191-193: sort the indices in descending order of [dist] *)
Definition sorted_indices (x : list R) : list nat := isort (key_desc x) (seq 0 (length x)).

(** utils.rs:181-250 [project_log_distribution_to_capped_simplex] *)
Definition project (nu : R) (x : list R) : res (list R) := project_with (sorted_indices x) nu x.

(** utils.rs:138-150 [exp_distribution] *)
Definition exp_distribution {H} (conf : H -> nat -> R) (eta nu : R) (y ws : list R) (hs : list H)
  : res (list R) := project nu (log_exp_distribution conf eta y ws hs).

(** utils.rs:159-168 [exp_distribution_from_margins] *)
Definition exp_distribution_from_margins (eta nu : R) (margins : list R) : res (list R) :=
  project nu (map (fun yf => - eta * yf) margins).

(** utils.rs:266-272 [entropy] *)
Definition entropy (dist : list R) : R :=
  rsum (map (fun d => if Reqb d 0 then 0 else d * ln d) dist).

(** utils.rs:255-261 [entropy_from_uni_distribution] *)
Definition entropy_from_uni_distribution (dist : list R) : R :=
  entropy dist + ln (INR (length dist)).

(** utils.rs:277-282 [inner_product] *)
Definition inner_product (v1 v2 : list R) : R := dot v1 v2.

(** utils.rs:287-296 [normalize] *)
Definition normalize (items : list R) : res (list R) :=
  let z := rsum (map Rabs items) in
  if Reqb z 0 then Panic AssertFailed else Ok (map (fun it => it / z) items).

(** utils.rs:301-315 [hadamard_product]; m[0] panics on an empty matrix. *)
Definition hadamard_product (m1 m2 : list (list R)) : res (list (list R)) :=
  if negb (Nat.eqb (length m1) (length m2)) then Panic AssertFailed else
  match m1, m2 with
  | r1 :: _, r2 :: _ =>
      if negb (Nat.eqb (length r1) (length r2)) then Panic AssertFailed else
      Ok (map (fun p => let '(r1, r2) := p in
                        (* zip: the tail of r1 beyond r2 stays unchanged *)
                        zipmul r1 r2 ++ skipn (length r2) r1)
              (combine m1 m2))
  | _, _ => Panic IndexOutOfBounds
  end.
