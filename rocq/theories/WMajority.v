(** Model of src/hypothesis/hypothesis_traits.rs and src/hypothesis/weighted_majority.rs. *)
From Verif Require Import Base Utils.
Open Scope R_scope.

(** hypothesis_traits.rs:15-18 default [Classifier::predict] (the i64 result +1/-1 is kept as a real) *)
Definition predict_of_confidence (c : R) : R := if Rleb 0 c then 1 else -1.

(** weighted_majority.rs:13-18 *)
Record wmajority (H : Type) := mkWM { wm_weights : list R; wm_hypotheses : list H }.
Arguments mkWM {H} _ _.
Arguments wm_weights {H} _.
Arguments wm_hypotheses {H} _.

Section WM.
  Context {H : Type}.

  (** weighted_majority.rs:28-36: the pairs that are kept *)
  Definition kept (ws : list R) (hs : list H) : list (R * H) :=
    filter (fun p => Rltb 0 (fst p)) (combine ws hs).

  (** weighted_majority.rs:24-41 [WeightedMajority::from_slices] *)
  Definition from_slices (ws : list R) (hs : list H) : res (wmajority H) :=
    let k := kept ws hs in
    let* nw := normalize (map fst k) in
    Ok (mkWM nw (map snd k)).

  (** weighted_majority.rs:47-50 [push] *)
  Definition wm_push (f : wmajority H) (w : R) (h : H) : wmajority H :=
    mkWM (wm_weights f ++ [w]) (wm_hypotheses f ++ [h]).

  (** weighted_majority.rs:55-57 [normalize] *)
  Definition wm_normalize (f : wmajority H) : res (wmajority H) :=
    let* nw := normalize (wm_weights f) in Ok (mkWM nw (wm_hypotheses f)).

  (** weighted_majority.rs:63-65 [decompose] *)
  Definition wm_decompose (f : wmajority H) : list R * list H := (wm_weights f, wm_hypotheses f).

  Variable conf : H -> nat -> R.

  (** weighted_majority.rs:72-78 [Classifier::confidence]; the same expression is
      [Regressor::predict] (lines 84-90) with the base prediction for [conf]. *)
  Definition wm_confidence (f : wmajority H) (row : nat) : R :=
    rsum (map (fun p => fst p * conf (snd p) row) (combine (wm_weights f) (wm_hypotheses f))).

  (** default [predict] on the combined hypothesis *)
  Definition wm_predict (f : wmajority H) (row : nat) : R := predict_of_confidence (wm_confidence f row).
End WM.
