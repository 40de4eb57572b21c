(** Vocabulary for the Frank-Wolfe updates in binary64 arithmetic *)
From Coq Require Import ZArith List Bool Reals.
From Flocq Require Import Core.Core IEEE754.BinarySingleNaN.
From Verif Require Import Base Float FloatSpec FrankWolfe FloatFW.
Import ListNotations.
Open Scope R_scope.

(** what happens to the weights: a new hypothesis enters with weight zero, or a step towards hypothesis [k]; the step size is
    [s] for the program and [r] for the exact computation *)
Inductive fwmove := Enter | Towards (s : f64) (r : R) (k : nat).

Fixpoint f_history (l : list fwmove) (ws : list f64) : res (list f64) :=
  match l with
  | [] => Ok ws
  | Enter :: l => f_history l (ws ++ [f0])
  | Towards s _ k :: l => let* ws := f_interior_point s k ws in f_history l ws
  end.
Fixpoint exact_history (l : list fwmove) (ws : list R) : res (list R) :=
  match l with
  | [] => Ok ws
  | Enter :: l => exact_history l (ws ++ [0])
  | Towards _ r k :: l => let* ws := interior_point r k ws in exact_history l ws
  end.
Fixpoint steps_taken (l : list fwmove) : nat :=
  match l with [] => 0%nat | Enter :: l => steps_taken l | Towards _ _ _ :: l => S (steps_taken l) end.
(** the two step sizes agree up to a rounding *)
Definition steps_agree (l : list fwmove) : Prop :=
  forall s r k, In (Towards s r k) l -> finite_num s /\ 0 <= val s <= 1 /\ 0 <= r <= 1 /\ Rabs (val s - r) <= / 2 ^ 53.

(** every weight is a number in [0,1] *)
Definition unit_weights (ws : list f64) : Prop := forall w, In w ws -> finite_num w /\ 0 <= val w <= 1.
(** the sum of the distances of the weights to exact ones *)
Definition distance (ws : list f64) (v : list R) : R := rsum (map (fun p => Rabs (val (fst p) - snd p)) (combine ws v)).

(** the exact weights of a run with the classic rule *)
Fixpoint exact_classic_run (t : nat) (ps : list nat) (ws : list R) : res (list R) :=
  match ps with
  | [] => Ok ws
  | p :: ps =>
      let ws := if Nat.eqb p (length ws) then ws ++ [0] else ws in
      let* ws := fw_classic t p ws in
      exact_classic_run (S t) ps ws
  end.
(** positions as CERLPBoost finds them: among the [n] hypotheses so far, or a new one *)
Fixpoint positions_ok (n : nat) (ps : list nat) : Prop :=
  match ps with [] => True | p :: ps => (p <= n)%nat /\ positions_ok (if Nat.eqb p n then S n else n) ps end.
(** a NaN *)
Definition not_a_number (x : f64) : Prop := is_nan x = true.
