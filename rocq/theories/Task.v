(** Model of src/common/task.rs. *)
From Verif Require Import Base AdaBoost.
Open Scope R_scope.

(** task.rs:5-13 *)
Inductive task := Binary | MultiClass (n_class : nat) | Regression.

(** task.rs:36-49 [binarize] *)
Definition binarize (y : list R) : res R :=
  match y with
  | [y0] => Ok (1 - 2 * y0)
  | [y0; y1] => Ok (if Rltb y1 y0 then - y0 else y1)
  | _ => Panic AssertFailed
  end.

(** Iterator::max_by: the last of the maximal elements; [best] is the index and value so far *)
Fixpoint last_max (k best : nat) (v : R) (l : list R) : nat :=
  match l with
  | [] => best
  | x :: t => if Rleb v x then last_max (S k) k x t else last_max (S k) best v t
  end.

(** task.rs:53-64 [discretize] *)
Definition discretize (y : list R) (n_class : nat) : res R :=
  let* _ := assert_ (Nat.eqb (length y) n_class) in
  match y with
  | [] => Panic UnwrapNone
  | x :: t => Ok (INR (last_max 1 0 x t))
  end.

(** task.rs:69-76 [vectorize] *)
Definition vectorize (y : R) (n_class : nat) : res (list R) :=
  if Nat.eqb n_class 1 then Ok [y] else
  let k := if Rleb y 0 then 0%nat else as_usize y in
  if Nat.ltb k n_class then Ok (upd k 1 (repeat 0 n_class)) else Panic IndexOutOfBounds.
