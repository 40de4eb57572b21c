(** Specification vocabulary for bins and trees (C24-C29). *)
From Verif Require Import Base Spec Feature Bins.
Open Scope R_scope.

(** contiguous, ordered, non-degenerate intervals from s to e *)
Fixpoint chain (s e : R) (l : list bin) : Prop :=
  match l with
  | [] => s = e
  | b :: t => b_start b = s /\ b_start b < b_end b /\ chain (b_end b) e t
  end.
Definition in_bin (b : bin) (x : R) : Prop := b_start b <= x < b_end b.
(** exactly one bin holds x *)
Definition one_bin (l : list bin) (x : R) : Prop :=
  exists k, (k < length l)%nat /\ in_bin (nth k l (mkBin 0 0)) x /\ forall j, (j < length l)%nat -> in_bin (nth j l (mkBin 0 0)) x -> j = k.

(** the values of a column that are stored: what [cut] looks at *)
Definition stored (f : feature) : list R := match f with Dense _ v => v | Sparse _ e _ => map snd e end.
Definition finite_f64 (x : R) : Prop := F64MIN <= x <= F64MAX.
(** away from the ends of the f64 range *)
Definition moderate (x : R) : Prop := Rabs x <= F64MAX - 1.
(** the smallest and largest value in a column (a sparse column holds 0 on the rows without entry) *)
Definition spans (f : feature) (mn mx : R) : Prop :=
  let all := match f with Dense _ v => v | Sparse _ e n => map snd e ++ (if Nat.ltb (length e) n then [0] else []) end in
  In mn all /\ In mx all /\ forall x, In x all -> mn <= x <= mx.
(** width of the bins *)
Definition bin_width (mn mx : R) (n : nat) : R := (if Req_EM_T mn mx then / 500 else mx - mn) / INR n.
