(** Numeric casts of Rust (the language, not a file of /repo): [y as i32], [y as i64] truncate towards zero and saturate.
    Used by sample/sample_struct.rs:405-409 and weak_learner/decision_tree/bin.rs:191-209. *)
From Verif Require Import Base.
Open Scope R_scope.

(** truncation towards zero *)
Definition truncZ (y : R) : Z := if Rleb 0 y then Int_part y else (- Int_part (- y))%Z.
(** clamped to the range of a signed integer of [bits] bits *)
Definition as_int (bits : Z) (y : R) : Z := Z.max (- 2 ^ (bits - 1)) (Z.min (2 ^ (bits - 1) - 1) (truncZ y)).

Lemma Int_part_IZR z : Int_part (IZR z) = z.
Proof.
  unfold Int_part. rewrite <- (tech_up (IZR z) (z + 1)); [lia| |]; rewrite plus_IZR; lra.
Qed.
Lemma truncZ_IZR z : truncZ (IZR z) = z.
Proof. unfold truncZ. destruct (Rleb 0 (IZR z)); [apply Int_part_IZR|]. rewrite <- opp_IZR, Int_part_IZR. lia. Qed.
Lemma as_int_IZR b z : (- 2 ^ (b - 1) <= z < 2 ^ (b - 1))%Z -> as_int b (IZR z) = z.
Proof. intros H. unfold as_int. rewrite truncZ_IZR. lia. Qed.
