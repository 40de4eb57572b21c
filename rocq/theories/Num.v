(** f64::ceil followed by a cast to usize. *)
From Verif Require Import Base AdaBoost AdaBoostMore.
Open Scope R_scope.

(** [x.ceil() as usize] for a finite x (no saturation at usize::MAX, as for [as_usize]) *)
Definition ceil_usize (x : R) : nat := Z.to_nat (- Int_part (- x)).

Lemma ceil_usize_ge x : x <= INR (ceil_usize x).
Proof.
  unfold ceil_usize. destruct (base_Int_part (- x)) as [B1 B2].
  rewrite INR_IZR_INZ. assert (IZR (- Int_part (- x)) <= IZR (Z.of_nat (Z.to_nat (- Int_part (- x))))) by (apply IZR_le; lia).
  rewrite opp_IZR in H. lra.
Qed.

Lemma ceil_usize_lt x : 0 <= x -> INR (ceil_usize x) < x + 1.
Proof.
  intros Hx. unfold ceil_usize. destruct (base_Int_part (- x)) as [B1 B2].
  assert (Hz : (0 <= - Int_part (- x))%Z).
  { assert (IZR (Int_part (- x)) <= 0) by lra. apply le_IZR in H. lia. }
  rewrite INR_IZR_INZ, Z2Nat.id by exact Hz. rewrite opp_IZR. lra.
Qed.

Lemma ceil_usize_least x k : x <= INR k -> (ceil_usize x <= k)%nat.
Proof.
  intros Hk. unfold ceil_usize. destruct (base_Int_part (- x)) as [B1 B2].
  assert (L : IZR (- Int_part (- x)) < IZR (Z.of_nat k + 1)).
  { rewrite opp_IZR, plus_IZR, <- INR_IZR_INZ. lra. }
  apply lt_IZR in L. lia.
Qed.

Lemma ceil_usize_pos x : 0 < x -> (0 < ceil_usize x)%nat.
Proof. intros Hx. pose proof (ceil_usize_ge x). apply INR_lt. simpl. lra. Qed.
