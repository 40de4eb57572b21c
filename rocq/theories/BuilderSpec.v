(** Specification vocabulary for configuration (C67): a chain of builder calls, and the value a setting ends up with. *)
From Verif Require Import Base.

(** the argument of the last call that [pick] selects, and [d] if no call is selected *)
Definition last_set {A B} (pick : A -> option B) (d : B) (calls : list A) : B :=
  fold_left (fun v c => match pick c with Some b => b | None => v end) calls d.
(** the last call of its kind counts: what the definition above says, as two equations *)
Lemma last_set_default {A B} (pick : A -> option B) d calls : (forall c, In c calls -> pick c = None) -> last_set pick d calls = d.
Proof.
  unfold last_set. revert d. induction calls as [|c calls IH]; intros d Hn; [reflexivity|]. simpl. rewrite (Hn c (or_introl eq_refl)). apply IH. intros c' H'. apply Hn. right. exact H'.
Qed.
Lemma last_set_last {A B} (pick : A -> option B) d before c b after : pick c = Some b -> (forall c', In c' after -> pick c' = None) -> last_set pick d (before ++ c :: after) = b.
Proof.
  intros E Hn. unfold last_set. rewrite fold_left_app. simpl. rewrite E. apply (last_set_default pick b after Hn).
Qed.
