(** Property C79: the weighted vote and its predictions in binary64. *)
From Coq Require Import ZArith List Bool Reals Lia Lra Psatz Permutation.
From Verif Require Import Base Float FloatSpec FloatProofs FloatFacts FloatCheckFacts FloatVoteFacts.
Open Scope R_scope.


(** ** C79: the vote built by from_slices and evaluated in binary64 is close to the exact vote: n members cost at most
    (n+1) 2^-50 *)

Theorem C79_confidence_close :
  forall (H : Type) (conf : H -> f64) (ws : list f64) (hs : list H), let m := positive_members ws hs in
  finite_all ws -> (forall h, In h hs -> finite_num (conf h) /\ Rabs (val (conf h)) <= 1) -> m <> [] ->
  INR (length m) <= 2 ^ 40 -> rsum (map (fun p => val (fst p)) m) < 2 ^ 1022 ->
  exists v, f_from_slices ws hs = Ok v /\ snd v = map snd m /\ finite_num (f_confidence conf v) /\
    Rabs (val (f_confidence conf v) - exact_vote conf m) <= (INR (length m) + 1) / 2 ^ 50.
Proof. exact P_C79_confidence_close. Qed.
Print Assumptions C79_confidence_close.

(** ** C79: so unless the exact vote is within (n+1) 2^-50 of zero, the predicted label is the sign of the exact vote *)

Theorem C79_prediction_exact :
  forall (H : Type) (conf : H -> f64) (ws : list f64) (hs : list H), let m := positive_members ws hs in
  finite_all ws -> (forall h, In h hs -> finite_num (conf h) /\ Rabs (val (conf h)) <= 1) -> m <> [] ->
  INR (length m) <= 2 ^ 40 -> rsum (map (fun p => val (fst p)) m) < 2 ^ 1022 -> (INR (length m) + 1) / 2 ^ 50 < Rabs (exact_vote conf m) ->
  exists v, f_from_slices ws hs = Ok v /\ (0 < exact_vote conf m -> f_predict conf v = 1%Z) /\ (exact_vote conf m < 0 -> f_predict conf v = (-1)%Z).
Proof. exact P_C79_prediction_exact. Qed.
Print Assumptions C79_prediction_exact.

(** ** the bound cannot be dropped: a vote of three members whose exact value is negative and whose computed value is zero,
    so that the label +1 is predicted *)

Theorem C79_bound_needed :
  exists (conf : bool -> f64) (ws : list f64) (hs : list bool) v,
    finite_all ws /\ (forall h, finite_num (conf h) /\ Rabs (val (conf h)) = 1) /\ length ws = length hs /\ (forall w, In w ws -> 0 < val w) /\
    f_from_slices ws hs = Ok v /\ exact_vote conf (positive_members ws hs) < 0 /\ f_predict conf v = 1%Z.
Proof. exact P_C79_bound_needed. Qed.
Print Assumptions C79_bound_needed.

(** ** hypotheses met: two members that agree; the label is that of the exact vote *)

Example C79_nonvacuous : forall v, f_from_slices [f1; f1] [true; true] = Ok v -> exact_vote (fun _ : bool => f1) (positive_members [f1; f1] [true; true]) = 1.
Proof.
  intros v _. assert (L : flt f0 f1 = true) by (vm_compute; reflexivity). unfold exact_vote. rewrite <- members_filter by (intros x [<-|[<-|[]]]; apply f1_spec). cbn [combine filter fst]. rewrite L. cbn [map rsum fst snd]. rewrite (proj2 f1_spec). field.
Qed.
