(** Properties C77, C78, C79: sums, checks and predictions in binary64. *)
From Coq Require Import ZArith List Bool Reals Lia Lra Psatz Permutation.
From Verif Require Import Base Float FloatSpec FloatProofs FloatFacts.
Open Scope R_scope.


(** ** C77: a parallel sum in binary64 is finite and, whatever way rayon splits the range, within
    ((1+u)^(n-1) - 1) times the sum of the absolute values of the exact sum (u = 2^-53) *)

Theorem C77_parallel_sum_error :
  forall t, let l := ftree_items t in finite_all l -> few (length l) -> size l < 2 ^ 1023 ->
  finite_num (ftree_sum t) /\ Rabs (val (ftree_sum t) - total l) <= gam (length l - 1) * size l.
Proof. exact P_C77_parallel_sum_error. Qed.
Print Assumptions C77_parallel_sum_error.

(** ** C77: so two schedules, even over differently ordered items, cannot be further apart than twice that *)

Theorem C77_schedules_close :
  forall t1 t2, let l := ftree_items t1 in Permutation l (ftree_items t2) -> finite_all l -> few (length l) -> size l < 2 ^ 1023 ->
  Rabs (val (ftree_sum t1) - val (ftree_sum t2)) <= 2 * (gam (length l - 1) * size l).
Proof. exact P_C77_schedules_close. Qed.
Print Assumptions C77_schedules_close.

(** ** C77: equality of the schedules, which holds in exact arithmetic (C44), fails in binary64: the same three
    numbers in the same order *)

Theorem C77_schedules_may_differ :
  exists t1 t2, ftree_items t1 = ftree_items t2 /\ finite_all (ftree_items t1) /\ feq (ftree_sum t1) (ftree_sum t2) = false.
Proof. exact P_C77_schedules_may_differ. Qed.
Print Assumptions C77_schedules_may_differ.

(** ** C77: the inner product (the edge of a hypothesis, the weighted sums of the boosters) in binary64, summed by any schedule *)

Theorem C77_inner_product_error :
  forall a b t, ftree_items t = f_products a b -> length a = length b -> finite_all a -> finite_all b -> few (length a) -> dot_size a b < 2 ^ 1022 ->
  finite_num (ftree_sum t) /\ Rabs (val (ftree_sum t) - dot_exact a b) <= gam (length a) * dot_size a b + INR (length a) * / 2 ^ 1074.
Proof. exact P_C77_inner_product_error. Qed.
Print Assumptions C77_inner_product_error.

(** ** C77: in particular for margins in [-1, 1] and weights that sum to at most 2: n terms cost at most n 2^-50 *)

Theorem C77_edge_error :
  forall margins dist t, ftree_items t = f_products margins dist -> length margins = length dist -> finite_all margins -> finite_all dist -> few (length margins) ->
  (forall m, In m margins -> Rabs (val m) <= 1) -> (forall d, In d dist -> 0 <= val d) -> total dist <= 2 ->
  finite_num (ftree_sum t) /\ Rabs (val (ftree_sum t) - dot_exact margins dist) <= INR (length margins) / 2 ^ 50.
Proof. exact P_C77_edge_error. Qed.
Print Assumptions C77_edge_error.

(** ** hypotheses met: three numbers, summed as 1 + (2^-53 + 2^-53) *)

Example C77_nonvacuous : let t := FNode (FLeaf [f1]) (FLeaf [f_half_ulp; f_half_ulp]) in
  finite_all (ftree_items t) /\ few (length (ftree_items t)) /\ length (ftree_items t) = 3%nat.
Proof. simpl. split; [intros x [<-|[<-|[<-|[]]]]; reflexivity|]. split; [unfold few; simpl; lra|reflexivity]. Qed.
