(** Property C78: the simplex check (common/checker.rs) in binary64. *)
From Coq Require Import ZArith List Bool Reals Lia Lra Psatz Permutation.
From Verif Require Import Base Float FloatSpec FloatProofs FloatFacts FloatCheckFacts.
Open Scope R_scope.


(** ** C78: a vector in the capped simplex, up to 9e-6 in the sum, passes the check in binary64 *)

Theorem C78_accepts :
  forall v nu, finite_all v -> finite_num nu -> INR (length v) <= 2 ^ 30 -> 1 <= val nu <= INR (length v) ->
  (forall x, In x v -> 0 <= val x <= / val nu) -> Rabs (total v - 1) <= 9 / 10 ^ 6 -> f_check_capped_simplex v nu = Ok tt.
Proof. exact P_C78_accepts. Qed.
Print Assumptions C78_accepts.

(** ** C78: it panics when the exact sum is off by 1.1e-5 *)

Theorem C78_rejects_sum :
  forall v nu, finite_all v -> INR (length v) <= 2 ^ 30 -> (forall x, In x v -> 0 <= val x) -> total v < 2 ^ 1022 -> 11 / 10 ^ 6 <= Rabs (total v - 1) ->
  f_check_capped_simplex v nu = Panic AssertFailed.
Proof. exact P_C78_rejects_sum. Qed.
Print Assumptions C78_rejects_sum.

(** ** C78: it panics when an entry is negative, or above 1/nu by more than two roundings *)

Theorem C78_rejects_entry :
  forall v nu x, In x v -> finite_num x -> finite_num nu -> 1 <= val nu <= 2 ^ 1000 ->
  (val x < 0 \/ / val nu * (1 + / 2 ^ 52) < val x) -> f_check_capped_simplex v nu = Panic AssertFailed.
Proof. exact P_C78_rejects_entry. Qed.
Print Assumptions C78_rejects_entry.

(** ** C78: the uniform distribution 1/n as the boosters compute it passes, for every admissible capping parameter *)

Theorem C78_uniform :
  forall n nu, (1 <= n)%nat -> INR n <= 2 ^ 30 -> finite_num nu -> 1 <= val nu <= INR n ->
  f_check_capped_simplex (repeat (fdiv f1 (f_of_usize n)) n) nu = Ok tt.
Proof. exact P_C78_uniform. Qed.
Print Assumptions C78_uniform.

(** ** hypotheses met: the uniform distribution on three examples; a vector whose sum is 2 *)

Example C78_nonvacuous : f_check_capped_simplex (repeat (fdiv f1 (f_of_usize 3)) 3) f1 = Ok tt /\ f_check_capped_simplex [f1; f1] f1 = Panic AssertFailed.
Proof. vm_compute. split; reflexivity. Qed.
