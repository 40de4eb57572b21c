(** Property C91: the projection onto the capped simplex (common/utils.rs) in binary64. *)
From Coq Require Import ZArith List Bool Reals Lia Lra Psatz Permutation.
From Verif Require Import Base SortLib Float FloatSpec FloatProofs FloatFacts FloatCheckFacts FloatProject FloatProjectSpec FloatProjectProofs FloatProjectMain ExpBounds ExpNum FloatProjectFacts.
Open Scope R_scope.


(** ** C91: without a cap, and with logarithms that are not enormous, the projection is the exponential distribution up to 2^-19 and never panics *)

Theorem C91_uncapped :
  forall fexp fln x M, accurate_exp fexp -> accurate_ln fln -> x <> [] -> (forall d, In d x -> finite_num d /\ Rabs (val d) <= M) -> INR (length x) * (M + 64) <= 2 ^ 30 ->
  exists dist, f_project fexp fln f1 x = Ok dist /\ length dist = length x /\
    forall i, (i < length x)%nat -> finite_num (nth i dist f0) /\ 0 <= val (nth i dist f0) <= 1 /\ Rabs (val (nth i dist f0) - softmax x i) <= / 2 ^ 19 * softmax x i + / 2 ^ 50.
Proof. exact P_C91_uncapped. Qed.
Print Assumptions C91_uncapped.

(** ** C91: whatever exp and ln return, a distribution that comes back lies in the capped simplex, up to the rounding of the cap and 1.1e-5 in the sum *)

Theorem C91_checked :
  forall fexp fln nu x dist, f_project fexp fln nu x = Ok dist -> INR (length dist) <= 2 ^ 30 ->
  finite_num nu /\ 1 <= val nu <= INR (length dist) /\ (forall d, In d dist -> finite_num d /\ 0 <= val d <= nearest64 (/ val nu)) /\ Rabs (total dist - 1) <= 11 / 10 ^ 6.
Proof. exact P_C91_checked. Qed.
Print Assumptions C91_checked.

(** ** C91: exp and ln that are correctly rounded are accurate, and there are such functions *)

Theorem C91_correct_accurate :
  forall fexp fln, correct_exp fexp -> correct_ln fln -> accurate_exp fexp /\ accurate_ln fln.
Proof. exact P_C91_correct_accurate. Qed.
Print Assumptions C91_correct_accurate.

Theorem C91_platform :
  exists fexp fln, correct_exp fexp /\ correct_ln fln.
Proof. exact P_C91_platform. Qed.
Print Assumptions C91_platform.

(** ** C91: with two equal logarithms of 2^53 the logarithm of the sum loses ln 2, the two weights are both about 1 and the check panics *)

Theorem C91_large_logs_refuted :
  forall fexp fln, accurate_exp fexp -> accurate_ln fln -> f_project fexp fln f1 [two53; two53] = Panic AssertFailed.
Proof. exact P_C91_large_logs_refuted. Qed.
Print Assumptions C91_large_logs_refuted.

(** ** C91: with correctly rounded exp and ln, a cap of 107/64 and the logarithms 0 and -3582009729985367/2^53 the first weight rounds above the cap and the check panics *)

Theorem C91_cap_refuted :
  forall fexp fln, correct_exp fexp -> correct_ln fln ->
  f_project fexp fln nu107 [f0; log43] = Panic AssertFailed.
Proof. exact P_C91_cap_refuted. Qed.
Print Assumptions C91_cap_refuted.

(** ** hypotheses met: three logarithms, with correctly rounded exp and ln; and the case of [P_C91_cap_refuted] is within the documented range 1 <= nu <= n *)

Example C91_nonvacuous : exists fexp fln dist, accurate_exp fexp /\ accurate_ln fln /\ f_project fexp fln f1 [f0; f1; f_of_usize 5] = Ok dist /\ length dist = 3%nat /\ 1 <= val nu107 <= INR (length [f0; log43]).
Proof.
  destruct P_C91_platform as [fexp [fln [C1 C2]]]. destruct (P_C91_correct_accurate fexp fln C1 C2) as [A1 A2].
  destruct f1_spec as [F1 V1]. destruct (of_usize_spec 5) as [F5 V5]; [simpl; lra|].
  destruct (P_C91_uncapped fexp fln [f0; f1; f_of_usize 5] 5 A1 A2) as [dist [D1 [D2 _]]]; [discriminate| |simpl; lra|].
  - intros d [<- |[<- |[<- |[]]]]; (split; [first [apply fin_f0|exact F1|exact F5]|]); [rewrite val_f0, Rabs_R0; lra|rewrite V1, Rabs_R1; lra|rewrite V5, Rabs_pos_eq; simpl; lra].
  - exists fexp, fln, dist. split; [exact A1|]. split; [exact A2|]. split; [exact D1|]. split; [exact D2|]. rewrite (proj2 nu107_spec). simpl. lra.
Qed.
