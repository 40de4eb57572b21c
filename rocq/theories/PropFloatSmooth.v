(** Property C98: SmoothBoost in binary64. *)
From Coq Require Import ZArith List Bool Reals Lia Lra Psatz Permutation.
From Verif Require Import Base Float FloatSpec FloatProofs FloatFacts FloatCheckFacts FloatVoteFacts FloatProjectProofs FloatEdge FloatEdgeSpec FloatEdgeFacts FloatMedian FloatMedianFacts FloatProjectFacts FloatAdaSpec FloatAdaRun FloatAdaFacts FloatBoostSpec FloatBoostFacts FloatSmooth FloatSmoothSpec FloatSmoothFacts.
Open Scope R_scope.


(** ** C98: the distribution handed to the weak learner: the rounds that go on use a distribution (up to rounding) none of whose entries exceeds 1/(kappa n) *)

Theorem C98_queries :
  forall fpow kappa gamma y hist m n, proper_pow fpow -> accepted kappa gamma -> / 2 ^ 900 <= val kappa -> (forall x, In x y -> f_label x) -> (1 <= length y)%nat -> INR (length y) <= 2 ^ 30 ->
  f_sb_run fpow bounded_conf kappa gamma y hist m n -> f_sb_stop kappa m = false ->
  let d := f_sb_dist m in length d = length y /\ (forall x, In x d -> finite_num x /\ 0 <= val x <= (1 + / 2 ^ 50) / (val kappa * INR (length y))) /\ Rabs (total d - 1) <= / 2 ^ 20.
Proof. exact P_C98_queries. Qed.
Print Assumptions C98_queries.

(** ** C98: the book-keeping of the margins: after T <= 2^24 rounds the quantity kept for a row is, up to (2 T^2 + 9 T) 2^-53, one plus the sum of its margins minus T theta *)

Theorem C98_margins :
  forall fpow kappa gamma y hist m n j, proper_pow fpow -> accepted kappa gamma -> (forall x, In x y -> f_label x) -> (j < length y)%nat ->
  f_sb_run fpow bounded_conf kappa gamma y hist m n -> INR (length hist) <= 2 ^ 24 ->
  finite_num (nth j n f0) /\ Rabs (val (nth j n f0) - (1 + margin_total y hist j - INR (length hist) * theta_of gamma)) <= slack (length hist).
Proof. exact P_C98_margins. Qed.
Print Assumptions C98_margins.

(** ** C98: when the run ends by itself, fewer than kappa n rows (up to rounding) have a total margin of at most T theta - 1 *)

Theorem C98_stop :
  forall fpow kappa gamma y hist m n, proper_pow fpow -> accepted kappa gamma -> / 2 ^ 900 <= val kappa -> (forall x, In x y -> f_label x) -> (1 <= length y)%nat -> INR (length y) <= 2 ^ 29 ->
  f_sb_run fpow bounded_conf kappa gamma y hist m n -> INR (length hist) <= 2 ^ 24 -> f_sb_stop kappa m = true ->
  INR (rows_with (length y) (margin_total y hist) (INR (length hist) * theta_of gamma - 1 - slack (length hist))) < val kappa * INR (length y) * (1 + / 2 ^ 52).
Proof. exact P_C98_stop. Qed.
Print Assumptions C98_stop.

(** ** C98: the training error: the vote returned by a run that ended by itself, with T <= n and T theta >= 2, is wrong on fewer than kappa n rows (up to rounding) *)

Theorem C98_training_error :
  forall fpow kappa gamma y hist m n, proper_pow fpow -> accepted kappa gamma -> / 2 ^ 900 <= val kappa -> (forall x, In x y -> f_label x) -> (1 <= length y)%nat -> INR (length y) <= 2 ^ 29 ->
  f_sb_run fpow bounded_conf kappa gamma y hist m n -> INR (length hist) <= 2 ^ 24 -> f_sb_stop kappa m = true -> (length hist <= length y)%nat -> 2 <= INR (length hist) * theta_of gamma ->
  exists v, f_sb_post (length hist) (length y) hist = Ok v /\ INR (mistakes y v) < val kappa * INR (length y) * (1 + / 2 ^ 52).
Proof. exact P_C98_training_error. Qed.
Print Assumptions C98_training_error.

(** ** C98: a correctly rounded power function satisfies what is assumed of it, and there is one *)

Theorem C98_correct_proper :
  forall fpow, correct_pow fpow -> proper_pow fpow.
Proof. exact P_C98_correct_proper. Qed.
Print Assumptions C98_correct_proper.

Theorem C98_platform :
  exists fpow, correct_pow fpow.
Proof. exact P_C98_platform. Qed.
Print Assumptions C98_platform.

(** ** hypotheses met: a run of twelve rounds on twelve rows that ends by itself, with a correctly rounded power function *)

Example C98_nonvacuous : exists fpow m n, proper_pow fpow /\ accepted sb_kappa sb_gamma /\ / 2 ^ 900 <= val sb_kappa /\ (forall x, In x (repeat f1 12) -> f_label x) /\
  f_sb_run fpow bounded_conf sb_kappa sb_gamma (repeat f1 12) (repeat (repeat f1 12) 12) m n /\ f_sb_stop sb_kappa m = true /\ 2 <= INR 12 * theta_of sb_gamma.
Proof. exact ex_C98. Qed.
