(** * C105: the line search of Frank-Wolfe in binary64: it ends, finds the best step, and keeps the weights in [0,1] *)
From Coq Require Import ZArith List Bool Reals Lia Lra Psatz.
From Verif Require Import Base Spec Float FloatSpec FloatProofs FloatFacts FloatCheckFacts FloatProjectProofs FloatTree FloatMada FloatMadaProofs FloatRounds FrankWolfe FrankWolfeProofs FloatFW FloatFWSpec FloatFWProofs FloatFWFacts FloatLine FloatLineSpec FloatLineProofs FloatLineFacts.
Open Scope R_scope.


(** ** C105: the search over [0, w] ends after at most thirty evaluations of the gradient, whatever they give, with a step in [0, w] *)

Theorem C105_search_ends :
  forall (grad : f64 -> res f64) (w : f64) (fuel : nat), finite_num w -> 0 <= val w <= 1 -> (30 <= fuel)%nat ->
  f_bisect fuel grad f0 w = f_bisect 30 grad f0 w /\
  (forall p, f_bisect 30 grad f0 w = Panic p -> exists s, finite_num s /\ 0 <= val s <= val w /\ grad s = Panic p) /\
  (forall s, f_bisect 30 grad f0 w = Ok s -> finite_num s /\ 0 <= val s <= val w).
Proof. exact P_C105_search_ends. Qed.
Print Assumptions C105_search_ends.

(** ** C105: it finds the best step when the computed gradient has the right sign away from it *)

Theorem C105_search_finds :
  forall (grad : f64 -> res f64) (w s : f64) (fuel : nat) (best slack : R), finite_num w -> 0 <= val w <= 1 -> 0 <= slack -> 0 <= best <= val w ->
  right_sign grad best slack -> f_bisect fuel grad f0 w = Ok s ->
  Rabs (val s - best) <= slack + / 1000000000 * (1 + / 2 ^ 49).
Proof. exact P_C105_search_finds. Qed.
Print Assumptions C105_search_finds.

(** ** C105: the line-search update, whatever the inner products: never refused, the weights stay in [0,1], and they are the exact weights of
    the step found up to 2^-49 *)

Theorem C105_line_search_update :
  forall (fuel : nat) (full : f64) (grad : f64 -> res f64) (k : nat) (ws : list f64), (30 <= fuel)%nat -> never_panics grad -> unit_weights ws -> (k < length ws)%nat ->
  exists ws' s, f_fw_line_search fuel full grad k ws = Ok ws' /\ length ws' = length ws /\ unit_weights ws' /\ finite_num s /\ 0 <= val s <= 1 /\
    forall v, length v = length ws -> is_dist v -> INR (length ws) <= 2 ^ 30 -> distance ws v <= 1 / 2 ->
      exists v', interior_point (val s) k v = Ok v' /\ is_dist v' /\ distance ws' v' <= distance ws v + / 2 ^ 49.
Proof. exact P_C105_line_search_update. Qed.
Print Assumptions C105_line_search_update.

(** ** C105: the pairwise update moves weight from the worst hypothesis to the chosen one and to no other: at most what the worst one has,
    up to one rounding on each side; the full step of the search hands all of it to the newest hypothesis *)

Theorem C105_pairwise_update :
  forall (fuel : nat) (full : f64) (grad : f64 -> res f64) (loc worst k : nat) (ws : list f64), (30 <= fuel)%nat -> never_panics grad -> unit_weights ws ->
  (loc < length ws)%nat -> (worst < length ws)%nat -> (k < length ws)%nat -> loc <> worst -> k <> worst ->
  let w := nth worst ws f0 in let l := nth loc ws f0 in
  exists ws', f_fw_pairwise fuel full grad loc worst k ws = Ok ws' /\ length ws' = length ws /\
    (fle full f0 = true -> unit_weights ws' /\ nth worst ws' f0 = f0 /\ nth k ws' f0 = w /\ forall j, j <> worst -> j <> k -> nth j ws' f0 = nth j ws f0) /\
    (fle full f0 = false -> exists s, finite_num s /\ 0 <= val s <= val w /\
       finite_num (nth worst ws' f0) /\ 0 <= val (nth worst ws' f0) <= val w /\ Rabs (val (nth worst ws' f0) - (val w - val s)) <= / 2 ^ 53 /\
       finite_num (nth loc ws' f0) /\ val l <= val (nth loc ws' f0) /\ Rabs (val (nth loc ws' f0) - (val l + val s)) <= / 2 ^ 52 /\
       (forall j, j <> worst -> j <> loc -> nth j ws' f0 = nth j ws f0) /\ (val l + val w <= 1 -> unit_weights ws')).
Proof. exact P_C105_pairwise_update. Qed.
Print Assumptions C105_pairwise_update.

Example C105_nonvacuous : exists grad best, right_sign grad best 0 /\ never_panics grad /\ 0 <= best <= val f1 /\ (exists s, f_bisect 30 grad f0 f1 = Ok s) /\
  exists ws, unit_weights ws /\ length ws = 2%nat.
Proof. exact ex_C105. Qed.
