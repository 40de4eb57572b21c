(** Properties C19, C20, C21, C53: graph separation boosting and naive aggregation. *)
From Verif Require Import Base Spec Utils UtilsProofs WMajority WMajorityProofs Booster AdaBoost AdaBoostProofs AdaBoostMain AdaBoostMore GraphSpec GraphSep GraphSepFacts.
Open Scope R_scope.


(** ** C21: what a naive aggregation answers, on any instance (of the training sample or not) *)

Theorem C21_naive_aggregation_recall :
  forall (H X : Type) (conf : H -> X -> R) (row : nat -> X) (y : list R) (hs : list H) (x : X),
  let c := na_confidence conf (na_new conf row y hs) x in
  (c = 1 <-> exists i, (i < length y)%nat /\ 0 < nth i y 0 /\ pattern conf hs (row i) = pattern conf hs x) /\
  (c = 1 \/ c = -1).
Proof. exact P_C21_naive_aggregation_recall. Qed.
Print Assumptions C21_naive_aggregation_recall.

(** ** C20: the distribution shown to the weak learner *)

Theorem C20_graphsep_distribution :
  forall (H X : Type) (conf : H -> X -> R) (row : nat -> X) (y : list R) (produce : nat -> list R -> H) (s : gs) (fuel : nat) tr k,
  trace_of (run (graphsep conf row y produce) fuel s) = tr -> (k < length tr)%nat ->
  exists P, (forall i j, P i j = true <-> unseparated conf row y (answers produce (firstn k tr)) i j) /\
    (0 < n_pairs (length y) P)%nat /\
    nth k tr [] = map (fun i => INR (count (P i) (seq 0 (length y))) / INR (n_pairs (length y) P)) (seq 0 (length y)) /\
    is_dist (nth k tr []).
Proof. exact P_C20_graphsep_distribution. Qed.
Print Assumptions C20_graphsep_distribution.

(** ... and zero training error once no opposite-label pair is left unseparated *)
Theorem C20_graphsep_zero_error :
  forall (H X : Type) (conf : H -> X -> R) (row : nat -> X) (y : list R) (produce : nat -> list R -> H) (s : gs) (fuel : nat) tr f,
  run (graphsep conf row y produce) fuel s = Finished tr f ->
  (forall i, (i < length y)%nat -> pm1 (nth i y 0)) ->
  (forall i j, (i < length y)%nat -> (j < length y)%nat -> ~ unseparated conf row y (answers produce tr) i j) ->
  forall i, (i < length y)%nat -> na_confidence conf f (row i) = nth i y 0.
Proof. exact P_C20_graphsep_zero_error. Qed.
Print Assumptions C20_graphsep_zero_error.

(** how a run can end: everything is separated, or the last hypothesis separated nothing new *)
Theorem C20_graphsep_end :
  forall (H X : Type) (conf : H -> X -> R) (row : nat -> X) (y : list R) (produce : nat -> list R -> H) (s : gs) (fuel : nat) tr f,
  run (graphsep conf row y produce) fuel s = Finished tr f ->
  na_hypotheses f = answers produce tr /\
  ((forall i j, (i < length y)%nat -> (j < length y)%nat -> ~ unseparated conf row y (answers produce tr) i j) \/
   (exists tr0 d, tr = tr0 ++ [d] /\
      forall i j, (i < length y)%nat -> (j < length y)%nat ->
        unseparated conf row y (answers produce tr0) i j -> unseparated conf row y (answers produce tr) i j)).
Proof. exact P_C20_graphsep_end. Qed.
Print Assumptions C20_graphsep_end.

(** ** C19: termination, whatever the weak learner does *)

Theorem C19_graphsep_terminates :
  forall (H X : Type) (conf : H -> X -> R) (row : nat -> X) (y : list R) (produce : nat -> list R -> H) (s : gs) (fuel : nat),
  let n := length y in
  (length (trace_of (run (graphsep conf row y produce) fuel s)) <= n * n)%nat /\
  (is_valid_binary_instance y = Ok tt -> (n * n < fuel)%nat ->
   exists tr f, run (graphsep conf row y produce) fuel s = Finished tr f).
Proof. exact P_C19_graphsep_terminates. Qed.
Print Assumptions C19_graphsep_terminates.

(** every round but the last strictly decreases the number of unseparated pairs *)
Theorem C19_graphsep_strict_progress :
  forall (H X : Type) (conf : H -> X -> R) (row : nat -> X) (y : list R) (produce : nat -> list R -> H) (s : gs) (fuel : nat) tr k a b,
  trace_of (run (graphsep conf row y produce) fuel s) = tr -> (S k < length tr)%nat ->
  count_unseparated conf row y (answers produce (firstn k tr)) a ->
  count_unseparated conf row y (answers produce (firstn (S k) tr)) b ->
  (b < a)%nat.
Proof. exact P_C19_graphsep_strict_progress. Qed.
Print Assumptions C19_graphsep_strict_progress.

(** ** C53: with a weak learner of edge at least g, at most 1 + 2 ln(n)/g rounds and zero training error *)

Theorem C53_graphsep_rate :
  forall (H X : Type) (conf : H -> X -> R) (row : nat -> X) (y : list R) (produce : nat -> list R -> H) (s : gs) (fuel : nat) (g : R),
  0 < g -> is_valid_binary_instance y = Ok tt ->
  (forall i, (i < length y)%nat -> pm1 (nth i y 0)) ->
  (length y * length y < fuel)%nat ->
  let queries := trace_of (run (graphsep conf row y produce) fuel s) in
  (forall k, (k < length queries)%nat ->
     g <= edge_of y (nth k queries []) (fun i => label conf (produce (S k) (nth k queries [])) (row i))) ->
  exists tr f, run (graphsep conf row y produce) fuel s = Finished tr f /\
    INR (length tr) <= 1 + 2 * ln (INR (length y)) / g /\
    forall i, (i < length y)%nat -> na_confidence conf f (row i) = nth i y 0.
Proof. exact P_C53_graphsep_rate. Qed.
Print Assumptions C53_graphsep_rate.

Example C53_nonvacuous :
  let conf := fun (h : nat -> R) (x : nat) => h x in
  let produce := fun (_ : nat) (_ : list R) (x : nat) => nth x y2 0 in
  forall k, let queries := trace_of (run (graphsep conf (fun i => i) y2 produce) 5 gs_init) in
  (k < length queries)%nat ->
  1 <= edge_of y2 (nth k queries []) (fun i => label conf (produce (S k) (nth k queries [])) i).
Proof.
  intros conf produce k queries Hk.
  destruct (P_C20_graphsep_distribution _ _ conf (fun i => i) y2 produce gs_init 5 queries k eq_refl Hk) as [P [_ [_ [E [_ Hs]]]]].
  set (d := nth k queries []) in *.
  assert (Hl : length d = 2%nat) by (rewrite E, map_length, seq_length; reflexivity).
  destruct d as [|a [|b [|c d]]]; simpl in Hl; try lia. simpl in Hs.
  unfold edge_of, label, sign_label, conf, produce, y2. simpl.
  destruct (Rle_dec 0 1); [|lra]. destruct (Rle_dec 0 (-1)); lra.
Qed.

Example C53_run_asks : trace_of (run (graphsep (fun (h : nat -> R) (x : nat) => h x) (fun i => i) y2 (fun _ _ x => nth x y2 0)) 5 gs_init) <> [].
Proof.
  change 5%nat with (S 4)%nat. generalize 4%nat as fu. intros fu. unfold run. simpl b_pre. unfold gs_pre. rewrite y2_valid. cbn [bind].
  set (e := pair_loop _ _ _ _).
  assert (Ee : e = [[1%nat]; [0%nat]]).
  { unfold e, pair_loop. change (pairs (length y2)) with [(0%nat, 1%nat)]. cbn [fold_left fst snd nth y2]. rewrite Reqb_false by lra. reflexivity. }
  rewrite Ee. cbn [run_from graphsep b_boost]. unfold gs_boost. cbn [gs_n_edges edge_total list_sum map length fold_right Nat.add Nat.eqb].
  match goal with |- context[gs_update ?a ?b ?c ?d ?e] => set (u := gs_update a b c d e) end.
  change (fold_right Nat.add 0%nat [1%nat; 1%nat]) with 2%nat. cbn [Nat.eqb].
  intros X.
  match type of X with context[if ?c then _ else _] => destruct c end.
  - cbn in X. discriminate.
  - match type of X with trace_of (run_from ?b ?f ?t ?tr ?s) = _ => destruct (run_from_prefix b f t tr s) as [l E] end.
    rewrite E in X. discriminate.
Qed.
