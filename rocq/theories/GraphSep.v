(** Model of src/booster/graph_separation_boosting/graph_separation_algorithm.rs and
    src/hypothesis/naive_aggregation.rs. *)
From Verif Require Import Base Utils WMajority Booster AdaBoost.
Open Scope R_scope.

(** HashSet<usize> as a duplicate-free list; only membership and len() are observed by the code, so the
    iteration order of the hash set does not matter. *)
Definition set_insert (j : nat) (l : list nat) : list nat := if existsb (Nat.eqb j) l then l else j :: l.
Definition set_remove (j : nat) (l : list nat) : list nat := filter (fun k => negb (Nat.eqb k j)) l.

(** the index pairs of "for i in 0..n { for j in i+1..n { .. } }" in order *)
Definition pairs (n : nat) : list (nat * nat) :=
  flat_map (fun i => map (fun j => (i, j)) (seq (i + 1) (n - (i + 1)))) (seq 0 n).

(** edges[i].op(j); edges[j].op(i) *)
Definition both (op : nat -> list nat -> list nat) (e : list (list nat)) (p : nat * nat) : list (list nat) :=
  let '(i, j) := p in
  let e1 := upd i (op j (nth i e [])) e in
  upd j (op i (nth j e1 [])) e1.

(** the loop over all pairs which applies [both op] where [c i j] holds *)
Definition pair_loop (op : nat -> list nat -> list nat) (c : nat -> nat -> bool) (n : nat) (e : list (list nat))
  : list (list nat) :=
  fold_left (fun e p => if c (fst p) (snd p) then both op e p else e) (pairs n) e.

(** naive_aggregation.rs:39-48; bit sets as lists of booleans of the length of the capacity *)
Record naive_agg (H : Type) := mkNA { na_hypotheses : list H; na_prediction : list (list bool) }.
Arguments mkNA {H} _ _.
Arguments na_hypotheses {H} _.
Arguments na_prediction {H} _.

Section GraphSep.
  Context {H X : Type}.
  (** confidence of a hypothesis on an instance *)
  Variable conf : H -> X -> R.
  (** hypothesis_traits.rs:15-18 *)
  Definition pred (h : H) (x : X) : R := predict_of_confidence (conf h x).

  (** the instances and targets of the training sample *)
  Variable row : nat -> X.
  Variable y : list R.
  Variable produce : nat -> list R -> H.

  (** naive_aggregation.rs:57-84 [NaiveAggregation::new]: "bits.put(t) if h.predict(..) > 0" *)
  Definition na_bits_train (hs : list H) (x : X) : list bool := map (fun h => Rltb 0 (pred h x)) hs.
  Definition na_new (hs : list H) : naive_agg H :=
    let idx := map fst (filter (fun p => Rltb 0 (snd p)) (combine (seq 0 (length y)) y)) in
    mkNA hs (map (fun i => na_bits_train hs (row i)) idx).

  (** naive_aggregation.rs:110-123 [confidence]: "bits.put(t) if h.predict(..) == 1" *)
  Definition na_bits (hs : list H) (x : X) : list bool := map (fun h => Reqb (pred h x) 1) hs.
  Fixpoint bits_eqb (a b : list bool) : bool :=
    match a, b with
    | [], [] => true
    | x :: a', z :: b' => Bool.eqb x z && bits_eqb a' b'
    | _, _ => false
    end.
  Definition na_confidence (f : naive_agg H) (x : X) : R :=
    if existsb (fun p => bits_eqb p (na_bits (na_hypotheses f) x)) (na_prediction f) then 1 else -1.

  (** graph_separation_algorithm.rs:82-96 *)
  Record gs := mkGs { gs_edges : list (list nat); gs_hyps : list H; gs_n_edges : nat }.

  (** lines 104-111 [init]; usize::MAX for n_edges is overwritten by preprocess *)
  Definition gs_init : gs := mkGs [] [] 0.

  Definition edge_total (e : list (list nat)) : nat := list_sum (map (@length nat) e).

  (** lines 163-190 [preprocess] *)
  Definition gs_pre (s : gs) : res gs :=
    let* _ := is_valid_binary_instance y in
    let n := length y in
    let e := pair_loop set_insert (fun i j => negb (Reqb (nth i y 0) (nth j y 0))) n (repeat [] n) in
    Ok (mkGs e [] (edge_total e)).

  (** lines 127-141 [update_params] *)
  Definition gs_update (e : list (list nat)) (h : H) : list (list nat) :=
    pair_loop set_remove (fun i j => negb (Reqb (pred h (row i)) (pred h (row j)))) (length y) e.

  (** lines 193-227 [boost] *)
  Definition gs_boost (it : nat) (s : gs) : trace * res (gs * cflow) :=
    if Nat.eqb (gs_n_edges s) 0 then ([], Ok (s, Break it)) else
    let dist := map (fun e => INR (length e) / INR (gs_n_edges s)) (gs_edges s) in
    let h := produce it dist in
    let e' := gs_update (gs_edges s) h in
    let hyps' := gs_hyps s ++ [h] in
    let ne := edge_total e' in
    ([dist],
     if Nat.eqb (gs_n_edges s) ne then Ok (mkGs e' hyps' (gs_n_edges s), Break (it + 1))
     else Ok (mkGs e' hyps' ne, Continue)).

  (** lines 230-239 [postprocess] *)
  Definition gs_post (s : gs) : res (naive_agg H) := Ok (na_new (gs_hyps s)).

  Definition graphsep : booster gs (naive_agg H) := mkBooster gs_pre gs_boost gs_post.
End GraphSep.
