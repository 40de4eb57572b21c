(** Model of src/weak_learner/regression_tree/ (bin.rs pack, regression_tree_algorithm.rs, train_node.rs, node.rs,
    regression_tree_regressor.rs, builder.rs).  [Bins::cut], [Splitter] and the shape of the nodes are the same code as
    for the decision tree and are reused from Bins.v and DTree.v.  Real arithmetic is exact; the reference counting of
    the training nodes is not modelled. *)
From Coq Require Import String.
From Verif Require Import Base Feature Sample Bins DTree Losses.
Open Scope R_scope.

(** bin.rs:210-211: the sums of the gradients and of the hessians of a bin *)
Notation gh := (R * R)%type.
Definition rt_add (g h : list R) (i : nat) (p : gh) : res gh :=
  let* gi := get_ g i in
  let* hi := get_ h i in
  Ok (fst p + gi, snd p + hi).
(** bin.rs:250-258: a bin whose two sums are zero counts as empty *)
Definition gh_zero (p : gh) : bool := andb (Reqb (fst p) 0) (Reqb (snd p) 0).

(** bin.rs:187-214 [pack] and 234-288 [remove_zero_weight_pack_and_normalize] *)
Definition rt_pack (bins : list bin) (idx : list nat) (f : feature) (g h : list R) : res (list (bin * gh)) :=
  let* packs := pack_loop (rt_add g h) (0, 0) bins f idx (repeat (0, 0) (length bins)) in
  remove_empty gh_zero bins packs.

(** regression_tree_algorithm.rs:313-315: one term of the score.  None: the quotient is NaN (0/0); an infinite quotient
    is outside the model *)
Definition quot (a b : R) : res (option R) :=
  if Reqb b 0 then (if Reqb a 0 then Ok None else Panic NonFinite) else Ok (Some (a / b)).
Definition score_term (G H lambda : R) : res (option R) := quot (G ^ 2) (H + lambda).

(** regression_tree_algorithm.rs:306-320: the scan; a comparison with NaN is false *)
Fixpoint score_loop (lambda : R) (pack : list (bin * gh)) (GL HL GR HR best thr : R) : res (R * R) :=
  match pack with
  | [] => Ok (thr, best)
  | (b, p) :: t =>
      let GL := GL + fst p in
      let HL := HL + snd p in
      let GR := GR - fst p in
      let HR := HR - snd p in
      let* l := score_term GL HL lambda in
      let* r := score_term GR HR lambda in
      match l, r with
      | Some a, Some c => if Rltb best (a + c) then score_loop lambda t GL HL GR HR (a + c) (b_end b) else score_loop lambda t GL HL GR HR best thr
      | _, _ => score_loop lambda t GL HL GR HR best thr
      end
  end.
(** regression_tree_algorithm.rs:281-323 [best_split_at] *)
Definition best_split_at (pack : list (bin * gh)) (lambda : R) : res (R * R) :=
  score_loop lambda pack 0 0 (rsum (map (fun q => fst (snd q)) pack)) (rsum (map (fun q => snd (snd q)) pack)) F64MIN F64MIN.

(** regression_tree_algorithm.rs:260-273: every feature, in the order of the columns *)
Fixpoint rt_eval (bm : list (string * list bin)) (g h : list R) (idx : list nat) (lambda : R) (fs : list feature) : res (list (R * string * R)) :=
  match fs with
  | [] => Ok []
  | f :: rest =>
      let* bins := sm_get bm (feat_name f) in
      let* pack := rt_pack bins idx f g h in
      let* ts := best_split_at pack lambda in
      let* r := rt_eval bm g h idx lambda rest in
      Ok ((snd ts, feat_name f, fst ts) :: r)
  end.
(** regression_tree_algorithm.rs:250-276 [best_split]; max_by keeps the last of the maximal elements *)
Definition rt_best_split (bm : list (string * list bin)) (s : sample) (g h : list R) (idx : list nat) (lambda : R) : res (string * R) :=
  let* l := rt_eval bm g h idx lambda (s_features s) in
  match l with
  | [] => Panic UnwrapNone
  | x :: t => let '(_, nm, thr) := pick_max x t in Ok (nm, thr)
  end.

(** regression_tree_algorithm.rs:329-348 [prediction_and_loss]; a division by zero gives no finite number *)
Definition prediction_and_loss (idx : list nat) (g h : list R) (lambda : R) : res (R * R) :=
  let* G := sum_at g idx in
  let* H := sum_at h idx in
  if Reqb (H + lambda) 0 then Panic NonFinite else
  Ok (- G / (H + lambda), - (1 / 2) * G ^ 2 / (H + lambda)).

(** train_node.rs:19-110 (the leaf count is not used) *)
Inductive rt_node :=
| RLeaf (pred loss : R)
| RBranch (rule : splitter) (l r : rt_node) (pred loss : R).

(** regression_tree_algorithm.rs:99-150 [full_tree] *)
Fixpoint rt_full_tree (bm : list (string * list bin)) (s : sample) (g h : list R) (lambda : R) (max_depth : nat) (idx : list nat) : res rt_node :=
  let* pl := prediction_and_loss idx g h lambda in
  let '(pred, loss) := pl in
  match max_depth with
  | O => Ok (RLeaf pred loss)
  | S depth' =>
      if orb (Reqb loss 0) (Nat.leb max_depth 1) then Ok (RLeaf pred loss) else
      let* ft := rt_best_split bm s g h idx lambda in
      let rule := mkSplitter (fst ft) (snd ft) in
      let* lr := partition_rows rule s idx in
      if orb (is_nil (fst lr)) (is_nil (snd lr)) then Ok (RLeaf pred loss) else
      let* l := rt_full_tree bm s g h lambda depth' (fst lr) in
      let* r := rt_full_tree bm s g h lambda depth' (snd lr) in
      Ok (RBranch rule l r pred loss)
  end.

(** node.rs:74-118: the regressor; node.rs:121-150 and regression_tree_regressor.rs:33-37 [Regressor::predict] descend
    like the classifier does, so the model of the nodes and of the descent is the one of DTree.v *)
Fixpoint rt_to_node (t : rt_node) : node :=
  match t with RLeaf p _ => Leaf p | RBranch rule l r _ _ => Branch rule (rt_to_node l) (rt_to_node r) end.
Definition rt_predict : node -> sample -> nat -> res R := node_confidence.

Record rtree := mkRTree { rt_bins : list (string * list bin); rt_n : nat; rt_depth : nat; rt_lambda : R; rt_loss : gbm_loss }.

(** regression_tree_algorithm.rs:185-213 [produce] *)
Definition rt_produce (t : rtree) (s : sample) (predictions : list R) : res node :=
  let* g := gradient (rt_loss t) predictions (s_target s) in
  let* h := hessian (rt_loss t) predictions (s_target s) in
  let* tree := rt_full_tree (rt_bins t) s g h (rt_lambda t) (rt_depth t) (seq 0 (rt_n t)) in
  Ok (rt_to_node tree).

(** builder.rs:32-140.  The default of lambda_l2 is 0.01 *)
Record rt_builder := mkRTB { rb_nbins : list (string * nat); rb_depth : nat; rb_lambda : R; rb_loss : option gbm_loss }.
Definition rb_new (s : sample) : rt_builder :=
  mkRTB (map (fun f => (feat_name f, Nat.min (distinct_value_count f) 255)) (s_features s)) 2 (/ 100) None.
Definition rb_set_loss (b : rt_builder) (l : gbm_loss) : rt_builder := mkRTB (rb_nbins b) (rb_depth b) (rb_lambda b) (Some l).
Definition rb_lambda_l2 (b : rt_builder) (lambda : R) : rt_builder := mkRTB (rb_nbins b) (rb_depth b) lambda (rb_loss b).
Definition rb_max_depth (b : rt_builder) (d : nat) : res rt_builder :=
  let* _ := assert_ (Nat.ltb 0 d) in Ok (mkRTB (rb_nbins b) d (rb_lambda b) (rb_loss b)).
Definition rb_set_nbins (b : rt_builder) (nm : string) (n : nat) : res rt_builder :=
  let* _ := sm_get (rb_nbins b) nm in
  Ok (mkRTB (map (fun p => if String.eqb (fst p) nm then (fst p, n) else p) (rb_nbins b)) (rb_depth b) (rb_lambda b) (rb_loss b)).
Definition rb_build (b : rt_builder) (s : sample) : res rtree :=
  let* bins := cut_all (rb_nbins b) (s_features s) in
  match rb_loss b with
  | None => Panic UnwrapNone
  | Some l => Ok (mkRTree bins (fst (shape s)) (rb_depth b) (rb_lambda b) l)
  end.

(** the builders a user can make for a sample *)
Inductive rt_made (s : sample) : rt_builder -> Prop :=
| rm_new : rt_made s (rb_new s)
| rm_loss : forall b l, rt_made s b -> rt_made s (rb_set_loss b l)
| rm_lambda : forall b x, rt_made s b -> rt_made s (rb_lambda_l2 b x)
| rm_depth : forall b d b', rt_made s b -> rb_max_depth b d = Ok b' -> rt_made s b'
| rm_nbins : forall b nm n b', rt_made s b -> rb_set_nbins b nm n = Ok b' -> rt_made s b'.
