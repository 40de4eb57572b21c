(** Model of src/weak_learner/decision_tree/ (bin.rs pack, criterion.rs, decision_tree_algorithm.rs, train_node.rs,
    node.rs, decision_tree_classifier.rs, builder.rs) and of src/weak_learner/common/split_rule.rs.
    Real arithmetic is exact.  The names of the features are Coq strings; the reference counting (Rc/RefCell) of the
    training nodes is not modelled: trees are values. *)
From Coq Require Import String.
From Verif Require Import Base Feature Sample Bins.
From Verif Require Export Cast.
Open Scope R_scope.

(** common/type_and_struct.rs:8: LabelToWeight = HashMap<i32, f64>, an association list with pairwise different keys;
    its order stands for the unspecified iteration order.  entry(z).or_insert(0.0) += w *)
Definition lw := list (Z * R).
Fixpoint lw_add (m : lw) (z : Z) (w : R) : lw :=
  match m with
  | [] => [(z, 0 + w)]
  | (z', v) :: t => if Z.eqb z' z then (z', v + w) :: t else (z', v) :: lw_add t z w
  end.
Definition lw_get (m : lw) (z : Z) : option R :=
  match find (fun p => Z.eqb (fst p) z) m with Some p => Some (snd p) | None => None end.
Definition lw_set (m : lw) (z : Z) (w : R) : lw := map (fun p => if Z.eqb (fst p) z then (fst p, w) else p) m.
Definition lw_remove (m : lw) (z : Z) : lw := filter (fun p => negb (Z.eqb (fst p) z)) m.
Definition lw_total (m : lw) : R := rsum (map snd m).

(** decision_tree/bin.rs:191-209 (body of the loop) *)
Definition dt_add (y dist : list R) (i : nat) (p : lw) : res lw :=
  let* yi := get_ y i in
  let* di := get_ dist i in
  Ok (lw_add p (as_int 32 yi) di).

Definition is_nil {A} (l : list A) : bool := match l with [] => true | _ => false end.

(** bin.rs:181-289 [pack], [remove_zero_weight_pack_and_normalize] *)
Definition dt_pack (bins : list bin) (idx : list nat) (f : feature) (y dist : list R) : res (list (bin * lw)) :=
  let* packs := pack_loop (dt_add y dist) [] bins f idx (repeat [] (length bins)) in
  let total := rsum (map lw_total packs) in
  let* _ := assert_ (Rltb 0 total) in
  let* out := remove_empty is_nil bins packs in
  Ok (map (fun bp => (fst bp, map (fun zw => (fst zw, snd zw / total)) (snd bp))) out).

(** criterion.rs:73-85 *)
Inductive criterion := Entropy | Edge | Gini | Twoing.

(** criterion.rs:228-256 [split_by_edge] *)
Definition pack_edge (m : lw) : R := rsum (map (fun zw => IZR (fst zw) * snd zw) m).
Fixpoint edge_loop (pack : list (bin * lw)) (edge best thr : R) : R * R :=
  match pack with
  | [] => (thr, best)
  | (b, m) :: t =>
      let edge := edge - 2 * pack_edge m in
      if Rltb best (Rabs edge) then edge_loop t edge (Rabs edge) (b_end b) else edge_loop t edge best thr
  end.
Definition split_by_edge (pack : list (bin * lw)) : R * R :=
  let edge := rsum (map (fun bp => pack_edge (snd bp)) pack) in
  edge_loop pack edge (Rabs edge) F64MIN.

(** criterion.rs:359-372 [entropic_impurity] *)
Definition entropic_impurity (m : lw) : R :=
  let total := lw_total m in
  if orb (Rleb total 0) (is_nil m) then 0 else
  rsum (map (fun zw => let r := snd zw / total in if Rleb r 0 then 0 else - r * ln r) m).

(** criterion.rs:373-382 [gini_impurity] *)
Definition gini_impurity (m : lw) : R :=
  let total := lw_total m in
  if orb (Rleb total 0) (is_nil m) then 0 else
  Rmax (1 - rsum (map (fun zw => (snd zw / total) ^ 2) m)) 0.

(** criterion.rs:187-193, 269-275, 311-318: all the weight on the right *)
Definition lw_merge (m : lw) (l : lw) : lw := fold_left (fun m zw => lw_add m (fst zw) (snd zw)) l m.
Definition all_right (pack : list (bin * lw)) : lw := fold_left (fun m bp => lw_merge m (snd bp)) pack [].

(** criterion.rs:199-206 and 280-289: move one bin from the right to the left; get_mut(..).unwrap() panics if the label
    is not on the right.  [drop]: whether an entry that is no longer positive is removed (gini) *)
Fixpoint move_loop (drop : bool) (l lft rgt : lw) (lsum : R) : res (lw * lw * R) :=
  match l with
  | [] => Ok (lft, rgt, lsum)
  | (z, w) :: t =>
      match lw_get rgt z with
      | None => Panic UnwrapNone
      | Some v =>
          let rgt' := if andb drop (Rleb (v - w) 0) then lw_remove rgt z else lw_set rgt z (v - w) in
          move_loop drop t (lw_add lft z w) rgt' (lsum + w)
      end
  end.

(** criterion.rs:198-223 and 279-304 *)
Fixpoint impurity_loop (drop : bool) (imp : lw -> R) (weight_sum : R) (pack : list (bin * lw)) (lft rgt : lw) (lsum best thr : R) : res (R * R) :=
  match pack with
  | [] => Ok (thr, best)
  | (b, m) :: t =>
      let* s := move_loop drop m lft rgt lsum in
      let '(lft, rgt, lsum) := s in
      let lp := lsum / weight_sum in
      let rp := Rmax (1 - lp) 0 in
      let score := lp * imp lft + rp * imp rgt in
      if Rltb score best then impurity_loop drop imp weight_sum t lft rgt lsum score (b_end b)
      else impurity_loop drop imp weight_sum t lft rgt lsum best thr
  end.
Definition split_by_impurity (drop : bool) (imp : lw -> R) (pack : list (bin * lw)) : res (R * R) :=
  let weight_sum := rsum (map (fun bp => lw_total (snd bp)) pack) in
  let rgt := all_right pack in
  impurity_loop drop imp weight_sum pack [] rgt 0 (imp rgt) F64MIN.

(** criterion.rs:174-225 and 258-306 *)
Definition split_by_entropy (pack : list (bin * lw)) : res (R * R) := split_by_impurity false entropic_impurity pack.
Definition split_by_gini (pack : list (bin * lw)) : res (R * R) := split_by_impurity true gini_impurity pack.

(** criterion.rs:387-410 [twoing_score] *)
Definition or0 (o : option R) : R := match o with Some x => x | None => 0 end.
Definition twoing_score (labels : list Z) (lft rgt : lw) : res R :=
  let pl := lw_total lft in
  let pr := lw_total rgt in
  let pt := pl + pr in
  if orb (Reqb pl 0) (Reqb pr 0) then Ok 0 else
  let* _ := assert_ (Rltb 0 pt) in
  let score := rsum (map (fun z => Rabs (or0 (lw_get lft z) / pl - or0 (lw_get rgt z) / pr)) labels) in
  Ok (score ^ 2 * pl * pr / (2 * pt) ^ 2).

(** criterion.rs:328-337; the entry tested before the removal is the one on the left *)
Fixpoint twoing_move (l lft rgt : lw) : lw * lw :=
  match l with
  | [] => (lft, rgt)
  | (z, w) :: t =>
      let lft := lw_add lft z w in
      let rgt := match lw_get rgt z with Some v => lw_set rgt z (v - w) | None => rgt end in
      let rgt := if Rleb (or0 (lw_get lft z)) 0 then lw_remove rgt z else rgt in
      twoing_move t lft rgt
  end.
Fixpoint twoing_loop (labels : list Z) (pack : list (bin * lw)) (lft rgt : lw) (best thr : R) : res (R * R) :=
  match pack with
  | [] => Ok (thr, best)
  | (b, m) :: t =>
      let '(lft, rgt) := twoing_move m lft rgt in
      let* score := twoing_score labels lft rgt in
      if Rltb best score then twoing_loop labels t lft rgt score (b_end b) else twoing_loop labels t lft rgt best thr
  end.
(** criterion.rs:308-352 [split_by_twoing] *)
Definition split_by_twoing (pack : list (bin * lw)) : res (R * R) :=
  let rgt := all_right pack in
  twoing_loop (map fst rgt) pack [] rgt 0 F64MIN.

Definition split_by (c : criterion) (pack : list (bin * lw)) : res (R * R) :=
  match c with
  | Entropy => split_by_entropy pack
  | Edge => Ok (split_by_edge pack)
  | Gini => split_by_gini pack
  | Twoing => split_by_twoing pack
  end.

(** HashMap<&str, V> collected from the features: for equal names the later one wins *)
Definition sm_get {V} (m : list (string * V)) (nm : string) : res V :=
  match find (fun p => String.eqb (fst p) nm) (rev m) with Some p => Ok (snd p) | None => Panic UnwrapNone end.

(** criterion.rs:108-166: evaluate every feature, in the order of the columns *)
Fixpoint eval_features (c : criterion) (bm : list (string * list bin)) (y dist : list R) (idx : list nat) (fs : list feature) : res (list (R * string * R)) :=
  match fs with
  | [] => Ok []
  | f :: rest =>
      let* bins := sm_get bm (feat_name f) in
      let* pack := dt_pack bins idx f y dist in
      let* ts := split_by c pack in
      let* r := eval_features c bm y dist idx rest in
      Ok ((snd ts, feat_name f, fst ts) :: r)
  end.

(** rayon min_by keeps the first of the minimal elements, max_by the last of the maximal ones; expect panics on none *)
Fixpoint pick_min (best : R * string * R) (l : list (R * string * R)) : R * string * R :=
  match l with [] => best | x :: t => pick_min (if Rltb (fst (fst x)) (fst (fst best)) then x else best) t end.
Fixpoint pick_max (best : R * string * R) (l : list (R * string * R)) : R * string * R :=
  match l with [] => best | x :: t => pick_max (if Rltb (fst (fst x)) (fst (fst best)) then best else x) t end.

(** criterion.rs:104-167 [best_split] *)
Definition best_split (c : criterion) (bm : list (string * list bin)) (s : sample) (dist : list R) (idx : list nat) : res (string * R) :=
  let* l := eval_features c bm (s_target s) dist idx (s_features s) in
  match l with
  | [] => Panic UnwrapNone
  | x :: t =>
      let '(_, nm, thr) := match c with Entropy | Gini => pick_min x t | Edge | Twoing => pick_max x t end in
      Ok (nm, thr)
  end.

(** common/split_rule.rs:14-43: true = Left *)
Record splitter := mkSplitter { sp_feature : string; sp_threshold : R }.
Definition split_left (r : splitter) (s : sample) (row : nat) : res bool :=
  let* f := by_name s (sp_feature r) in
  let* v := feat_index f row in
  Ok (Rltb v (sp_threshold r)).

(** train_node.rs:19-91 (the leaf count is not used by the learner and not modelled) *)
Inductive train_node :=
| TLeaf (conf total loss : R)
| TBranch (rule : splitter) (l r : train_node) (conf total loss : R).

(** decision_tree_algorithm.rs:134-141 *)
Fixpoint partition_rows (rule : splitter) (s : sample) (idx : list nat) : res (list nat * list nat) :=
  match idx with
  | [] => Ok ([], [])
  | i :: rest =>
      let* b := split_left rule s i in
      let* lr := partition_rows rule s rest in
      Ok (if b then (i :: fst lr, snd lr) else (fst lr, i :: snd lr))
  end.

(** decision_tree_algorithm.rs:231-268 [confidence_and_loss].  [order] is the iteration order of the hash map of the
    counters: max_by keeps the last maximal entry, so ties are broken by the order *)
Fixpoint count_labels (y dist : list R) (idx : list nat) (m : lw) : res lw :=
  match idx with
  | [] => Ok m
  | i :: rest =>
      let* yi := get_ y i in
      let* di := get_ dist i in
      count_labels y dist rest (lw_add m (as_int 64 yi) di)
  end.
Fixpoint max_entry (best : Z * R) (l : lw) : Z * R :=
  match l with [] => best | x :: t => max_entry (if Rltb (snd x) (snd best) then best else x) t end.
Definition confidence_and_loss (order : lw -> lw) (y dist : list R) (idx : list nat) : res (R * R) :=
  let* _ := assert_ (negb (is_nil idx)) in
  let* counter := count_labels y dist idx [] in
  let total := lw_total counter in
  match order counter with
  | [] => Panic UnwrapNone
  | x :: t =>
      let '(label, p) := max_entry x t in
      let loss := if Rltb 0 total then total * (1 - p / total) else 0 in
      let conf := if Rltb 0 total then rclamp (-1) 1 (IZR label * (2 * (p / total) - 1)) else rclamp (-1) 1 (IZR label) in
      Ok (conf, loss)
  end.

Fixpoint sum_at (dist : list R) (idx : list nat) : res R :=
  match idx with
  | [] => Ok 0
  | i :: rest => let* d := get_ dist i in let* r := sum_at dist rest in Ok (d + r)
  end.

(** decision_tree_algorithm.rs:97-158 [full_tree] *)
Fixpoint full_tree (order : lw -> lw) (c : criterion) (bm : list (string * list bin)) (s : sample) (dist : list R) (depth : nat) (idx : list nat) : res train_node :=
  let* total := sum_at dist idx in
  let* cl := confidence_and_loss order (s_target s) dist idx in
  let '(conf, loss) := cl in
  match depth with
  | O => Ok (TLeaf conf total loss)
  | S depth' =>
      if Reqb loss 0 then Ok (TLeaf conf total loss) else
      let* ft := best_split c bm s dist idx in
      let rule := mkSplitter (fst ft) (snd ft) in
      let* lr := partition_rows rule s idx in
      if orb (is_nil (fst lr)) (is_nil (snd lr)) then Ok (TLeaf conf total loss) else
      let* l := full_tree order c bm s dist depth' (fst lr) in
      let* r := full_tree order c bm s dist depth' (snd lr) in
      Ok (TBranch rule l r conf total loss)
  end.

(** train_node.rs:62-68, 80-87, 173-181 *)
Definition node_cost (t : train_node) : R :=
  match t with TLeaf _ w l => l * w | TBranch _ _ _ _ w l => l * w end.
Definition is_leaf (t : train_node) : bool := match t with TLeaf _ _ _ => true | _ => false end.

(** train_node.rs:184-226 [remove_redundant_nodes] *)
Fixpoint remove_redundant (t : train_node) : train_node :=
  match t with
  | TLeaf _ _ _ => t
  | TBranch rule l r conf w loss =>
      if negb (is_leaf l) then TBranch rule (remove_redundant l) r conf w loss
      else if negb (is_leaf r) then TBranch rule l (remove_redundant r) conf w loss
      else if Reqb (loss * w) (node_cost l + node_cost r) then TLeaf conf w loss
      else TBranch rule (remove_redundant l) (remove_redundant r) conf w loss
  end.

(** node.rs:16-110 *)
Inductive node :=
| Leaf (conf : R)
| Branch (rule : splitter) (l r : node).
Fixpoint to_node (t : train_node) : node :=
  match t with TLeaf c _ _ => Leaf c | TBranch rule l r _ _ _ => Branch rule (to_node l) (to_node r) end.

(** node.rs:113-143, train_node.rs:229-258, decision_tree_classifier.rs:29-33 [Classifier::confidence] *)
Fixpoint node_confidence (t : node) (s : sample) (row : nat) : res R :=
  match t with
  | Leaf c => Ok c
  | Branch rule l r => let* b := split_left rule s row in if b then node_confidence l s row else node_confidence r s row
  end.
Fixpoint train_confidence (t : train_node) (s : sample) (row : nat) : res R :=
  match t with
  | TLeaf c _ _ => Ok c
  | TBranch rule l r _ _ _ => let* b := split_left rule s row in if b then train_confidence l s row else train_confidence r s row
  end.

(** decision_tree_algorithm.rs:189-220 [produce]; dist[i] panics out of range *)
Definition positive_rows (n : nat) (dist : list R) : res (list nat) :=
  if Nat.leb n (length dist) then Ok (filter (fun i => Rltb 0 (nth i dist 0)) (seq 0 n)) else Panic IndexOutOfBounds.

Record dtree := mkDTree { dt_bins : list (string * list bin); dt_criterion : criterion; dt_depth : nat }.

Definition dt_produce (order : lw -> lw) (t : dtree) (s : sample) (dist : list R) : res node :=
  let* idx := positive_rows (fst (shape s)) dist in
  let* _ := assert_ (negb (is_nil idx)) in
  let* tree := full_tree order (dt_criterion t) (dt_bins t) s dist (dt_depth t) idx in
  Ok (to_node (remove_redundant tree)).

(** builder.rs:28-118 *)
Record dt_builder := mkDTB { tb_nbins : list (string * nat); tb_depth : nat; tb_criterion : criterion }.
Definition tb_new (s : sample) : dt_builder :=
  mkDTB (map (fun f => (feat_name f, Nat.min (distinct_value_count f) 255)) (s_features s)) 2 Entropy.
Definition tb_max_depth (b : dt_builder) (d : nat) : res dt_builder :=
  let* _ := assert_ (Nat.ltb 0 d) in Ok (mkDTB (tb_nbins b) d (tb_criterion b)).
Definition tb_set_criterion (b : dt_builder) (c : criterion) : dt_builder := mkDTB (tb_nbins b) (tb_depth b) c.
Definition tb_set_nbins (b : dt_builder) (nm : string) (n : nat) : res dt_builder :=
  let* _ := sm_get (tb_nbins b) nm in
  Ok (mkDTB (map (fun p => if String.eqb (fst p) nm then (fst p, n) else p) (tb_nbins b)) (tb_depth b) (tb_criterion b)).

Fixpoint cut_all (nb : list (string * nat)) (fs : list feature) : res (list (string * list bin)) :=
  match fs with
  | [] => Ok []
  | f :: rest =>
      let* n := sm_get nb (feat_name f) in
      let* b := cut f n in
      let* r := cut_all nb rest in
      Ok ((feat_name f, b) :: r)
  end.
Definition tb_build (b : dt_builder) (s : sample) : res dtree :=
  let* bins := cut_all (tb_nbins b) (s_features s) in
  Ok (mkDTree bins (tb_criterion b) (tb_depth b)).

(** the builders a user can make for a sample *)
Inductive dt_made (s : sample) : dt_builder -> Prop :=
| dm_new : dt_made s (tb_new s)
| dm_depth : forall b d b', dt_made s b -> tb_max_depth b d = Ok b' -> dt_made s b'
| dm_criterion : forall b c, dt_made s b -> dt_made s (tb_set_criterion b c)
| dm_nbins : forall b nm n b', dt_made s b -> tb_set_nbins b nm n = Ok b' -> dt_made s b'.
