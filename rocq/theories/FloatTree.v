(** The decision tree learner (src/weak_learner/decision_tree/) with the weights of the examples in binary64 arithmetic.
    The feature values, the bins, the thresholds and the targets stay exact real numbers, as in DTree.v: what is examined
    here is the arithmetic on the weights.
    [sched] computes the sum of a list of numbers in some order and some association: the sums over the values of a hash map
    run in the order of the map, the sums of rayon in the order of its schedule.
    [order] is the iteration order of a hash map, [fln] is f64::ln of the platform. *)
From Coq Require Import ZArith List Bool Reals String.
From Flocq Require Import Core.Core IEEE754.BinarySingleNaN.
From Verif Require Import Base Feature Sample Bins DTree Float.
Import ListNotations.
Open Scope R_scope.

Definition f_of_Z (z : Z) : f64 := binary_normalize 53 1024 eq_refl eq_refl mode_NE z 0 false.
Definition f2 : f64 := f_of_Z 2.
Definition fopp (x : f64) : f64 := Bopp x.
(** f64::max: a NaN argument is ignored *)
Definition f_max (a b : f64) : f64 := if is_nan a then b else if is_nan b then a else if flt a b then b else a.
(** f64::clamp(-1.0, 1.0) *)
Definition f_clamp1 (x : f64) : f64 := if flt x (f_of_Z (-1)) then f_of_Z (-1) else if flt f1 x then f1 else x.

(** common/type_and_struct.rs:8: LabelToWeight; entry(z).or_insert(0.0) += w *)
Definition flw := list (Z * f64).
Fixpoint f_lw_add (m : flw) (z : Z) (w : f64) : flw :=
  match m with
  | [] => [(z, fadd f0 w)]
  | (z', v) :: t => if Z.eqb z' z then (z', fadd v w) :: t else (z', v) :: f_lw_add t z w
  end.
Definition f_lw_get (m : flw) (z : Z) : option f64 :=
  match find (fun p => Z.eqb (fst p) z) m with Some p => Some (snd p) | None => None end.
Definition f_lw_set (m : flw) (z : Z) (w : f64) : flw := map (fun p => if Z.eqb (fst p) z then (fst p, w) else p) m.
Definition f_lw_remove (m : flw) (z : Z) : flw := filter (fun p => negb (Z.eqb (fst p) z)) m.
Definition f_or0 (o : option f64) : f64 := match o with Some x => x | None => f0 end.

(** slice indexing *)
Definition f_get (l : list f64) (i : nat) : res f64 := match nth_error l i with Some x => Ok x | None => Panic IndexOutOfBounds end.

Section Arithmetic.
  Variable sched : list f64 -> f64.
  Variable order : flw -> flw.
  Variable fln : f64 -> f64.

  (** decision_tree/bin.rs:191-209 (body of the loop) *)
  Definition f_dt_add (y : list R) (dist : list f64) (i : nat) (p : flw) : res flw :=
    let* yi := get_ y i in
    let* di := f_get dist i in
    Ok (f_lw_add p (as_int 32 yi) di).

  (** bin.rs:181-289 [pack], [remove_zero_weight_pack_and_normalize] *)
  Definition f_dt_pack (bins : list bin) (idx : list nat) (f : feature) (y : list R) (dist : list f64) : res (list (bin * flw)) :=
    let* packs := pack_loop (f_dt_add y dist) [] bins f idx (repeat [] (List.length bins)) in
    let total := sched (map (fun m : flw => sched (map snd m)) packs) in
    let* _ := assert_ (flt f0 total) in
    let* out := remove_empty is_nil bins packs in
    Ok (map (fun bp : bin * flw => (fst bp, order (map (fun zw => (fst zw, fdiv (snd zw) total)) (snd bp)))) out).

  (** criterion.rs:228-256 [split_by_edge] *)
  Definition f_pack_edge (m : flw) : f64 := sched (map (fun zw => fmul (f_of_Z (fst zw)) (snd zw)) m).
  Fixpoint f_edge_loop (pack : list (bin * flw)) (edge best : f64) (thr : R) : R * f64 :=
    match pack with
    | [] => (thr, best)
    | (b, m) :: t =>
        let edge := fsub edge (fmul f2 (f_pack_edge m)) in
        if flt best (fabs edge) then f_edge_loop t edge (fabs edge) (b_end b) else f_edge_loop t edge best thr
    end.
  Definition f_split_by_edge (pack : list (bin * flw)) : R * f64 :=
    let edge := sched (map (fun bp => f_pack_edge (snd bp)) pack) in
    f_edge_loop pack edge (fabs edge) F64MIN.

  (** criterion.rs:359-372 [entropic_impurity] *)
  Definition f_entropic_impurity (m : flw) : f64 :=
    let total := sched (map snd m) in
    if orb (fle total f0) (is_nil m) then f0 else
    sched (map (fun zw => let r := fdiv (snd zw) total in if fle r f0 then f0 else fmul (fopp r) (fln r)) m).

  (** criterion.rs:373-382 [gini_impurity] *)
  Definition f_gini_impurity (m : flw) : f64 :=
    let total := sched (map snd m) in
    if orb (fle total f0) (is_nil m) then f0 else
    f_max (fsub f1 (sched (map (fun zw => let r := fdiv (snd zw) total in fmul r r) m))) f0.

  (** criterion.rs:187-193, 269-275, 311-318: all the weight on the right *)
  Definition f_lw_merge (m : flw) (l : flw) : flw := fold_left (fun m zw => f_lw_add m (fst zw) (snd zw)) l m.
  Definition f_all_right (pack : list (bin * flw)) : flw := fold_left (fun m bp => f_lw_merge m (snd bp)) pack [].

  (** criterion.rs:199-206 and 280-289; [drop]: entries that are no longer positive are removed (gini) *)
  Fixpoint f_move_loop (drop : bool) (l lft rgt : flw) (lsum : f64) : res (flw * flw * f64) :=
    match l with
    | [] => Ok (lft, rgt, lsum)
    | (z, w) :: t =>
        match f_lw_get rgt z with
        | None => Panic UnwrapNone
        | Some v =>
            let rgt' := if andb drop (fle (fsub v w) f0) then f_lw_remove rgt z else f_lw_set rgt z (fsub v w) in
            f_move_loop drop t (f_lw_add lft z w) rgt' (fadd lsum w)
        end
    end.

  (** criterion.rs:198-223 and 279-304 *)
  Fixpoint f_impurity_loop (drop : bool) (imp : flw -> f64) (weight_sum : f64) (pack : list (bin * flw)) (lft rgt : flw) (lsum best : f64) (thr : R) : res (R * f64) :=
    match pack with
    | [] => Ok (thr, best)
    | (b, m) :: t =>
        let* s := f_move_loop drop m lft rgt lsum in
        let '(lft, rgt, lsum) := s in
        let lp := fdiv lsum weight_sum in
        let rp := f_max (fsub f1 lp) f0 in
        let score := fadd (fmul lp (imp lft)) (fmul rp (imp rgt)) in
        if flt score best then f_impurity_loop drop imp weight_sum t lft rgt lsum score (b_end b)
        else f_impurity_loop drop imp weight_sum t lft rgt lsum best thr
    end.
  Definition f_split_by_impurity (drop : bool) (imp : flw -> f64) (pack : list (bin * flw)) : res (R * f64) :=
    let weight_sum := sched (map (fun bp => sched (map snd (snd bp))) pack) in
    let rgt := f_all_right pack in
    f_impurity_loop drop imp weight_sum pack [] rgt f0 (imp rgt) F64MIN.
  (** criterion.rs:174-225 and 258-306 *)
  Definition f_split_by_entropy : list (bin * flw) -> res (R * f64) := f_split_by_impurity false f_entropic_impurity.
  Definition f_split_by_gini : list (bin * flw) -> res (R * f64) := f_split_by_impurity true f_gini_impurity.

  (** criterion.rs:387-410 [twoing_score]; powi(2) is one multiplication *)
  Definition f_sq (x : f64) : f64 := fmul x x.
  Definition f_twoing_score (labels : list Z) (lft rgt : flw) : res f64 :=
    let pl := sched (map snd lft) in
    let pr := sched (map snd rgt) in
    let pt := fadd pl pr in
    if orb (feq pl f0) (feq pr f0) then Ok f0 else
    let* _ := assert_ (flt f0 pt) in
    let score := sched (map (fun z => fabs (fsub (fdiv (f_or0 (f_lw_get lft z)) pl) (fdiv (f_or0 (f_lw_get rgt z)) pr))) labels) in
    Ok (fdiv (fmul (fmul (f_sq score) pl) pr) (f_sq (fmul f2 pt))).

  (** criterion.rs:328-337; the entry tested before the removal is the one on the left *)
  Fixpoint f_twoing_move (l lft rgt : flw) : flw * flw :=
    match l with
    | [] => (lft, rgt)
    | (z, w) :: t =>
        let lft := f_lw_add lft z w in
        let rgt := match f_lw_get rgt z with Some v => f_lw_set rgt z (fsub v w) | None => rgt end in
        let rgt := if fle (f_or0 (f_lw_get lft z)) f0 then f_lw_remove rgt z else rgt in
        f_twoing_move t lft rgt
    end.
  Fixpoint f_twoing_loop (labels : list Z) (pack : list (bin * flw)) (lft rgt : flw) (best : f64) (thr : R) : res (R * f64) :=
    match pack with
    | [] => Ok (thr, best)
    | (b, m) :: t =>
        let '(lft, rgt) := f_twoing_move m lft rgt in
        let* score := f_twoing_score labels lft rgt in
        if flt best score then f_twoing_loop labels t lft rgt score (b_end b) else f_twoing_loop labels t lft rgt best thr
    end.
  (** criterion.rs:308-352 [split_by_twoing] *)
  Definition f_split_by_twoing (pack : list (bin * flw)) : res (R * f64) :=
    let rgt := f_all_right pack in
    f_twoing_loop (map fst rgt) pack [] rgt f0 F64MIN.

  Definition f_split_by (c : criterion) (pack : list (bin * flw)) : res (R * f64) :=
    match c with
    | Entropy => f_split_by_entropy pack
    | Edge => Ok (f_split_by_edge pack)
    | Gini => f_split_by_gini pack
    | Twoing => f_split_by_twoing pack
    end.

  (** criterion.rs:108-166: evaluate every feature, in the order of the columns *)
  Fixpoint f_eval_features (c : criterion) (bm : list (string * list bin)) (y : list R) (dist : list f64) (idx : list nat) (fs : list feature) : res (list (f64 * string * R)) :=
    match fs with
    | [] => Ok []
    | f :: rest =>
        let* bins := sm_get bm (feat_name f) in
        let* pack := f_dt_pack bins idx f y dist in
        let* ts := f_split_by c pack in
        let* r := f_eval_features c bm y dist idx rest in
        Ok ((snd ts, feat_name f, fst ts) :: r)
    end.

  (** rayon min_by keeps the first of the minimal elements, max_by the last of the maximal ones *)
  Fixpoint f_pick_min (best : f64 * string * R) (l : list (f64 * string * R)) : f64 * string * R :=
    match l with [] => best | x :: t => f_pick_min (if flt (fst (fst x)) (fst (fst best)) then x else best) t end.
  Fixpoint f_pick_max (best : f64 * string * R) (l : list (f64 * string * R)) : f64 * string * R :=
    match l with [] => best | x :: t => f_pick_max (if flt (fst (fst x)) (fst (fst best)) then best else x) t end.

  (** criterion.rs:104-167 [best_split]; with at least two features every score is compared with another one, and
      partial_cmp(..).unwrap() panics on NaN *)
  Definition f_best_split (c : criterion) (bm : list (string * list bin)) (s : sample) (dist : list f64) (idx : list nat) : res (string * R) :=
    let* l := f_eval_features c bm (s_target s) dist idx (s_features s) in
    match l with
    | [] => Panic UnwrapNone
    | x :: t =>
        if andb (negb (is_nil t)) (existsb (fun q => is_nan (fst (fst q))) l) then Panic UnwrapNone else
        let '(_, nm, thr) := match c with Entropy | Gini => f_pick_min x t | Edge | Twoing => f_pick_max x t end in
        Ok (nm, thr)
    end.

  (** train_node.rs:19-91 *)
  Inductive f_train_node :=
  | FTLeaf (conf total loss : f64)
  | FTBranch (rule : splitter) (l r : f_train_node) (conf total loss : f64).

  (** decision_tree_algorithm.rs:231-268 [confidence_and_loss] *)
  Fixpoint f_count_labels (y : list R) (dist : list f64) (idx : list nat) (m : flw) : res flw :=
    match idx with
    | [] => Ok m
    | i :: rest =>
        let* yi := get_ y i in
        let* di := f_get dist i in
        f_count_labels y dist rest (f_lw_add m (as_int 64 yi) di)
    end.
  Fixpoint f_max_entry (best : Z * f64) (l : flw) : Z * f64 :=
    match l with [] => best | x :: t => f_max_entry (if flt (snd x) (snd best) then best else x) t end.
  Definition f_confidence_and_loss (y : list R) (dist : list f64) (idx : list nat) : res (f64 * f64) :=
    let* _ := assert_ (negb (is_nil idx)) in
    let* counter := f_count_labels y dist idx [] in
    let total := sched (map snd counter) in
    match order counter with
    | [] => Panic UnwrapNone
    | x :: t =>
        if andb (negb (is_nil t)) (existsb (fun q => is_nan (snd q)) (x :: t)) then Panic UnwrapNone else
        let '(label, p) := f_max_entry x t in
        let loss := if flt f0 total then fmul total (fsub f1 (fdiv p total)) else f0 in
        let conf := if flt f0 total then f_clamp1 (fmul (f_of_Z label) (fsub (fmul f2 (fdiv p total)) f1)) else f_clamp1 (f_of_Z label) in
        Ok (conf, loss)
    end.

  Fixpoint f_weights_at (dist : list f64) (idx : list nat) : res (list f64) :=
    match idx with
    | [] => Ok []
    | i :: rest => let* d := f_get dist i in let* r := f_weights_at dist rest in Ok (d :: r)
    end.

  (** decision_tree_algorithm.rs:97-158 [full_tree] *)
  Fixpoint f_full_tree (c : criterion) (bm : list (string * list bin)) (s : sample) (dist : list f64) (depth : nat) (idx : list nat) : res f_train_node :=
    let* ws := f_weights_at dist idx in
    let total := sched ws in
    let* cl := f_confidence_and_loss (s_target s) dist idx in
    let '(conf, loss) := cl in
    match depth with
    | O => Ok (FTLeaf conf total loss)
    | S depth' =>
        if feq loss f0 then Ok (FTLeaf conf total loss) else
        let* ft := f_best_split c bm s dist idx in
        let rule := mkSplitter (fst ft) (snd ft) in
        let* lr := partition_rows rule s idx in
        if orb (is_nil (fst lr)) (is_nil (snd lr)) then Ok (FTLeaf conf total loss) else
        let* l := f_full_tree c bm s dist depth' (fst lr) in
        let* r := f_full_tree c bm s dist depth' (snd lr) in
        Ok (FTBranch rule l r conf total loss)
    end.

  (** train_node.rs:62-68, 80-87, 173-226 [remove_redundant_nodes] *)
  Definition f_node_cost (t : f_train_node) : f64 := match t with FTLeaf _ w l => fmul l w | FTBranch _ _ _ _ w l => fmul l w end.
  Definition f_is_leaf (t : f_train_node) : bool := match t with FTLeaf _ _ _ => true | _ => false end.
  Fixpoint f_remove_redundant (t : f_train_node) : f_train_node :=
    match t with
    | FTLeaf _ _ _ => t
    | FTBranch rule l r conf w loss =>
        if negb (f_is_leaf l) then FTBranch rule (f_remove_redundant l) r conf w loss
        else if negb (f_is_leaf r) then FTBranch rule l (f_remove_redundant r) conf w loss
        else if feq (fmul loss w) (fadd (f_node_cost l) (f_node_cost r)) then FTLeaf conf w loss
        else FTBranch rule (f_remove_redundant l) (f_remove_redundant r) conf w loss
    end.

  (** node.rs:16-110 *)
  Inductive f_node :=
  | FLf (conf : f64)
  | FBr (rule : splitter) (l r : f_node).
  Fixpoint f_to_node (t : f_train_node) : f_node :=
    match t with FTLeaf c _ _ => FLf c | FTBranch rule l r _ _ _ => FBr rule (f_to_node l) (f_to_node r) end.

  (** node.rs:113-143, decision_tree_classifier.rs:29-33 [Classifier::confidence] *)
  Fixpoint f_node_confidence (t : f_node) (s : sample) (row : nat) : res f64 :=
    match t with
    | FLf c => Ok c
    | FBr rule l r => let* b := split_left rule s row in if b then f_node_confidence l s row else f_node_confidence r s row
    end.

  (** decision_tree_algorithm.rs:189-220 [produce]; dist[i] panics out of range *)
  Definition f_positive_rows (n : nat) (dist : list f64) : res (list nat) :=
    if Nat.leb n (List.length dist) then Ok (filter (fun i => flt f0 (nth i dist f0)) (seq 0 n)) else Panic IndexOutOfBounds.
  Definition f_dt_produce (t : dtree) (s : sample) (dist : list f64) : res f_node :=
    let* idx := f_positive_rows (fst (shape s)) dist in
    let* _ := assert_ (negb (is_nil idx)) in
    let* tree := f_full_tree (dt_criterion t) (dt_bins t) s dist (dt_depth t) idx in
    Ok (f_to_node (f_remove_redundant tree)).
End Arithmetic.
