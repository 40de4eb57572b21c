(** The regression tree learner (src/weak_learner/regression_tree/) with gradients, hessians, scores and leaf values in binary64
    arithmetic.  The feature values, the bins and the thresholds stay exact real numbers, as in RTree.v.
    [sched] computes the sum of a list of numbers in some order and some association (the sums of rayon). *)
From Coq Require Import ZArith List Bool Reals String.
From Flocq Require Import Core.Core IEEE754.BinarySingleNaN.
From Verif Require Import Base Feature Sample Bins DTree Losses Float FloatTree.
Import ListNotations.
Open Scope R_scope.

(** common/loss_functions.rs:94-128 [gradient]; f64::signum of a zero is 1.0 with the sign of the zero, of a NaN it is NaN *)
Definition f_signum (x : f64) : f64 := if is_nan x then x else if Bsign x then f_of_Z (-1) else f1.
Definition f_gradient (l : gbm_loss) (predictions target : list f64) : res (list f64) :=
  let* _ := assert_ (Nat.eqb (List.length predictions) (List.length target)) in
  Ok (map (fun q => match l with L1 => f_signum (fsub (fst q) (snd q)) | L2 => fsub (snd q) (fst q) end) (combine target predictions)).
(** common/loss_functions.rs:130-156 [hessian] *)
Definition f_hessian (l : gbm_loss) (predictions target : list f64) : res (list f64) :=
  let* _ := assert_ (Nat.eqb (List.length predictions) (List.length target)) in
  Ok (repeat (match l with L1 => f0 | L2 => f1 end) (List.length predictions)).

(** regression_tree/bin.rs:196-211: the sums of the gradients and of the hessians of a bin *)
Definition f_rt_add (g h : list f64) (i : nat) (p : f64 * f64) : res (f64 * f64) :=
  let* gi := f_get g i in
  let* hi := f_get h i in
  Ok (fadd (fst p) gi, fadd (snd p) hi).
(** bin.rs:250-258: a bin whose two sums are zero counts as empty *)
Definition f_gh_zero (p : f64 * f64) : bool := andb (feq (fst p) f0) (feq (snd p) f0).
(** bin.rs:187-214 [pack] and 234-288 [remove_zero_weight_pack_and_normalize] *)
Definition f_rt_pack (bins : list bin) (idx : list nat) (f : feature) (g h : list f64) : res (list (bin * (f64 * f64))) :=
  let* packs := pack_loop (f_rt_add g h) (f0, f0) bins f idx (repeat (f0, f0) (List.length bins)) in
  remove_empty f_gh_zero bins packs.

(** regression_tree_algorithm.rs:313-315: one term of the score; powi(2) is one multiplication *)
Definition f_score_term (G H lambda : f64) : f64 := fdiv (fmul G G) (fadd H lambda).
(** f64::MIN *)
Definition f_MIN : f64 := binary_normalize 53 1024 eq_refl eq_refl mode_NE (- (2 ^ 53 - 1)) 971 false.
(** regression_tree_algorithm.rs:306-320: the scan; a comparison with NaN is false *)
Fixpoint f_score_loop (lambda : f64) (pack : list (bin * (f64 * f64))) (GL HL GR HR best : f64) (thr : R) : R * f64 :=
  match pack with
  | [] => (thr, best)
  | (b, p) :: t =>
      let GL := fadd GL (fst p) in
      let HL := fadd HL (snd p) in
      let GR := fsub GR (fst p) in
      let HR := fsub HR (snd p) in
      let score := fadd (f_score_term GL HL lambda) (f_score_term GR HR lambda) in
      if flt best score then f_score_loop lambda t GL HL GR HR score (b_end b) else f_score_loop lambda t GL HL GR HR best thr
  end.

Section Arithmetic.
  Variable sched : list f64 -> f64.

  (** regression_tree_algorithm.rs:281-323 [best_split_at] *)
  Definition f_best_split_at (pack : list (bin * (f64 * f64))) (lambda : f64) : R * f64 :=
    f_score_loop lambda pack f0 f0 (sched (map (fun q => fst (snd q)) pack)) (sched (map (fun q => snd (snd q)) pack)) f_MIN F64MIN.

  (** regression_tree_algorithm.rs:260-273: every feature, in the order of the columns *)
  Fixpoint f_rt_eval (bm : list (string * list bin)) (g h : list f64) (idx : list nat) (lambda : f64) (fs : list feature) : res (list (f64 * string * R)) :=
    match fs with
    | [] => Ok []
    | f :: rest =>
        let* bins := sm_get bm (feat_name f) in
        let* pack := f_rt_pack bins idx f g h in
        let ts := f_best_split_at pack lambda in
        let* r := f_rt_eval bm g h idx lambda rest in
        Ok ((snd ts, feat_name f, fst ts) :: r)
    end.
  (** regression_tree_algorithm.rs:250-276 [best_split]; max_by keeps the last of the maximal elements; with at least two features every
      score is compared with another one, and partial_cmp(..).unwrap() panics on NaN *)
  Definition f_rt_best_split (bm : list (string * list bin)) (s : sample) (g h : list f64) (idx : list nat) (lambda : f64) : res (string * R) :=
    let* l := f_rt_eval bm g h idx lambda (s_features s) in
    match l with
    | [] => Panic UnwrapNone
    | x :: t =>
        if andb (negb (is_nil t)) (existsb (fun q => is_nan (fst (fst q))) l) then Panic UnwrapNone else
        let '(_, nm, thr) := f_pick_max x t in Ok (nm, thr)
    end.

  (** regression_tree_algorithm.rs:329-348 [prediction_and_loss]: [- grad_sum / (hess_sum + lambda)] and
      [-0.5 * grad_sum.powi(2) / (hess_sum + lambda)], read from left to right *)
  Definition f_mhalf : f64 := binary_normalize 53 1024 eq_refl eq_refl mode_NE (-1) (-1) false.
  Definition f_prediction_and_loss (idx : list nat) (g h : list f64) (lambda : f64) : res (f64 * f64) :=
    let* gs := f_weights_at g idx in
    let* hs := f_weights_at h idx in
    let G := sched gs in
    let H := sched hs in
    Ok (fdiv (fopp G) (fadd H lambda), fdiv (fmul f_mhalf (fmul G G)) (fadd H lambda)).

  (** regression_tree_algorithm.rs:99-150 [full_tree], train_node.rs:19-110, node.rs:74-118: the predictions of the inner nodes and the
      losses do not reach the regressor, so the nodes of the regressor are built at once *)
  Fixpoint f_rt_full_tree (bm : list (string * list bin)) (s : sample) (g h : list f64) (lambda : f64) (max_depth : nat) (idx : list nat) : res f_node :=
    let* pl := f_prediction_and_loss idx g h lambda in
    let '(pred, loss) := pl in
    match max_depth with
    | O => Ok (FLf pred)
    | S depth' =>
        if orb (feq loss f0) (Nat.leb max_depth 1) then Ok (FLf pred) else
        let* ft := f_rt_best_split bm s g h idx lambda in
        let rule := mkSplitter (fst ft) (snd ft) in
        let* lr := partition_rows rule s idx in
        if orb (is_nil (fst lr)) (is_nil (snd lr)) then Ok (FLf pred) else
        let* l := f_rt_full_tree bm s g h lambda depth' (fst lr) in
        let* r := f_rt_full_tree bm s g h lambda depth' (snd lr) in
        Ok (FBr rule l r)
    end.

  (** regression_tree_algorithm.rs:185-213 [produce]; [y] is the target of the sample, [n], [depth], [lambda], [loss] the fields of the
      learner (regression_tree_algorithm.rs:60-95) *)
  Definition f_rt_produce (bm : list (string * list bin)) (n depth : nat) (lambda : f64) (loss : gbm_loss) (s : sample) (y predictions : list f64) : res f_node :=
    let* g := f_gradient loss predictions y in
    let* h := f_hessian loss predictions y in
    f_rt_full_tree bm s g h lambda depth (seq 0 n).
End Arithmetic.

(** regression_tree/node.rs:121-150, regression_tree_regressor.rs:33-37 [Regressor::predict]: the descent is the one of the classifier *)
Definition f_rt_predict : f_node -> sample -> nat -> res f64 := f_node_confidence.
