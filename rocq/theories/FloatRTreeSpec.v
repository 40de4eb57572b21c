(** Vocabulary for C101: regression trees that are right up to rounding *)
From Coq Require Import ZArith List Bool Reals String.
From Flocq Require Import Core.Core IEEE754.BinarySingleNaN.
From Verif Require Import Base Feature Sample Bins DTree TreeSpec TreeShape RTreeSpec Float FloatSpec FloatTree FloatTreeSpec FloatRTree.
Import ListNotations.
Open Scope R_scope.

(** the residual of a row: prediction minus target, in exact arithmetic *)
Definition residual (y p : list f64) (i : nat) : R := val (nth i p f0) - val (nth i y f0).
(** the hessian of the squared loss *)
Definition one (_ : nat) : R := 1.
(** a question about f at thr that divides the rows idx like an offered threshold, and no offered question about any feature scores more
    than it by more than [tol] *)
Definition nearly_best_score (tol : R) (g : nat -> R) (lambda : R) (fs : list feature) (bm : list (string * list bin)) (f : feature) (thr : R) (idx : list nat) : Prop :=
  In f fs /\ (exists t0, offered bm f t0 /\ forall i, In i idx -> (column f i < thr <-> column f i < t0)) /\
  forall f' t', In f' fs -> offered bm f' t' -> split_score g one lambda (column f') t' idx <= split_score g one lambda (column f) thr idx + tol.
(** a tree of at most [lev] levels, leaves included, over the rows idx with residuals bounded by B: every leaf holds the shrunk mean of
    its negated residuals up to 2^-30 B n/(n + lambda); every split is best up to 2^-24 n B^2 for the n rows that reach it and sends rows
    to both sides; a leaf above the last level has residuals that nearly sum to zero, or a nearly best question does not divide its rows *)
Fixpoint nearly_greedy_reg (B : R) (g : nat -> R) (lambda : R) (fs : list feature) (bm : list (string * list bin)) (t : f_node) (lev : nat) (idx : list nat) : Prop :=
  let n := INR (length idx) in
  match t with
  | FLf c => finite_num c /\ Rabs (val c - - TreeSpec.total g idx / (n + lambda)) <= / 2 ^ 30 * B * (n / (n + lambda)) /\
      ((lev <= 1)%nat \/ Rabs (TreeSpec.total g idx) <= / 2 ^ 30 * B * n \/
       exists f thr, nearly_best_score (/ 2 ^ 24 * n * B ^ 2) g lambda fs bm f thr idx /\ ((forall i, In i idx -> column f i < thr) \/ (forall i, In i idx -> thr <= column f i)))
  | FBr rule l r => exists lev' f, lev = S lev' /\ sp_feature rule = feat_name f /\ nearly_best_score (/ 2 ^ 24 * n * B ^ 2) g lambda fs bm f (sp_threshold rule) idx /\
      filter (below (column f) (sp_threshold rule)) idx <> [] /\ filter (not_below (column f) (sp_threshold rule)) idx <> [] /\
      nearly_greedy_reg B g lambda fs bm l lev' (filter (below (column f) (sp_threshold rule)) idx) /\
      nearly_greedy_reg B g lambda fs bm r lev' (filter (not_below (column f) (sp_threshold rule)) idx)
  end.
(** the answer of the regressor at a row *)
Definition reg_answer (h : f_node) (s : sample) (i : nat) : R := match f_rt_predict h s i with Ok c => val c | Panic _ => 0 end.
(** the squared error on the rows idx after the answers of the tree are added to the predictions, plus the penalty for the leaf values *)
Definition fit_after (y p : list f64) (lambda : R) (h : f_node) (s : sample) (idx : list nat) : R :=
  rsum (map (fun i => (residual y p i + reg_answer h s i) ^ 2) idx) + lambda * rsum (map (fun c => val c ^ 2) (f_leaves h)).
(** the squared error of the predictions before *)
Definition fit_before (y p : list f64) (idx : list nat) : R := rsum (map (fun i => residual y p i ^ 2) idx).
(** the labels 0.1, 0.2 and 0.3 *)
Definition f_01 : f64 := binary_normalize 53 1024 eq_refl eq_refl mode_NE 3602879701896397 (-55) false.
Definition f_02 : f64 := binary_normalize 53 1024 eq_refl eq_refl mode_NE 3602879701896397 (-54) false.
Definition f_03 : f64 := binary_normalize 53 1024 eq_refl eq_refl mode_NE 5404319552844595 (-54) false.
