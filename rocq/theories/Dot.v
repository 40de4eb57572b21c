(** Model of the DOT export of trees: src/weak_learner/decision_tree/node.rs:148-195, decision_tree_classifier.rs:36-57,
    src/weak_learner/regression_tree/node.rs:155-204, regression_tree_regressor.rs:38-60.
    A statement of the file is a value of [line] (its text is not modelled); [sh] is what "{:.2}" prints. *)
From Coq Require Import String.
From Verif Require Import Base Feature Sample DTree DotSpec.
Open Scope R_scope.

(** node.rs:149-194 [to_dot_info] (decision tree, [pr] the identity) and node.rs:156-203 (regression tree, [pr] = [sh]) *)
Fixpoint to_dot_info (sh pr : R -> R) (t : node) (id : nat) : list line * nat :=
  match t with
  | Branch rule l r =>
      let b_info := Question id (sp_feature rule) (sh (sp_threshold rule)) in
      let '(l_info, next_id) := to_dot_info sh pr l (id + 1) in
      let '(r_info, ret_id) := to_dot_info sh pr r next_id in
      let info := (l_info ++ [b_info]) ++ r_info in
      ((info ++ [Link id (id + 1) true]) ++ [Link id next_id false], ret_id)
  | Leaf p => ([Box id (pr p)], (id + 1)%nat)
  end.

(** decision_tree_classifier.rs:39-56 [to_dot_file]: the statements between the braces *)
Definition dt_dot_file (sh : R -> R) (t : node) : list line := fst (to_dot_info sh (fun p => p) t 0).
(** regression_tree_regressor.rs:41-58 [to_dot_file] *)
Definition rt_dot_file (sh : R -> R) (t : node) : list line := fst (to_dot_info sh sh t 0).
