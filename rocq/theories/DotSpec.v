(** Specification for C83: how a drawing of a tree (a graph in the DOT language) is read.  A drawing is a list of
    statements; numbers are what is printed, not what the tree holds. *)
From Coq Require Import String.
From Verif Require Import Base Feature Sample DTree.
Open Scope R_scope.

Inductive line :=
| Question (id : nat) (feature : string) (threshold : R)   (* node_id [ label = "feature < threshold ?" ] *)
| Box (id : nat) (value : R)                               (* node_id [ label = "value", shape = box ] *)
| Link (from to : nat) (yes : bool).                       (* node_from -- node_to [ label = "Yes" / "No" ] *)

(** the entry of a sample that a question is about *)
Definition cell (s : sample) (row : nat) (nm : string) (x : R) : Prop := exists f, by_name s nm = Ok f /\ feat_index f row = Ok x.

(** from node [i], answering the questions for that row and following the links, one comes to a box with value [v] *)
Inductive reads (g : list line) (s : sample) (row : nat) : nat -> R -> Prop :=
| at_box i v : In (Box i v) g -> reads g s row i v
| on_yes i nm thr x j v : In (Question i nm thr) g -> cell s row nm x -> x < thr -> In (Link i j true) g -> reads g s row j v -> reads g s row i v
| on_no i nm thr x j v : In (Question i nm thr) g -> cell s row nm x -> ~ x < thr -> In (Link i j false) g -> reads g s row j v -> reads g s row i v.

Definition node_ids (g : list line) : list nat := flat_map (fun l => match l with Question i _ _ => [i] | Box i _ => [i] | Link _ _ _ => [] end) g.
Definition question_ids (g : list line) : list nat := flat_map (fun l => match l with Question i _ _ => [i] | _ => [] end) g.
Definition link_targets (g : list line) : list nat := flat_map (fun l => match l with Link _ j _ => [j] | _ => [] end) g.
Definition link_sources (b : bool) (g : list line) : list nat := flat_map (fun l => match l with Link i _ c => if Bool.eqb b c then [i] else [] | _ => [] end) g.

(** printing with two decimals: some nearest multiple of 1/100 *)
Definition two_decimals (sh : R -> R) : Prop := forall x, (exists k, sh x = IZR k / 100) /\ Rabs (sh x - x) <= / 200.

(** the questions of a tree *)
Fixpoint rules (t : node) : list splitter := match t with Leaf _ => [] | Branch r a b => r :: rules a ++ rules b end.
