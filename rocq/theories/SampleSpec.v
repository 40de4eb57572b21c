(** Specification vocabulary for samples and features (C39-C41, C49). *)
From Verif Require Import Base Spec.
Open Scope R_scope.

(** the dense column [col] has length n and holds exactly the stored entries, zero elsewhere *)
Definition represents (n : nat) (entries : list (nat * R)) (col : list R) : Prop :=
  length col = n /\
  (forall i x, In (i, x) entries -> (i < n)%nat /\ nth i col 0 = x) /\
  (forall i, (i < n)%nat -> (forall x, ~ In (i, x) entries) -> nth i col 0 = 0).

(** entries stored in increasing order of their row, no row twice *)
Definition increasing_rows (entries : list (nat * R)) : Prop := StronglySorted lt (map fst entries).

(** [m] is the number of different values in the list *)
Definition distinct_count (l : list R) (m : nat) : Prop :=
  exists d, NoDup d /\ length d = m /\ forall x, In x d <-> In x l.

(** the entry of the SVMLight line [ws] for feature index j: [x] if "j:x" occurs *)
Definition line_value (ws : list (nat * R)) (j : nat) (x : R) : Prop := In (j, x) ws.
