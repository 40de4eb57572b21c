(** Specification vocabulary for the LP/QP boosters: what a sparse matrix means, what the solver is asked, and what
    an exact answer is. *)
From Verif Require Import Base Csc.
Open Scope R_scope.

(** the entry (r, c) of a matrix in compressed sparse column form: sum of the stored values of column c in row r *)
Definition entry (A : csc) (r c : nat) : R :=
  rsum (map (fun k => if Nat.eqb (nth k (c_row A) 0%nat) r then nth k (c_val A) 0 else 0)
            (seq (nth c (c_ptr A) 0%nat) (nth (S c) (c_ptr A) 0%nat - nth c (c_ptr A) 0%nat))).

(** (A x)_r and (A' z)_c *)
Definition row_dot (A : csc) (x : list R) (r : nat) : R := rsum (map (fun c => entry A r c * nth c x 0) (seq 0 (c_cols A))).
Definition col_dot (A : csc) (z : list R) (c : nat) : R := rsum (map (fun r => entry A r c * nth r z 0) (seq 0 (c_rows A))).

(** the format that the solver's documentation asks for: column pointers from 0 to the number of stored values,
    nondecreasing; row indices in range and strictly increasing inside every column *)
Definition csc_ok (A : csc) : Prop :=
  length (c_ptr A) = S (c_cols A) /\ nth 0 (c_ptr A) 0%nat = 0%nat /\ nth (c_cols A) (c_ptr A) 0%nat = length (c_val A) /\
  length (c_row A) = length (c_val A) /\
  (forall c, (c < c_cols A)%nat -> (nth c (c_ptr A) 0 <= nth (S c) (c_ptr A) 0)%nat) /\
  (forall r, In r (c_row A) -> (r < c_rows A)%nat) /\
  (forall c k, (c < c_cols A)%nat -> (nth c (c_ptr A) 0 <= k)%nat -> (S k < nth (S c) (c_ptr A) 0)%nat ->
     (nth k (c_row A) 0 < nth (S k) (c_row A) 0)%nat).

(** the kind of every row: true for an equality *)
Fixpoint senses (cs : list cone) : list bool :=
  match cs with
  | [] => []
  | ZeroCone k :: t => repeat true k ++ senses t
  | NonnegCone k :: t => repeat false k ++ senses t
  end.

Definition slack (p : conic) (x : list R) (r : nat) : R := nth r (k_b p) 0 - row_dot (k_A p) x r.

(** x satisfies all constraints: Ax + s = b with s in the cone *)
Definition feasible (p : conic) (x : list R) : Prop :=
  length x = length (k_q p) /\
  forall r, (r < length (k_b p))%nat -> if nth r (senses (k_cones p)) false then slack p x r = 0 else 0 <= slack p x r.

Definition objective (p : conic) (x : list R) : R :=
  rsum (map (fun c => row_dot (k_P p) x c * nth c x 0) (seq 0 (length (k_q p)))) / 2 +
  rsum (map (fun c => nth c (k_q p) 0 * nth c x 0) (seq 0 (length (k_q p)))).

(** the Karush-Kuhn-Tucker conditions of a primal-dual pair *)
Definition kkt (p : conic) (x z : list R) : Prop :=
  feasible p x /\ length z = length (k_b p) /\
  (forall r, (r < length (k_b p))%nat -> nth r (senses (k_cones p)) false = false -> 0 <= nth r z 0) /\
  (forall r, (r < length (k_b p))%nat -> nth r z 0 * slack p x r = 0) /\
  (forall c, (c < length (k_q p))%nat -> row_dot (k_P p) x c + nth c (k_q p) 0 + col_dot (k_A p) z c = 0).

(** an exact answer: an optimal primal-dual pair with its objective value *)
Definition solves (p : conic) (a : answer) : Prop :=
  kkt p (a_x a) (a_z a) /\ a_obj a = objective p (a_x a) /\ a_status a = Solved.
