(** Model of the interface of the external crate [clarabel] used by the LP/QP boosters: sparse matrices in compressed
    sparse column form, cones and the conic program  min 1/2 x'Px + q'x  s.t.  Ax + s = b, s in K.
    The crate is not part of /repo: what is modelled here is its documented interface (the assertions of
    [CscMatrix::new], the dimension checks of [DefaultSolver::new], the cones, the fields of the solution that are
    read).  The solver itself is an arbitrary function from programs to answers. *)
From Verif Require Import Base.
Open Scope R_scope.

(** clarabel [CscMatrix] *)
Record csc := mkCsc { c_rows : nat; c_cols : nat; c_ptr : list nat; c_row : list nat; c_val : list R }.

(** clarabel [CscMatrix::new]: three assertions on the lengths *)
Definition csc_new (m n : nat) (ptr row : list nat) (val : list R) : res csc :=
  let* _ := assert_ (Nat.eqb (length row) (length val)) in
  let* _ := assert_ (Nat.eqb (length ptr) (n + 1)) in
  let* _ := assert_ (Nat.eqb (nth n ptr 0%nat) (length row)) in
  Ok (mkCsc m n ptr row val).

(** clarabel [CscMatrix::zeros] *)
Definition csc_zeros (m n : nat) : csc := mkCsc m n (repeat 0%nat (n + 1)) [] [].

(** clarabel [SupportedConeT]; only the two cones used by the crate *)
Inductive cone := ZeroCone (k : nat) | NonnegCone (k : nat).

Definition cone_dim (c : cone) : nat := match c with ZeroCone k => k | NonnegCone k => k end.

(** the arguments of [DefaultSolver::new] *)
Record conic := mkConic { k_P : csc; k_q : list R; k_A : csc; k_b : list R; k_cones : list cone }.

(** clarabel [DefaultSolver::new]: dimension checks *)
Definition solver_new (P : csc) (q : list R) (A : csc) (b : list R) (cones : list cone) : res conic :=
  let n := length q in
  let m := length b in
  let* _ := assert_ (Nat.eqb (c_rows P) n && Nat.eqb (c_cols P) n) in
  let* _ := assert_ (Nat.eqb (c_rows A) m && Nat.eqb (c_cols A) n) in
  let* _ := assert_ (Nat.eqb (fold_right Nat.add 0%nat (map cone_dim cones)) m) in
  Ok (mkConic P q A b cones).

(** clarabel [SolverStatus]: the three statuses that are named in /repo, and all others *)
Inductive status := Solved | AlmostSolved | InsufficientProgress | OtherStatus.

(** clarabel [DefaultSolution]: the fields that are read *)
Record answer := mkAnswer { a_x : list R; a_z : list R; a_obj : R; a_status : status }.

(** The Rust code builds the three vectors of a matrix by pushing; a builder is the triple of vectors. *)
Record bld := mkBld { b_ptr : list nat; b_row : list nat; b_val : list R }.

(** [col_ptr.push(row_val.len())] *)
Definition push_col (b : bld) : bld := mkBld (b_ptr b ++ [length (b_row b)]) (b_row b) (b_val b).

(** [row_val.push(r); nonzero.push(v)] *)
Definition push_ent (b : bld) (e : nat * R) : bld := mkBld (b_ptr b) (b_row b ++ [fst e]) (b_val b ++ [snd e]).

Definition push_ents (l : list (nat * R)) (b : bld) : bld := fold_left push_ent l b.
