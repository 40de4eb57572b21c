(** Model of the matrices of the edge minimisation programs:
    src/booster/erlpboost/qp_model.rs, src/booster/softboost/qp_model.rs, src/booster/mlpboost/perturbed_lp_model.rs. *)
From Verif Require Import Base Utils Csc.
Open Scope R_scope.

(** [self.margins.iter_mut().zip(margins).for_each(|(mvec, yh)| mvec.push(yh))]
    erlpboost/qp_model.rs:124-126, softboost/qp_model.rs:116-118, mlpboost/perturbed_lp_model.rs:109-111 *)
Fixpoint zip_push (ms : list (list R)) (l : list R) : list (list R) :=
  match ms, l with
  | m :: ms', v :: l' => (m ++ [v]) :: zip_push ms' l'
  | _, _ => ms
  end.

(** one turn of the loops over examples: erlpboost/qp_model.rs:231-250 (coef = 1), softboost/qp_model.rs:274-293
    (coef = 1), mlpboost/perturbed_lp_model.rs:170-189 (coef = cap_inv), softboost/qp_model.rs:227-246 (coef = cap_inv,
    the variable j of the code is one less than here) *)
Definition push_example (n : nat) (coef : R) (b : bld) (jm : nat * list R) : bld :=
  let '(j, margins) := jm in
  let gam := (1 + 2 * n)%nat in
  let b := push_col b in
  let b := push_ent b (0%nat, 1) in
  let b := push_ent b (j, -1) in
  let b := push_ent b ((n + j)%nat, coef) in
  push_ents (combine (seq gam (length margins)) margins) b.

(** erlpboost/qp_model.rs:217-260 [build_constraint_matrix], softboost/qp_model.rs:260-303
    [build_constraint_matrix_lp], mlpboost/perturbed_lp_model.rs:156-199 [build_constraint_matrix]; they differ in the
    coefficient of the capping rows only *)
Definition gamma_matrix (coef : R) (n T : nat) (margins : list (list R)) : res csc :=
  let n_rows := (1 + 2 * n + T)%nat in
  let gam := (1 + 2 * n)%nat in
  let b := mkBld [0%nat] (seq gam (n_rows - gam)) (repeat (-1) (n_rows - gam)) in
  let b := fold_left (push_example n coef) (combine (seq 1 (length margins)) margins) b in
  csc_new n_rows (1 + n) (b_ptr b ++ [length (b_row b)]) (b_row b) (b_val b).

(** softboost/qp_model.rs:216-256 [build_constraint_matrix] (no column for gamma) *)
Definition plain_matrix (coef : R) (n T : nat) (margins : list (list R)) : res csc :=
  let n_rows := (1 + 2 * n + T)%nat in
  let b := fold_left (push_example n coef) (combine (seq 1 (length margins)) margins) (mkBld [] [] []) in
  csc_new n_rows n (b_ptr b ++ [length (b_row b)]) (b_row b) (b_val b).

(** erlpboost/qp_model.rs:264-270, softboost/qp_model.rs:307-319, mlpboost/perturbed_lp_model.rs:203-209 [build_sense] *)
Definition edge_sense (n T : nat) : list cone := [ZeroCone 1; NonnegCone (2 * n + T)].

(** erlpboost/qp_model.rs:274-282, softboost/qp_model.rs:335-343, mlpboost/perturbed_lp_model.rs:213-221 [build_rhs]
    (g = 0) and softboost/qp_model.rs:323-331 [build_rhs] (g = ghat) *)
Definition edge_rhs (cap_inv g : R) (n T : nat) : list R := 1 :: repeat 0 n ++ repeat cap_inv n ++ repeat g T.
