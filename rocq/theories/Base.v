(** Shared vocabulary: panics as data, boolean real comparisons, finite sums, vectors as lists.
    Nothing here models a particular function of /repo; it is the "runtime" of the models:
    - [res]    : a Rust computation that returns or panics;
    - [Rltb]…  : the f64 comparisons, on exact reals (no NaN);
    - [rsum]   : [Iterator::sum::<f64>()] on exact reals;
    - [dot]    : zip / map (product) / sum;
    - [upd]    : the assignment v[i] = x on a vector. *)
From Coq Require Export Reals List Lia Lra Permutation Arith Psatz Sorted ZArith Bool.
Export ListNotations.
Open Scope R_scope.

(** ** Panics *)
Inductive panic :=
| AssertFailed      (* assert! / assert_eq! / explicit panic! *)
| IndexOutOfBounds  (* slice indexing, unwrap on get *)
| UnwrapNone        (* Option::unwrap / expect on None *)
| Arith             (* usize subtraction underflow *)
| NonFinite         (* an f64 operation whose result is not a finite real (ln of <= 0, x/0): the exact-real
                       model does not follow the execution any further *)
| Unreachable       (* unreachable!() *)
| OutOfFuel.        (* not a panic of the program: the answer of a model whose inner [loop] is still running after
                       the number of turns the model was given; theorems say when this cannot happen *)

Inductive res (A : Type) :=
| Ok (a : A)
| Panic (p : panic).
Arguments Ok {A} _.
Arguments Panic {A} _.

Definition bind {A B} (m : res A) (f : A -> res B) : res B :=
  match m with Ok a => f a | Panic p => Panic p end.
Notation "'let*' x ':=' m 'in' f" := (bind m (fun x => f))
  (at level 200, x pattern, m at level 100, f at level 200).

Definition assert_ (b : bool) : res unit := if b then Ok tt else Panic AssertFailed.

(** ** Comparisons *)
Definition Rltb (x y : R) : bool := if Rlt_dec x y then true else false.
Definition Rleb (x y : R) : bool := if Rle_dec x y then true else false.
Definition Reqb (x y : R) : bool := if Req_EM_T x y then true else false.

Lemma Rltb_spec x y : reflect (x < y) (Rltb x y).
Proof. unfold Rltb. destruct (Rlt_dec x y); constructor; assumption. Qed.
Lemma Rleb_spec x y : reflect (x <= y) (Rleb x y).
Proof. unfold Rleb. destruct (Rle_dec x y); constructor; assumption. Qed.
Lemma Reqb_spec x y : reflect (x = y) (Reqb x y).
Proof. unfold Reqb. destruct (Req_EM_T x y); constructor; assumption. Qed.
Lemma Rltb_true x y : x < y -> Rltb x y = true.
Proof. destruct (Rltb_spec x y); [reflexivity|contradiction]. Qed.
Lemma Rltb_false x y : y <= x -> Rltb x y = false.
Proof. destruct (Rltb_spec x y); [lra|reflexivity]. Qed.
Lemma Rleb_true x y : x <= y -> Rleb x y = true.
Proof. destruct (Rleb_spec x y); [reflexivity|contradiction]. Qed.
Lemma Rleb_false x y : y < x -> Rleb x y = false.
Proof. destruct (Rleb_spec x y); [lra|reflexivity]. Qed.
Lemma Reqb_true x y : x = y -> Reqb x y = true.
Proof. destruct (Reqb_spec x y); [reflexivity|contradiction]. Qed.
Lemma Reqb_false x y : x <> y -> Reqb x y = false.
Proof. destruct (Reqb_spec x y); [contradiction|reflexivity]. Qed.

(** f64::signum on a real: 1.0 for +0.0 and positive numbers, -1.0 for negative ones. *)
Definition rsignum (x : R) : R := if Rltb x 0 then -1 else 1.

(** f64::clamp *)
Definition rclamp (lo hi x : R) : R := if Rltb x lo then lo else if Rltb hi x then hi else x.

Lemma rclamp_in lo hi x : lo <= hi -> lo <= rclamp lo hi x <= hi.
Proof.
  intros H. unfold rclamp. destruct (Rltb_spec x lo); [lra|]. destruct (Rltb_spec hi x); lra.
Qed.
Lemma rclamp_id lo hi x : lo <= x <= hi -> rclamp lo hi x = x.
Proof.
  intros H. unfold rclamp. destruct (Rltb_spec x lo); [lra|]. destruct (Rltb_spec hi x); lra.
Qed.

(** ** Sums *)
Fixpoint rsum (l : list R) : R :=
  match l with [] => 0 | x :: t => x + rsum t end.

Definition zipmul (a b : list R) : list R := map (fun p => fst p * snd p) (combine a b).
Definition dot (a b : list R) : R := rsum (zipmul a b).

Lemma rsum_app a b : rsum (a ++ b) = rsum a + rsum b.
Proof. induction a as [|x a IH]; simpl; [lra|rewrite IH; lra]. Qed.

(** [Iterator::sum] folds from the left; on exact reals this is [rsum]. *)
Lemma rsum_fold_left l : fold_left Rplus l 0 = rsum l.
Proof.
  assert (G : forall l a, fold_left Rplus l a = a + rsum l).
  { clear. induction l as [|x l IH]; intros a; simpl; [lra|rewrite IH; lra]. }
  rewrite G; lra.
Qed.

Lemma rsum_perm a b : Permutation a b -> rsum a = rsum b.
Proof. induction 1; simpl; lra. Qed.

Lemma rsum_map_mult {A} (c : R) (f : A -> R) l :
  rsum (map (fun a => c * f a) l) = c * rsum (map f l).
Proof. induction l as [|x l IH]; simpl; [lra|rewrite IH; lra]. Qed.

Lemma rsum_map_div {A} (c : R) (f : A -> R) l :
  rsum (map (fun a => f a / c) l) = rsum (map f l) / c.
Proof. unfold Rdiv. induction l as [|x l IH]; simpl; [lra|rewrite IH; lra]. Qed.

Lemma rsum_map_plus {A} (f g : A -> R) l :
  rsum (map (fun a => f a + g a) l) = rsum (map f l) + rsum (map g l).
Proof. induction l as [|x l IH]; simpl; [lra|rewrite IH; lra]. Qed.

Lemma rsum_map_minus {A} (f g : A -> R) l :
  rsum (map (fun a => f a - g a) l) = rsum (map f l) - rsum (map g l).
Proof. induction l as [|x l IH]; simpl; [lra|rewrite IH; lra]. Qed.

Lemma rsum_map_const {A} (c : R) (l : list A) :
  rsum (map (fun _ => c) l) = INR (length l) * c.
Proof.
  induction l as [|x l IH]; [simpl; lra|].
  change (length (x :: l)) with (S (length l)). rewrite S_INR. simpl map. simpl rsum.
  rewrite IH. lra.
Qed.

Lemma rsum_repeat (c : R) n : rsum (repeat c n) = INR n * c.
Proof.
  induction n as [|n IH]; [simpl; lra|]. rewrite S_INR. simpl rsum. rewrite IH. lra.
Qed.

Lemma rsum_map_ext {A} (f g : A -> R) l :
  (forall a, In a l -> f a = g a) -> rsum (map f l) = rsum (map g l).
Proof.
  induction l as [|x l IH]; simpl; intros H; [reflexivity|].
  rewrite (H x (or_introl eq_refl)), IH; [reflexivity|]. intros a Ha; apply H; right; exact Ha.
Qed.

Lemma rsum_map_le {A} (f g : A -> R) l :
  (forall a, In a l -> f a <= g a) -> rsum (map f l) <= rsum (map g l).
Proof.
  induction l as [|x l IH]; simpl; intros H; [lra|].
  pose proof (H x (or_introl eq_refl)).
  assert (rsum (map f l) <= rsum (map g l)) by (apply IH; intros a Ha; apply H; right; exact Ha).
  lra.
Qed.

Lemma rsum_nonneg l : (forall x, In x l -> 0 <= x) -> 0 <= rsum l.
Proof.
  induction l as [|x l IH]; simpl; intros H; [lra|].
  pose proof (H x (or_introl eq_refl)).
  assert (0 <= rsum l) by (apply IH; intros a Ha; apply H; right; exact Ha). lra.
Qed.

Lemma rsum_pos l : l <> [] -> (forall x, In x l -> 0 < x) -> 0 < rsum l.
Proof.
  destruct l as [|x l]; [congruence|]. intros _ H. simpl.
  pose proof (H x (or_introl eq_refl)).
  assert (0 <= rsum l) by (apply rsum_nonneg; intros a Ha; left; apply H; right; exact Ha). lra.
Qed.

Lemma rsum_nonneg_zero l :
  (forall x, In x l -> 0 <= x) -> rsum l = 0 -> forall x, In x l -> x = 0.
Proof.
  induction l as [|y l IH]; simpl; intros H Hs x Hx; [contradiction|].
  pose proof (H y (or_introl eq_refl)).
  assert (0 <= rsum l) by (apply rsum_nonneg; intros a Ha; apply H; right; exact Ha).
  destruct Hx as [->|Hx]; [lra|]. apply IH; auto. lra.
Qed.

Lemma rsum_in_le l x : (forall x, In x l -> 0 <= x) -> In x l -> x <= rsum l.
Proof.
  induction l as [|y l IH]; simpl; intros H Hx; [contradiction|].
  pose proof (H y (or_introl eq_refl)).
  assert (0 <= rsum l) by (apply rsum_nonneg; intros a Ha; apply H; right; exact Ha).
  destruct Hx as [->|Hx]; [lra|]. assert (x <= rsum l) by (apply IH; auto). lra.
Qed.

(** ** nth / seq views of lists *)
Lemma map_nth_seq {A} (d : A) l : map (fun i => nth i l d) (seq 0 (length l)) = l.
Proof.
  induction l as [|x l IH]; simpl; [reflexivity|]. f_equal.
  rewrite <- seq_shift, map_map. exact IH.
Qed.

Lemma rsum_nth l : rsum (map (fun i => nth i l 0) (seq 0 (length l))) = rsum l.
Proof. rewrite map_nth_seq; reflexivity. Qed.

Lemma list_eq_nth {A} (d : A) (l l' : list A) :
  length l = length l' -> (forall i, (i < length l)%nat -> nth i l d = nth i l' d) -> l = l'.
Proof.
  revert l'; induction l as [|x l IH]; intros [|y l'] Hl H; simpl in *; try lia; [reflexivity|].
  f_equal; [apply (H 0%nat); lia|]. apply IH; [lia|]. intros i Hi. apply (H (S i)); lia.
Qed.

Lemma nth_map_in {A B} (f : A -> B) l i da db :
  (i < length l)%nat -> nth i (map f l) db = f (nth i l da).
Proof.
  intros H. rewrite (nth_indep _ db (f da)) by (rewrite map_length; exact H). apply map_nth.
Qed.

Lemma nth_seq0 n i d : (i < n)%nat -> nth i (seq 0 n) d = i.
Proof. intros H. rewrite seq_nth; [reflexivity|exact H]. Qed.

Lemma nth_map_seq {B} (f : nat -> B) n i db : (i < n)%nat -> nth i (map f (seq 0 n)) db = f i.
Proof.
  intros H. rewrite (nth_map_in f (seq 0 n) i 0%nat) by (rewrite seq_length; exact H).
  rewrite nth_seq0 by exact H. reflexivity.
Qed.

Lemma combine_nth_map {A B C} (f : A * B -> C) (a : list A) (b : list B) da db :
  length a = length b ->
  map f (combine a b) = map (fun i => f (nth i a da, nth i b db)) (seq 0 (length a)).
Proof.
  revert b; induction a as [|x a IH]; intros [|y b] H; simpl in *; try lia; [reflexivity|].
  f_equal. rewrite <- seq_shift, map_map. apply IH. lia.
Qed.

Lemma dot_nth a b :
  length a = length b ->
  dot a b = rsum (map (fun i => nth i a 0 * nth i b 0) (seq 0 (length a))).
Proof.
  intros H. unfold dot, zipmul. rewrite (combine_nth_map _ a b 0 0 H). reflexivity.
Qed.

Lemma dot_comm a b : dot a b = dot b a.
Proof.
  unfold dot, zipmul. revert b; induction a as [|x a IH]; intros [|y b]; simpl; try reflexivity.
  rewrite IH. lra.
Qed.

Lemma nth_repeat_lt {A} (c d : A) k i : (i < k)%nat -> nth i (repeat c k) d = c.
Proof. revert i; induction k as [|k IH]; intros [|i] H; simpl; try lia; auto. apply IH; lia. Qed.

(** ** Assignment *)
Fixpoint upd {A} (i : nat) (x : A) (l : list A) : list A :=
  match l, i with
  | [], _ => []
  | _ :: t, O => x :: t
  | a :: t, S j => a :: upd j x t
  end.

Lemma upd_length {A} i (x : A) l : length (upd i x l) = length l.
Proof. revert i; induction l as [|a l IH]; intros [|i]; simpl; auto. Qed.

Lemma upd_nth_same {A} i (x d : A) l : (i < length l)%nat -> nth i (upd i x l) d = x.
Proof. revert i; induction l as [|a l IH]; intros [|i] H; simpl in *; try lia; auto. apply IH; lia. Qed.

Lemma upd_nth_other {A} i j (x d : A) l : i <> j -> nth j (upd i x l) d = nth j l d.
Proof.
  revert i j; induction l as [|a l IH]; intros [|i] [|j] H; simpl; try lia; auto.
Qed.

(** ** Exponential / logarithm helpers *)
Lemma exp_ge_1x x : 1 + x <= exp x.
Proof.
  destruct (Req_dec x 0) as [->|H]; [rewrite exp_0; lra|].
  left. apply exp_ineq1; exact H.
Qed.

Lemma ln_le_sub x : 0 < x -> ln x <= x - 1.
Proof.
  intros H. pose proof (exp_ge_1x (ln x)) as E. rewrite exp_ln in E by exact H. lra.
Qed.

Lemma ln_lt_sub x : 0 < x -> x <> 1 -> ln x < x - 1.
Proof.
  intros H Hx. assert (ln x <> 0).
  { intros E. apply Hx. rewrite <- (exp_ln x H), E. apply exp_0. }
  pose proof (exp_ineq1 (ln x) H0) as E. rewrite exp_ln in E by exact H. lra.
Qed.

Lemma exp_le_exp x y : x <= y -> exp x <= exp y.
Proof. intros [H| ->]; [left; apply exp_increasing; exact H|lra]. Qed.

Lemma exp_le_inv x y : exp x <= exp y -> x <= y.
Proof.
  intros H. destruct (Rle_dec x y) as [|N]; [assumption|].
  assert (exp y < exp x) by (apply exp_increasing; lra). lra.
Qed.

Lemma ln_le x y : 0 < x -> x <= y -> ln x <= ln y.
Proof. intros H [L| ->]; [left; apply ln_increasing; assumption|lra]. Qed.

(** log-sum-exp of two numbers as the code computes it: large + ln(1 + exp(small-large)). *)
Definition lse (large small : R) : R := large + ln (1 + exp (small - large)).

Lemma exp_lse a b : exp (lse a b) = exp a + exp b.
Proof.
  unfold lse. rewrite exp_plus, exp_ln by (pose proof (exp_pos (b - a)); lra).
  rewrite Rmult_plus_distr_l, Rmult_1_r, <- exp_plus. f_equal. f_equal. lra.
Qed.

(** ** Division helpers *)
Lemma Rdiv_le_iff a b c : 0 < c -> (a / c <= b <-> a <= b * c).
Proof.
  intros H. split; intros L.
  - apply (Rmult_le_compat_r c) in L; [|lra]. unfold Rdiv in L.
    rewrite Rmult_assoc, Rinv_l in L by lra. lra.
  - apply (Rmult_le_reg_r c); [exact H|]. unfold Rdiv. rewrite Rmult_assoc, Rinv_l by lra. lra.
Qed.

Lemma Rdiv_lt_iff a b c : 0 < c -> (a / c < b <-> a < b * c).
Proof.
  intros H. split; intros L.
  - apply (Rmult_lt_compat_r c) in L; [|lra]. unfold Rdiv in L.
    rewrite Rmult_assoc, Rinv_l in L by lra. lra.
  - apply (Rmult_lt_reg_r c); [exact H|]. unfold Rdiv. rewrite Rmult_assoc, Rinv_l by lra. lra.
Qed.

Lemma Rle_div_iff a b c : 0 < c -> (b <= a / c <-> b * c <= a).
Proof.
  intros H. split; intros L.
  - apply (Rmult_le_compat_r c) in L; [|lra]. unfold Rdiv in L.
    rewrite Rmult_assoc, Rinv_l in L by lra. lra.
  - apply (Rmult_le_reg_r c); [exact H|]. unfold Rdiv. rewrite Rmult_assoc, Rinv_l by lra. lra.
Qed.

Lemma Rlt_div_iff a b c : 0 < c -> (b < a / c <-> b * c < a).
Proof.
  intros H. split; intros L.
  - apply (Rmult_lt_compat_r c) in L; [|lra]. unfold Rdiv in L.
    rewrite Rmult_assoc, Rinv_l in L by lra. lra.
  - apply (Rmult_lt_reg_r c); [exact H|]. unfold Rdiv. rewrite Rmult_assoc, Rinv_l by lra. lra.
Qed.

Lemma INR_pos n : (0 < n)%nat -> 0 < INR n.
Proof. intros H. apply lt_0_INR; exact H. Qed.
