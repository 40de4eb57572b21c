(** Model of src/weak_learner/naive_bayes/{nbayes,nbayes_classifier,probability}.rs and of
    src/sample/sample_struct.rs:185-191, 452-461, 506-521. *)
From Verif Require Import Base Utils SortLib Feature.
Open Scope R_scope.

(** sample_struct.rs:185-191 [unique_target]: sort, then drop equal neighbours *)
Fixpoint dedup_adj (l : list R) : list R :=
  match l with
  | a :: t => match t with b :: _ => if Reqb a b then dedup_adj t else a :: dedup_adj t | [] => [a] end
  | [] => []
  end.
Definition unique_target (target : list R) : list R := dedup_adj (isort Rleb target).

(** probability.rs:22-33; [Gaussian::new] asserts equal lengths, which unzip guarantees *)
Record gaussian := mkGauss { g_means : list R; g_vars : list R }.
Definition gauss_new (means vars : list R) : res gaussian :=
  let* _ := assert_ (Nat.eqb (length means) (length vars)) in Ok (mkGauss means vars).

(** probability.rs:43-52: the (parallel) sum over the zipped means, variances and features.  A variance that is not
    positive gives an infinite or undefined number in the code, here [NonFinite] *)
Fixpoint gauss_sum (k : R) (ms vs : list R) (fs : list feature) (row : nat) : res R :=
  match ms, vs, fs with
  | m :: ms', v :: vs', f :: fs' =>
      let* x := feat_index f row in
      if Rleb v 0 then Panic NonFinite else
      let* r := gauss_sum k ms' vs' fs' row in
      Ok ((x - m) ^ 2 / v + k * ln v + r)
  | _, _, _ => Ok 0
  end.

(** probability.rs:38-55 [log_probability] *)
Definition log_probability (g : gaussian) (fs : list feature) (row : nat) : res R :=
  let k := INR (length (g_means g)) in
  let* s := gauss_sum k (g_means g) (g_vars g) fs row in
  Ok (- (1 / 2) * (k * ln (2 * PI) + s)).

(** nbayes_classifier.rs:14-17 *)
Record nbayes := mkNB { nb_cond : list (R * R * gaussian); nb_density : gaussian }.

Fixpoint mapM {A B} (f : A -> res B) (l : list A) : res (list B) :=
  match l with [] => Ok [] | a :: t => let* b := f a in let* r := mapM f t in Ok (b :: r) end.

(** nbayes_classifier.rs:37-49 [probabilities] *)
Definition probabilities (h : nbayes) (fs : list feature) (row : nat) : res (list (R * R)) :=
  let* log_all := log_probability (nb_density h) fs row in
  mapM (fun c => let '(y, prior, g) := c in
                 let* log_cond := log_probability g fs row in
                 Ok (y, prior * exp (log_cond - log_all))) (nb_cond h).

(** nbayes_classifier.rs:67-73 [confidence] *)
Definition nb_reduce (l : list (R * R)) : res R :=
  match l with
  | [] => Panic UnwrapNone
  | a :: t => Ok (fst (fold_left (fun a b => if Rltb (snd b) (snd a) then a else b) t a))
  end.
Definition nb_confidence (h : nbayes) (fs : list feature) (row : nat) : res R :=
  let* ps := probabilities h fs row in nb_reduce ps.

(** nbayes.rs:36-61 [produce] *)
Definition nb_produce (fs : list feature) (target dist : list R) : res nbayes :=
  let* cs := mapM (fun y =>
      let prior := rclamp 0 1 (total_weight_for_label y target dist) in
      let* mv := mapM (fun f => weighted_mean_and_variance_for_label f y target dist) fs in
      let* g := gauss_new (map fst mv) (map snd mv) in
      Ok (y, prior, g)) (unique_target target) in
  let* mv := mapM (fun f => weighted_mean_and_variance f dist) fs in
  let* g := gauss_new (map fst mv) (map snd mv) in
  Ok (mkNB cs g).
