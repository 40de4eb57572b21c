(** Properties C01-C03, C43, C44: projection, entropy, parallel reductions. *)
From Verif Require Import Base Spec SortLib Utils UtilsProofs Rayon UtilsFacts.
Open Scope R_scope.


(** ** C01 *)

Theorem C01_projection_in_capped_simplex : forall nu x ix,
  sorted_perm x ix -> 1 <= nu <= INR (length x) ->
  exists d, project_with ix nu x = Ok d /\ length d = length x /\ in_capped_simplex nu d.
Proof. exact P_C01_projection_in_capped_simplex. Qed.
Print Assumptions C01_projection_in_capped_simplex.

Theorem C01_projection_stable_sort : forall nu x,
  1 <= nu <= INR (length x) ->
  exists d, project nu x = Ok d /\ length d = length x /\ in_capped_simplex nu d.
Proof. exact P_C01_projection_stable_sort. Qed.
Print Assumptions C01_projection_stable_sort.

(** conversely a cap parameter outside [1,n] is always rejected: never a silent wrong answer *)
Theorem C01_projection_rejects_bad_cap : forall nu x ix d,
  ~ (1 <= nu <= INR (length x)) -> project_with ix nu x <> Ok d.
Proof. exact P_C01_projection_rejects_bad_cap. Qed.
Print Assumptions C01_projection_rejects_bad_cap.

Example C01_nonvacuous : 1 <= 2 <= INR (length [0; 3; 1]) /\ sorted_perm [0; 3; 1] [1%nat; 2%nat; 0%nat].
Proof.
  split; [simpl; lra|]. split.
  - simpl. apply Permutation_sym. apply perm_trans with [1; 0; 2]%nat; [constructor|].
    constructor. constructor.
  - repeat constructor; unfold desc; simpl; lra.
Qed.

(** ** C02 *)

Theorem C02_projection_threshold_form : forall nu x ix d,
  sorted_perm x ix -> 1 <= nu <= INR (length x) -> project_with ix nu x = Ok d ->
  (exists xi, 0 < xi /\ forall i, (i < length x)%nat -> nth i d 0 = Rmin (1 / nu) (xi * exp (nth i x 0))) /\
  (forall i j, (i < length x)%nat -> (j < length x)%nat -> nth i x 0 <= nth j x 0 -> nth i d 0 <= nth j d 0) /\
  (forall i j, (i < length x)%nat -> (j < length x)%nat -> nth i x 0 = nth j x 0 -> nth i d 0 = nth j d 0) /\
  (forall i, (i < length x)%nat -> 0 < nth i d 0).
Proof. exact P_C02_projection_threshold_form. Qed.
Print Assumptions C02_projection_threshold_form.

(** ** C03 *)

Theorem C03_projection_is_entropy_projection : forall nu x ix d,
  sorted_perm x ix -> 1 <= nu <= INR (length x) -> project_with ix nu x = Ok d ->
  forall c, length c = length x -> in_capped_simplex nu c ->
    kl_to_exp d x <= kl_to_exp c x /\ (kl_to_exp c x <= kl_to_exp d x -> c = d).
Proof. exact P_C03_projection_is_entropy_projection. Qed.
Print Assumptions C03_projection_is_entropy_projection.

(** the result does not depend on how the sort breaks ties *)
Theorem C02_projection_tie_independent : forall nu x ix ix' d d',
  sorted_perm x ix -> sorted_perm x ix' -> 1 <= nu <= INR (length x) ->
  project_with ix nu x = Ok d -> project_with ix' nu x = Ok d' -> d = d'.
Proof. exact P_C02_projection_tie_independent. Qed.
Print Assumptions C02_projection_tie_independent.

Example C03_nonvacuous : in_capped_simplex 2 [1/4; 1/2; 1/4] /\ length [1/4; 1/2; 1/4] = length [0; 3; 1].
Proof.
  split; [|reflexivity]. split; [|simpl; lra].
  intros v [<-|[<-|[<-|[]]]]; lra.
Qed.

(** ** C43 entropy *)

Theorem C43_entropy_bounds : forall d, is_dist d ->
  - ln (INR (length d)) <= entropy d <= 0 /\
  0 <= entropy_from_uni_distribution d <= ln (INR (length d)).
Proof. exact P_C43_entropy_bounds. Qed.
Print Assumptions C43_entropy_bounds.

Theorem C43_entropy_capped : forall nu d, 1 <= nu -> in_capped_simplex nu d ->
  entropy_from_uni_distribution d <= ln (INR (length d) / nu).
Proof. exact P_C43_entropy_capped. Qed.
Print Assumptions C43_entropy_capped.

Example C43_nonvacuous : is_dist [1/4; 0; 3/4].
Proof. split; [|simpl; lra]. intros v [<-|[<-|[<-|[]]]]; lra. Qed.

(** ** C44 parallel reductions *)

Theorem C44_parallel_sum_schedule_independent : forall t1 t2,
  Permutation (ptree_items t1) (ptree_items t2) -> ptree_sum t1 = ptree_sum t2.
Proof. exact P_C44_parallel_sum_schedule_independent. Qed.
Print Assumptions C44_parallel_sum_schedule_independent.

Theorem C44_parallel_inner_product : forall a b t,
  ptree_items t = map (fun p => fst p * snd p) (combine a b) -> ptree_sum t = inner_product a b.
Proof. exact P_C44_parallel_inner_product. Qed.
Print Assumptions C44_parallel_inner_product.

Theorem C44_parallel_update_order_independent : forall f ix v,
  Permutation ix (seq 0 (length v)) -> par_update f ix v = map f v.
Proof. exact P_C44_parallel_update_order_independent. Qed.
Print Assumptions C44_parallel_update_order_independent.

Example C44_nonvacuous :
  ptree_items (PNode (PLeaf [1; 2]) (PNode (PLeaf []) (PLeaf [3])))
  = map (fun p => fst p * snd p) (combine [1; 1; 1] [1; 2; 3]).
Proof. simpl. repeat f_equal; lra. Qed.

(** ** normalize *)

Theorem C13_normalize_unit_norm : forall v,
  (exists w, normalize v = Ok w /\ length w = length v /\ rsum (map Rabs w) = 1 /\
     exists z, 0 < z /\ forall i, (i < length v)%nat -> nth i v 0 = z * nth i w 0) \/
  (normalize v = Panic AssertFailed /\ forall x, In x v -> x = 0).
Proof. exact P_C13_normalize_unit_norm. Qed.
Print Assumptions C13_normalize_unit_norm.
