(** Property C81: a training set that is not a binary classification problem is refused before training. *)
From Verif Require Import Base Spec ValidSpec Utils WMajority WMajorityProofs Booster AdaBoost AdaBoostProofs AdaBoostMain AdaBoostMore AdaBoostV MadaBoost SmoothBoost GraphSep LPBoost ERLP
  Csc ConicSpec SoftBoost CERLP MLP.
Open Scope R_scope.

Lemma as_int_range z : as_int 32 (IZR z) = Z.max (-2147483648) (Z.min 2147483647 z).
Proof. unfold as_int. rewrite truncZ_IZR. reflexivity. Qed.

(** ** the check accepts the target columns made of exactly two kinds of integers (in the range of i32) and no others *)
Lemma P_C81_accepted_targets :
  forall y, (forall v z, In v y -> v = IZR z -> (-2147483648 <= z <= 2147483647)%Z) ->
  (is_valid_binary_instance y = Ok tt <->
    exists a b : Z, a <> b /\ In (IZR a) y /\ In (IZR b) y /\ forall v, In v y -> v = IZR a \/ v = IZR b) /\
  (is_valid_binary_instance y <> Ok tt -> is_valid_binary_instance y = Panic AssertFailed).
Proof.
  intros y R. split; [|intros N; destruct (valid_cases y) as [E|E]; [congruence|exact E]].
  assert (C : forall v z, In v y -> v = IZR z -> as_int 32 v = z) by (intros v z Hv ->; rewrite as_int_range; specialize (R _ z Hv eq_refl); lia).
  rewrite valid_iff. split.
  - intros [I [a [b [D H]]]]. exists a, b.
    assert (V : forall v, In v y -> v = IZR (as_int 32 v)) by (intros v Hv; destruct (I v Hv) as [z E]; rewrite (C v z Hv E); exact E).
    assert (P : forall z, z = a \/ z = b -> In (IZR z) y) by (intros z Hz; apply H in Hz; apply in_map_iff in Hz; destruct Hz as [v [<- Hv]]; rewrite <- V; assumption).
    split; [exact D|]. split; [apply P; auto|]. split; [apply P; auto|]. intros v Hv.
    destruct (proj1 (H (as_int 32 v))) as [E|E]; [apply in_map, Hv| |]; [left|right]; rewrite <- E; apply V, Hv.
  - intros [a [b [D [Ha [Hb H]]]]]. split; [intros v Hv; destruct (H v Hv); eauto|]. exists a, b. split; [exact D|]. intros z. rewrite in_map_iff. split.
    + intros [v [<- Hv]]. destruct (H v Hv) as [E|E]; [left|right]; apply C; assumption.
    + intros [->| ->]; [exists (IZR a)|exists (IZR b)]; split; auto.
Qed.

(** outside the range of i32 the labels are clamped first: two different large labels are refused as one kind, and three
    kinds of labels are accepted as two *)
Lemma P_C81_large_labels_refuted :
  (exists y : list R, y = [3000000000; 4000000000] /\ is_valid_binary_instance y = Panic AssertFailed) /\
  (exists y : list R, y = [1; 3000000000; 4000000000] /\ is_valid_binary_instance y = Ok tt).
Proof.
  assert (I : forall l : list Z, forallb is_integer (map IZR l) = true).
  { intros l. apply forallb_forall. intros v Hv. apply in_map_iff in Hv. destruct Hv as [z [<- _]]. apply is_integer_spec. eauto. }
  split; eexists; (split; [reflexivity|]); unfold is_valid_binary_instance.
  - pose proof (I [3000000000; 4000000000]%Z) as F. cbn [map] in F. rewrite F. cbn [map negb]. rewrite !as_int_range. reflexivity.
  - pose proof (I [1; 3000000000; 4000000000]%Z) as F. cbn [map] in F. rewrite F. cbn [map negb]. rewrite !as_int_range. reflexivity.
Qed.

(** ** every booster for binary classification starts with the check: a refused sample stops the run before the weak
    learner has been asked for anything, and a run that returns had an accepted sample *)
Lemma refuses_pre {St Out : Type} y (b : booster St Out) :
  (forall s, exists k, b_pre b s = let* _ := is_valid_binary_instance y in k) -> refuses y b.
Proof.
  intros P fuel s. destruct (P s) as [k E]. unfold run. rewrite E. destruct (valid_cases y) as [V|V]; rewrite V; cbn [bind].
  - split; [congruence|reflexivity].
  - split; [reflexivity|discriminate].
Qed.

Lemma P_C81_boosters_refuse :
  forall (H : Type) (conf : H -> nat -> R) (produce : nat -> list R -> H) (y : list R)
    (umax inner : nat) (eqH : H -> H -> bool) (solve : conic -> answer) (noise : nat -> R)
    (X : Type) (confx : H -> X -> R) (row : nat -> X),
  refuses y (adaboost conf produce y) /\ refuses y (adaboostv conf produce y) /\ refuses y (madaboost conf produce y) /\
  refuses y (smoothboost conf produce y umax) /\ refuses y (graphsep confx row y produce) /\
  refuses y (lpboost_booster conf solve produce y) /\ refuses y (erlpboost conf solve produce y inner) /\
  refuses y (softboost conf solve produce y inner) /\ refuses y (cerlpboost conf eqH produce y) /\
  refuses y (mlpboost conf eqH solve noise produce y).
Proof.
  intros. repeat match goal with |- _ /\ _ => split end; apply refuses_pre; intros s; eexists; reflexivity.
Qed.

(** ** the labels 0 and 1 are accepted (with a warning only), although a vote never answers 0: whatever the weak learner
    and the booster's settings, the returned classifier is wrong on every example of label 0 *)
Lemma P_C81_zero_label_never_predicted :
  is_valid_binary_instance [0; 1] = Ok tt /\
  forall (H : Type) (conf : H -> nat -> R) (f : wmajority H) (y : list R) i, nth i y 0 = 0 -> wm_predict conf f i <> nth i y 0.
Proof.
  split.
  - apply P_C81_accepted_targets; [intros v z [<-|[<-|[]]] E; [apply eq_IZR in E|apply eq_IZR in E]; lia|].
    exists 0%Z, 1%Z. split; [lia|]. split; [left; reflexivity|]. split; [right; left; reflexivity|]. intros v [<-|[<-|[]]]; auto.
  - intros H conf f y i ->. unfold wm_predict. rewrite predict_sign. unfold sign_label. destruct (Rle_dec 0 (wm_confidence conf f i)); lra.
Qed.
