(** Property C88: the coefficient of the absolute loss in binary64. *)
From Coq Require Import ZArith List Bool Reals Lia Lra Psatz Permutation Sorted.
From Flocq Require Import Core.Core IEEE754.BinarySingleNaN Relative Plus_error.
From Verif Require Import Base SortLib Float FloatSpec FloatProofs FloatFacts FloatCheckFacts FloatMedian FloatMedianSpec.
Import ListNotations.
Open Scope R_scope.

Definition posinf : f64 := B754_infinity false.
(** a number that is not NaN and not below zero *)
Definition nonneg (x : f64) : Prop := x = posinf \/ (fin x /\ 0 <= val x).

Lemma fadd_nonneg x y : nonneg x -> fin y -> 0 <= val y -> nonneg (fadd x y).
Proof.
  intros [->|[Fx Hx]] Fy Hy.
  - left. destruct y as [[]|[]| |[] m e b]; try discriminate Fy; reflexivity.
  - unfold fadd. pose proof (Bplus_correct 53 1024 _ _ mode_NE x y Fx Fy) as C.
    assert (Hr : 0 <= rnd (val x + val y)) by (rewrite <- (round_0 radix2 (SpecFloat.fexp 53 1024) (round_mode mode_NE)); apply rnd_mono; lra).
    destruct (Rlt_bool_spec (Rabs (rnd (val x + val y))) (bpow radix2 1024)) as [L|L].
    + rewrite ?Rlt_bool_true in C by exact L. destruct C as [C1 [C2 _]]. right. split; [exact C2|]. rewrite C1. exact Hr.
    + rewrite ?Rlt_bool_false in C by exact L. destruct C as [C1 C2].
      destruct (Bsign x) eqn:Sx.
      * (* both negative-signed: the sum is zero, no overflow *)
        exfalso. assert (Zx : val x <= 0). { destruct x as [s|s| |s m e b]; try (simpl; lra). simpl in Sx. subst s. simpl. apply Rlt_le. apply F2R_lt_0. simpl. lia. }
        assert (Zy : val y <= 0). { destruct y as [s|s| |s m e b]; try (simpl; lra). simpl in C2. subst s. simpl. apply Rlt_le. apply F2R_lt_0. simpl. lia. }
        assert (val x + val y = 0) by lra. rewrite H, round_0, Rabs_R0 in L by typeclasses eauto. pose proof (bpow_gt_0 radix2 1024). lra.
      * left. unfold binary_overflow in C1. cbn in C1. destruct (Bplus mode_NE x y); try discriminate C1. unfold posinf. cbn in C1. inversion C1. reflexivity.
Qed.

Lemma fold_nonneg ws : forall a, nonneg a -> (forall w, In w ws -> fin w /\ 0 <= val w) -> nonneg (fold_left fadd ws a).
Proof.
  induction ws as [|w ws IH]; intros a Ha Hw; [exact Ha|]. cbn [fold_left]. apply IH.
  - destruct (Hw w (or_introl eq_refl)). apply fadd_nonneg; assumption.
  - intros z Hz. apply Hw. right. exact Hz.
Qed.

Lemma half_spec : fin f_half /\ val f_half = / 2.
Proof. destruct (normalize_exact 1 (-1)) as [F V]; [vm_compute; reflexivity|lia|]. split; [exact F|]. unfold f_half. rewrite V. simpl. lra. Qed.

Lemma half_le x : nonneg x -> fle (fmul f_half x) x = true.
Proof.
  intros [->|[Fx Hx]]; [reflexivity|]. destruct half_spec as [Fh Vh]. unfold fmul. pose proof (Bmult_correct 53 1024 _ _ mode_NE f_half x) as C. rewrite Vh in C.
  assert (Hr : 0 <= rnd (/ 2 * val x) <= val x).
  { split; [rewrite <- (round_0 radix2 (SpecFloat.fexp 53 1024) (round_mode mode_NE)); apply rnd_mono; lra|]. rewrite <- (rnd_val x) at 2. apply rnd_mono. lra. }
  rewrite Rlt_bool_true in C.
  - destruct C as [C1 [C2 _]]. apply fle_true; [rewrite C2, Fh, Fx; reflexivity|exact Fx|]. rewrite C1. apply Hr.
  - rewrite Rabs_pos_eq by lra. eapply Rle_lt_trans; [apply Hr|]. apply Rle_lt_trans with (Rabs (val x)); [apply RRle_abs|]. apply abs_B2R_lt_emax.
Qed.

(** the scan ends at an item *)
Lemma scan_found half items : forall acc, items <> [] -> fle half (fold_left fadd (map fst items) acc) = true ->
  exists x, f_median_scan half acc items = Ok x /\ In x (map snd items).
Proof.
  induction items as [|[w x] items IH]; intros acc Hne Hl; [congruence|]. cbn [f_median_scan map fst snd fold_left] in *.
  destruct (fle half (fadd acc w)) eqn:E; [exists x; split; [reflexivity|left; reflexivity]|].
  destruct items as [|q items]; [cbn in Hl; congruence|]. destruct (IH (fadd acc w)) as [z [Z1 Z2]]; [discriminate|exact Hl|]. exists z. split; [exact Z1|right; exact Z2].
Qed.

Lemma fdiv_not_nan x y : fin x -> fin y -> val y <> 0 -> is_nan (fdiv x y) = false.
Proof.
  intros Fx Fy Ny. unfold fdiv. pose proof (Bdiv_correct 53 1024 _ _ mode_NE x y Ny) as C.
  destruct (Rlt_bool _ _).
  - destruct C as [_ [C2 _]]. rewrite Fx in C2. destruct (Bdiv mode_NE x y); try reflexivity. discriminate C2.
  - destruct (Bdiv mode_NE x y); try reflexivity. unfold binary_overflow in C. cbn in C. discriminate C.
Qed.

Lemma feq_zero x : fin x -> (feq x f0 = true <-> val x = 0).
Proof.
  intros Fx. unfold feq. rewrite Beqb_correct by (exact Fx || reflexivity). change (B2R f0) with 0. case Req_bool_spec; intros; split; intros; try reflexivity; try discriminate; try assumption; contradiction.
Qed.

(** ** for all finite targets and predictions: if some prediction is not zero the coefficient is found, and it is the (rounded) quotient
    target / prediction of one of those rows; neither overflow of the weights nor rounding leads to the unreachable!() at the end.
    If every prediction is zero the call panics *)
Lemma P_C88_always_found :
  forall targets predictions : list f64, finite_all targets -> finite_all predictions -> length targets = length predictions ->
  ((exists p, In p predictions /\ val p <> 0) ->
     exists i, (i < length targets)%nat /\ val (nth i predictions f0) <> 0 /\
       f_best_l1 targets predictions = Ok (fdiv (nth i targets f0) (nth i predictions f0))) /\
  ((forall p, In p predictions -> val p = 0) -> f_best_l1 targets predictions = Panic AssertFailed).
Proof.
  intros ys ps Fy Fp El. unfold f_best_l1. set (kept := filter (fun q => negb (feq (snd q) f0)) (combine ys ps)).
  assert (K : forall q, In q kept <-> In q (combine ys ps) /\ val (snd q) <> 0).
  { intros [a b]. unfold kept. rewrite filter_In. cbn [snd]. split; intros [H1 H2]; (split; [exact H1|]).
    - apply in_combine_r in H1. intros Z. apply (feq_zero b (Fp b H1)) in Z. rewrite Z in H2. discriminate H2.
    - apply in_combine_r in H1. destruct (feq b f0) eqn:E; [|reflexivity]. apply (feq_zero b (Fp b H1)) in E. contradiction. }
  set (f := fun q : f64 * f64 => (fabs (snd q), fdiv (fst q) (snd q))).
  split.
  - intros [p [Hp Np]].
    assert (Hk : exists q, In q kept).
    { apply (In_nth ps p f0) in Hp. destruct Hp as [i [Hi Ei]]. exists (nth i ys f0, p). apply K. split; [|exact Np]. rewrite <- Ei. rewrite <- combine_nth by exact El.
      apply nth_In. rewrite combine_length. lia. }
    assert (G : exists x, f_weighted_median (map f kept) = Ok x /\ In x (map snd (map f kept))).
    { unfold f_weighted_median. destruct Hk as [q0 Hq0].
      assert (Hne : map f kept <> []) by (destruct kept; [destruct Hq0|discriminate]).
      destruct (Nat.ltb_spec 0 (length (map f kept))) as [_|L]; [|destruct (map f kept); [congruence|simpl in L; lia]]. cbn [assert_ bind].
      assert (Hw : forall q, In q (map f kept) -> (fin (fst q) /\ 0 <= val (fst q)) /\ is_nan (snd q) = false).
      { intros q Hq. apply in_map_iff in Hq. destruct Hq as [[a b] [<- Hq]]. apply K in Hq. destruct Hq as [Hq Nb]. cbn [fst snd f] in *.
        assert (Fa : fin a) by (apply Fy, (in_combine_l _ _ _ _ Hq)). assert (Fb : fin b) by (apply Fp, (in_combine_r _ _ _ _ Hq)).
        split; [split; [apply fin_abs, Fb|unfold fabs; rewrite B2R_Babs; apply Rabs_pos]|]. apply fdiv_not_nan; assumption. }
      assert (Gen : exists x, (if existsb (fun q => is_nan (snd q)) (map f kept) then Panic UnwrapNone else
          f_median_scan (fmul f_half (fsum (map fst (isort (fun a b : f64 * f64 => fle (snd a) (snd b)) (map f kept))))) f0 (isort (fun a b : f64 * f64 => fle (snd a) (snd b)) (map f kept))) = Ok x /\
          In x (map snd (map f kept))).
      { destruct (existsb _ _) eqn:Ex.
        - apply existsb_exists in Ex. destruct Ex as [q [Hq Nq]]. destruct (Hw q Hq) as [_ Z]. pose proof (eq_trans (eq_sym Nq) Z) as X. discriminate X.
        - pose proof (isort_perm (fun a b : f64 * f64 => fle (snd a) (snd b)) (map f kept)) as P.
          set (l := isort (fun a b : f64 * f64 => fle (snd a) (snd b)) (map f kept)) in *.
          destruct (scan_found (fmul f_half (fsum (map fst l))) l f0) as [x [X1 X2]].
          + intros Z. rewrite Z in P. apply Permutation_sym, Permutation_nil in P. contradiction.
          + change (fold_left fadd (map fst l) f0) with (fsum (map fst l)). apply half_le. apply fold_nonneg; [right; split; [reflexivity|simpl; lra]|].
            intros w Hwm. apply in_map_iff in Hwm. destruct Hwm as [q [<- Hq]]. apply (Hw q). apply (Permutation_in q (Permutation_sym P) Hq).
          + exists x. split; [exact X1|]. apply (Permutation_in x (Permutation_map snd (Permutation_sym P)) X2). }
      destruct (map f kept) as [|[w x] [|q l]] eqn:Em; [congruence| |exact Gen]. exists x. split; [reflexivity|left; reflexivity]. }
    destruct G as [x [X1 X2]]. rewrite map_map in X2. apply in_map_iff in X2. destruct X2 as [[a b] [Ex Hq]]. apply K in Hq. destruct Hq as [Hq Nb].
    apply (In_nth _ _ (f0, f0)) in Hq. destruct Hq as [i [Hi Ei]]. rewrite combine_length in Hi. rewrite combine_nth in Ei by exact El. inversion Ei as [[E1 E2]]. exists i.
    split; [lia|]. rewrite E1, E2. split; [exact Nb|]. rewrite X1. f_equal. symmetry. exact Ex.
  - intros Z. assert (Hn : kept = []).
    { destruct kept as [|[a b] l]; [reflexivity|]. exfalso. destruct (proj1 (K (a, b)) (or_introl eq_refl)) as [H1 H2]. apply H2, Z, (in_combine_r _ _ _ _ H1). }
    rewrite Hn. reflexivity.
Qed.

(** ** order of the computed quotients *)
Lemma num_cases (x : f64) : is_nan x = false -> x = posinf \/ x = B754_infinity true \/ fin x.
Proof. destruct x as [s|[]| |s m e b]; intros H; try discriminate H; auto. Qed.

Lemma fle_total x y : is_nan x = false -> is_nan y = false -> fle x y = true \/ fle y x = true.
Proof.
  intros Hx Hy. destruct (num_cases x Hx) as [->|[->|Fx]].
  - right. destruct (num_cases y Hy) as [->|[->|Fy]]; try reflexivity. destruct y as [[]|[]| |[] m e b]; try discriminate Fy; reflexivity.
  - left. destruct (num_cases y Hy) as [->|[->|Fy]]; try reflexivity. destruct y as [[]|[]| |[] m e b]; try discriminate Fy; reflexivity.
  - destruct (num_cases y Hy) as [->|[->|Fy]].
    + left. destruct x as [[]|[]| |[] m e b]; try discriminate Fx; reflexivity.
    + right. destruct x as [[]|[]| |[] m e b]; try discriminate Fx; reflexivity.
    + destruct (Rle_dec (val x) (val y)) as [L|L]; [left|right]; apply fle_true; try assumption. lra.
Qed.

Lemma fle_inf_r x : is_nan x = false -> fle x posinf = true.
Proof. destruct x as [[]|[]| |[] m e b]; intros H; try discriminate H; reflexivity. Qed.
Lemma fle_inf_l x : is_nan x = false -> fle (B754_infinity true) x = true.
Proof. destruct x as [[]|[]| |[] m e b]; intros H; try discriminate H; reflexivity. Qed.
Lemma fle_posinf_inv x : fle posinf x = true -> x = posinf.
Proof. destruct x as [[]|[]| |[] m e b]; intros H; try discriminate H; reflexivity. Qed.
Lemma fle_neginf_inv x : fle x (B754_infinity true) = true -> x = B754_infinity true.
Proof. destruct x as [[]|[]| |[] m e b]; intros H; try discriminate H; reflexivity. Qed.

Lemma fle_trans x y z : is_nan x = false -> is_nan y = false -> is_nan z = false -> fle x y = true -> fle y z = true -> fle x z = true.
Proof.
  intros Hx Hy Hz L1 L2. destruct (num_cases x Hx) as [->|[->|Fx]].
  - apply fle_posinf_inv in L1. subst y. exact L2.
  - apply fle_inf_l, Hz.
  - destruct (num_cases z Hz) as [->|[->|Fz]]; [apply fle_inf_r, Hx| |].
    + apply fle_neginf_inv in L2. subst y. exact L1.
    + destruct (num_cases y Hy) as [->|[->|Fy]].
      * apply fle_posinf_inv in L2. subst z. discriminate Fz.
      * apply fle_neginf_inv in L1. subst x. discriminate Fx.
      * apply fle_true in L1; try assumption. apply fle_true in L2; try assumption. apply fle_true; try assumption. lra.
Qed.
Lemma flt_fle x y : flt x y = true -> fle y x = true -> False.
Proof.
  intros L1 L2. unfold flt, fle, Bltb, Bleb in *. 
  assert (Hx : is_nan x = false) by (destruct x; try reflexivity; discriminate L1).
  assert (Hy : is_nan y = false) by (destruct y; try reflexivity; destruct x; discriminate L1).
  destruct (num_cases x Hx) as [->|[->|Fx]].
  - destruct y as [[]|[]| |[] m e b]; discriminate.
  - apply fle_neginf_inv in L2. subst y. discriminate L1.
  - destruct (num_cases y Hy) as [->|[->|Fy]].
    + apply fle_posinf_inv in L2. subst x. discriminate Fx.
    + destruct x as [[]|[]| |[] m e b]; discriminate.
    + apply (flt_true x y Fx Fy) in L1. apply (fle_true y x Fy Fx) in L2. lra.
Qed.

Section SortOn.
  Context {A : Type} (leb : A -> A -> bool) (P : A -> Prop).
  Hypothesis tot : forall a b, P a -> P b -> leb a b = true \/ leb b a = true.
  Hypothesis tra : forall a b c, P a -> P b -> P c -> leb a b = true -> leb b c = true -> leb a c = true.
  Lemma insert_sorted_on a l : P a -> (forall b, In b l -> P b) -> StronglySorted (fun x y => leb x y = true) l -> StronglySorted (fun x y => leb x y = true) (insert leb a l).
  Proof.
    intros Pa Pl S. induction S as [|b l Sl IH Hb]; cbn [insert]; [constructor; constructor|].
    assert (Pb : P b) by (apply Pl; left; reflexivity). assert (Pl' : forall c, In c l -> P c) by (intros c Hc; apply Pl; right; exact Hc).
    destruct (leb a b) eqn:E.
    - constructor; [constructor; assumption|]. constructor; [exact E|]. rewrite Forall_forall in *. intros c Hc. apply (tra a b c); auto.
    - constructor; [apply IH, Pl'|]. rewrite Forall_forall in *. intros c Hc. apply (Permutation_in c (Permutation_sym (insert_perm leb a l))) in Hc. destruct Hc as [<-|Hc]; [|apply Hb, Hc].
      destruct (tot a b Pa Pb) as [H|H]; [congruence|exact H].
  Qed.
  Lemma isort_sorted_on l : (forall b, In b l -> P b) -> StronglySorted (fun x y => leb x y = true) (isort leb l).
  Proof.
    induction l as [|a l IH]; intros Pl; cbn [isort fold_right]; [constructor|]. apply insert_sorted_on; [apply Pl; left; reflexivity| |apply IH; intros b Hb; apply Pl; right; exact Hb].
    intros b Hb. apply Pl. right. apply (Permutation_in b (Permutation_sym (isort_perm leb l)) Hb).
  Qed.
End SortOn.

Lemma scan_split half items : forall acc x, f_median_scan half acc items = Ok x ->
  exists pre w post, items = pre ++ (w, x) :: post /\ fle half (fold_left fadd (map fst pre ++ [w]) acc) = true /\
    (pre = [] \/ fle half (fold_left fadd (map fst pre) acc) = false).
Proof.
  induction items as [|[w x0] items IH]; intros acc x E; cbn [f_median_scan] in E; [discriminate|]. destruct (fle half (fadd acc w)) eqn:L.
  - inversion E; subst x0. exists [], w, items. split; [reflexivity|]. split; [exact L|left; reflexivity].
  - destruct (IH _ _ E) as [pre [w' [post [E1 [E2 E3]]]]]. exists ((w, x0) :: pre), w', post. split; [rewrite E1; reflexivity|]. split; [exact E2|].
    right. destruct E3 as [->|E3]; [exact L|exact E3].
Qed.

(** pure reals: half of the rounded total against rounded partial sums *)
Lemma below_half W SA A T h g : 0 <= g <= / 100 -> 0 <= SA -> 0 < W -> Rabs (A - SA) <= g * SA -> Rabs (T - W) <= g * W -> Rabs (h - T / 2) <= uu * T -> A <= h ->
  SA <= (1 / 2 + 2 * g + 2 * uu) * W.
Proof.
  intros Hg HS HW HA HT Hh L. apply Rabs_le_inv in HA. apply Rabs_le_inv in HT. apply Rabs_le_inv in Hh. pose proof uu_pos. pose proof uu_small.
  assert (T0 : T <= (1 + g) * W) by lra. assert (A1 : (1 - g) * SA <= (1 / 2 + uu) * T) by lra.
  assert (A2 : (1 - g) * SA <= (1 / 2 + uu) * ((1 + g) * W)) by (eapply Rle_trans; [exact A1|]; apply Rmult_le_compat_l; lra).
  assert (Q : (1 / 2 + uu) * (1 + g) <= (1 - g) * (1 / 2 + 2 * g + 2 * uu)) by nra.
  assert ((1 - g) * SA <= (1 - g) * ((1 / 2 + 2 * g + 2 * uu) * W)) by (eapply Rle_trans; [exact A2|]; rewrite <- !Rmult_assoc; apply Rmult_le_compat_r; lra).
  apply (Rmult_le_reg_l (1 - g)); lra.
Qed.
Lemma above_half W SB B T h g : 0 <= g <= / 100 -> 0 <= SB -> 0 < W -> Rabs (B - SB) <= g * SB -> Rabs (T - W) <= g * W -> Rabs (h - T / 2) <= uu * T -> h <= B ->
  W - SB <= (1 / 2 + 2 * g + 2 * uu) * W.
Proof.
  intros Hg HS HW HB HT Hh L. apply Rabs_le_inv in HB. apply Rabs_le_inv in HT. apply Rabs_le_inv in Hh. pose proof uu_pos. pose proof uu_small.
  assert (T0 : (1 - g) * W <= T) by lra. assert (A1 : (1 / 2 - uu) * T <= (1 + g) * SB) by lra.
  assert (A2 : (1 / 2 - uu) * ((1 - g) * W) <= (1 + g) * SB) by (eapply Rle_trans; [|exact A1]; apply Rmult_le_compat_l; lra).
  assert (Q : (1 + g) * (1 / 2 - 2 * g - 2 * uu) <= (1 / 2 - uu) * (1 - g)) by nra.
  assert ((1 + g) * ((1 / 2 - 2 * g - 2 * uu) * W) <= (1 + g) * SB) by (eapply Rle_trans; [|exact A2]; rewrite <- !Rmult_assoc; apply Rmult_le_compat_r; lra).
  assert ((1 / 2 - 2 * g - 2 * uu) * W <= SB) by (apply (Rmult_le_reg_l (1 + g)); lra). lra.
Qed.

Lemma wsum_filter_le {A} (w : A -> R) (P : A -> bool) l : (forall a, In a l -> 0 <= w a) -> rsum (map w (filter P l)) <= rsum (map w l).
Proof.
  induction l as [|a l IH]; intros H; [simpl; lra|]. cbn [filter map rsum]. pose proof (IH (fun b Hb => H b (or_intror Hb))). pose proof (H a (or_introl eq_refl)).
  destruct (P a); cbn [map rsum]; lra.
Qed.
Lemma filter_none {A} (P : A -> bool) l : (forall a, In a l -> P a = false) -> filter P l = [].
Proof. induction l as [|a l IH]; intros H; [reflexivity|]. cbn [filter]. rewrite (H a (or_introl eq_refl)). apply IH. intros b Hb. apply H. right. exact Hb. Qed.
Lemma wsum_perm {A} (w : A -> R) (P : A -> bool) l m : Permutation l m -> rsum (map w (filter P l)) = rsum (map w (filter P m)).
Proof. intros H. induction H; cbn [filter]; [reflexivity| | |congruence]; repeat match goal with |- context [if ?b then _ else _] => destruct b end; cbn [map rsum]; lra. Qed.

Lemma sum_facts c (n : nat) : finite_all c -> (forall x, In x c -> 0 <= val x) -> (length c <= n)%nat -> INR n <= 2 ^ 40 -> total c < 2 ^ 1023 ->
  fin (fsum c) /\ Rabs (val (fsum c) - total c) <= 2 * (INR n * uu) * total c.
Proof.
  intros Fc Pc Hl Hn Ht. assert (P4052 : 2 ^ 40 <= 2 ^ 52) by (apply Rle_pow; [lra|lia]).
  assert (Few : few (length c)) by (unfold few; apply Rle_trans with (INR n); [apply le_INR, Hl|lra]).
  destruct (P_C77_parallel_sum_error (FLeaf c) Fc Few) as [F D]; [cbn [ftree_items]; rewrite size_total by exact Pc; exact Ht|]. cbn [ftree_sum ftree_items] in F, D.
  split; [exact F|]. rewrite size_total in D by exact Pc.
  destruct (gam_few (length c - 1) (few_le (length c - 1) (length c) (Nat.le_sub_l _ _) Few)) as [G _].
  assert (T0 : 0 <= total c) by (rewrite <- size_total by exact Pc; apply size_nonneg).
  eapply Rle_trans; [exact D|]. apply Rmult_le_compat_r; [exact T0|]. eapply Rle_trans; [exact G|]. pose proof uu_pos. apply Rmult_le_compat_l; [lra|]. apply Rmult_le_compat_r; [lra|]. apply le_INR. lia.
Qed.

(** the scan on sorted items with non-negative weights *)
Lemma median_near (l : list (f64 * f64)) (n : nat) x W :
  (forall q, In q l -> (fin (fst q) /\ 0 <= val (fst q)) /\ is_nan (snd q) = false) ->
  StronglySorted (fun a b : f64 * f64 => fle (snd a) (snd b) = true) l ->
  W = rsum (map (fun q => val (fst q)) l) -> (length l <= n)%nat -> (1 <= n)%nat -> INR n <= 2 ^ 40 -> / 2 ^ 900 <= W -> W < 2 ^ 1023 ->
  f_median_scan (fmul f_half (fsum (map fst l))) f0 l = Ok x ->
  rsum (map (fun q => val (fst q)) (filter (fun q => flt (snd q) x) l)) <= (1 / 2 + 6 * INR n * uu) * W /\
  rsum (map (fun q => val (fst q)) (filter (fun q => flt x (snd q)) l)) <= (1 / 2 + 6 * INR n * uu) * W.
Proof.
  intros Hq Hs HW Hl H1 Hn WL WU E. destruct (scan_split _ _ _ _ E) as [pre [w [post [El [EB EA]]]]].
  set (val1 := fun q : f64 * f64 => val (fst q)) in *.
  assert (HW' : rsum (map val1 l) = W) by (symmetry; exact HW).
  assert (N1 : 1 <= INR n) by (change 1 with (INR 1); apply le_INR, H1).
  assert (U40 : INR n * uu <= / 8192). { unfold uu. apply (Rmult_le_compat_r (/ 2 ^ 53)) in Hn; [|left; apply Rinv_0_lt_compat, pow_lt; lra]. eapply Rle_trans; [exact Hn|]. simpl. lra. }
  pose proof uu_pos as Up. pose proof uu_small as Us.
  assert (Tot : forall m, total (map fst m) = rsum (map val1 m)) by (intros m; unfold total; rewrite map_map; reflexivity).
  assert (Sub : forall m, incl m l -> finite_all (map fst m) /\ (forall z, In z (map fst m) -> 0 <= val z)).
  { intros m Hm. split; intros z Hz; apply in_map_iff in Hz; destruct Hz as [q [<- Hz]]; apply (Hq q (Hm q Hz)). }
  assert (Nn : forall m, incl m l -> forall q, In q m -> 0 <= val1 q) by (intros m Hm q Hz; apply (Hq q (Hm q Hz))).
  assert (Wpos : 0 < W) by (eapply Rlt_le_trans; [|exact WL]; apply Rinv_0_lt_compat, pow_lt; lra).
  assert (Sall : rsum (map val1 l) = rsum (map val1 pre) + (val1 (w, x) + rsum (map val1 post))) by (rewrite El, map_app, rsum_app; reflexivity).
  assert (Ipre : incl pre l) by (intros q H; rewrite El; apply in_or_app; left; exact H).
  assert (Ipw : incl (pre ++ [(w, x)]) l) by (intros q H; rewrite El; apply in_app_or in H; apply in_or_app; destruct H as [H|[<-|[]]]; [left; exact H|right; left; reflexivity]).
  assert (Ipost : incl post l) by (intros q H; rewrite El; apply in_or_app; right; right; exact H).
  assert (SA0 : 0 <= rsum (map val1 pre)) by (apply rsum_nonneg; intros z Hz; apply in_map_iff in Hz; destruct Hz as [q [<- Hz]]; apply (Nn pre Ipre q Hz)).
  assert (SP0 : 0 <= rsum (map val1 post)) by (apply rsum_nonneg; intros z Hz; apply in_map_iff in Hz; destruct Hz as [q [<- Hz]]; apply (Nn post Ipost q Hz)).
  assert (W0 : 0 <= val1 (w, x)) by (apply (Nn _ Ipw); apply in_or_app; right; left; reflexivity).
  set (g := 2 * (INR n * uu)). assert (Hg : 0 <= g <= / 100) by (unfold g; nra).
  destruct (Sub l (incl_refl l)) as [Fl Pl].
  destruct (sum_facts (map fst l) n Fl Pl ltac:(rewrite map_length; exact Hl) Hn ltac:(rewrite Tot, HW'; exact WU)) as [FT DT]. rewrite Tot, HW' in DT. fold g in DT.
  set (T := fsum (map fst l)) in *.
  assert (Ll : (length pre + S (length post) <= n)%nat) by (rewrite El, app_length in Hl; exact Hl).
  destruct (Sub _ Ipw) as [Fb Pb]. 
  assert (Sb : rsum (map val1 (pre ++ [(w, x)])) = rsum (map val1 pre) + val1 (w, x)) by (rewrite map_app, rsum_app; cbn [map rsum]; ring).
  destruct (sum_facts (map fst (pre ++ [(w, x)])) n Fb Pb ltac:(rewrite map_length, app_length; simpl; lia) Hn) as [FB DB].
  { rewrite Tot, Sb. eapply Rle_lt_trans; [|exact WU]. lra. }
  rewrite Tot, Sb in DB. fold g in DB.
  (* the half *)
  destruct half_spec as [Fh Vh]. set (hf := fmul f_half T) in *.
  assert (T0 : (1 - g) * W <= val T) by (apply Rabs_le_inv in DT; lra). assert (TU : val T <= (1 + g) * W) by (apply Rabs_le_inv in DT; lra).
  destruct (err_mult (/ 2 * val T)) as [e [h' [He [Hh' Eh]]]]. fold eta0 in Hh'.
  assert (Et : eta0 <= uu * / 2 ^ 902).
  { unfold eta0. rewrite <- uu_bpow. change (-1075)%Z with (- Z.of_nat 120 + (-53 + - Z.of_nat 902))%Z. rewrite !bpow_plus, !bpow_opp, !two_pow.
    assert (I1 : / 2 ^ 120 <= 1) by (rewrite <- Rinv_1; apply Rinv_le_contravar; [lra|apply pow_R1_Rle; lra]).
    assert (I2 : 0 < bpow radix2 (-53) * / 2 ^ 902) by (apply Rmult_lt_0_compat; [apply bpow_gt_0|apply Rinv_0_lt_compat, pow_lt; lra]). nra. }
  assert (E902 : / 2 ^ 902 = / 4 * / 2 ^ 900) by (change 902%nat with (2 + 900)%nat; rewrite pow_add, Rinv_mult; f_equal; simpl; lra).
  assert (Etw : eta0 <= uu * (/ 4 * W)). { eapply Rle_trans; [exact Et|]. rewrite E902. apply Rmult_le_compat_l; [lra|]. apply Rmult_le_compat_l; lra. }
  assert (VhT : Rabs (rnd (/ 2 * val T) - val T / 2) <= uu * val T).
  { rewrite Eh. replace (/ 2 * val T * (1 + e) + h' - val T / 2) with (/ 2 * val T * e + h') by field. eapply Rle_trans; [apply Rabs_triang|].
    rewrite Rabs_mult, (Rabs_pos_eq (/ 2 * val T)) by nra. assert (/ 2 * val T * Rabs e <= / 2 * val T * uu) by (apply Rmult_le_compat_l; nra).
    assert (/ 4 * W <= / 2 * val T) by nra. assert (uu * (/ 4 * W) <= uu * (/ 2 * val T)) by (apply Rmult_le_compat_l; lra). lra. }
  assert (Hfin : fin hf /\ val hf = rnd (/ 2 * val T)).
  { unfold hf, fmul. pose proof (Bmult_correct 53 1024 _ _ mode_NE f_half T) as C. rewrite Vh in C. rewrite Rlt_bool_true in C.
    - destruct C as [C1 [C2 _]]. split; [rewrite C2, Fh, FT; reflexivity|exact C1].
    - apply Rabs_le_inv in VhT. rewrite Rabs_pos_eq by nra. rewrite big_1024. clear -VhT TU WU Hg Us Up Wpos T0. generalize dependent (2 ^ 1023). intros. nra. }
  destruct Hfin as [Fhf Vhf]. rewrite <- Vhf in VhT.
  rewrite El in Hs.
  assert (Sp : forall q, In q pre -> fle (snd q) x = true) .
  { clear -Hs. induction pre as [|a pre IH]; intros q Hq; [destruct Hq|]. cbn [app] in Hs. inversion Hs as [|? ? S1 F1]; subst. destruct Hq as [<-|Hq]; [|apply IH; assumption].
    rewrite Forall_forall in F1. apply (F1 (w, x)). apply in_or_app. right. left. reflexivity. }
  assert (Sq : forall q, In q post -> fle x (snd q) = true).
  { clear -Hs. induction pre as [|a pre IH]; cbn [app] in Hs; inversion Hs as [|? ? S1 F1]; subst; [|apply IH; assumption]. intros q Hq. rewrite Forall_forall in F1. apply (F1 q Hq). }
  assert (Fin2 : 2 * g + 2 * uu <= 6 * INR n * uu) by (unfold g; nra).
  split.
  - (* strictly below: only rows of pre *)
    rewrite El, filter_app. cbn [filter snd]. destruct (flt x x) eqn:Exx.
    { exfalso. assert (Nx : is_nan x = false) by (apply (Hq (w, x)), Ipw, in_or_app; right; left; reflexivity). apply (flt_fle x x Exx). destruct (fle_total x x Nx Nx); assumption. }
    rewrite (filter_none _ post), app_nil_r.
    2: { intros q H. destruct (flt (snd q) x) eqn:L; [|reflexivity]. exfalso. apply (flt_fle _ _ L), Sq, H. }
    eapply Rle_trans; [apply wsum_filter_le; intros q H; apply (Nn pre Ipre q H)|].
    destruct EA as [->|EA]; [cbn [map rsum]; nra|].
    destruct (Sub pre Ipre) as [Fa Pa]. destruct (sum_facts (map fst pre) n Fa Pa ltac:(rewrite map_length; lia) Hn) as [FA DA].
    { rewrite Tot. eapply Rle_lt_trans; [|exact WU]. lra. }
    rewrite Tot in DA. fold g in DA.
    assert (LA : val (fsum (map fst pre)) <= val hf).
    { apply Rnot_lt_le. intros X. assert (fle hf (fsum (map fst pre)) = true) by (apply fle_true; [exact Fhf|exact FA|lra]). unfold fsum in H. congruence. }
    pose proof (below_half W (rsum (map val1 pre)) (val (fsum (map fst pre))) (val T) (val hf) g Hg SA0 Wpos DA DT VhT LA).
    eapply Rle_trans; [exact H|]. apply Rmult_le_compat_r; lra.
  - rewrite El, filter_app. cbn [filter snd]. destruct (flt x x) eqn:Exx.
    { exfalso. assert (Nx : is_nan x = false) by (apply (Hq (w, x)), Ipw, in_or_app; right; left; reflexivity). apply (flt_fle x x Exx). destruct (fle_total x x Nx Nx); assumption. }
    rewrite (filter_none _ pre). cbn [app].
    2: { intros q H. destruct (flt x (snd q)) eqn:L; [|reflexivity]. exfalso. apply (flt_fle _ _ L), Sp, H. }
    eapply Rle_trans; [apply wsum_filter_le; intros q H; apply (Nn post Ipost q H)|].
    assert (LB : val hf <= val (fsum (map fst (pre ++ [(w, x)])))).
    { apply fle_true; [exact Fhf|exact FB|]. rewrite map_app. exact EB. }
    pose proof (above_half W (rsum (map val1 pre) + val1 (w, x)) _ (val T) (val hf) g Hg ltac:(lra) Wpos DB DT VhT LB).
    apply Rle_trans with (W - (rsum (map val1 pre) + val1 (w, x))); [change (rsum (map val1 post) <= W - (rsum (map val1 pre) + val1 (w, x))); rewrite <- HW', Sall; apply Req_le; ring|]. eapply Rle_trans; [exact H|]. apply Rmult_le_compat_r; lra.
Qed.

Lemma filter_le_len {A} (p : A -> bool) l : (length (filter p l) <= length l)%nat.
Proof. induction l as [|a l IH]; [apply Nat.le_refl|]. cbn [filter]. destruct (p a); cbn [length]; lia. Qed.

Lemma kept_weight (P : f64 -> bool) (ys ps : list f64) : (forall p, In p ps -> fin p) ->
  weight_where P ys ps = rsum (map (fun q : f64 * f64 => val (fst q)) (filter (fun q : f64 * f64 => P (snd q)) (map (fun q : f64 * f64 => (fabs (snd q), fdiv (fst q) (snd q))) (filter (fun q : f64 * f64 => negb (feq (snd q) f0)) (combine ys ps))))).
Proof.
  intros Fp. assert (Fc : forall q : f64 * f64, In q (combine ys ps) -> fin (snd q)) by (intros [a b] H; apply Fp, (in_combine_r _ _ _ _ H)).
  assert (G : forall l : list (f64 * f64), (forall q, In q l -> fin (snd q)) ->
    rsum (map (fun q : f64 * f64 => Rabs (val (snd q))) (filter (fun q : f64 * f64 => P (fdiv (fst q) (snd q))) l)) =
    rsum (map (fun q : f64 * f64 => val (fst q)) (filter (fun q : f64 * f64 => P (snd q)) (map (fun q : f64 * f64 => (fabs (snd q), fdiv (fst q) (snd q))) (filter (fun q : f64 * f64 => negb (feq (snd q) f0)) l))))).
  { clear. induction l as [|[a b] l IH]; intros Fc; [reflexivity|]. cbn [filter snd fst].
    assert (Fb : fin b) by (apply (Fc (a, b)); left; reflexivity). specialize (IH (fun q H => Fc q (or_intror H))).
    destruct (feq b f0) eqn:Eb; cbn [negb].
    - apply (feq_zero b Fb) in Eb. destruct (P (fdiv a b)); [|exact IH]. cbn [map rsum snd]. rewrite Eb, Rabs_R0. rewrite <- IH. ring.
    - cbn [map filter snd fst]. destruct (P (fdiv a b)); [|exact IH]. cbn [map rsum snd fst]. rewrite <- IH. unfold fabs. rewrite B2R_Babs. reflexivity. }
  exact (G _ Fc).
Qed.

(** ** the coefficient is a weighted median of the computed quotients up to the rounding of the sums: at most (1/2 + 6 n 2^-53) of the total
    weight lies strictly on either side of it (n rows, at most 2^40; total weight neither overflowing nor below 2^-900) *)
Lemma P_C88_near_median :
  forall (targets predictions : list f64) (c : f64), finite_all targets -> finite_all predictions -> length targets = length predictions ->
  let n := INR (length predictions) in let W := weight_where (fun _ => true) targets predictions in
  n <= 2 ^ 40 -> / 2 ^ 900 <= W -> W < 2 ^ 1023 -> f_best_l1 targets predictions = Ok c ->
  weight_where (fun q => flt q c) targets predictions <= (1 / 2 + 6 * n * uu) * W /\
  weight_where (fun q => flt c q) targets predictions <= (1 / 2 + 6 * n * uu) * W.
Proof.
  intros ys ps c Fy Fp El n W Hn WL WU E. unfold W in *. clear W. subst n.
  rewrite (kept_weight (fun q => flt q c) ys ps Fp), (kept_weight (fun q => flt c q) ys ps Fp). rewrite (kept_weight (fun _ => true) ys ps Fp) in *. unfold f_best_l1, f_weighted_median in E.
  set (items := map (fun q => (fabs (snd q), fdiv (fst q) (snd q))) (filter (fun q => negb (feq (snd q) f0)) (combine ys ps))) in *.
  assert (Ft : filter (fun q : f64 * f64 => true) items = items) by (clear; induction items as [|a l IH]; [reflexivity|cbn [filter]; rewrite IH; reflexivity]). rewrite Ft in *.
  assert (Hq : forall q, In q items -> (fin (fst q) /\ 0 <= val (fst q)) /\ is_nan (snd q) = false).
  { intros q H. apply in_map_iff in H. destruct H as [[a b] [<- H]]. apply filter_In in H. destruct H as [H Nb]. cbn [fst snd] in *.
    assert (Fa : fin a) by (apply Fy, (in_combine_l _ _ _ _ H)). assert (Fb : fin b) by (apply Fp, (in_combine_r _ _ _ _ H)).
    split; [split; [apply fin_abs, Fb|unfold fabs; rewrite B2R_Babs; apply Rabs_pos]|]. apply fdiv_not_nan; [exact Fa|exact Fb|]. intros Z. apply (feq_zero b Fb) in Z. rewrite Z in Nb. discriminate Nb. }
  assert (Li : (length items <= length ps)%nat).
  { unfold items. rewrite map_length. eapply Nat.le_trans; [apply filter_le_len|]. rewrite combine_length. lia. }
  destruct (Nat.ltb_spec 0 (length items)) as [L0|L0]; cbn [assert_ bind] in E; [|discriminate].
  assert (H1 : (1 <= length ps)%nat) by lia.
  assert (P0 : 0 < rsum (map (fun q : f64 * f64 => val (fst q)) items)) by (eapply Rlt_le_trans; [|exact WL]; apply Rinv_0_lt_compat, pow_lt; lra).
  assert (B0 : 0 <= (1 / 2 + 6 * INR (length ps) * uu) * rsum (map (fun q : f64 * f64 => val (fst q)) items)).
  { pose proof uu_pos. pose proof (pos_INR (length ps)). apply Rmult_le_pos; [|lra]. nra. }
  assert (Gen : (if existsb (fun q => is_nan (snd q)) items then Panic UnwrapNone else
      f_median_scan (fmul f_half (fsum (map fst (isort (fun a b : f64 * f64 => fle (snd a) (snd b)) items)))) f0 (isort (fun a b : f64 * f64 => fle (snd a) (snd b)) items)) = Ok c ->
      rsum (map (fun q => val (fst q)) (filter (fun q => flt (snd q) c) items)) <= (1 / 2 + 6 * INR (length ps) * uu) * rsum (map (fun q => val (fst q)) items) /\
      rsum (map (fun q => val (fst q)) (filter (fun q => flt c (snd q)) items)) <= (1 / 2 + 6 * INR (length ps) * uu) * rsum (map (fun q => val (fst q)) items)).
  { intros Eg. destruct (existsb _ _); [discriminate|]. pose proof (isort_perm (fun a b : f64 * f64 => fle (snd a) (snd b)) items) as P.
    set (l := isort (fun a b : f64 * f64 => fle (snd a) (snd b)) items) in *.
    assert (Ql : forall q, In q l -> (fin (fst q) /\ 0 <= val (fst q)) /\ is_nan (snd q) = false) by (intros q H; apply Hq, (Permutation_in q (Permutation_sym P) H)).
    assert (Sl : StronglySorted (fun a b : f64 * f64 => fle (snd a) (snd b) = true) l).
    { apply (isort_sorted_on (fun a b : f64 * f64 => fle (snd a) (snd b)) (fun q => is_nan (snd q) = false)).
      - intros a b Ha Hb. apply fle_total; assumption.
      - intros a b d Ha Hb Hd. apply fle_trans; assumption.
      - intros b Hb. apply (Hq b Hb). }
    assert (Ew : rsum (map (fun q : f64 * f64 => val (fst q)) items) = rsum (map (fun q => val (fst q)) l)) by (apply rsum_perm, Permutation_map, P).
    rewrite !(wsum_perm _ _ items l P).
    refine (median_near l (length ps) c _ Ql Sl Ew _ H1 Hn WL WU Eg). rewrite <- (Permutation_length P). exact Li. }
  destruct items as [|[w x] [|q l]] eqn:Ei; [simpl in L0; lia| |exact (Gen E)].
  inversion E; subst x. destruct (Hq (w, c) (or_introl eq_refl)) as [_ Nc]. cbn [snd] in Nc.
  assert (Ecc : flt c c = false). { destruct (flt c c) eqn:L; [|reflexivity]. exfalso. apply (flt_fle c c L). destruct (fle_total c c Nc Nc); assumption. }
  cbn [filter snd]. rewrite Ecc. cbn [map rsum]. split; exact B0.
Qed.

(** ** Example: two rows with targets 1, 1 and predictions 1, 1 *)
Example C88_hypotheses_met : finite_all [f1; f1] /\ (exists p, In p [f1; f1] /\ val p <> 0) /\ / 2 ^ 900 <= weight_where (fun _ => true) [f1; f1] [f1; f1] < 2 ^ 1023.
Proof.
  destruct f1_spec as [F V]. split; [intros x [<-|[<-|[]]]; exact F|]. split; [exists f1; split; [left; reflexivity|rewrite V; lra]|].
  unfold weight_where. cbn [combine filter map rsum snd]. rewrite V, Rabs_R1. pose proof big1023. split.
  - apply Rle_trans with 1; [rewrite <- Rinv_1; apply Rinv_le_contravar; [lra|apply pow_R1_Rle; lra]|lra].
  - generalize dependent (2 ^ 1023). intros. lra.
Qed.
