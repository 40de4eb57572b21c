(** Facts about the histogram bins: C24, C60. *)
From Coq Require Import String.
From Coq Require Import Floats.SpecFloat.
From Verif Require Import Base Spec BinSearch Feature Sample SampleSpec FeatureFacts SampleFacts Bins BinsSpec BinsProofs BinsFloat TreeSpec DTree TreeShape BinsFacts.
Open Scope R_scope.


(** ** C24: bins *)

Theorem C24_bins :
  forall f n mn mx, spans f mn mx -> (forall x, In x (stored f) -> moderate x) ->
  match cut f n with
  | Ok bins =>
      length bins = n /\ chain F64MIN F64MAX bins /\
      (forall x, F64MIN <= x < F64MAX -> one_bin bins x) /\
      (forall k, (S k < n)%nat -> b_end (nth k bins (mkBin 0 0)) = (if Req_EM_T mn mx then mn - / 1000 else mn) + INR (S k) * bin_width mn mx n)
  | Panic _ => n = 0%nat \/ ((1 < n)%nat /\ bin_width mn mx n < / 10 ^ 9)
  end.
Proof. exact P_C24_bins. Qed.
Print Assumptions C24_bins.

Theorem C24_bins_exist :
  forall f n mn mx, spans f mn mx -> (forall x, In x (stored f) -> moderate x) ->
  n = 1%nat \/ ((1 < n)%nat /\ / 10 ^ 9 <= bin_width mn mx n) -> exists bins, cut f n = Ok bins.
Proof. exact P_C24_bins_exist. Qed.
Print Assumptions C24_bins_exist.

Theorem C24_pack_bin :
  forall bins x, chain F64MIN F64MAX bins -> F64MIN <= x < F64MAX ->
  exists k, find_bin bins x = Ok k /\ (k < length bins)%nat /\ in_bin (nth k bins (mkBin 0 0)) x /\
    forall j, (j < length bins)%nat -> in_bin (nth j bins (mkBin 0 0)) x -> j = k.
Proof. exact P_C24_pack_bin. Qed.
Print Assumptions C24_pack_bin.

Example C24_bins_case : spans (Dense "a" [0; 1; 3]) 0 3 /\ (forall x, In x (stored (Dense "a" [0; 1; 3])) -> moderate x) /\ exists bins, cut (Dense "a" [0; 1; 3]) 2 = Ok bins.
Proof.
  pose proof F64MAX_big as B.
  assert (H1 : spans (Dense "a" [0; 1; 3]) 0 3). { split; [simpl; auto|]. split; [simpl; auto|]. intros x [<-|[<-|[<-|[]]]]; lra. }
  assert (H2 : forall x, In x (stored (Dense "a" [0; 1; 3])) -> moderate x). { intros x [<-|[<-|[<-|[]]]]; unfold moderate; rewrite Rabs_pos_eq; lra. }
  split; [exact H1|]. split; [exact H2|]. apply (P_C24_bins_exist _ 2 0 3 H1 H2). right. split; [lia|]. unfold bin_width. destruct (Req_EM_T 0 3); [lra|]. simpl. lra.
Qed.

(** ** building the learner *)

(** ** C60: when the learner can be built *)

Theorem C60_build_iff :
  forall s b, made s -> (0 < fst (shape s))%nat -> NoDup (map feat_name (s_features s)) ->
  (forall f x, In f (s_features s) -> In x (stored f) -> moderate x) -> dt_made s b ->
  ((exists t, tb_build b s = Ok t) <->
   forall f mn mx, In f (s_features s) -> spans f mn mx ->
     exists nb, In (feat_name f, nb) (tb_nbins b) /\ (nb = 1%nat \/ ((1 < nb)%nat /\ / 10 ^ 9 <= bin_width mn mx nb))).
Proof. exact P_C60_build_iff. Qed.
Print Assumptions C60_build_iff.

(** two different values less than 2e-9 apart: the learner with default parameters cannot be built *)
Theorem C60_tiny_range_refuted :
  exists s, made s /\ length (s_target s) = fst (shape s) /\ (forall f x, In f (s_features s) -> In x (stored f) -> moderate x) /\
    forall t, tb_build (tb_new s) s <> Ok t.
Proof. exact P_C60_tiny_range_refuted. Qed.
Print Assumptions C60_tiny_range_refuted.

(** a column with the ten values 0, 1, ..., 8, 2^24: in binary64 the ten additions of 2^24/10 stop short of 2^24 by
    more than 1e-9, an eleventh bin is made and the assertion on the number of bins fails *)
Theorem C60_rounding_refuted :
  exists v, NoDup v /\ length v = 10%nat /\ (forall x, In x v -> exists k, (0 <= k <= 2 ^ 24)%Z /\ x = f_of_Z k) /\
    forall bins, fcut_dense v (Nat.min (length v) 255) <> Ok bins.
Proof. exact P_C60_rounding_refuted. Qed.
Print Assumptions C60_rounding_refuted.
