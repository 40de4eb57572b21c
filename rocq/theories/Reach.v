(** The states in which a booster enters its rounds. *)
From Verif Require Import Base Booster.

(** [reach b s0 t s]: running [b] from [s0], round [t] starts in state [s] (src/booster/core.rs:46-59) *)
Inductive reach {St Out} (b : booster St Out) (s0 : St) : nat -> St -> Prop :=
| reach_first s : b_pre b s0 = Ok s -> reach b s0 1 s
| reach_next t s q s' : reach b s0 t s -> b_boost b t s = (q, Ok (s', Continue)) -> reach b s0 (S t) s'.

(** invariant rule that may use reachability *)
Lemma run_reach {St Out} (b : booster St Out) s0 (I : nat -> St -> trace -> Prop) (F : outcome Out -> Prop) :
  (forall s, b_pre b s0 = Ok s -> I 1%nat s []) ->
  (forall t s tr, reach b s0 t s -> I t s tr ->
     match b_boost b t s with
     | (q, Panic p) => F (Crashed (tr ++ q) p)
     | (q, Ok (s', Continue)) => I (S t) s' (tr ++ q)
     | (q, Ok (s', Break _)) => match b_post b s' with Ok o => F (Finished (tr ++ q) o) | Panic p => F (Crashed (tr ++ q) p) end
     end) ->
  (forall t s tr, reach b s0 t s -> I t s tr -> F (Unfinished tr)) ->
  (forall p, b_pre b s0 = Panic p -> F (Crashed [] p)) ->
  forall fuel, F (run b fuel s0).
Proof.
  intros Hpre Hstep Hun Hcr fuel. unfold run. destruct (b_pre b s0) as [s1|p] eqn:E; [|apply Hcr; reflexivity].
  assert (R : reach b s0 1 s1) by (constructor; exact E). specialize (Hpre s1 eq_refl). revert R Hpre. clear E Hcr. generalize 1%nat as t, (@nil (list R)) as tr. revert s1.
  induction fuel as [|fuel IH]; intros s t tr R HI; simpl; [apply (Hun t s tr R HI)|]. specialize (Hstep t s tr R HI).
  destruct (b_boost b t s) as [q [[s' [|it]]|p]] eqn:E; [|destruct (b_post b s'); exact Hstep|exact Hstep].
  apply IH; [econstructor; eassumption|exact Hstep].
Qed.

(** a run that makes at most N rounds *)
Lemma run_reach_bound {St Out} (b : booster St Out) s0 (N : nat) (I : nat -> St -> trace -> Prop) (F : outcome Out -> Prop) :
  (forall s, b_pre b s0 = Ok s -> I 1%nat s []) ->
  (forall t s tr, reach b s0 t s -> I t s tr ->
     match b_boost b t s with
     | (q, Panic p) => F (Crashed (tr ++ q) p)
     | (q, Ok (s', Continue)) => I (S t) s' (tr ++ q) /\ (t < N)%nat
     | (q, Ok (s', Break _)) => match b_post b s' with Ok o => F (Finished (tr ++ q) o) | Panic p => F (Crashed (tr ++ q) p) end
     end) ->
  (forall p, b_pre b s0 = Panic p -> F (Crashed [] p)) ->
  forall fuel, (1 <= N <= fuel)%nat -> F (run b fuel s0).
Proof.
  intros Hpre Hstep Hcr fuel Hf. unfold run. destruct (b_pre b s0) as [s1|p] eqn:E; [|apply Hcr; reflexivity].
  assert (R : reach b s0 1 s1) by (constructor; exact E). specialize (Hpre s1 eq_refl). revert R Hpre. clear E Hcr.
  assert (Hb : (1 <= N < 1 + fuel)%nat) by lia. clear Hf. revert Hb. generalize 1%nat as t, (@nil (list R)) as tr. revert s1.
  induction fuel as [|fuel IH]; intros s t tr Hb R HI; [lia|]. simpl. specialize (Hstep t s tr R HI).
  destruct (b_boost b t s) as [q [[s' [|it]]|p]] eqn:E; [|destruct (b_post b s'); exact Hstep|exact Hstep].
  destruct Hstep as [HI' Ht]. apply IH; [lia|econstructor; eassumption|exact HI'].
Qed.
