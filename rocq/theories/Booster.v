(** Model of src/booster/core.rs: the boosting protocol.

    A booster over states [St] answering with [Out] is given by its three methods.  The weak learner is
    already applied inside [b_boost]; what the booster asks it is recorded in a trace: the list of
    distributions handed to [WeakLearner::produce], in order.  The trace is the observable behaviour of the
    booster towards the weak learner. *)
From Verif Require Import Base.

(** std::ops::ControlFlow<usize> *)
Inductive cflow := Continue | Break (it : nat).

Definition trace := list (list R).

Record booster (St Out : Type) := mkBooster {
  b_pre : St -> res St;                                  (* core.rs:65-69 preprocess *)
  b_boost : nat -> St -> trace * res (St * cflow);       (* core.rs:76-81 boost, second argument = iteration *)
  b_post : St -> res Out;                                (* core.rs:86-90 postprocess *)
}.
Arguments mkBooster {St Out} _ _ _.
Arguments b_pre {St Out} _ _.
Arguments b_boost {St Out} _ _ _.
Arguments b_post {St Out} _ _.

(** What an execution looks like after a bounded number of rounds. *)
Inductive outcome (Out : Type) :=
| Finished (tr : trace) (o : Out)       (* run() returned [o] *)
| Crashed (tr : trace) (p : panic)      (* run() panicked *)
| Unfinished (tr : trace).              (* still iterating after [fuel] rounds *)
Arguments Finished {Out} _ _.
Arguments Crashed {Out} _ _.
Arguments Unfinished {Out} _.

Definition trace_of {Out} (o : outcome Out) : trace :=
  match o with Finished tr _ => tr | Crashed tr _ => tr | Unfinished tr => tr end.

Section Run.
  Context {St Out : Type}.
  Variable b : booster St Out.

  (** core.rs:54-58: (1..).try_for_each(|iter| self.boost(weak_learner, iter)); self.postprocess(..).
      [fuel] bounds the number of rounds observed. *)
  Fixpoint run_from (fuel t : nat) (tr : trace) (s : St) : outcome Out :=
    match fuel with
    | O => Unfinished tr
    | S fuel' =>
        match b_boost b t s with
        | (q, Panic p) => Crashed (tr ++ q) p
        | (q, Ok (s', Continue)) => run_from fuel' (S t) (tr ++ q) s'
        | (q, Ok (s', Break _)) =>
            match b_post b s' with
            | Ok o => Finished (tr ++ q) o
            | Panic p => Crashed (tr ++ q) p
            end
        end
    end.

  (** core.rs:46-59 [Booster::run] *)
  Definition run (fuel : nat) (s : St) : outcome Out :=
    match b_pre b s with
    | Panic p => Crashed [] p
    | Ok s0 => run_from fuel 1 [] s0
    end.

  (** ** Generic invariant rule.
      [I t s tr]: holds before round [t] with trace [tr] so far. *)
  Lemma run_from_inv (I : nat -> St -> trace -> Prop) (Q : trace -> Prop) (F : trace -> Out -> Prop) :
    (forall t s tr, I t s tr -> Q tr) ->
    (forall t s tr, I t s tr ->
       match b_boost b t s with
       | (q, Panic _) => Q (tr ++ q)
       | (q, Ok (s', Continue)) => I (S t) s' (tr ++ q)
       | (q, Ok (s', Break _)) => Q (tr ++ q) /\
           match b_post b s' with Ok o => F (tr ++ q) o | Panic _ => True end
       end) ->
    forall fuel t tr s, I t s tr ->
      Q (trace_of (run_from fuel t tr s)) /\
      (forall tr' o, run_from fuel t tr s = Finished tr' o -> F tr' o).
  Proof.
    intros HIQ Hstep. induction fuel as [|fuel IH]; intros t tr s HI.
    - simpl. split; [eapply HIQ; exact HI|]. intros; discriminate.
    - cbn [run_from]. specialize (Hstep t s tr HI).
      destruct (b_boost b t s) as [q [[s' [|it]]|p]].
      + apply IH. exact Hstep.
      + destruct Hstep as [HQ HF]. destruct (b_post b s') as [o|p].
        * simpl. split; [exact HQ|]. intros tr' o' E. inversion E; subst. exact HF.
        * simpl. split; [exact HQ|]. intros; discriminate.
      + simpl. split; [exact Hstep|]. intros; discriminate.
  Qed.

  Lemma run_inv (I : nat -> St -> trace -> Prop) (Q : trace -> Prop) (F : trace -> Out -> Prop) s :
    Q [] ->
    (forall s0, b_pre b s = Ok s0 -> I 1%nat s0 []) ->
    (forall t s tr, I t s tr -> Q tr) ->
    (forall t s tr, I t s tr ->
       match b_boost b t s with
       | (q, Panic _) => Q (tr ++ q)
       | (q, Ok (s', Continue)) => I (S t) s' (tr ++ q)
       | (q, Ok (s', Break _)) => Q (tr ++ q) /\
           match b_post b s' with Ok o => F (tr ++ q) o | Panic _ => True end
       end) ->
    forall fuel,
      Q (trace_of (run fuel s)) /\
      (forall tr' o, run fuel s = Finished tr' o -> F tr' o).
  Proof.
    intros HQ0 Hpre HIQ Hstep fuel. unfold run. destruct (b_pre b s) as [s0|p] eqn:E.
    - apply (run_from_inv I Q F HIQ Hstep). apply Hpre; reflexivity.
    - simpl. split; [exact HQ0|]. intros; discriminate.
  Qed.
End Run.
