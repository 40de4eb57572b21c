(** Model of src/research/logger.rs: [Logger::run]. *)
From Verif Require Import Base Booster.

(** What a method call on the booster looks like to an observer (used for the protocol property). *)
Inductive call := CPre | CBoost (iteration : nat) | CPost.

(** A booster wrapped so that it records the method calls it receives; behaviour otherwise unchanged. *)
Definition spy {St Out} (b : booster St Out) : booster (St * list call) (Out * list call) :=
  mkBooster
    (fun s => let* s' := b_pre b (fst s) in Ok (s', snd s ++ [CPre]))
    (fun t s => let '(q, r) := b_boost b t (fst s) in
                (q, match r with
                    | Ok (s', f) => Ok ((s', snd s ++ [CBoost t]), f)
                    | Panic p => Panic p
                    end))
    (fun s => let* o := b_post b (fst s) in Ok (o, snd s ++ [CPost])).

(** usize::MAX on a 64-bit target (logger.rs:195-204: this interval means "print nothing") *)
Definition usize_max : N := 18446744073709551615%N.

Section Log.
  Context {St Out Line : Type}.
  Variable b : booster St Out.
  (** logger.rs:245-249: current_hypothesis(), objective_func.eval, loss_func on train and test.
      Each may panic; the three numbers are one abstract [Line]. *)
  Variable measure : St -> res Line.
  (** logger.rs:233-243: milliseconds measured for round t *)
  Variable clock : nat -> N.
  Variable time_limit : N.     (* logger.rs:18,36, u128::MAX by default *)
  Variable print_round : N.    (* logger.rs:200-203 print_every *)

  (** Outcome of a logged run: the outcome of the booster and the lines written to the file, oldest first;
      each line carries the accumulated time (logger.rs:252). *)
  Definition logged := (outcome Out * list (Line * N))%type.

  Definition finish (tr : trace) (lines : list (Line * N)) (s : St) : logged :=
    match b_post b s with                                (* logger.rs:298 *)
    | Ok o => (Finished tr o, lines)
    | Panic p => (Crashed tr p, lines)
    end.

  (** logger.rs:233-295, the closure given to try_for_each; one unit of fuel per round.
      File errors are not modelled (the file is assumed to be writable). *)
  Fixpoint log_from (fuel t : nat) (acc : N) (tr : trace) (lines : list (Line * N)) (s : St) : logged :=
    match fuel with
    | O => (Unfinished tr, lines)
    | S fuel' =>
        match b_boost b t s with                         (* 237 *)
        | (q, Panic p) => (Crashed (tr ++ q) p, lines)
        | (q, Ok (s', flow)) =>
            let acc' := (acc + clock t)%N in             (* 243 *)
            match measure s' with                        (* 245-249 *)
            | Panic p => (Crashed (tr ++ q) p, lines)
            | Ok l =>
                let lines' := lines ++ [(l, acc')] in    (* 252-254 *)
                if (time_limit <? acc')%N then finish (tr ++ q) lines' s'    (* 256-267 Break(iter) *)
                else if negb (print_round =? usize_max)%N && (print_round =? 0)%N
                then (Crashed (tr ++ q) Arith, lines')   (* 270: iter % 0 panics *)
                else match flow with                     (* 294 *)
                     | Continue => log_from fuel' (S t) acc' (tr ++ q) lines' s'
                     | Break _ => finish (tr ++ q) lines' s'
                     end
            end
        end
    end.

  (** logger.rs:212-300 [Logger::run] *)
  Definition log_run (fuel : nat) (s : St) : logged :=
    match b_pre b s with                                 (* 223 *)
    | Panic p => (Crashed [] p, [])
    | Ok s0 => log_from fuel 1 0%N [] [] s0
    end.
End Log.
