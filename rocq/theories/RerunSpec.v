(** Specification for C84: using a booster again after a run. *)
From Verif Require Import Base Booster Reach Builders.

(** a run from [s] was made (to its end, or abandoned between two rounds as Logger does) and left the booster in state [s'] *)
Inductive left_behind {St Out} (b : booster St Out) (s s' : St) : Prop :=
| left_between t : reach b s t s' -> left_behind b s s'
| left_at_end t s1 q it : reach b s t s1 -> b_boost b t s1 = (q, Ok (s', Break it)) -> left_behind b s s'.

(** configured by the same calls, both boosters run alike (or the same call panics in both chains) *)
Definition run_alike {St Out A} (call : St -> A -> res St) (calls : list A) (b : booster St Out) (s s' : St) : Prop :=
  match apply_calls call s calls, apply_calls call s' calls with
  | Ok a, Ok a' => forall fuel, run b fuel a' = run b fuel a
  | Panic p, Panic p' => p' = p
  | _, _ => False
  end.
