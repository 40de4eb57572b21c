(** CERLPBoost with the classic rule in binary64 arithmetic (src/booster/cerlpboost/cerlpboost_algorithm.rs). *)
From Coq Require Import ZArith List Bool Reals.
From Flocq Require Import Core.Core IEEE754.BinarySingleNaN.
From Verif Require Import Base Float FloatRounds FloatFW FloatProject FloatExpDist.
Import ListNotations.

Section CERLP.
  Context {H : Type}.
  (** the confidence of a hypothesis on an example, the equality test of hypotheses, and the weak learner: any functions *)
  Variable conf : H -> nat -> f64.
  Variable eqH : H -> H -> bool.
  Variable produce : nat -> list f64 -> H.
  Variables fexp fln : f64 -> f64.
  Variables eta nu half_tol : f64.
  Variable ys : list f64.

  (** the confidences of the hypotheses [hs], example by example *)
  Definition f_table (hs : list H) : list (list f64) := map (fun i => map (fun h => conf h i) hs) (seq 0 (length ys)).
  (** cerlpboost_algorithm.rs:251-256 [update_distribution_mut] *)
  Definition f_cerlp_dist (ws : list f64) (hs : list H) : res (list f64) := f_exp_distribution fexp fln eta nu ys (f_table hs) ws.
  (** utils.rs:35-45 [margins_of_hypothesis] and 15-27 [edge_of_hypothesis] *)
  Definition f_margins_of (h : H) : list f64 := map (fun p => fmul (snd p) (conf h (fst p))) (combine (seq 0 (length ys)) ys).
  Definition f_edge_of (dist : list f64) (h : H) : f64 := fsum (f_products dist (f_margins_of h)).
  (** utils.rs:54-69 [edge_of_weighted_hypothesis] *)
  Definition f_edge_of_vote (dist ws : list f64) (hs : list H) : f64 := fsum (f_products dist (f_vote_margins ws ys (f_table hs))).

  (** cerlpboost_algorithm.rs:366-368: the position of the first hypothesis equal to [h], or the length of the list *)
  Fixpoint f_position (h : H) (hs : list H) : nat :=
    match hs with [] => 0 | f :: hs => if eqH f h then 0 else S (f_position h hs) end.

  (** how a run ends: by the test on the gap, with the distribution and the hypothesis of the last round; by the round limit; by a panic *)
  Inductive f_cerlp_end :=
  | FStopped (t : nat) (dist : list f64) (h : H) (ws : list f64) (hs : list H)
  | FLimit (ws : list f64) (hs : list H)
  | FCrashed (p : panic).

  (** cerlpboost_algorithm.rs:311-385 [boost] in the loop of core.rs:46-66 [run], with the classic rule, [rounds] rounds being left of the limit *)
  Fixpoint f_cerlp_run (rounds t : nat) (ws : list f64) (hs : list H) : f_cerlp_end :=
    match rounds with
    | O => FLimit ws hs
    | S rounds =>
        match f_cerlp_dist ws hs with
        | Panic p => FCrashed p
        | Ok dist =>
            let h := produce t dist in
            let diff := fsub (f_edge_of dist h) (f_edge_of_vote dist ws hs) in
            if fle diff half_tol then FStopped t dist h ws hs else
            let pos := f_position h hs in
            let (hs, ws) := if Nat.eqb pos (length hs) then (hs ++ [h], ws ++ [f0]) else (hs, ws) in
            match f_fw_classic t pos ws with
            | Panic p => FCrashed p
            | Ok ws => f_cerlp_run rounds (S t) ws hs
            end
        end
    end.
End CERLP.
