(** The linear programs that a logged run of SoftBoost hands to the solver in order to measure its rounds (C23, C95). *)
From Verif Require Import Base Booster Reach AdaBoost Csc LPBoost SoftBoost.

(** after round [t] of a run from [s0] (with whatever control flow), [hs] being the hypotheses received so far;
    softboost_algorithm.rs:363-375 [current_hypothesis], called by logger.rs:245 after every round *)
Definition soft_measures {H} (conf : H -> nat -> R) solve produce y inner (s0 : @soft H) (hs : list H) (p : conic) : Prop :=
  exists t s q s' flow m, reach (softboost conf solve produce y inner) s0 t s /\
    b_boost (softboost conf solve produce y inner) t s = (q, Ok (s', flow)) /\ so_hyps s' = hs /\
    so_model s' = Some m /\ sq_final m = Ok p.
