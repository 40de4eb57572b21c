(** Model of the check of the target column in src/sample/sample_struct.rs:384-444 [is_valid_binary_instance].
    The length check [target_is_specified] (lines 370-379) is the caller's (Sample.v): here the number of examples is
    the length of the target column. *)
From Verif Require Import Base.
From Verif Require Export Cast.
Open Scope R_scope.

(** line 394: [yi.trunc().eq(yi)] *)
Definition is_integer (x : R) : bool := Reqb (IZR (truncZ x)) x.

(** lines 391-425: every target is an integer; the set of the targets, cast to i32, has exactly two elements (the hash
    set is the list of its elements without repetitions).  The warning of lines 429-440 does not stop the program. *)
Definition is_valid_binary_instance (y : list R) : res unit :=
  if negb (forallb is_integer y) then Panic AssertFailed
  else if Nat.eqb (length (nodup Z.eq_dec (map (as_int 32) y))) 2 then Ok tt else Panic AssertFailed.
