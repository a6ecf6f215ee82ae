(** * SpecRate: how fast the uncertainty shrinks at worst (C75): 0.56377... per symbol. *)

From Coq Require Import Reals.
Open Scope R_scope.

Definition rate : R := sqrt (sqrt (5 - 2 * sqrt 6)).
