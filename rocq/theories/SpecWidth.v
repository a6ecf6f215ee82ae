(** * SpecWidth: builds for machines of different widths. *)

From Coq Require Import ZArith.
From Verif Require Import Machine.
Open Scope Z_scope.

(** [k2] is a build, with or without overflow checks, for a machine at least as
    wide as that of [k1], and [k1] is built with overflow checks. *)
Definition fits_in (k1 k2 : cfg) : Prop := ovf k1 = true /\ bits (wd k1) <= bits (wd k2).

(** The call panicked because a number did not fit. *)
Definition overflows {A} (m : res A) : Prop := m = Panic PChecked \/ m = Panic PArith.
