(** * SpecScale: what it means that a call computes a value, and nothing goes wrong. *)

From Coq Require Import ZArith QArith List.
From Verif Require Import Machine Protocol Types Lib Spec.
Open Scope Z_scope.

(** The call returns a number; a client can read it to its end; and what is read
    is the representation of [q].  Nothing panics, not even on an integer overflow. *)
Definition computes (k : cfg) (f : nat -> res number) (q : Q) : Prop :=
  exists y r, returns f y /\ read k y r /\ represents q r.

(** The call returns a number, which takes part in a panic by a checked operation
    when a client reads it; or the call itself panics so. *)
Definition breaks (k : cfg) (f : nat -> res number) : Prop :=
  settles f (Panic PChecked) \/
  exists p c, returns f (NOther p c) /\ settles (fun n => drain k n c) (Panic PChecked).
