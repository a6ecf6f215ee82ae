(** * SpecWorth: the Fibonacci numbers 1, 1, 2, 3, 5, ... (C75). *)

From Coq Require Import ZArith.
Open Scope Z_scope.

(** The nth and the next one. *)
Fixpoint fibs (n : nat) : Z * Z :=
  match n with O => (1, 1) | S n => let (a, b) := fibs n in (b, a + b) end.
Definition fib (n : nat) : Z := fst (fibs n).
