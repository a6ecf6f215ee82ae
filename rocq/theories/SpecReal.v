(** * SpecReal: the protocol over the real numbers (documentation in src/protocol.rs). *)

From Coq Require Import Reals List.
From Verif Require Import Protocol.
Import ListNotations.
Open Scope R_scope.

(** [emits x l x']: the documented rule (protocol.rs:21-50), applied |l| times to
    [x], gives the symbols [l] and leaves [x']. *)
Inductive emits : R -> list reduction -> R -> Prop :=
| emits_nil x : emits x [] x
| emits_amplify x l x' : x < 1 / 2 -> emits (2 * x) l x' -> emits x (Amplify :: l) x'
| emits_uncover x l x' : 1 / 2 < x -> emits (/ x - 1) l x' -> emits x (Uncover :: l) x'.

(** The sequence of [x] starts with [l]. *)
Definition starts (x : R) (l : list reduction) : Prop := exists x', emits x l x'.

(** The sequence of [x] is finite: one half, the only value without a symbol, is reached. *)
Definition finite_seq (x : R) : Prop := exists l, emits x l (1 / 2).

Definition rational (x : R) : Prop := exists n d : Z, (d <> 0)%Z /\ x = IZR n / IZR d.
