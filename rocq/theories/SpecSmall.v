(** * SpecSmall: how often a sequence amplifies. *)

From Coq Require Import ZArith List.
From Verif Require Import Machine Protocol Types Spec.
Import ListNotations.

(** The number of [Amplify] symbols (protocol.rs:21-71). *)
Fixpoint amps (l : list reduction) : nat :=
  match l with
  | [] => 0
  | Amplify :: l => S (amps l)
  | Uncover :: l => amps l
  end.

Definition amplifications (r : special + option primer * list reduction) : nat :=
  match r with inl _ => 0 | inr (_, l) => amps l end.
