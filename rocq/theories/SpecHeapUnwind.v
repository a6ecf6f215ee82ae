(** * SpecHeapUnwind: clients that catch every panic. *)

From Coq Require Import ZArith List.
From Verif Require Import Machine Protocol Types SpecHist History SpecUnwind Heap.

(** The integers in an action are machine integers. *)
Definition action_ok (k : cfg) (a : action) : Prop :=
  match a with Do o => op_ok k o | Drop _ => True end.

(** What a cell of such a client may hold, as in [SpecUnwind.v]. *)
Definition held_item (k : cfg) (x : item) : Prop :=
  match x with INum n => held k n | IClog c => held_clog k c end.
