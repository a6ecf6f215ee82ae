(** * SpecAlike: numbers that begin alike.

    Over the rationals, and what reading a clog gives. *)

From Coq Require Import ZArith QArith List.
From Verif Require Import Machine Protocol Types Lib Spec SpecLazy.
Import ListNotations.

(** The representation of [q] begins with the primer [p] and the symbols [l], and
    then has the symbol [o], or is at its end. *)
Definition goes_on (q : Q) (p : option primer) (l : list reduction) (o : option reduction) : Prop :=
  match o with Some s => begins q p (l ++ [s]) | None => represents q (inr (p, l)) end.

(** Reading the clog [c] gives the symbols [l] and then the symbol [o], or its end;
    [c'] is left. *)
Definition gives_then (k : cfg) (c : clog) (l : list reduction) (o : option reduction) (c' : clog) : Prop :=
  exists c1, egests k c l c1 /\ returns (fun f => clog_egest k f c1) (o, c').
