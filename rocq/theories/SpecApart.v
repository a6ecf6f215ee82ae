(** * SpecApart: what the symbols of a number stand for.

    Over the rationals. *)

From Coq Require Import QArith Qabs.
Open Scope Q_scope.

(** The primer (protocol.rs:52-71) takes a number into the unit interval: its size, or
    the reciprocal of that if it is above one. *)
Definition magnitude (q : Q) : Q := if Qle_bool 1 (Qabs q) then / Qabs q else Qabs q.
