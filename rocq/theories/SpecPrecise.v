(** * SpecPrecise: an interval around a value. *)

From Coq Require Import ZArith QArith Qabs.
From Verif Require Import Spec.
Open Scope Q_scope.

(** [q] lies strictly between the fractions [a/b] and [c/d], which are at most [1/L]
    apart. *)
Definition pinned (L : Z) (q : Q) (a b c d : Z) : Prop :=
  (b <> 0)%Z /\ (d <> 0)%Z /\
  0 < (q - zq a / zq b) * (zq c / zq d - q) /\
  Qabs (zq c / zq d - zq a / zq b) * zq L <= 1.
