(** * SpecLong: vocabulary for how many symbols a number has. *)

From Coq Require Import ZArith QArith List.
From Verif Require Import Machine Protocol Types Lib Spec.

(** A client that drains [x] in full reads the representation of [q]. *)
Definition reads_as (k : cfg) (x : number) (q : Q) : Prop := exists r, read k x r /\ represents q r.

(** At most [N] symbols can be read off [x]. *)
Definition few_symbols (k : cfg) (N : nat) (x : number) : Prop :=
  match x with NSpecial _ => True | NOther _ c => forall l c', egests k c l c' -> (length l <= N)%nat end.

(** Numerator and denominator are not proportional. *)
Definition not_proportional (nxy nx ny n dxy dx dy d : Z) : Prop :=
  forall s t, (s * nxy + t * dxy = 0 -> s * nx + t * dx = 0 -> s * ny + t * dy = 0 -> s * n + t * d = 0 ->
    s = 0 /\ t = 0)%Z.

(** For x = [q], the fraction still depends on y. *)
Definition still_depends (nxy nx ny n dxy dx dy d : Z) (q : Q) : Prop :=
  ~ hom_num nxy ny q * hom_num dx d q == hom_num nx n q * hom_num dxy dy q.
