(** * SpecRelease: what is read in the build without overflow checks. *)

From Coq Require Import ZArith QArith.
From Verif Require Import Machine Protocol Types Lib Spec.

(** What a client can read off [n] without overflow checks is the representation of [q],
    unless draining overflows; in a built-in operator, with the checks. *)
Definition shows_release (k : cfg) (n : number) (q : Q) : Prop :=
  match n with
  | NSpecial s => represents q (inl s)
  | NOther p c => exists l, represents q (inr (p, l)) /\
      (yields (fun f => drain (release k) f c) (eq l) \/ settles (fun f => drain (debug k) f c) (Panic PArith))
  end.
