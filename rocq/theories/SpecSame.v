(** * When two numbers cannot be told apart by reading them (C69).

    Stated with [egests] of Spec.v: a client calls [egest] again and again, up to the
    first [None] or panic. *)

From Coq Require Import ZArith List.
From Verif Require Import Machine Protocol Types Lib Spec SpecFormula.
Import ListNotations.

(** [gives k c l]: the first |l| calls of [egest] on c return the symbols l. *)
Definition gives (k : cfg) (c : clog) (l : list reduction) : Prop := exists c', egests k c l c'.
(** [stops k c l]: after the symbols l, [egest] returns [None]. *)
Definition stops (k : cfg) (c : clog) (l : list reduction) : Prop :=
  exists c' c'', egests k c l c' /\ returns (fun f => clog_egest k f c') (None, c'').
(** [dies k c l p]: after the symbols l, [egest] panics with p. *)
Definition dies (k : cfg) (c : clog) (l : list reduction) (p : panic) : Prop :=
  exists c', egests k c l c' /\ settles (fun f => clog_egest k f c') (Panic p).

(** All that reading shows: the symbols, the end and the panics.  Where neither holds
    after some symbols, the next call of [egest] runs for ever. *)
Definition same_clog (k : cfg) (c1 c2 : clog) : Prop := forall l,
  (gives k c1 l <-> gives k c2 l) /\ (stops k c1 l <-> stops k c2 l) /\
  (forall p, dies k c1 l p <-> dies k c2 l p).

(** A client also sees which [Special] or primer a number has. *)
Definition same (k : cfg) (x1 x2 : number) : Prop :=
  match x1, x2 with
  | NSpecial s1, NSpecial s2 => s1 = s2
  | NOther p1 c1, NOther p2 c2 => p1 = p2 /\ same_clog k c1 c2
  | _, _ => False
  end.

(** Two calls come out the same way: both panic with the same panic, or both return and
    what they return is related by T, or both run for ever. *)
Definition alike {A} (T : A -> A -> Prop) (f g : nat -> res A) : Prop :=
  (forall p, settles f (Panic p) <-> settles g (Panic p)) /\
  (forall a, returns f a -> exists b, returns g b /\ T a b) /\
  (forall b, returns g b -> exists a, returns f a /\ T a b).

(** What [consume] returns: the same coefficients, and nothing left or the same left. *)
Definition same_consumed (k : cfg) (u v : option number * hcoef) : Prop :=
  snd u = snd v /\
  match fst u, fst v with
  | Some x, Some y => same k x y
  | None, None => True
  | _, _ => False
  end.

(** [replaced a b e1 e2]: e2 is e1 with b in place of a, in some of the places where a stands. *)
Inductive replaced (a b : formula) : formula -> formula -> Prop :=
| replaced_here : replaced a b a b
| replaced_not e : replaced a b e e
| replaced_homographic e1 e2 nx n dx d : replaced a b e1 e2 ->
    replaced a b (FHomographic e1 nx n dx d) (FHomographic e2 nx n dx d)
| replaced_combine e1 e2 e3 e4 nxy nx ny n dxy dx dy d : replaced a b e1 e2 -> replaced a b e3 e4 ->
    replaced a b (FCombine e1 e3 nxy nx ny n dxy dx dy d) (FCombine e2 e4 nxy nx ny n dxy dx dy d).
