(** * SpecNest: vocabulary for how deep calls nest. *)

From Coq Require Import List.
From Verif Require Import Machine Protocol Types Lib Nesting Spec.

(** How many activations of the recursive functions are open at the same time, at most. *)
Definition depth {A} (m : nested A) : nat := deepest (fst m).

(** The number gives at most [n] symbols. *)
Definition gives (k : cfg) (x : number) (n : nat) : Prop :=
  match x with
  | NSpecial _ => True
  | NOther _ c => forall l c', egests k c l c' -> length l <= n
  end.

(** No call of [egest], now or after any number of symbols, nests deeper than [d]. *)
Definition nests (k : cfg) (x : number) (d : nat) : Prop :=
  match x with
  | NSpecial _ => True
  | NOther _ c => forall l c' f, egests k c l c' -> depth (clog_egest_nests k f c') <= d
  end.

(** Built by at most [d] levels of [homographic] and [combine] above ratios, every
    operand giving at most [n] symbols; clogs may be read from and wrapped anew. *)
Inductive layered (k : cfg) (n : nat) : nat -> number -> Prop :=
| layered_special s d : layered k n d (NSpecial s)
| layered_ratio num den x d : number_ratio k num den = Ok x -> layered k n d x
| layered_ratio_u pos num den x d : number_ratio_u pos num den = Ok x -> layered k n d x
| layered_homographic d x nx n0 dx d0 f y : layered k n d x -> gives k x n ->
    number_homographic k f x nx n0 dx d0 = Ok y -> layered k n (S d) y
| layered_combine d x y nxy nx ny n0 dxy dx dy d0 f z : layered k n d x -> gives k x n ->
    layered k n d y -> gives k y n ->
    number_combine k f x y nxy nx ny n0 dxy dx dy d0 = Ok z -> layered k n (S d) z
| layered_read d p c l c' p' : layered k n d (NOther p c) -> egests k c l c' -> layered k n d (NOther p' c').
