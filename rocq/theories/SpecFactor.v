(** * SpecFactor: formulas whose coefficients have a common factor (C73). *)

From Coq Require Import ZArith List.
From Verif Require Import Machine Protocol Types Lib Spec SpecFormula.
Import ListNotations.
Open Scope Z_scope.

(** [covers T f g]: g comes out as f does (what they return is related by T), unless f
    panics by an overflow. *)
Definition covers {A B} (T : A -> B -> Prop) (f : nat -> res A) (g : nat -> res B) : Prop :=
  (forall a, returns f a -> exists b, returns g b /\ T a b) /\
  (forall p, settles f (Panic p) -> p = PChecked \/ p = PArith \/ settles g (Panic p)) /\
  (diverges f -> diverges g).

(** The number y, on the build k2, shows at least what x shows on the build k1: after any symbols that
    can be read off x, and which can then be read off y, the next call of [egest] covers. *)
Definition shows_more (k1 k2 : cfg) (x y : number) : Prop :=
  match x, y with
  | NSpecial s, NSpecial t => s = t
  | NOther p c, NOther q d =>
      p = q /\ forall l c', egests k1 c l c' -> exists d', egests k2 d l d' /\
        covers (fun u v => fst u = fst v) (fun f => clog_egest k1 f c') (fun f => clog_egest k2 f d')
  | _, _ => False
  end.

(** [multiplied k e1 e2]: e1 is e2 where, in each call, all the arguments that are integers are
    multiplied by a positive factor, which may be another one in each call.  The products are
    machine integers. *)
Inductive multiplied (k : cfg) : formula -> formula -> Prop :=
| multiplied_special s : multiplied k (FSpecial s) (FSpecial s)
| multiplied_ratio c num den : 1 <= c -> isize k (c * num) -> isize k (c * den) ->
    multiplied k (FRatio (c * num) (c * den)) (FRatio num den)
| multiplied_homographic c e1 e2 nx n dx d : 1 <= c -> multiplied k e1 e2 ->
    isize k (c * nx) -> isize k (c * n) -> isize k (c * dx) -> isize k (c * d) ->
    multiplied k (FHomographic e1 (c * nx) (c * n) (c * dx) (c * d)) (FHomographic e2 nx n dx d)
| multiplied_combine c e1 e2 e3 e4 nxy nx ny n dxy dx dy d : 1 <= c -> multiplied k e1 e2 -> multiplied k e3 e4 ->
    isize k (c * nxy) -> isize k (c * nx) -> isize k (c * ny) -> isize k (c * n) ->
    isize k (c * dxy) -> isize k (c * dx) -> isize k (c * dy) -> isize k (c * d) ->
    multiplied k (FCombine e1 e3 (c * nxy) (c * nx) (c * ny) (c * n) (c * dxy) (c * dx) (c * dy) (c * d))
                 (FCombine e2 e4 nxy nx ny n dxy dx dy d).
