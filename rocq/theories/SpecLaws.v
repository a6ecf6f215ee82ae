(** * SpecLaws: formulas a client may write, and the laws by which they would be rewritten (C71). *)

From Coq Require Import ZArith QArith.
From Verif Require Import Machine Protocol Types Lib Spec SpecFormula.
Open Scope Z_scope.

(** The numbers in the formula are machine integers, and nothing is divided by zero. *)
Fixpoint proper (k : cfg) (e : formula) : Prop :=
  match e with
  | FSpecial _ => True
  | FRatio num den => isize k num /\ isize k den /\ den <> 0
  | FHomographic e nx n dx d =>
      proper k e /\ (isize k nx /\ isize k n /\ isize k dx /\ isize k d) /\ ~ (hom_num dx d (worth e) == 0)%Q
  | FCombine e1 e2 nxy nx ny n dxy dx dy d =>
      proper k e1 /\ proper k e2 /\ (isize k nxy /\ isize k nx /\ isize k ny /\ isize k n) /\
      (isize k dxy /\ isize k dx /\ isize k dy /\ isize k d) /\
      ~ (comb_num dxy dx dy d (worth e1) (worth e2) == 0)%Q
  end.

(** The operations of Spec.v as instances of [Number::combine] (lib.rs:136-174), and ways to
    write an opposite, a double, a number, and a number with a second one that does not matter. *)
Definition plus (a b : formula) : formula := FCombine a b 0 1 1 0 0 0 0 1.
Definition minus (a b : formula) : formula := FCombine a b 0 1 (-1) 0 0 0 0 1.
Definition times (a b : formula) : formula := FCombine a b 1 0 0 0 0 0 0 1.
Definition over (a b : formula) : formula := FCombine a b 0 1 0 0 0 0 1 0.
Definition opposite (a : formula) : formula := FHomographic a (-1) 0 0 1.
Definition twice (a : formula) : formula := FHomographic a 2 0 0 1.
Definition itself (a : formula) : formula := FHomographic a 1 0 0 1.
Definition first (a b : formula) : formula := FCombine a b 0 1 0 0 0 0 0 1.
