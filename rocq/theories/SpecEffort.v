(** * SpecEffort: vocabulary for the work of whole formulas. *)

From Coq Require Import ZArith QArith.
From Verif Require Import Machine Protocol Types Ratio Lib Nesting Spec SpecWork SpecFormula.
Open Scope Z_scope.

(** How many of the constructing functions the formula calls. *)
Fixpoint calls (e : formula) : nat :=
  match e with
  | FSpecial _ => 0
  | FRatio _ _ => 1
  | FHomographic e _ _ _ _ => 1 + calls e
  | FCombine e1 e2 _ _ _ _ _ _ _ _ => 1 + calls e1 + calls e2
  end.

(** How many activations there are while the formula is evaluated, up to the first panic
    if there is one. *)
Fixpoint effort (k : cfg) (f : nat) (e : formula) : nat :=
  match e with
  | FSpecial _ => 0
  | FRatio _ _ => 0
  | FHomographic e nx n dx d =>
      effort k f e +
      match evaluate k f e with
      | Ok x => work (number_homographic_nests k f x nx n dx d)
      | _ => 0
      end
  | FCombine e1 e2 nxy nx ny n dxy dx dy d =>
      effort k f e1 +
      match evaluate k f e1 with
      | Ok x =>
          effort k f e2 +
          match evaluate k f e2 with
          | Ok y => work (number_combine_nests k f x y nxy nx ny n dxy dx dy d)
          | _ => 0
          end
      | _ => 0
      end
  end%nat.

(** All arguments are machine integers, nothing is divided by zero, and the formula and
    all formulas in it are worth fractions with parts of at most [b]. *)
Fixpoint contained (k : cfg) (b : Z) (e : formula) : Prop :=
  parts b (worth e) /\
  match e with
  | FSpecial _ => True
  | FRatio num den => isize k num /\ isize k den /\ den <> 0
  | FHomographic e nx n dx d =>
      contained k b e /\ (isize k nx /\ isize k n /\ isize k dx /\ isize k d) /\
      ~ (hom_num dx d (worth e) == 0)%Q
  | FCombine e1 e2 nxy nx ny n dxy dx dy d =>
      contained k b e1 /\ contained k b e2 /\
      (isize k nxy /\ isize k nx /\ isize k ny /\ isize k n) /\
      (isize k dxy /\ isize k dx /\ isize k dy /\ isize k d) /\
      ~ (comb_num dxy dx dy d (worth e1) (worth e2) == 0)%Q
  end.
