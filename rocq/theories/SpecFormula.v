(** * SpecFormula: formulas, what they are worth, and clients that evaluate them. *)

From Coq Require Import ZArith QArith.
From Verif Require Import Machine Protocol Types Ratio Lib Spec.
Open Scope Z_scope.

(** Nested calls of the constructing functions (lib.rs:59-62, 86-174). *)
Inductive formula :=
| FSpecial (s : special)                          (* Number::Special(s) *)
| FRatio (num den : Z)                            (* Number::ratio *)
| FHomographic (e : formula) (nx n dx d : Z)      (* Number::homographic *)
| FCombine (e1 e2 : formula) (nxy nx ny n dxy dx dy d : Z). (* Number::combine *)

(** What the formula is worth. *)
Fixpoint worth (e : formula) : Q :=
  match e with
  | FSpecial s => special_val s
  | FRatio num den => zq num / zq den
  | FHomographic e nx n dx d => hom nx n dx d (worth e)
  | FCombine e1 e2 nxy nx ny n dxy dx dy d => comb nxy nx ny n dxy dx dy d (worth e1) (worth e2)
  end.

(** A client that evaluates the formula, the operands first. *)
Fixpoint evaluate (k : cfg) (f : nat) (e : formula) : res number :=
  match e with
  | FSpecial s => Ok (NSpecial s)
  | FRatio num den => number_ratio k num den
  | FHomographic e nx n dx d => let! x := evaluate k f e in number_homographic k f x nx n dx d
  | FCombine e1 e2 nxy nx ny n dxy dx dy d =>
      let! x := evaluate k f e1 in
      let! y := evaluate k f e2 in
      number_combine k f x y nxy nx ny n dxy dx dy d
  end.

(** [q] is a fraction with parts of at most [b]. *)
Definition parts (b : Z) (q : Q) : Prop :=
  exists num den, 0 < den /\ Z.abs num <= b /\ den <= b /\ (q == zq num / zq den)%Q.

(** The ratios in the formula, and all operands, are fractions with parts of at most [b];
    the coefficients are at most [M]; nothing is divided by zero. *)
Fixpoint modest (b M : Z) (e : formula) : Prop :=
  match e with
  | FSpecial _ => True
  | FRatio num den => den <> 0 /\ Z.abs num <= b /\ Z.abs den <= b
  | FHomographic e nx n dx d =>
      modest b M e /\ parts b (worth e) /\
      (Z.abs nx <= M /\ Z.abs n <= M /\ Z.abs dx <= M /\ Z.abs d <= M) /\
      ~ (hom_num dx d (worth e) == 0)%Q
  | FCombine e1 e2 nxy nx ny n dxy dx dy d =>
      modest b M e1 /\ parts b (worth e1) /\ modest b M e2 /\ parts b (worth e2) /\
      (Z.abs nxy <= M /\ Z.abs nx <= M /\ Z.abs ny <= M /\ Z.abs n <= M) /\
      (Z.abs dxy <= M /\ Z.abs dx <= M /\ Z.abs dy <= M /\ Z.abs d <= M) /\
      ~ (comb_num dxy dx dy d (worth e1) (worth e2) == 0)%Q
  end.
