(** * SpecLazy: what the symbols read so far leave open.

    Over the rationals: no state of the implementation is mentioned. *)

From Coq Require Import ZArith QArith List.
From Verif Require Import Machine Protocol Types Lib Spec.
Import ListNotations.
Open Scope Q_scope.

(** The representation of [q] (protocol.rs:21-71) begins with the primer [p] and
    the symbols [l]. *)
Definition begins (q : Q) (p : option primer) (l : list reduction) : Prop :=
  exists r, represents q (inr (p, l ++ r)).

(** How the representation of [q] opens: with a [Special], or with a primer. *)
Definition opens (q : Q) (h : special + option primer) : Prop :=
  match h with inl s => represents q (inl s) | inr p => begins q p [] end.

(** Knowing only that the operand begins with [px] and [lx], the symbol that
    follows [p] and [l] in (nx x + n) / (dx x + d) may be either of the two. *)
Definition undecided (nx n dx d : Z) (px : option primer) (lx : list reduction)
    (p : option primer) (l : list reduction) : Prop :=
  (exists q, begins q px lx /\ ~ hom_num dx d q == 0 /\ begins (hom nx n dx d q) p (l ++ [Amplify])) /\
  (exists q, begins q px lx /\ ~ hom_num dx d q == 0 /\ begins (hom nx n dx d q) p (l ++ [Uncover])).

(** Knowing only that the operand begins with [px] and [lx], (nx x + n) / (dx x + d)
    may open in two ways. *)
Definition unopened (nx n dx d : Z) (px : option primer) (lx : list reduction) : Prop :=
  exists q1 q2 h1 h2, begins q1 px lx /\ begins q2 px lx /\
    ~ hom_num dx d q1 == 0 /\ ~ hom_num dx d q2 == 0 /\
    opens (hom nx n dx d q1) h1 /\ opens (hom nx n dx d q2) h2 /\ h1 <> h2.

(** The clog [c] gives the symbols [l] and then ends. *)
Definition ran_out (k : cfg) (c : clog) (l : list reduction) : Prop :=
  exists c1 c2, egests k c l c1 /\ returns (fun f => clog_egest k f c1) (None, c2).

(** The same for two operands and (nxy x y + nx x + ny y + n) / (dxy x y + dx x + dy y + d). *)
Definition unopened2 (nxy nx ny n dxy dx dy d : Z) (px : option primer) (lx : list reduction)
    (py : option primer) (ly : list reduction) : Prop :=
  exists q1 r1 q2 r2 h1 h2, begins q1 px lx /\ begins r1 py ly /\ begins q2 px lx /\ begins r2 py ly /\
    ~ comb_num dxy dx dy d q1 r1 == 0 /\ ~ comb_num dxy dx dy d q2 r2 == 0 /\
    opens (comb nxy nx ny n dxy dx dy d q1 r1) h1 /\ opens (comb nxy nx ny n dxy dx dy d q2 r2) h2 /\ h1 <> h2.

Definition undecided2 (nxy nx ny n dxy dx dy d : Z) (px : option primer) (lx : list reduction)
    (py : option primer) (ly : list reduction) (p : option primer) (l : list reduction) : Prop :=
  (exists q r, begins q px lx /\ begins r py ly /\ ~ comb_num dxy dx dy d q r == 0 /\
     begins (comb nxy nx ny n dxy dx dy d q r) p (l ++ [Amplify])) /\
  (exists q r, begins q px lx /\ begins r py ly /\ ~ comb_num dxy dx dy d q r == 0 /\
     begins (comb nxy nx ny n dxy dx dy d q r) p (l ++ [Uncover])).

(** The first operand is worth [q], and of the second it is known that it begins with [py]
    and [ly]: what follows [p] and [l] may be either symbol. *)
Definition undecided_rest (nxy nx ny n dxy dx dy d : Z) (q : Q) (py : option primer) (ly : list reduction)
    (p : option primer) (l : list reduction) : Prop :=
  (exists r, begins r py ly /\ ~ comb_num dxy dx dy d q r == 0 /\
     begins (comb nxy nx ny n dxy dx dy d q r) p (l ++ [Amplify])) /\
  (exists r, begins r py ly /\ ~ comb_num dxy dx dy d q r == 0 /\
     begins (comb nxy nx ny n dxy dx dy d q r) p (l ++ [Uncover])).
