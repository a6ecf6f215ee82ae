(** * SpecTell: what the debugging lines should say.

    A line has four integers, a b c e.  It says that what is still to come is
    (a w + b) / (c w + e), where w is what is still to come of the operand.  Over
    the rationals; no state of the implementation is mentioned. *)

From Coq Require Import ZArith QArith List String.
From Verif Require Import Machine Protocol Types Lib Output Spec SpecMain.
Import ListNotations.
Open Scope string_scope.
Open Scope Q_scope.

(** The value of the symbols [l] (protocol.rs:47-71) followed by symbols of the
    value [w]: [Amplify] says the rest is twice as much, [Uncover] that it is the
    reciprocal less one. *)
Fixpoint followed (l : list reduction) (w : Q) : Q :=
  match l with
  | [] => w
  | Amplify :: l => followed l w / 2
  | Uncover :: l => / (1 + followed l w)
  end.

(** One line. *)
Definition debug_line (a b c e : Z) : string :=
  numeral a ++ " " ++ numeral b ++ " " ++ numeral c ++ " " ++ numeral e ++ String (Ascii.ascii_of_nat 10) "".

(** Before the primer of the result: wherever the operand goes on from [px] and
    [lx], the line gives the value of (nx x + n) / (dx x + d), or a denominator
    that vanishes where that one does. *)
Definition opening_line (nx n dx d : Z) (px : option primer) (lx : list reduction) (a b c e : Z) : Prop :=
  forall w, 0 < w -> w < 1 ->
  let q := primed px (followed lx w) in
  (hom_num c e w == 0 <-> hom_num dx d q == 0) /\ hom a b c e w == hom nx n dx d q.

(** After the primer [p] and the symbols [l] of the result: wherever the operand
    goes on from [px] and [lx], (nx x + n) / (dx x + d) goes on from [p] and [l] as
    the line says. *)
Definition reading_line (nx n dx d : Z) (px : option primer) (p : option primer) (l : list reduction)
    (lx : list reduction) (a b c e : Z) : Prop :=
  forall w, 0 < w -> w < 1 ->
  let q := primed px (followed lx w) in
  let z := hom a b c e w in
  ~ hom_num c e w == 0 /\ ~ hom_num dx d q == 0 /\ 0 < z /\ z < 1 /\
  hom nx n dx d q == primed p (followed l z).

(** The text [t] tells what is done with an operand of which the symbols [lx] have
    been read and [x] is left, until [x'] is left: a line, that is right after these
    symbols; then perhaps whatever an attempt to read one more symbol writes, if it is
    the last; or whatever reading one more symbol writes, and the same again with that
    symbol. *)
Inductive tells (k : cfg) (P : list reduction -> Z -> Z -> Z -> Z -> Prop) :
    list reduction -> clog -> clog -> string -> Prop :=
| tells_stop lx x a b c e : P lx a b c e -> tells k P lx x x (debug_line a b c e)
| tells_read lx x a b c e u r : P lx a b c e -> prints (fun f => clog_egest_says k f x) u r ->
    tells k P lx x x (debug_line a b c e ++ u)
| tells_more lx x a b c e u s x1 x' t : P lx a b c e ->
    prints (fun f => clog_egest_says k f x) u (Ok (Some s, x1)) ->
    tells k P (lx ++ [s])%list x1 x' t -> tells k P lx x x' (debug_line a b c e ++ u ++ t).
