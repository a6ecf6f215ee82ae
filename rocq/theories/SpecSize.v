(** * SpecSize: how many strategies a number is made of. *)

From Verif Require Import Machine Protocol Types Lib Spec Unwind SpecUnwind.
Open Scope nat_scope.

(** The strategies in a clog, each in a box of its own (lib.rs:38-40): one, and those of
    its operands. *)
Fixpoint boxes (c : clog) : nat :=
  match c with
  | CRatio _ => 1
  | CHomographic x _ => 1 + boxes x
  | CCombine x y _ => 1 + boxes x + boxes y
  end.

Definition number_boxes (x : number) : nat := match x with NSpecial _ => 0 | NOther _ c => boxes c end.

(** What a client can hold after n calls of [ratio], [ratio_u], [homographic] and
    [combine] (arithmetic included), counting also the calls that made the operands.
    Calls of [egest], of [consume], of [unwrap_other] and of the constructors of
    [Number], and caught panics of [egest], are not counted. *)
Inductive clog_from (k : cfg) : nat -> clog -> Prop :=
| from_unwrap n x p c : num_from k n x -> unwrap_other x = Ok (p, c) -> clog_from k n c
| from_egest n c f o c' : clog_from k n c -> clog_egest k f c = Ok (o, c') -> clog_from k n c'
| from_caught n c p c' : clog_from k n c -> caught k c p c' -> clog_from k n c'
with num_from (k : cfg) : nat -> number -> Prop :=
| from_special s : num_from k 0 (NSpecial s)
| from_other n p c : clog_from k n c -> num_from k n (NOther p c)
| from_ratio num den x : number_ratio k num den = Ok x -> num_from k 1 x
| from_ratio_u pos num den x : number_ratio_u pos num den = Ok x -> num_from k 1 x
| from_homographic n x nx n0 dx d f y :
    num_from k n x -> number_homographic k f x nx n0 dx d = Ok y -> num_from k (1 + n) y
| from_combine n1 n2 x y nxy nx ny n0 dxy dx dy d f z :
    num_from k n1 x -> num_from k n2 y ->
    number_combine k f x y nxy nx ny n0 dxy dx dy d = Ok z -> num_from k (1 + n1 + n2) z
| from_consume n x f y m : num_from k n x -> number_consume k f x = Ok (Some y, m) -> num_from k n y.

Scheme clog_from_ind2 := Minimality for clog_from Sort Prop
  with num_from_ind2 := Minimality for num_from Sort Prop.
Combined Scheme from_mutind from clog_from_ind2, num_from_ind2.
