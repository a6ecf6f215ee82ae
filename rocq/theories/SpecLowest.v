(** * SpecLowest: reading a number back as a fraction. *)

From Coq Require Import ZArith QArith.
From Verif Require Import Machine Protocol Types Lib Spec SpecFormula.
Open Scope Z_scope.

(** The integer is a power of two. *)
Definition power_of_two (z : Z) : Prop := exists j, 0 <= j /\ z = 2 ^ j.

(** [num]/[den] is [q] in lowest terms. *)
Definition lowest (q : Q) (num den : Z) : Prop :=
  0 < den /\ Z.gcd num den = 1 /\ (q == zq num / zq den)%Q.

(** A client that wants the value of a formula as a fraction: it evaluates the formula,
    consumes the number, and halves both parts of (nx + 2 n) / (dx + 2 d) as long as both are
    even.  [None] stands for a number that was not consumed to the end. *)
Fixpoint halve_both (n : nat) (a b : Z) : Z * Z :=
  match n with
  | O => (a, b)
  | S n => if Z.even a && Z.even b then halve_both n (a / 2) (b / 2) else (a, b)
  end.

Definition fraction (k : cfg) (f : nat) (e : formula) : res (option (Z * Z)) :=
  let! x := evaluate k f e in
  let! (y, m) := number_consume k f x in
  Ok (match y with
      | None => Some (halve_both 64 (h_nx m + 2 * h_n m) (h_dx m + 2 * h_d m))
      | Some _ => None
      end).
