(** * SpecLog: continued logarithms (C78).

    A rational above one is uniquely 2^a + 2^a / (2^b + 2^b / (... / 2^(z+1))): a is the
    greatest power of two below it, and b, ... belong in the same way to 2^a over what is left. *)

From Coq Require Import ZArith QArith List.
From Verif Require Import Protocol.
Import ListNotations.
Open Scope Q_scope.

Definition two (a : nat) : Q := inject_Z (2 ^ Z.of_nat a).

Fixpoint gosper (a : nat) (l : list nat) : Q :=
  match l with [] => two (S a) | b :: l => two a + two a / gosper b l end.

(** The exponents in unary, as symbols: protocol.rs:35-49. *)
Fixpoint runs (a : nat) (l : list nat) : list reduction :=
  repeat Amplify a ++ match l with [] => [] | b :: l => Uncover :: runs b l end.

(** The order of continued logarithms: by the first exponent; the shorter one is the greater if
    nothing follows; otherwise the rest decides, the other way round. *)
Fixpoint order (a : nat) (l : list nat) (a' : nat) (l' : list nat) : comparison :=
  match Nat.compare a a' with
  | Eq => match l, l' with
          | [], [] => Eq
          | [], _ => Gt
          | _, [] => Lt
          | b :: l, b' :: l' => CompOpp (order b l b' l')
          end
  | o => o
  end.
