(** * SpecMain: what the demonstration program should print. *)

From Coq Require Import ZArith QArith List String DecimalString.
From Verif Require Import Machine Protocol Types Spec.
Import ListNotations.
Open Scope string_scope.
Open Scope Q_scope.

(** The letter of a symbol, and the text of a representation: the primer, the
    reductions, an H at the end. *)
Definition reduction_letter (s : reduction) : string :=
  match s with Amplify => "A" | Uncover => "U" end.
Definition primer_letter (p : option primer) : string :=
  match p with None => "" | Some Turn => "T" | Some Reflect => "R" | Some Ground => "G" end.
Definition special_letter (s : special) : string :=
  match s with NegOne => "N" | Zero => "Z" | PosOne => "P" end.
Fixpoint reductions_text (l : list reduction) : string :=
  match l with [] => "H" | s :: l => reduction_letter s ++ reductions_text l end.
Definition text (r : special + option primer * list reduction) : string :=
  match r with
  | inl s => special_letter s
  | inr (p, l) => primer_letter p ++ reductions_text l
  end.

(** The outcome of a fuel-indexed computation that prints: from some fuel on, it
    writes [t] and ends with [r]. *)
Definition prints {A} (f : nat -> string * res A) (t : string) (r : res A) : Prop :=
  exists F, forall n, (F <= n)%nat -> f n = (t, r).

(** [t] is the beginning of [u]. *)
Definition begins (t u : string) : Prop := exists s, u = t ++ s.

(** Any number of lines with four integers each: what the library writes to
    standard output while debugging. *)
Definition numeral (z : Z) : string := NilZero.string_of_int (Z.to_int z).
Inductive debugging : string -> Prop :=
| debugging_none : debugging ""
| debugging_line nx n dx d t : debugging t ->
    debugging (numeral nx ++ " " ++ numeral n ++ " " ++ numeral dx ++ " " ++ numeral d ++
               String (Ascii.ascii_of_nat 10) t).

(** The capital letters of a text, in order: what is left when lines of digits are
    taken out. *)
Fixpoint letters (t : string) : string :=
  match t with
  | EmptyString => EmptyString
  | String c t => if (Nat.leb 65 (Ascii.nat_of_ascii c) && Nat.leb (Ascii.nat_of_ascii c) 90)%bool
                  then String c (letters t) else letters t
  end.

(** The lines of the demonstration: each has a label and a value. *)
Definition imax_text (w : width) : string :=
  match w with W16 => "32767" | W32 => "2147483647" | W64 => "9223372036854775807" end.
Definition imax_value (w : width) : Q :=
  match w with
  | W16 => zq 32767 | W32 => zq 2147483647 | W64 => zq 9223372036854775807
  end.
Definition demo_lines (w : width) : list (string * Q) :=
  [(" 0.0: ", zq 0);
   (" 0.5: ", zq 1 / zq 2);
   (" 1.0: ", zq 1);
   (" 1.5: ", zq 3 / zq 2);
   (" 2.0: ", zq 2);
   (" 2.5: ", zq 5 / zq 2);
   (" 3.0: ", zq 3);
   (" 3.5: ", zq 7 / zq 2);
   (" 4.0: ", zq 4);
   (" 4.5: ", zq 9 / zq 2);
   (" 5.0: ", zq 5);
   (" 5.5: ", zq 11 / zq 2);
   (" 6.0: ", zq 6);
   (" 6.5: ", zq 13 / zq 2);
   (" 7.0: ", zq 7);
   (" 7.5: ", zq 15 / zq 2);
   (" 8.0: ", zq 8);
   (" 8.5: ", zq 17 / zq 2);
   (" 9.0: ", zq 9);
   (" 9.5: ", zq 19 / zq 2);
   ("10.0: ", zq 10);
   ("10.5: ", zq 21 / zq 2);
   ("11.0: ", zq 11);
   ("11.5: ", zq 23 / zq 2);
   ("12.0: ", zq 12);
   ("12.5: ", zq 25 / zq 2);
   ("13.0: ", zq 13);
   ("13.5: ", zq 27 / zq 2);
   ("14.0: ", zq 14);
   ("14.5: ", zq 29 / zq 2);
   ("15.0: ", zq 15);
   ("15.5: ", zq 31 / zq 2);
   ("16.0: ", zq 16);
   ("16.5: ", zq 33 / zq 2);
   (imax_text w ++ ": ", imax_value w);
   ("1/" ++ imax_text w ++ ": ", / imax_value w);
   ("-2: ", zq (-2))].

(** A line shows the documented representation of its value. *)
Definition demo_line (l : string * Q) (t : string) : Prop :=
  exists r, represents (snd l) r /\
    t = fst l ++ text r ++ String (Ascii.ascii_of_nat 10) "".
