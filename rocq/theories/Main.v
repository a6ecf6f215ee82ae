(** * Main: the demonstration program (src/main.rs).

    A function that prints gives the text written so far, by itself and by the
    library, together with how it ended. *)

From Coq Require Import ZArith List String.
From Verif Require Import Machine Protocol Types Lib Output.
Import ListNotations.
Open Scope Z_scope.
Open Scope string_scope.

(** The text written, and the outcome. *)
Definition printed := said unit.

(** One thing printed after the other: what follows a panic is not printed. *)
Definition andthen (a b : printed) : printed := say! _ := a in b.

(** main.rs:42-54 *)
Definition logs (s : special) : printed :=
  match s with Zero => print "Z" | PosOne => print "P" | NegOne => print "N" end.

(** main.rs:56-68 *)
Definition logp (p : primer) : printed :=
  match p with Turn => print "T" | Reflect => print "R" | Ground => print "G" end.

(** main.rs:84-93 *)
Definition logr (r : reduction) : printed :=
  match r with Amplify => print "A" | Uncover => print "U" end.

(** main.rs:70-82; the loop is recursion on explicit fuel. *)
Fixpoint logc (k : cfg) (fuel : nat) (c : clog) : printed :=
  match fuel with
  | O => silent NoFuel
  | S fuel =>
      say! (o, c') := clog_egest_says k fuel c in
      match o with
      | None => print "H"
      | Some r => andthen (logr r) (logc k fuel c')
      end
  end.

(** main.rs:28-40 *)
Definition logn (k : cfg) (fuel : nat) (x : number) : printed :=
  match x with
  | NSpecial s => logs s
  | NOther op c =>
      match op with
      | Some p => andthen (logp p) (logc k fuel c)
      | None => logc k fuel c
      end
  end.

(** The [{0: >2}] format of an integer: at least two wide, blanks to the left. *)
Definition display2 (z : Z) : string :=
  let t := display z in if Nat.leb 2 (String.length t) then t else " " ++ t.

(** main.rs:7-9, 10-12, 15-17, 19-21, 23-25: a label, a ratio, an end of line. *)
Definition line (k : cfg) (fuel : nat) (label : string) (num den : Z) : printed :=
  andthen (print label)
  (andthen (say! x := silent (number_ratio k num den) in logn k fuel x)
           (print newline)).

(** main.rs:5-13, the [for] loop over [n] in [0..17]; [i] is the number of rounds
    that remain.  The built-in [n * 10 + 5] is done on [isize]. *)
Fixpoint main_loop (k : cfg) (fuel : nat) (i : nat) (n : Z) : printed :=
  match i with
  | O => print ""
  | S i =>
      andthen (line k fuel (display2 n ++ ".0: ") n 1)
      (andthen (say! a := silent (let! a := plain k (n * 10) in plain k (a + 5)) in
                line k fuel (display2 n ++ ".5: ") a 10)
               (main_loop k fuel i (n + 1)))
  end.

(** main.rs:5-26, [main] *)
Definition main (k : cfg) (fuel : nat) : printed :=
  andthen (main_loop k fuel 17 0)
  (andthen (line k fuel (display (imax k) ++ ": ") (imax k) 1)
  (andthen (line k fuel ("1/" ++ display (imax k) ++ ": ") 1 (imax k))
           (line k fuel "-2: " (-2) 1))).
