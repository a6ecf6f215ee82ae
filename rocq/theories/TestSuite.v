(** * TestSuite: the integration tests (tests/compare.rs) as programs.

    Unlike the replays in [Tests.v], nothing is run here: these are the three test
    functions themselves, over all of their loops, with the arithmetic of their
    reference implementation on [isize].  The limits of the loops are parameters.
    [Ok true] is a test that passes, [Ok false] one that stops with a failed
    [assert_eq!].

    Simplification: the bounds of the loops ([-range], [range + 1]) are exact
    integers. *)

From Coq Require Import ZArith Bool List.
From Verif Require Import Machine Protocol Types Ratio Lib.
Import ListNotations.
Open Scope Z_scope.

(** [lo..hi] *)
Definition range (lo hi : Z) : list Z := map (fun i => lo + Z.of_nat i) (seq 0 (Z.to_nat (hi - lo))).
(** A [for] loop whose body can stop the test. *)
Fixpoint each {A} (l : list A) (body : A -> res bool) : res bool :=
  match l with [] => Ok true | x :: l => andm (body x) (each l body) end.

Definition fraction : Type := Z * Z.

(** [/] and [%] on [isize]: a zero divisor, and [isize::min_value() / -1], panic in
    every build. *)
Definition divide (k : cfg) (a b : Z) : res Z :=
  if (b =? 0) || negb (in_i k (Z.quot a b)) then Panic PArith else Ok (Z.quot a b).
Definition remainder (k : cfg) (a b : Z) : res Z :=
  if (b =? 0) || negb (in_i k (Z.quot a b)) then Panic PArith else Ok (Z.rem a b).

(** compare.rs:283-289; the recursion is on explicit fuel. *)
Fixpoint gcd (k : cfg) (fuel : nat) (a b : Z) : res Z :=
  match fuel with
  | O => NoFuel
  | S fuel => if b =? 0 then Ok a else let! r := remainder k a b in gcd k fuel b r
  end.

(** compare.rs:269-281 *)
Definition fix_ (k : cfg) (fuel : nat) (f : fraction) : res fraction :=
  let (n, d) := f in
  if d =? 0 then Ok (1, 0)
  else if n =? 0 then Ok (0, 1)
  else
    let! g := gcd k fuel n d in
    let! ng := divide k n g in
    let! dg := divide k d g in
    let! a := plain k (ng * Z.sgn dg) in
    let! b := plain k (dg * Z.sgn dg) in
    Ok (a, b).

(** compare.rs:251-255 *)
Definition add (k : cfg) (fuel : nat) (f1 f2 : fraction) : res fraction :=
  let! (n1, d1) := fix_ k fuel f1 in
  let! (n2, d2) := fix_ k fuel f2 in
  let! a := plain k (n1 * d2) in
  let! b := plain k (n2 * d1) in
  let! n := plain k (a + b) in
  let! d := plain k (d1 * d2) in
  fix_ k fuel (n, d).

(** compare.rs:257-261 *)
Definition div (k : cfg) (fuel : nat) (f1 f2 : fraction) : res fraction :=
  let! (n1, d1) := fix_ k fuel f1 in
  let! (n2, d2) := fix_ k fuel f2 in
  let! n := plain k (n1 * d2) in
  let! d := plain k (d1 * n2) in
  fix_ k fuel (n, d).

(** compare.rs:263-267 *)
Definition mul (k : cfg) (fuel : nat) (f1 f2 : fraction) : res fraction :=
  let! (n1, d1) := fix_ k fuel f1 in
  let! (n2, d2) := fix_ k fuel f2 in
  let! n := plain k (n1 * n2) in
  let! d := plain k (d1 * d2) in
  fix_ k fuel (n, d).

(** compare.rs:205-215 *)
Definition expected_homographic (k : cfg) (fuel : nat) (nx n dx d xn xd : Z) : res fraction :=
  let x := (xn, xd) in
  let! a := mul k fuel (nx, 1) x in
  let! a := add k fuel a (n, 1) in
  let! b := mul k fuel (dx, 1) x in
  let! b := add k fuel b (d, 1) in
  div k fuel a b.

(** compare.rs:234-240 and 241-247: the numerator, and the denominator. *)
Definition expected_half (k : cfg) (fuel : nat) (cxy cx cy c : Z) (x y : fraction) : res fraction :=
  let! xy := mul k fuel x y in
  let! a := mul k fuel (cxy, 1) xy in
  let! b := mul k fuel (cx, 1) x in
  let! a := add k fuel a b in
  let! b := mul k fuel (cy, 1) y in
  let! a := add k fuel a b in
  add k fuel a (c, 1).

(** compare.rs:217-249 *)
Definition expected_combine (k : cfg) (fuel : nat) (nxy nx ny n dxy dx dy d xn xd yn yd : Z) : res fraction :=
  let x := (xn, xd) in
  let y := (yn, yd) in
  let! a := expected_half k fuel nxy nx ny n x y in
  let! b := expected_half k fuel dxy dx dy d x y in
  div k fuel a b.

(** compare.rs:120-123 and 124-127; the [mut] variables are new names here. *)
Definition turned (k : cfg) (n d : Z) : res fraction :=
  if d <? 0 then let! n := plain k (n * -1) in let! d := plain k (d * -1) in Ok (n, d) else Ok (n, d).

(** compare.rs:117-136 *)
Definition reference_compare (k : cfg) (n1 d1 n2 d2 : Z) : res comparison :=
  if (d1 =? 0) || (d2 =? 0) then Panic PArith (* assert!, 118-119 *)
  else
    let! (n1, d1) := turned k n1 d1 in
    let! (n2, d2) := turned k n2 d2 in
    let! a := plain k (n1 * d2) in
    let! b := plain k (n2 * d1) in
    let! dx := plain k (a - b) in
    Ok (if 0 <? dx then Gt else if dx <? 0 then Lt else Eq).

(** The derived [==] of [Ordering]. *)
Definition ordering_eqb (a b : comparison) : bool :=
  match a, b with Eq, Eq | Lt, Lt | Gt, Gt => true | _, _ => false end.

(** compare.rs:24-50; [r] is the [25] of line 26. *)
Definition test_compare (k : cfg) (fuel : nat) (r : Z) : res bool :=
  each (range (- r) r) (fun n1 => each (range (- r) r) (fun d1 =>
    if d1 =? 0 then Ok true
    else each (range (- r) r) (fun n2 => each (range (- r) r) (fun d2 =>
      if d2 =? 0 then Ok true
      else
        let! x := number_ratio k n1 d1 in
        let! y := number_ratio k n2 d2 in
        let! o := number_compare k fuel x y in
        let! o' := reference_compare k n1 d1 n2 d2 in
        Ok (ordering_eqb o o'))))).

(** compare.rs:52-93; [r] is the [6] of line 54. *)
Definition compare_homographics (k : cfg) (fuel : nat) (r : Z) : res bool :=
  let loop := each (range (- r) r) in
  loop (fun nx => loop (fun n => loop (fun dx => loop (fun d =>
    if (nx =? 0) && (n =? 0) && (dx =? 0) && (d =? 0) then Ok true
    else loop (fun xn => loop (fun xd =>
      if xd =? 0 then Ok true
      else
        let! (rn, rd) := expected_homographic k fuel nx n dx d xn xd in
        if rd =? 0 then Ok true
        else
          let! x := number_ratio k xn xd in
          let! x := number_homographic k fuel x nx n dx d in
          let! y := number_ratio k rn rd in
          let! o := number_compare k fuel x y in
          Ok (ordering_eqb o Eq))))))).

(** compare.rs:148-160 *)
Definition inputs : list fraction :=
  [(-2, 1); (-1, 1); (-2, 3); (-1, 2); (-1, 4); (0, 1); (1, 4); (1, 2); (2, 3); (1, 1); (2, 1)].

(** compare.rs:138-203 *)
Definition compare_combine (k : cfg) (fuel : nat) (nxy nx ny n dxy dx dy d : Z) : res bool :=
  each inputs (fun '(xn, xd) => each inputs (fun '(yn, yd) =>
    let! (rn, rd) := expected_combine k fuel nxy nx ny n dxy dx dy d xn xd yn yd in
    if rd =? 0 then Ok true
    else
      let! x := number_ratio k xn xd in
      let! y := number_ratio k yn yd in
      let! x := number_combine k fuel x y nxy nx ny n dxy dx dy d in
      let! y := number_ratio k rn rd in
      let! o := number_compare k fuel x y in
      Ok (ordering_eqb o Eq))).

(** compare.rs:95-115; [r] is the [2] of line 97. *)
Definition compare_combines (k : cfg) (fuel : nat) (r : Z) : res bool :=
  let loop := each (range (-1) (r + 1)) in
  loop (fun nxy => loop (fun dxy => loop (fun nx => loop (fun dx =>
  loop (fun ny => loop (fun dy => loop (fun n => loop (fun d =>
    compare_combine k fuel nxy nx ny n dxy dx dy d)))))))).
