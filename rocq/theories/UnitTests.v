(** * UnitTests: the unit tests in the sources, as programs.

    [Ok true] is a test that passes, [Ok false] one whose assertion fails or whose
    [panic!()] is reached.  Of the tables (compare.rs, homographic.rs, combine.rs) there
    is one program per table here, not one per [#[test]]; a [#[should_panic]] test passes
    if it panics with the division by zero that it expects. *)

From Coq Require Import ZArith List Bool.
From Verif Require Import Machine Protocol Types Ratio Homographic Combine Lib Spec UnitTables.
From Verif Require TestSuite.
Import ListNotations.
Open Scope Z_scope.

(** [Number::ratio] of a fraction of the tables. *)
Definition made (k : cfg) (f : Z * Z) : res number := number_ratio k (fst f) (snd f).

(** [assert_eq!(Number::compare(x, y), o)] *)
Definition asserts (k : cfg) (fuel : nat) (x y : number) (o : comparison) : res bool :=
  let! c := number_compare k fuel x y in Ok (TestSuite.ordering_eqb c o).

(** [#[should_panic(expected = "division by zero")]] *)
Definition should_panic {A} (r : res A) : res bool :=
  match r with Panic PDivZero => Ok true | NoFuel => NoFuel | _ => Ok false end.

(** compare.rs:77-244 *)
Definition compare_tests (k : cfg) (fuel : nat) : res bool :=
  TestSuite.each compare_cases (fun '(a, b, o) =>
    let! x := made k a in let! y := made k b in asserts k fuel x y o).

(** homographic.rs:83-628, the [t_*] tests *)
Definition homographic_tests (k : cfg) (fuel : nat) : res bool :=
  TestSuite.each homographic_cases (fun '((nx, n, dx, d), a, b) =>
    let! x := made k a in
    let! x := number_homographic k fuel x nx n dx d in
    let! y := made k b in
    asserts k fuel x y Eq).

(** homographic.rs:111-637, the [p_*] tests *)
Definition homographic_panic_tests (k : cfg) (fuel : nat) : res bool :=
  TestSuite.each homographic_panics (fun '((nx, n, dx, d), a) =>
    should_panic (let! x := made k a in number_homographic k fuel x nx n dx d)).

(** homographic.rs:639-649, [consume]; the loop is that of [drain]. *)
Definition consumed (k : cfg) (fuel : nat) (x : number) : res bool :=
  let! (_, c) := unwrap_other x in
  let! _ := drain k fuel c in
  Ok true.

(** homographic.rs:651-829: a test of a big number, or of a small one. *)
Definition overflow_test (k : cfg) (fuel : nat) (big : bool) (nx n dx d : Z) : res bool :=
  let! x := (if big then number_ratio k (imax k) 1 else number_ratio k 1 (imax k)) in
  let! x := number_homographic k fuel x nx n dx d in
  consumed k fuel x.

(** homographic.rs:651-737, 751-760, 774-783, 785-794, 808-817: those that run, in their order. *)
Definition overflow_cases : list (bool * (Z * Z * Z * Z)) :=
  [(true, (1, 0, 0, 1)); (false, (1, 0, 0, 1)); (true, (2, 0, 0, 1)); (false, (2, 0, 0, 1));
   (true, (1, 0, 0, 2)); (false, (1, 0, 0, 2)); (true, (0, 1, 1, 0)); (false, (0, 1, 1, 0));
   (false, (1, 1, 0, 1)); (false, (0, 1, 1, 1)); (true, (1, 1, 1, 0)); (true, (1, 0, 1, 1))].
Definition overflow_tests (k : cfg) (fuel : nat) : res bool :=
  TestSuite.each overflow_cases (fun '(big, (nx, n, dx, d)) => overflow_test k fuel big nx n dx d).

(** homographic.rs:739-749, 762-772, 796-806, 819-829: those that are ignored. *)
Definition add_does_not_overflow1 (k : cfg) (fuel : nat) : res bool := overflow_test k fuel true 1 1 0 1.
Definition rec_add_does_not_overflow1 (k : cfg) (fuel : nat) : res bool := overflow_test k fuel true 0 1 1 1.
Definition incr_does_not_overflow2 (k : cfg) (fuel : nat) : res bool := overflow_test k fuel false 1 1 1 0.
Definition rec_incr_does_not_overflow2 (k : cfg) (fuel : nat) : res bool := overflow_test k fuel false 1 0 1 1.

(** combine.rs:41-58 and the like in the other three tests *)
Definition combine_test (k : cfg) (fuel : nat) (cases : list ((Z * Z) * (Z * Z) * (Z * Z)))
  (nxy nx ny n dxy dx dy d : Z) : res bool :=
  TestSuite.each cases (fun '(a, b, r) =>
    let! x := made k a in
    let! y := made k b in
    let! x := number_combine k fuel x y nxy nx ny n dxy dx dy d in
    let! y := made k r in
    asserts k fuel x y Eq).

(** combine.rs:39-179, 181-310, 312-452, 454-594, 596-616 *)
Definition mul (k : cfg) (fuel : nat) : res bool := combine_test k fuel mul_cases 1 0 0 0 0 0 0 1.
Definition div (k : cfg) (fuel : nat) : res bool := combine_test k fuel div_cases 0 1 0 0 0 0 1 0.
Definition add (k : cfg) (fuel : nat) : res bool := combine_test k fuel add_cases 0 1 1 0 0 0 0 1.
Definition sub (k : cfg) (fuel : nat) : res bool := combine_test k fuel sub_cases 0 1 (-1) 0 0 0 0 1.
Definition egest0 (k : cfg) (fuel : nat) : res bool := combine_test k fuel [((-2, 3), (2, 3), (3, 5))] 0 0 0 1 0 0 1 1.

(** ratio.rs:29-45 *)
Definition forbids_tests : res bool :=
  TestSuite.each [(true, 0); (false, 1); (true, 1)] (fun '(positive, num) => should_panic (ratio_new positive num 0)).

(** Successive calls of [Ratio::egest], as in ratio.rs:47-181. *)
Fixpoint egests_as (k : cfg) (r : ratio) (l : list (option reduction)) : res bool :=
  match l with
  | [] => Ok true
  | o :: l =>
      let! (o', r) := ratio_egest k r in
      match o, o' with
      | None, None | Some Amplify, Some Amplify | Some Uncover, Some Uncover => egests_as k r l
      | _, _ => Ok false
      end
  end.

(** [if let (None, p, Some(mut ratio)) = new(positive, num, den)], ratio.rs:47-181 *)
Definition ratio_test (k : cfg) (positive : bool) (num den : Z) (p : option primer) (l : list (option reduction)) : res bool :=
  let! (special, p', r) := ratio_new positive num den in
  match special, p, p', r with
  | None, None, None, Some r | None, Some Turn, Some Turn, Some r
  | None, Some Reflect, Some Reflect, Some r | None, Some Ground, Some Ground, Some r => egests_as k r l
  | _, _, _, _ => Ok false
  end.

(** [if let (Some(s), None, None) = new(positive, num, den)], ratio.rs:57-63, 99-105, 141-147 *)
Definition special_test (positive : bool) (num den : Z) (s : special) : res bool :=
  let! (special, p, r) := ratio_new positive num den in
  match special, p, r with
  | Some s', None, None => Ok (match s, s' with NegOne, NegOne | Zero, Zero | PosOne, PosOne => true | _, _ => false end)
  | _, _, _ => Ok false
  end.

(** ratio.rs:47-182, in their order *)
Definition ratio_tests (k : cfg) : list (res bool) :=
  [ratio_test k false 2 1 (Some Ground) [None];
   special_test false 1 1 NegOne;
   ratio_test k false 2 3 (Some Reflect) [Some Uncover; None];
   ratio_test k false 1 2 (Some Reflect) [None];
   ratio_test k false 1 4 (Some Reflect) [Some Amplify; None];
   special_test true 0 1 Zero;
   ratio_test k true 1 4 None [Some Amplify; None];
   ratio_test k true 1 2 None [None];
   ratio_test k true 2 3 None [Some Uncover; None];
   special_test true 1 1 PosOne;
   ratio_test k true 2 1 (Some Turn) [None];
   ratio_test k true 3 6 None (repeat None 9);
   ratio_test k true (umax k - 1) (umax k) None [Some Uncover]].

(** consume.rs:36-47 *)
Definition t_none (k : cfg) (fuel : nat) : res bool :=
  let! x := number_ratio k 2953 7829 in
  let! (xo, m) := number_consume k fuel x in
  match xo with
  | Some _ => Ok false
  | None =>
      let! a := plain k (2 * h_n m) in
      let! a := plain k (h_nx m + a) in
      let! b := plain k (2 * h_d m) in
      let! b := plain k (h_dx m + b) in
      let! x := number_ratio k a b in
      let! y := number_ratio k 2953 7829 in
      asserts k fuel x y Eq
  end.

(** consume.rs:49-73, ignored *)
Definition t_some (k : cfg) (fuel : nat) : res bool :=
  let! b := number_ratio k (imax k) 1 in
  let! x := number_homographic k fuel b (imax k) (imax k) 0 1 in
  let! (xo, m) := number_consume k fuel x in
  match xo with
  | None => Ok false
  | Some x =>
      let! x := number_homographic k fuel x (h_nx m) (h_n m) (h_dx m) (h_d m) in
      let! y := number_homographic k fuel b (imax k) (imax k) 0 1 in
      asserts k fuel x y Eq
  end.
