(** * C62: the integration tests of the project pass, and see what they are meant to see *)

From Coq Require Import ZArith QArith List.
From Verif Require Import Machine Protocol Types Ratio Lib Spec TestSuite TestProofs ExampleTools.
Import ListNotations.
Open Scope Z_scope.

(** [test_compare] passes with every limit [r] of its loops for which its own
    arithmetic cannot overflow. *)
Theorem c62_compare k r : 2 * r ^ 2 <= imax k -> returns (fun f => test_compare k f r) true.
Proof. exact (TestProofs.test_compare_passes k r). Qed.
Print Assumptions c62_compare.

(** [compare_homographics] passes with every limit [r] up to 2^m that leaves room. *)
Theorem c62_homographics k r m : 1 <= m -> r <= 2 ^ m ->
  16 * r ^ 2 * 2 ^ (2 * (m + 1) + m * (m - 1)) <= imax k -> returns (fun f => compare_homographics k f r) true.
Proof. exact (TestProofs.compare_homographics_passes k r m). Qed.
Print Assumptions c62_homographics.

(** [compare_combines] passes with every limit [r] that leaves room. *)
Theorem c62_combines k r : 1 <= r -> 1048576 * r ^ 2 <= imax k -> returns (fun f => compare_combines k f r) true.
Proof. exact (TestProofs.compare_combines_passes k r). Qed.
Print Assumptions c62_combines.

(** The tests as they are, in debug and release builds for 32 and 64 bits (the
    standard library, which tests need, supports no smaller machine). *)
Theorem c62_suite k : wd k = W32 \/ wd k = W64 ->
  returns (fun f => test_compare k f 25) true /\ returns (fun f => compare_homographics k f 6) true /\
  returns (fun f => compare_combines k f 2) true.
Proof.
  destruct k as [w o]. cbn [wd]. intros [-> | ->];
    (split; [apply c62_compare|split; [apply (c62_homographics _ 6 3)|apply c62_combines]]);
    vm_compute; discriminate.
Qed.
Print Assumptions c62_suite.

(** A test that passes has compared what its loops run over: any two fractions
    with parts from -r up to r, excluding r, ... *)
Theorem c62_compare_seen k f r n1 d1 n2 d2 : test_compare k f r = Ok true ->
  - r <= n1 < r -> - r <= d1 < r -> - r <= n2 < r -> - r <= d2 < r -> d1 <> 0 -> d2 <> 0 ->
  exists x y o, number_ratio k n1 d1 = Ok x /\ number_ratio k n2 d2 = Ok y /\
    number_compare k f x y = Ok o /\ reference_compare k n1 d1 n2 d2 = Ok o.
Proof. exact (TestProofs.test_compare_covers k f r n1 d1 n2 d2). Qed.
Print Assumptions c62_compare_seen.

(** ... any homographic of such a fraction with such coefficients, unless the
    reference says that it is a division by zero, ... *)
Theorem c62_homographics_seen k f r nx n dx d xn xd : compare_homographics k f r = Ok true ->
  - r <= nx < r -> - r <= n < r -> - r <= dx < r -> - r <= d < r -> ~ (nx = 0 /\ n = 0 /\ dx = 0 /\ d = 0) ->
  - r <= xn < r -> - r <= xd < r -> xd <> 0 ->
  exists rn rd, expected_homographic k f nx n dx d xn xd = Ok (rn, rd) /\
    (rd <> 0 -> exists x y z, number_ratio k xn xd = Ok x /\ number_homographic k f x nx n dx d = Ok y /\
       number_ratio k rn rd = Ok z /\ number_compare k f y z = Ok Eq).
Proof. exact (TestProofs.compare_homographics_covers k f r nx n dx d xn xd). Qed.
Print Assumptions c62_homographics_seen.

(** ... and any combine of two of these with coefficients from -1 to r. *)
Definition eleven : list (Z * Z) :=
  [(-2, 1); (-1, 1); (-2, 3); (-1, 2); (-1, 4); (0, 1); (1, 4); (1, 2); (2, 3); (1, 1); (2, 1)].

Theorem c62_combines_seen k f r nxy nx ny n dxy dx dy d xn xd yn yd : compare_combines k f r = Ok true ->
  -1 <= nxy <= r -> -1 <= nx <= r -> -1 <= ny <= r -> -1 <= n <= r ->
  -1 <= dxy <= r -> -1 <= dx <= r -> -1 <= dy <= r -> -1 <= d <= r ->
  In (xn, xd) eleven -> In (yn, yd) eleven ->
  exists rn rd, expected_combine k f nxy nx ny n dxy dx dy d xn xd yn yd = Ok (rn, rd) /\
    (rd <> 0 -> exists x y z w, number_ratio k xn xd = Ok x /\ number_ratio k yn yd = Ok y /\
       number_combine k f x y nxy nx ny n dxy dx dy d = Ok z /\ number_ratio k rn rd = Ok w /\ number_compare k f z w = Ok Eq).
Proof. exact (TestProofs.compare_combines_covers k f r nxy nx ny n dxy dx dy d xn xd yn yd). Qed.
Print Assumptions c62_combines_seen.

(** The reference itself is right: it is the order of the rationals, ... *)
Theorem c62_reference k n1 d1 n2 d2 B : d1 <> 0 -> d2 <> 0 -> Z.abs n1 <= B -> Z.abs d1 <= B -> Z.abs n2 <= B -> Z.abs d2 <= B ->
  2 * B ^ 2 <= imax k -> reference_compare k n1 d1 n2 d2 = Ok (zq n1 / zq d1 ?= zq n2 / zq d2)%Q.
Proof. exact (TestProofs.reference_ok k n1 d1 n2 d2 B). Qed.
Print Assumptions c62_reference.

(** ... the value of a homographic, or [(1, 0)] for a division by zero, ... *)
Theorem c62_expected_homographic k nx n dx d xn xd r : 1 <= r -> xd <> 0 ->
  Z.abs nx <= r -> Z.abs n <= r -> Z.abs dx <= r -> Z.abs d <= r -> Z.abs xn <= r -> Z.abs xd <= r -> 2 * r ^ 3 <= imax k ->
  exists rn rd, returns (fun f => expected_homographic k f nx n dx d xn xd) (rn, rd) /\
    let q := (zq xn / zq xd)%Q in
    ((hom_num dx d q == 0)%Q /\ (rn, rd) = (1, 0) \/
     ~ (hom_num dx d q == 0)%Q /\ rd <> 0 /\ (zq rn / zq rd == hom nx n dx d q)%Q).
Proof.
  intros R1 D B1 B2 B3 B4 B5 B6 L.
  destruct (TestProofs.expected_homographic_ok k nx n dx d xn xd r R1 D B1 B2 B3 B4 B5 B6 L) as ([rn rd] & G & C).
  exists rn, rd. split; [exact G|]. destruct C as [C|(N & A & _ & _ & V)]; [left; exact C|right; auto].
Qed.
Print Assumptions c62_expected_homographic.

(** ... and the value of a combine of two of the eleven. *)
Theorem c62_expected_combine k nxy nx ny n dxy dx dy d xn xd yn yd r : 1 <= r ->
  Z.abs nxy <= r -> Z.abs nx <= r -> Z.abs ny <= r -> Z.abs n <= r ->
  Z.abs dxy <= r -> Z.abs dx <= r -> Z.abs dy <= r -> Z.abs d <= r ->
  In (xn, xd) eleven -> In (yn, yd) eleven -> 262144 * r <= imax k ->
  exists rn rd, returns (fun f => expected_combine k f nxy nx ny n dxy dx dy d xn xd yn yd) (rn, rd) /\
    let p := (zq xn / zq xd)%Q in let q := (zq yn / zq yd)%Q in
    ((comb_num dxy dx dy d p q == 0)%Q /\ (rn, rd) = (1, 0) \/
     ~ (comb_num dxy dx dy d p q == 0)%Q /\ rd <> 0 /\ (zq rn / zq rd == comb nxy nx ny n dxy dx dy d p q)%Q).
Proof.
  intros R1 B1 B2 B3 B4 B5 B6 B7 B8 I J L.
  destruct (TestProofs.in_inputs _ _ I) as (D1 & J1 & J2). destruct (TestProofs.in_inputs _ _ J) as (D2 & J3 & J4).
  destruct (TestProofs.expected_combine_ok k nxy nx ny n dxy dx dy d xn xd yn yd r R1 D1 D2 B1 B2 B3 B4 B5 B6 B7 B8 J1 J2 J3 J4 L)
    as ([rn rd] & G & C).
  exists rn, rd. split; [exact G|]. destruct C as [C|(N & A & _ & _ & V)]; [left; exact C|right; auto].
Qed.
Print Assumptions c62_expected_combine.

(** The first test with smaller loops, run; the reference for -1/2 against 1/3,
    for (4·(3/-4) + 1)/6, for the division by zero in 1/(2·(1/2) - 1), and for 1/4 + 2/3. *)
Example c62_ex :
  test_compare k64 50 4 = Ok true /\ reference_compare k64 1 (-2) 1 3 = Ok Lt /\
  expected_homographic k64 20 4 1 0 6 3 (-4) = Ok (-1, 3) /\
  expected_homographic k64 20 0 1 2 (-1) 1 2 = Ok (1, 0) /\
  expected_combine k64 20 0 1 1 0 0 0 0 1 1 4 2 3 = Ok (11, 12).
Proof. vm_compute. repeat split; reflexivity. Qed.

(** On 32 bits the limits could be 32767, 8 and 45. *)
Example c62_ex_limits : let k := Cfg W32 true in
  2 * 32767 ^ 2 <= imax k /\ (8 <= 2 ^ 3 /\ 16 * 8 ^ 2 * 2 ^ (2 * (3 + 1) + 3 * (3 - 1)) <= imax k) /\
  1048576 * 45 ^ 2 <= imax k.
Proof. vm_compute. repeat split; discriminate. Qed.
