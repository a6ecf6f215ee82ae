(** * UnitTables: the tables of the unit tests, copied mechanically from the sources. *)

From Coq Require Import ZArith List.
Import ListNotations.
Open Scope Z_scope.

(** src/compare.rs:77-244, 121 assertions: two fractions, and their order. *)
Definition compare_cases : list ((Z * Z) * (Z * Z) * comparison) :=
  [(((-2), 1), ((-2), 1), Eq);
   (((-2), 1), ((-1), 1), Lt);
   (((-2), 1), ((-2), 3), Lt);
   (((-2), 1), ((-1), 2), Lt);
   (((-2), 1), ((-1), 4), Lt);
   (((-2), 1), (0, 1), Lt);
   (((-2), 1), (1, 4), Lt);
   (((-2), 1), (1, 2), Lt);
   (((-2), 1), (2, 3), Lt);
   (((-2), 1), (1, 1), Lt);
   (((-2), 1), (2, 1), Lt);
   (((-1), 1), ((-2), 1), Gt);
   (((-1), 1), ((-1), 1), Eq);
   (((-1), 1), ((-2), 3), Lt);
   (((-1), 1), ((-1), 2), Lt);
   (((-1), 1), ((-1), 4), Lt);
   (((-1), 1), (0, 1), Lt);
   (((-1), 1), (1, 4), Lt);
   (((-1), 1), (1, 2), Lt);
   (((-1), 1), (2, 3), Lt);
   (((-1), 1), (1, 1), Lt);
   (((-1), 1), (2, 1), Lt);
   (((-2), 3), ((-2), 1), Gt);
   (((-2), 3), ((-1), 1), Gt);
   (((-2), 3), ((-2), 3), Eq);
   (((-2), 3), ((-1), 2), Lt);
   (((-2), 3), ((-1), 4), Lt);
   (((-2), 3), (0, 1), Lt);
   (((-2), 3), (1, 4), Lt);
   (((-2), 3), (1, 2), Lt);
   (((-2), 3), (2, 3), Lt);
   (((-2), 3), (1, 1), Lt);
   (((-2), 3), (2, 1), Lt);
   (((-1), 2), ((-2), 1), Gt);
   (((-1), 2), ((-1), 1), Gt);
   (((-1), 2), ((-2), 3), Gt);
   (((-1), 2), ((-1), 2), Eq);
   (((-1), 2), ((-1), 4), Lt);
   (((-1), 2), (0, 1), Lt);
   (((-1), 2), (1, 4), Lt);
   (((-1), 2), (1, 2), Lt);
   (((-1), 2), (2, 3), Lt);
   (((-1), 2), (1, 1), Lt);
   (((-1), 2), (2, 1), Lt);
   (((-1), 4), ((-2), 1), Gt);
   (((-1), 4), ((-1), 1), Gt);
   (((-1), 4), ((-2), 3), Gt);
   (((-1), 4), ((-1), 2), Gt);
   (((-1), 4), ((-1), 4), Eq);
   (((-1), 4), (0, 1), Lt);
   (((-1), 4), (1, 4), Lt);
   (((-1), 4), (1, 2), Lt);
   (((-1), 4), (2, 3), Lt);
   (((-1), 4), (1, 1), Lt);
   (((-1), 4), (2, 1), Lt);
   ((0, 1), ((-2), 1), Gt);
   ((0, 1), ((-1), 1), Gt);
   ((0, 1), ((-2), 3), Gt);
   ((0, 1), ((-1), 2), Gt);
   ((0, 1), ((-1), 4), Gt);
   ((0, 1), (0, 1), Eq);
   ((0, 1), (1, 4), Lt);
   ((0, 1), (1, 2), Lt);
   ((0, 1), (2, 3), Lt);
   ((0, 1), (1, 1), Lt);
   ((0, 1), (2, 1), Lt);
   ((1, 4), ((-2), 1), Gt);
   ((1, 4), ((-1), 1), Gt);
   ((1, 4), ((-2), 3), Gt);
   ((1, 4), ((-1), 2), Gt);
   ((1, 4), ((-1), 4), Gt);
   ((1, 4), (0, 1), Gt);
   ((1, 4), (1, 4), Eq);
   ((1, 4), (1, 2), Lt);
   ((1, 4), (2, 3), Lt);
   ((1, 4), (1, 1), Lt);
   ((1, 4), (2, 1), Lt);
   ((1, 2), ((-2), 1), Gt);
   ((1, 2), ((-1), 1), Gt);
   ((1, 2), ((-2), 3), Gt);
   ((1, 2), ((-1), 2), Gt);
   ((1, 2), ((-1), 4), Gt);
   ((1, 2), (0, 1), Gt);
   ((1, 2), (1, 4), Gt);
   ((1, 2), (1, 2), Eq);
   ((1, 2), (2, 3), Lt);
   ((1, 2), (1, 1), Lt);
   ((1, 2), (2, 1), Lt);
   ((2, 3), ((-2), 1), Gt);
   ((2, 3), ((-1), 1), Gt);
   ((2, 3), ((-2), 3), Gt);
   ((2, 3), ((-1), 2), Gt);
   ((2, 3), ((-1), 4), Gt);
   ((2, 3), (0, 1), Gt);
   ((2, 3), (1, 4), Gt);
   ((2, 3), (1, 2), Gt);
   ((2, 3), (2, 3), Eq);
   ((2, 3), (1, 1), Lt);
   ((2, 3), (2, 1), Lt);
   ((1, 1), ((-2), 1), Gt);
   ((1, 1), ((-1), 1), Gt);
   ((1, 1), ((-2), 3), Gt);
   ((1, 1), ((-1), 2), Gt);
   ((1, 1), ((-1), 4), Gt);
   ((1, 1), (0, 1), Gt);
   ((1, 1), (1, 4), Gt);
   ((1, 1), (1, 2), Gt);
   ((1, 1), (2, 3), Gt);
   ((1, 1), (1, 1), Eq);
   ((1, 1), (2, 1), Lt);
   ((2, 1), ((-2), 1), Gt);
   ((2, 1), ((-1), 1), Gt);
   ((2, 1), ((-2), 3), Gt);
   ((2, 1), ((-1), 2), Gt);
   ((2, 1), ((-1), 4), Gt);
   ((2, 1), (0, 1), Gt);
   ((2, 1), (1, 4), Gt);
   ((2, 1), (1, 2), Gt);
   ((2, 1), (2, 3), Gt);
   ((2, 1), (1, 1), Gt);
   ((2, 1), (2, 1), Eq)].

(** src/strategy/homographic.rs:90-628, 234 assertions: the coefficients nx, n, dx, d,
    the operand, and the expected result. *)
Definition homographic_cases : list ((Z * Z * Z * Z) * (Z * Z) * (Z * Z)) :=
  [((1, 1, 1, 1), ((-2), 1), (1, 1));
   ((1, 1, 1, 1), ((-2), 3), (1, 1));
   ((1, 1, 1, 1), ((-1), 2), (1, 1));
   ((1, 1, 1, 1), ((-1), 4), (1, 1));
   ((1, 1, 1, 1), (0, 1), (1, 1));
   ((1, 1, 1, 1), (1, 4), (1, 1));
   ((1, 1, 1, 1), (1, 2), (1, 1));
   ((1, 1, 1, 1), (2, 3), (1, 1));
   ((1, 1, 1, 1), (1, 1), (1, 1));
   ((1, 1, 1, 1), (2, 1), (1, 1));
   ((1, 1, 1, 0), ((-2), 1), (1, 2));
   ((1, 1, 1, 0), ((-1), 1), (0, 1));
   ((1, 1, 1, 0), ((-2), 3), ((-1), 2));
   ((1, 1, 1, 0), ((-1), 2), ((-1), 1));
   ((1, 1, 1, 0), ((-1), 4), ((-3), 1));
   ((1, 1, 1, 0), (1, 4), (5, 1));
   ((1, 1, 1, 0), (1, 2), (3, 1));
   ((1, 1, 1, 0), (2, 3), (5, 2));
   ((1, 1, 1, 0), (1, 1), (2, 1));
   ((1, 1, 1, 0), (2, 1), (3, 2));
   ((1, 1, 0, 1), ((-2), 1), ((-1), 1));
   ((1, 1, 0, 1), ((-1), 1), (0, 1));
   ((1, 1, 0, 1), ((-2), 3), (1, 3));
   ((1, 1, 0, 1), ((-1), 2), (1, 2));
   ((1, 1, 0, 1), ((-1), 4), (3, 4));
   ((1, 1, 0, 1), (0, 1), (1, 1));
   ((1, 1, 0, 1), (1, 4), (5, 4));
   ((1, 1, 0, 1), (1, 2), (3, 2));
   ((1, 1, 0, 1), (2, 3), (5, 3));
   ((1, 1, 0, 1), (1, 1), (2, 1));
   ((1, 1, 0, 1), (2, 1), (3, 1));
   ((1, 0, 1, 1), ((-2), 1), (2, 1));
   ((1, 0, 1, 1), ((-2), 3), ((-2), 1));
   ((1, 0, 1, 1), ((-1), 2), ((-1), 1));
   ((1, 0, 1, 1), ((-1), 4), ((-1), 3));
   ((1, 0, 1, 1), (0, 1), (0, 1));
   ((1, 0, 1, 1), (1, 4), (1, 5));
   ((1, 0, 1, 1), (1, 2), (1, 3));
   ((1, 0, 1, 1), (2, 3), (2, 5));
   ((1, 0, 1, 1), (1, 1), (1, 2));
   ((1, 0, 1, 1), (2, 1), (2, 3));
   ((0, 1, 1, 1), ((-2), 1), ((-1), 1));
   ((0, 1, 1, 1), ((-2), 3), (3, 1));
   ((0, 1, 1, 1), ((-1), 2), (2, 1));
   ((0, 1, 1, 1), ((-1), 4), (4, 3));
   ((0, 1, 1, 1), (0, 1), (1, 1));
   ((0, 1, 1, 1), (1, 4), (4, 5));
   ((0, 1, 1, 1), (1, 2), (2, 3));
   ((0, 1, 1, 1), (2, 3), (3, 5));
   ((0, 1, 1, 1), (1, 1), (1, 2));
   ((0, 1, 1, 1), (2, 1), (1, 3));
   ((0, 1, 1, 0), ((-2), 1), ((-1), 2));
   ((0, 1, 1, 0), ((-1), 1), ((-1), 1));
   ((0, 1, 1, 0), ((-2), 3), ((-3), 2));
   ((0, 1, 1, 0), ((-1), 2), ((-2), 1));
   ((0, 1, 1, 0), ((-1), 4), ((-4), 1));
   ((0, 1, 1, 0), (1, 4), (4, 1));
   ((0, 1, 1, 0), (1, 2), (2, 1));
   ((0, 1, 1, 0), (2, 3), (3, 2));
   ((0, 1, 1, 0), (1, 1), (1, 1));
   ((0, 1, 1, 0), (2, 1), (1, 2));
   ((0, 1, 0, 1), ((-2), 1), (1, 1));
   ((0, 1, 0, 1), ((-1), 1), (1, 1));
   ((0, 1, 0, 1), ((-2), 3), (1, 1));
   ((0, 1, 0, 1), ((-1), 2), (1, 1));
   ((0, 1, 0, 1), ((-1), 4), (1, 1));
   ((0, 1, 0, 1), (0, 1), (1, 1));
   ((0, 1, 0, 1), (1, 4), (1, 1));
   ((0, 1, 0, 1), (1, 2), (1, 1));
   ((0, 1, 0, 1), (2, 3), (1, 1));
   ((0, 1, 0, 1), (1, 1), (1, 1));
   ((0, 1, 0, 1), (2, 1), (1, 1));
   ((0, 0, 1, 1), ((-2), 1), (0, 1));
   ((0, 0, 1, 1), ((-2), 3), (0, 1));
   ((0, 0, 1, 1), ((-1), 2), (0, 1));
   ((0, 0, 1, 1), ((-1), 4), (0, 1));
   ((0, 0, 1, 1), (0, 1), (0, 1));
   ((0, 0, 1, 1), (1, 4), (0, 1));
   ((0, 0, 1, 1), (1, 2), (0, 1));
   ((0, 0, 1, 1), (2, 3), (0, 1));
   ((0, 0, 1, 1), (1, 1), (0, 1));
   ((0, 0, 1, 1), (2, 1), (0, 1));
   ((0, 0, 1, 0), ((-2), 1), (0, 1));
   ((0, 0, 1, 0), ((-1), 1), (0, 1));
   ((0, 0, 1, 0), ((-2), 3), (0, 1));
   ((0, 0, 1, 0), ((-1), 2), (0, 1));
   ((0, 0, 1, 0), ((-1), 4), (0, 1));
   ((0, 0, 1, 0), (1, 4), (0, 1));
   ((0, 0, 1, 0), (1, 2), (0, 1));
   ((0, 0, 1, 0), (2, 3), (0, 1));
   ((0, 0, 1, 0), (1, 1), (0, 1));
   ((0, 0, 1, 0), (2, 1), (0, 1));
   ((0, 0, 0, 1), ((-2), 1), (0, 1));
   ((0, 0, 0, 1), ((-1), 1), (0, 1));
   ((0, 0, 0, 1), ((-2), 3), (0, 1));
   ((0, 0, 0, 1), ((-1), 2), (0, 1));
   ((0, 0, 0, 1), ((-1), 4), (0, 1));
   ((0, 0, 0, 1), (0, 1), (0, 1));
   ((0, 0, 0, 1), (1, 4), (0, 1));
   ((0, 0, 0, 1), (1, 2), (0, 1));
   ((0, 0, 0, 1), (2, 3), (0, 1));
   ((0, 0, 0, 1), (1, 1), (0, 1));
   ((0, 0, 0, 1), (2, 1), (0, 1));
   ((2, 3, 4, 5), ((-2), 1), (1, 3));
   ((2, 3, 4, 5), ((-1), 1), (1, 1));
   ((2, 3, 4, 5), ((-2), 3), (5, 7));
   ((2, 3, 4, 5), ((-1), 2), (2, 3));
   ((2, 3, 4, 5), ((-1), 4), (5, 8));
   ((2, 3, 4, 5), (0, 1), (3, 5));
   ((2, 3, 4, 5), (1, 4), (7, 12));
   ((2, 3, 4, 5), (1, 2), (4, 7));
   ((2, 3, 4, 5), (2, 3), (13, 23));
   ((2, 3, 4, 5), (1, 1), (5, 9));
   ((2, 3, 4, 5), (2, 1), (7, 13));
   ((2, 3, 4, (-5)), ((-2), 1), (1, 13));
   ((2, 3, 4, (-5)), ((-1), 1), ((-1), 9));
   ((2, 3, 4, (-5)), ((-2), 3), ((-5), 23));
   ((2, 3, 4, (-5)), ((-1), 2), ((-2), 7));
   ((2, 3, 4, (-5)), ((-1), 4), ((-5), 12));
   ((2, 3, 4, (-5)), (0, 1), ((-3), 5));
   ((2, 3, 4, (-5)), (1, 4), ((-7), 8));
   ((2, 3, 4, (-5)), (1, 2), ((-4), 3));
   ((2, 3, 4, (-5)), (2, 3), ((-13), 7));
   ((2, 3, 4, (-5)), (1, 1), ((-5), 1));
   ((2, 3, 4, (-5)), (2, 1), (7, 3));
   ((2, 3, (-4), 5), ((-2), 1), ((-1), 13));
   ((2, 3, (-4), 5), ((-1), 1), (1, 9));
   ((2, 3, (-4), 5), ((-2), 3), (5, 23));
   ((2, 3, (-4), 5), ((-1), 2), (2, 7));
   ((2, 3, (-4), 5), ((-1), 4), (5, 12));
   ((2, 3, (-4), 5), (0, 1), (3, 5));
   ((2, 3, (-4), 5), (1, 4), (7, 8));
   ((2, 3, (-4), 5), (1, 2), (4, 3));
   ((2, 3, (-4), 5), (2, 3), (13, 7));
   ((2, 3, (-4), 5), (1, 1), (5, 1));
   ((2, 3, (-4), 5), (2, 1), ((-7), 3));
   ((2, (-3), 4, 5), ((-2), 1), (7, 3));
   ((2, (-3), 4, 5), ((-1), 1), ((-5), 1));
   ((2, (-3), 4, 5), ((-2), 3), ((-13), 7));
   ((2, (-3), 4, 5), ((-1), 2), ((-4), 3));
   ((2, (-3), 4, 5), ((-1), 4), ((-7), 8));
   ((2, (-3), 4, 5), (0, 1), ((-3), 5));
   ((2, (-3), 4, 5), (1, 4), ((-5), 12));
   ((2, (-3), 4, 5), (1, 2), ((-2), 7));
   ((2, (-3), 4, 5), (2, 3), ((-5), 23));
   ((2, (-3), 4, 5), (1, 1), ((-1), 9));
   ((2, (-3), 4, 5), (2, 1), (1, 13));
   (((-2), 3, 4, 5), ((-2), 1), ((-7), 3));
   (((-2), 3, 4, 5), ((-1), 1), (5, 1));
   (((-2), 3, 4, 5), ((-2), 3), (13, 7));
   (((-2), 3, 4, 5), ((-1), 2), (4, 3));
   (((-2), 3, 4, 5), ((-1), 4), (7, 8));
   (((-2), 3, 4, 5), (0, 1), (3, 5));
   (((-2), 3, 4, 5), (1, 4), (5, 12));
   (((-2), 3, 4, 5), (1, 2), (2, 7));
   (((-2), 3, 4, 5), (2, 3), (5, 23));
   (((-2), 3, 4, 5), (1, 1), (1, 9));
   (((-2), 3, 4, 5), (2, 1), ((-1), 13));
   (((-2), 3, 4, (-5)), ((-2), 1), ((-7), 13));
   (((-2), 3, 4, (-5)), ((-1), 1), ((-5), 9));
   (((-2), 3, 4, (-5)), ((-2), 3), ((-13), 23));
   (((-2), 3, 4, (-5)), ((-1), 2), ((-4), 7));
   (((-2), 3, 4, (-5)), ((-1), 4), ((-7), 12));
   (((-2), 3, 4, (-5)), (0, 1), ((-3), 5));
   (((-2), 3, 4, (-5)), (1, 4), ((-5), 8));
   (((-2), 3, 4, (-5)), (1, 2), ((-2), 3));
   (((-2), 3, 4, (-5)), (2, 3), ((-5), 7));
   (((-2), 3, 4, (-5)), (1, 1), ((-1), 1));
   (((-2), 3, 4, (-5)), (2, 1), ((-1), 3));
   (((-2), 3, (-4), 5), ((-2), 1), (7, 13));
   (((-2), 3, (-4), 5), ((-1), 1), (5, 9));
   (((-2), 3, (-4), 5), ((-2), 3), (13, 23));
   (((-2), 3, (-4), 5), ((-1), 2), (4, 7));
   (((-2), 3, (-4), 5), ((-1), 4), (7, 12));
   (((-2), 3, (-4), 5), (0, 1), (3, 5));
   (((-2), 3, (-4), 5), (1, 4), (5, 8));
   (((-2), 3, (-4), 5), (1, 2), (2, 3));
   (((-2), 3, (-4), 5), (2, 3), (5, 7));
   (((-2), 3, (-4), 5), (1, 1), (1, 1));
   (((-2), 3, (-4), 5), (2, 1), (1, 3));
   (((-2), (-3), 4, 5), ((-2), 1), ((-1), 3));
   (((-2), (-3), 4, 5), ((-1), 1), ((-1), 1));
   (((-2), (-3), 4, 5), ((-2), 3), ((-5), 7));
   (((-2), (-3), 4, 5), ((-1), 2), ((-2), 3));
   (((-2), (-3), 4, 5), ((-1), 4), ((-5), 8));
   (((-2), (-3), 4, 5), (0, 1), ((-3), 5));
   (((-2), (-3), 4, 5), (1, 4), ((-7), 12));
   (((-2), (-3), 4, 5), (1, 2), ((-4), 7));
   (((-2), (-3), 4, 5), (2, 3), ((-13), 23));
   (((-2), (-3), 4, 5), (1, 1), ((-5), 9));
   (((-2), (-3), 4, 5), (2, 1), ((-7), 13));
   (((-2), (-3), 4, (-5)), ((-2), 1), ((-1), 13));
   (((-2), (-3), 4, (-5)), ((-1), 1), (1, 9));
   (((-2), (-3), 4, (-5)), ((-2), 3), (5, 23));
   (((-2), (-3), 4, (-5)), ((-1), 2), (2, 7));
   (((-2), (-3), 4, (-5)), ((-1), 4), (5, 12));
   (((-2), (-3), 4, (-5)), (0, 1), (3, 5));
   (((-2), (-3), 4, (-5)), (1, 4), (7, 8));
   (((-2), (-3), 4, (-5)), (1, 2), (4, 3));
   (((-2), (-3), 4, (-5)), (2, 3), (13, 7));
   (((-2), (-3), 4, (-5)), (1, 1), (5, 1));
   (((-2), (-3), 4, (-5)), (2, 1), ((-7), 3));
   (((-2), (-3), (-4), 5), ((-2), 1), (1, 13));
   (((-2), (-3), (-4), 5), ((-1), 1), ((-1), 9));
   (((-2), (-3), (-4), 5), ((-2), 3), ((-5), 23));
   (((-2), (-3), (-4), 5), ((-1), 2), ((-2), 7));
   (((-2), (-3), (-4), 5), ((-1), 4), ((-5), 12));
   (((-2), (-3), (-4), 5), (0, 1), ((-3), 5));
   (((-2), (-3), (-4), 5), (1, 4), ((-7), 8));
   (((-2), (-3), (-4), 5), (1, 2), ((-4), 3));
   (((-2), (-3), (-4), 5), (2, 3), ((-13), 7));
   (((-2), (-3), (-4), 5), (1, 1), ((-5), 1));
   (((-2), (-3), (-4), 5), (2, 1), (7, 3));
   (((-2), (-3), (-4), (-5)), ((-2), 1), (1, 3));
   (((-2), (-3), (-4), (-5)), ((-1), 1), (1, 1));
   (((-2), (-3), (-4), (-5)), ((-2), 3), (5, 7));
   (((-2), (-3), (-4), (-5)), ((-1), 2), (2, 3));
   (((-2), (-3), (-4), (-5)), ((-1), 4), (5, 8));
   (((-2), (-3), (-4), (-5)), (0, 1), (3, 5));
   (((-2), (-3), (-4), (-5)), (1, 4), (7, 12));
   (((-2), (-3), (-4), (-5)), (1, 2), (4, 7));
   (((-2), (-3), (-4), (-5)), (2, 3), (13, 23));
   (((-2), (-3), (-4), (-5)), (1, 1), (5, 9));
   (((-2), (-3), (-4), (-5)), (2, 1), (7, 13));
   ((6, 3, 4, 2), ((-2), 1), (3, 2));
   ((6, 3, 4, 2), ((-1), 1), (3, 2));
   ((6, 3, 4, 2), ((-2), 3), (3, 2));
   ((6, 3, 4, 2), ((-1), 4), (3, 2));
   ((6, 3, 4, 2), (0, 1), (3, 2));
   ((6, 3, 4, 2), (1, 4), (3, 2));
   ((6, 3, 4, 2), (1, 2), (3, 2));
   ((6, 3, 4, 2), (2, 3), (3, 2));
   ((6, 3, 4, 2), (1, 1), (3, 2));
   ((6, 3, 4, 2), (2, 1), (3, 2))].

(** src/strategy/homographic.rs:111-637, the ten [p_*] tests: the coefficients and the
    operand. *)
Definition homographic_panics : list ((Z * Z * Z * Z) * (Z * Z)) :=
  [((1, 1, 1, 1), ((-1), 1));
   ((1, 1, 1, 0), (0, 1));
   ((1, 0, 1, 1), ((-1), 1));
   ((0, 1, 1, 1), ((-1), 1));
   ((0, 1, 1, 0), (0, 1));
   ((0, 0, 1, 1), ((-1), 1));
   ((0, 0, 1, 0), (0, 1));
   ((0, 0, 0, 0), (1, 1));
   ((0, 0, 2, 1), ((-1), 2));
   ((6, 3, 4, 2), ((-1), 2))].

(** src/strategy/combine.rs:39-179, test mul, 121 assertions: the operands, and the
    expected result. *)
Definition mul_cases : list ((Z * Z) * (Z * Z) * (Z * Z)) :=
  [(((-2), 1), ((-2), 1), (4, 1));
   (((-2), 1), ((-1), 1), (2, 1));
   (((-2), 1), ((-2), 3), (4, 3));
   (((-2), 1), ((-1), 2), (1, 1));
   (((-2), 1), ((-1), 4), (1, 2));
   (((-2), 1), (0, 1), (0, 1));
   (((-2), 1), (1, 4), ((-1), 2));
   (((-2), 1), (1, 2), ((-1), 1));
   (((-2), 1), (2, 3), ((-4), 3));
   (((-2), 1), (1, 1), ((-2), 1));
   (((-2), 1), (2, 1), ((-4), 1));
   (((-1), 1), ((-2), 1), (2, 1));
   (((-1), 1), ((-1), 1), (1, 1));
   (((-1), 1), ((-2), 3), (2, 3));
   (((-1), 1), ((-1), 2), (1, 2));
   (((-1), 1), ((-1), 4), (1, 4));
   (((-1), 1), (0, 1), (0, 1));
   (((-1), 1), (1, 4), ((-1), 4));
   (((-1), 1), (1, 2), ((-1), 2));
   (((-1), 1), (2, 3), ((-2), 3));
   (((-1), 1), (1, 1), ((-1), 1));
   (((-1), 1), (2, 1), ((-2), 1));
   (((-2), 3), ((-2), 1), (4, 3));
   (((-2), 3), ((-1), 1), (2, 3));
   (((-2), 3), ((-2), 3), (4, 9));
   (((-2), 3), ((-1), 2), (1, 3));
   (((-2), 3), ((-1), 4), (1, 6));
   (((-2), 3), (0, 1), (0, 1));
   (((-2), 3), (1, 4), ((-1), 6));
   (((-2), 3), (1, 2), ((-1), 3));
   (((-2), 3), (2, 3), ((-4), 9));
   (((-2), 3), (1, 1), ((-2), 3));
   (((-2), 3), (2, 1), ((-4), 3));
   (((-1), 2), ((-2), 1), (1, 1));
   (((-1), 2), ((-1), 1), (1, 2));
   (((-1), 2), ((-2), 3), (1, 3));
   (((-1), 2), ((-1), 2), (1, 4));
   (((-1), 2), ((-1), 4), (1, 8));
   (((-1), 2), (0, 1), (0, 1));
   (((-1), 2), (1, 4), ((-1), 8));
   (((-1), 2), (1, 2), ((-1), 4));
   (((-1), 2), (2, 3), ((-1), 3));
   (((-1), 2), (1, 1), ((-1), 2));
   (((-1), 2), (2, 1), ((-1), 1));
   (((-1), 4), ((-2), 1), (1, 2));
   (((-1), 4), ((-1), 1), (1, 4));
   (((-1), 4), ((-2), 3), (1, 6));
   (((-1), 4), ((-1), 2), (1, 8));
   (((-1), 4), ((-1), 4), (1, 16));
   (((-1), 4), (0, 1), (0, 1));
   (((-1), 4), (1, 4), ((-1), 16));
   (((-1), 4), (1, 2), ((-1), 8));
   (((-1), 4), (2, 3), ((-1), 6));
   (((-1), 4), (1, 1), ((-1), 4));
   (((-1), 4), (2, 1), ((-1), 2));
   ((0, 1), ((-2), 1), (0, 1));
   ((0, 1), ((-1), 1), (0, 1));
   ((0, 1), ((-2), 3), (0, 1));
   ((0, 1), ((-1), 2), (0, 1));
   ((0, 1), ((-1), 4), (0, 1));
   ((0, 1), (0, 1), (0, 1));
   ((0, 1), (1, 4), (0, 1));
   ((0, 1), (1, 2), (0, 1));
   ((0, 1), (2, 3), (0, 1));
   ((0, 1), (1, 1), (0, 1));
   ((0, 1), (2, 1), (0, 1));
   ((1, 4), ((-2), 1), ((-1), 2));
   ((1, 4), ((-1), 1), ((-1), 4));
   ((1, 4), ((-2), 3), ((-1), 6));
   ((1, 4), ((-1), 2), ((-1), 8));
   ((1, 4), ((-1), 4), ((-1), 16));
   ((1, 4), (0, 1), (0, 1));
   ((1, 4), (1, 4), (1, 16));
   ((1, 4), (1, 2), (1, 8));
   ((1, 4), (2, 3), (1, 6));
   ((1, 4), (1, 1), (1, 4));
   ((1, 4), (2, 1), (1, 2));
   ((1, 2), ((-2), 1), ((-1), 1));
   ((1, 2), ((-1), 1), ((-1), 2));
   ((1, 2), ((-2), 3), ((-1), 3));
   ((1, 2), ((-1), 2), ((-1), 4));
   ((1, 2), ((-1), 4), ((-1), 8));
   ((1, 2), (0, 1), (0, 1));
   ((1, 2), (1, 4), (1, 8));
   ((1, 2), (1, 2), (1, 4));
   ((1, 2), (2, 3), (1, 3));
   ((1, 2), (1, 1), (1, 2));
   ((1, 2), (2, 1), (1, 1));
   ((2, 3), ((-2), 1), ((-4), 3));
   ((2, 3), ((-1), 1), ((-2), 3));
   ((2, 3), ((-2), 3), ((-4), 9));
   ((2, 3), ((-1), 2), ((-1), 3));
   ((2, 3), ((-1), 4), ((-1), 6));
   ((2, 3), (0, 1), (0, 1));
   ((2, 3), (1, 4), (1, 6));
   ((2, 3), (1, 2), (1, 3));
   ((2, 3), (2, 3), (4, 9));
   ((2, 3), (1, 1), (2, 3));
   ((2, 3), (2, 1), (4, 3));
   ((1, 1), ((-2), 1), ((-2), 1));
   ((1, 1), ((-1), 1), ((-1), 1));
   ((1, 1), ((-2), 3), ((-2), 3));
   ((1, 1), ((-1), 2), ((-1), 2));
   ((1, 1), ((-1), 4), ((-1), 4));
   ((1, 1), (0, 1), (0, 1));
   ((1, 1), (1, 4), (1, 4));
   ((1, 1), (1, 2), (1, 2));
   ((1, 1), (2, 3), (2, 3));
   ((1, 1), (1, 1), (1, 1));
   ((1, 1), (2, 1), (2, 1));
   ((2, 1), ((-2), 1), ((-4), 1));
   ((2, 1), ((-1), 1), ((-2), 1));
   ((2, 1), ((-2), 3), ((-4), 3));
   ((2, 1), ((-1), 2), ((-1), 1));
   ((2, 1), ((-1), 4), ((-1), 2));
   ((2, 1), (0, 1), (0, 1));
   ((2, 1), (1, 4), (1, 2));
   ((2, 1), (1, 2), (1, 1));
   ((2, 1), (2, 3), (4, 3));
   ((2, 1), (1, 1), (2, 1));
   ((2, 1), (2, 1), (4, 1))].

(** src/strategy/combine.rs:181-310, test div, 110 assertions. *)
Definition div_cases : list ((Z * Z) * (Z * Z) * (Z * Z)) :=
  [(((-2), 1), ((-2), 1), (1, 1));
   (((-2), 1), ((-1), 1), (2, 1));
   (((-2), 1), ((-2), 3), (3, 1));
   (((-2), 1), ((-1), 2), (4, 1));
   (((-2), 1), ((-1), 4), (8, 1));
   (((-2), 1), (1, 4), ((-8), 1));
   (((-2), 1), (1, 2), ((-4), 1));
   (((-2), 1), (2, 3), ((-3), 1));
   (((-2), 1), (1, 1), ((-2), 1));
   (((-2), 1), (2, 1), ((-1), 1));
   (((-1), 1), ((-2), 1), (1, 2));
   (((-1), 1), ((-1), 1), (1, 1));
   (((-1), 1), ((-2), 3), (3, 2));
   (((-1), 1), ((-1), 2), (2, 1));
   (((-1), 1), ((-1), 4), (4, 1));
   (((-1), 1), (1, 4), ((-4), 1));
   (((-1), 1), (1, 2), ((-2), 1));
   (((-1), 1), (2, 3), ((-3), 2));
   (((-1), 1), (1, 1), ((-1), 1));
   (((-1), 1), (2, 1), ((-1), 2));
   (((-2), 3), ((-2), 1), (1, 3));
   (((-2), 3), ((-1), 1), (2, 3));
   (((-2), 3), ((-2), 3), (1, 1));
   (((-2), 3), ((-1), 2), (4, 3));
   (((-2), 3), ((-1), 4), (8, 3));
   (((-2), 3), (1, 4), ((-8), 3));
   (((-2), 3), (1, 2), ((-4), 3));
   (((-2), 3), (2, 3), ((-1), 1));
   (((-2), 3), (1, 1), ((-2), 3));
   (((-2), 3), (2, 1), ((-1), 3));
   (((-1), 2), ((-2), 1), (1, 4));
   (((-1), 2), ((-1), 1), (1, 2));
   (((-1), 2), ((-2), 3), (3, 4));
   (((-1), 2), ((-1), 2), (1, 1));
   (((-1), 2), ((-1), 4), (2, 1));
   (((-1), 2), (1, 4), ((-2), 1));
   (((-1), 2), (1, 2), ((-1), 1));
   (((-1), 2), (2, 3), ((-3), 4));
   (((-1), 2), (1, 1), ((-1), 2));
   (((-1), 2), (2, 1), ((-1), 4));
   (((-1), 4), ((-2), 1), (1, 8));
   (((-1), 4), ((-1), 1), (1, 4));
   (((-1), 4), ((-2), 3), (3, 8));
   (((-1), 4), ((-1), 2), (1, 2));
   (((-1), 4), ((-1), 4), (1, 1));
   (((-1), 4), (1, 4), ((-1), 1));
   (((-1), 4), (1, 2), ((-1), 2));
   (((-1), 4), (2, 3), ((-3), 8));
   (((-1), 4), (1, 1), ((-1), 4));
   (((-1), 4), (2, 1), ((-1), 8));
   ((0, 1), ((-2), 1), (0, 1));
   ((0, 1), ((-1), 1), (0, 1));
   ((0, 1), ((-2), 3), (0, 1));
   ((0, 1), ((-1), 2), (0, 1));
   ((0, 1), ((-1), 4), (0, 1));
   ((0, 1), (1, 4), (0, 1));
   ((0, 1), (1, 2), (0, 1));
   ((0, 1), (2, 3), (0, 1));
   ((0, 1), (1, 1), (0, 1));
   ((0, 1), (2, 1), (0, 1));
   ((1, 4), ((-2), 1), ((-1), 8));
   ((1, 4), ((-1), 1), ((-1), 4));
   ((1, 4), ((-2), 3), ((-3), 8));
   ((1, 4), ((-1), 2), ((-1), 2));
   ((1, 4), ((-1), 4), ((-1), 1));
   ((1, 4), (1, 4), (1, 1));
   ((1, 4), (1, 2), (1, 2));
   ((1, 4), (2, 3), (3, 8));
   ((1, 4), (1, 1), (1, 4));
   ((1, 4), (2, 1), (1, 8));
   ((1, 2), ((-2), 1), ((-1), 4));
   ((1, 2), ((-1), 1), ((-1), 2));
   ((1, 2), ((-2), 3), ((-3), 4));
   ((1, 2), ((-1), 2), ((-1), 1));
   ((1, 2), ((-1), 4), ((-2), 1));
   ((1, 2), (1, 4), (2, 1));
   ((1, 2), (1, 2), (1, 1));
   ((1, 2), (2, 3), (3, 4));
   ((1, 2), (1, 1), (1, 2));
   ((1, 2), (2, 1), (1, 4));
   ((2, 3), ((-2), 1), ((-1), 3));
   ((2, 3), ((-1), 1), ((-2), 3));
   ((2, 3), ((-2), 3), ((-1), 1));
   ((2, 3), ((-1), 2), ((-4), 3));
   ((2, 3), ((-1), 4), ((-8), 3));
   ((2, 3), (1, 4), (8, 3));
   ((2, 3), (1, 2), (4, 3));
   ((2, 3), (2, 3), (1, 1));
   ((2, 3), (1, 1), (2, 3));
   ((2, 3), (2, 1), (1, 3));
   ((1, 1), ((-2), 1), ((-1), 2));
   ((1, 1), ((-1), 1), ((-1), 1));
   ((1, 1), ((-2), 3), ((-3), 2));
   ((1, 1), ((-1), 2), ((-2), 1));
   ((1, 1), ((-1), 4), ((-4), 1));
   ((1, 1), (1, 4), (4, 1));
   ((1, 1), (1, 2), (2, 1));
   ((1, 1), (2, 3), (3, 2));
   ((1, 1), (1, 1), (1, 1));
   ((1, 1), (2, 1), (1, 2));
   ((2, 1), ((-2), 1), ((-1), 1));
   ((2, 1), ((-1), 1), ((-2), 1));
   ((2, 1), ((-2), 3), ((-3), 1));
   ((2, 1), ((-1), 2), ((-4), 1));
   ((2, 1), ((-1), 4), ((-8), 1));
   ((2, 1), (1, 4), (8, 1));
   ((2, 1), (1, 2), (4, 1));
   ((2, 1), (2, 3), (3, 1));
   ((2, 1), (1, 1), (2, 1));
   ((2, 1), (2, 1), (1, 1))].

(** src/strategy/combine.rs:312-452, test add, 121 assertions. *)
Definition add_cases : list ((Z * Z) * (Z * Z) * (Z * Z)) :=
  [(((-2), 1), ((-2), 1), ((-4), 1));
   (((-2), 1), ((-1), 1), ((-3), 1));
   (((-2), 1), ((-2), 3), ((-8), 3));
   (((-2), 1), ((-1), 2), ((-5), 2));
   (((-2), 1), ((-1), 4), ((-9), 4));
   (((-2), 1), (0, 1), ((-2), 1));
   (((-2), 1), (1, 4), ((-7), 4));
   (((-2), 1), (1, 2), ((-3), 2));
   (((-2), 1), (2, 3), ((-4), 3));
   (((-2), 1), (1, 1), ((-1), 1));
   (((-2), 1), (2, 1), (0, 1));
   (((-1), 1), ((-2), 1), ((-3), 1));
   (((-1), 1), ((-1), 1), ((-2), 1));
   (((-1), 1), ((-2), 3), ((-5), 3));
   (((-1), 1), ((-1), 2), ((-3), 2));
   (((-1), 1), ((-1), 4), ((-5), 4));
   (((-1), 1), (0, 1), ((-1), 1));
   (((-1), 1), (1, 4), ((-3), 4));
   (((-1), 1), (1, 2), ((-1), 2));
   (((-1), 1), (2, 3), ((-1), 3));
   (((-1), 1), (1, 1), (0, 1));
   (((-1), 1), (2, 1), (1, 1));
   (((-2), 3), ((-2), 1), ((-8), 3));
   (((-2), 3), ((-1), 1), ((-5), 3));
   (((-2), 3), ((-2), 3), ((-4), 3));
   (((-2), 3), ((-1), 2), ((-7), 6));
   (((-2), 3), ((-1), 4), ((-11), 12));
   (((-2), 3), (0, 1), ((-2), 3));
   (((-2), 3), (1, 4), ((-5), 12));
   (((-2), 3), (1, 2), ((-1), 6));
   (((-2), 3), (2, 3), (0, 1));
   (((-2), 3), (1, 1), (1, 3));
   (((-2), 3), (2, 1), (4, 3));
   (((-1), 2), ((-2), 1), ((-5), 2));
   (((-1), 2), ((-1), 1), ((-3), 2));
   (((-1), 2), ((-2), 3), ((-7), 6));
   (((-1), 2), ((-1), 2), ((-1), 1));
   (((-1), 2), ((-1), 4), ((-3), 4));
   (((-1), 2), (0, 1), ((-1), 2));
   (((-1), 2), (1, 4), ((-1), 4));
   (((-1), 2), (1, 2), (0, 1));
   (((-1), 2), (2, 3), (1, 6));
   (((-1), 2), (1, 1), (1, 2));
   (((-1), 2), (2, 1), (3, 2));
   (((-1), 4), ((-2), 1), ((-9), 4));
   (((-1), 4), ((-1), 1), ((-5), 4));
   (((-1), 4), ((-2), 3), ((-11), 12));
   (((-1), 4), ((-1), 2), ((-3), 4));
   (((-1), 4), ((-1), 4), ((-1), 2));
   (((-1), 4), (0, 1), ((-1), 4));
   (((-1), 4), (1, 4), (0, 1));
   (((-1), 4), (1, 2), (1, 4));
   (((-1), 4), (2, 3), (5, 12));
   (((-1), 4), (1, 1), (3, 4));
   (((-1), 4), (2, 1), (7, 4));
   ((0, 1), ((-2), 1), ((-2), 1));
   ((0, 1), ((-1), 1), ((-1), 1));
   ((0, 1), ((-2), 3), ((-2), 3));
   ((0, 1), ((-1), 2), ((-1), 2));
   ((0, 1), ((-1), 4), ((-1), 4));
   ((0, 1), (0, 1), (0, 1));
   ((0, 1), (1, 4), (1, 4));
   ((0, 1), (1, 2), (1, 2));
   ((0, 1), (2, 3), (2, 3));
   ((0, 1), (1, 1), (1, 1));
   ((0, 1), (2, 1), (2, 1));
   ((1, 4), ((-2), 1), ((-7), 4));
   ((1, 4), ((-1), 1), ((-3), 4));
   ((1, 4), ((-2), 3), ((-5), 12));
   ((1, 4), ((-1), 2), ((-1), 4));
   ((1, 4), ((-1), 4), (0, 1));
   ((1, 4), (0, 1), (1, 4));
   ((1, 4), (1, 4), (1, 2));
   ((1, 4), (1, 2), (3, 4));
   ((1, 4), (2, 3), (11, 12));
   ((1, 4), (1, 1), (5, 4));
   ((1, 4), (2, 1), (9, 4));
   ((1, 2), ((-2), 1), ((-3), 2));
   ((1, 2), ((-1), 1), ((-1), 2));
   ((1, 2), ((-2), 3), ((-1), 6));
   ((1, 2), ((-1), 2), (0, 1));
   ((1, 2), ((-1), 4), (1, 4));
   ((1, 2), (0, 1), (1, 2));
   ((1, 2), (1, 4), (3, 4));
   ((1, 2), (1, 2), (1, 1));
   ((1, 2), (2, 3), (7, 6));
   ((1, 2), (1, 1), (3, 2));
   ((1, 2), (2, 1), (5, 2));
   ((2, 3), ((-2), 1), ((-4), 3));
   ((2, 3), ((-1), 1), ((-1), 3));
   ((2, 3), ((-2), 3), (0, 1));
   ((2, 3), ((-1), 2), (1, 6));
   ((2, 3), ((-1), 4), (5, 12));
   ((2, 3), (0, 1), (2, 3));
   ((2, 3), (1, 4), (11, 12));
   ((2, 3), (1, 2), (7, 6));
   ((2, 3), (2, 3), (4, 3));
   ((2, 3), (1, 1), (5, 3));
   ((2, 3), (2, 1), (8, 3));
   ((1, 1), ((-2), 1), ((-1), 1));
   ((1, 1), ((-1), 1), (0, 1));
   ((1, 1), ((-2), 3), (1, 3));
   ((1, 1), ((-1), 2), (1, 2));
   ((1, 1), ((-1), 4), (3, 4));
   ((1, 1), (0, 1), (1, 1));
   ((1, 1), (1, 4), (5, 4));
   ((1, 1), (1, 2), (3, 2));
   ((1, 1), (2, 3), (5, 3));
   ((1, 1), (1, 1), (2, 1));
   ((1, 1), (2, 1), (3, 1));
   ((2, 1), ((-2), 1), (0, 1));
   ((2, 1), ((-1), 1), (1, 1));
   ((2, 1), ((-2), 3), (4, 3));
   ((2, 1), ((-1), 2), (3, 2));
   ((2, 1), ((-1), 4), (7, 4));
   ((2, 1), (0, 1), (2, 1));
   ((2, 1), (1, 4), (9, 4));
   ((2, 1), (1, 2), (5, 2));
   ((2, 1), (2, 3), (8, 3));
   ((2, 1), (1, 1), (3, 1));
   ((2, 1), (2, 1), (4, 1))].

(** src/strategy/combine.rs:454-594, test sub, 121 assertions. *)
Definition sub_cases : list ((Z * Z) * (Z * Z) * (Z * Z)) :=
  [(((-2), 1), ((-2), 1), (0, 1));
   (((-2), 1), ((-1), 1), ((-1), 1));
   (((-2), 1), ((-2), 3), ((-4), 3));
   (((-2), 1), ((-1), 2), ((-3), 2));
   (((-2), 1), ((-1), 4), ((-7), 4));
   (((-2), 1), (0, 1), ((-2), 1));
   (((-2), 1), (1, 4), ((-9), 4));
   (((-2), 1), (1, 2), ((-5), 2));
   (((-2), 1), (2, 3), ((-8), 3));
   (((-2), 1), (1, 1), ((-3), 1));
   (((-2), 1), (2, 1), ((-4), 1));
   (((-1), 1), ((-2), 1), (1, 1));
   (((-1), 1), ((-1), 1), (0, 1));
   (((-1), 1), ((-2), 3), ((-1), 3));
   (((-1), 1), ((-1), 2), ((-1), 2));
   (((-1), 1), ((-1), 4), ((-3), 4));
   (((-1), 1), (0, 1), ((-1), 1));
   (((-1), 1), (1, 4), ((-5), 4));
   (((-1), 1), (1, 2), ((-3), 2));
   (((-1), 1), (2, 3), ((-5), 3));
   (((-1), 1), (1, 1), ((-2), 1));
   (((-1), 1), (2, 1), ((-3), 1));
   (((-2), 3), ((-2), 1), (4, 3));
   (((-2), 3), ((-1), 1), (1, 3));
   (((-2), 3), ((-2), 3), (0, 1));
   (((-2), 3), ((-1), 2), ((-1), 6));
   (((-2), 3), ((-1), 4), ((-5), 12));
   (((-2), 3), (0, 1), ((-2), 3));
   (((-2), 3), (1, 4), ((-11), 12));
   (((-2), 3), (1, 2), ((-7), 6));
   (((-2), 3), (2, 3), ((-4), 3));
   (((-2), 3), (1, 1), ((-5), 3));
   (((-2), 3), (2, 1), ((-8), 3));
   (((-1), 2), ((-2), 1), (3, 2));
   (((-1), 2), ((-1), 1), (1, 2));
   (((-1), 2), ((-2), 3), (1, 6));
   (((-1), 2), ((-1), 2), (0, 1));
   (((-1), 2), ((-1), 4), ((-1), 4));
   (((-1), 2), (0, 1), ((-1), 2));
   (((-1), 2), (1, 4), ((-3), 4));
   (((-1), 2), (1, 2), ((-1), 1));
   (((-1), 2), (2, 3), ((-7), 6));
   (((-1), 2), (1, 1), ((-3), 2));
   (((-1), 2), (2, 1), ((-5), 2));
   (((-1), 4), ((-2), 1), (7, 4));
   (((-1), 4), ((-1), 1), (3, 4));
   (((-1), 4), ((-2), 3), (5, 12));
   (((-1), 4), ((-1), 2), (1, 4));
   (((-1), 4), ((-1), 4), (0, 1));
   (((-1), 4), (0, 1), ((-1), 4));
   (((-1), 4), (1, 4), ((-1), 2));
   (((-1), 4), (1, 2), ((-3), 4));
   (((-1), 4), (2, 3), ((-11), 12));
   (((-1), 4), (1, 1), ((-5), 4));
   (((-1), 4), (2, 1), ((-9), 4));
   ((0, 1), ((-2), 1), (2, 1));
   ((0, 1), ((-1), 1), (1, 1));
   ((0, 1), ((-2), 3), (2, 3));
   ((0, 1), ((-1), 2), (1, 2));
   ((0, 1), ((-1), 4), (1, 4));
   ((0, 1), (0, 1), (0, 1));
   ((0, 1), (1, 4), ((-1), 4));
   ((0, 1), (1, 2), ((-1), 2));
   ((0, 1), (2, 3), ((-2), 3));
   ((0, 1), (1, 1), ((-1), 1));
   ((0, 1), (2, 1), ((-2), 1));
   ((1, 4), ((-2), 1), (9, 4));
   ((1, 4), ((-1), 1), (5, 4));
   ((1, 4), ((-2), 3), (11, 12));
   ((1, 4), ((-1), 2), (3, 4));
   ((1, 4), ((-1), 4), (1, 2));
   ((1, 4), (0, 1), (1, 4));
   ((1, 4), (1, 4), (0, 1));
   ((1, 4), (1, 2), ((-1), 4));
   ((1, 4), (2, 3), ((-5), 12));
   ((1, 4), (1, 1), ((-3), 4));
   ((1, 4), (2, 1), ((-7), 4));
   ((1, 2), ((-2), 1), (5, 2));
   ((1, 2), ((-1), 1), (3, 2));
   ((1, 2), ((-2), 3), (7, 6));
   ((1, 2), ((-1), 2), (1, 1));
   ((1, 2), ((-1), 4), (3, 4));
   ((1, 2), (0, 1), (1, 2));
   ((1, 2), (1, 4), (1, 4));
   ((1, 2), (1, 2), (0, 1));
   ((1, 2), (2, 3), ((-1), 6));
   ((1, 2), (1, 1), ((-1), 2));
   ((1, 2), (2, 1), ((-3), 2));
   ((2, 3), ((-2), 1), (8, 3));
   ((2, 3), ((-1), 1), (5, 3));
   ((2, 3), ((-2), 3), (4, 3));
   ((2, 3), ((-1), 2), (7, 6));
   ((2, 3), ((-1), 4), (11, 12));
   ((2, 3), (0, 1), (2, 3));
   ((2, 3), (1, 4), (5, 12));
   ((2, 3), (1, 2), (1, 6));
   ((2, 3), (2, 3), (0, 1));
   ((2, 3), (1, 1), ((-1), 3));
   ((2, 3), (2, 1), ((-4), 3));
   ((1, 1), ((-2), 1), (3, 1));
   ((1, 1), ((-1), 1), (2, 1));
   ((1, 1), ((-2), 3), (5, 3));
   ((1, 1), ((-1), 2), (3, 2));
   ((1, 1), ((-1), 4), (5, 4));
   ((1, 1), (0, 1), (1, 1));
   ((1, 1), (1, 4), (3, 4));
   ((1, 1), (1, 2), (1, 2));
   ((1, 1), (2, 3), (1, 3));
   ((1, 1), (1, 1), (0, 1));
   ((1, 1), (2, 1), ((-1), 1));
   ((2, 1), ((-2), 1), (4, 1));
   ((2, 1), ((-1), 1), (3, 1));
   ((2, 1), ((-2), 3), (8, 3));
   ((2, 1), ((-1), 2), (5, 2));
   ((2, 1), ((-1), 4), (9, 4));
   ((2, 1), (0, 1), (2, 1));
   ((2, 1), (1, 4), (7, 4));
   ((2, 1), (1, 2), (3, 2));
   ((2, 1), (2, 3), (4, 3));
   ((2, 1), (1, 1), (1, 1));
   ((2, 1), (2, 1), (0, 1))].
