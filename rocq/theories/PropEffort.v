(** * Property C63: how much work a formula is, from the sizes of its values alone. *)

From Coq Require Import ZArith QArith List Lia.
From Verif Require Import Machine Protocol Types Ratio Lib Nesting Spec SpecNest SpecWork SpecFormula SpecEffort ExampleTools.
From Verif Require EffortProofs.
Import ListNotations.
Open Scope nat_scope.

(** ** C63: the work of evaluating a formula and reading its value is at most the number of
    calls, times 4 N + 8, where 2 N = m^2 + 3 m - 4 and the values are fractions with parts
    of at most 2^m; also up to a panic.  In a build with overflow checks. *)

(** A number of that size gives at most N symbols, however it was made. *)
Theorem c63_symbols k m N x q : ovf k = true -> (1 <= m)%Z -> num_has k x q -> parts (2 ^ m) q ->
  (m * m + 3 * m - 4 <= 2 * Z.of_nat N)%Z -> gives k x N.
Proof. exact (EffortProofs.parts_gives k m N x q). Qed.
Print Assumptions c63_symbols.

Theorem c63_formula k m N f e : ovf k = true -> (1 <= m)%Z -> (m * m + 3 * m - 4 <= 2 * Z.of_nat N)%Z ->
  contained k (2 ^ m) e ->
  effort k f e <= calls e * (4 * N + 8) /\
  forall x, evaluate k f e = Ok x -> exists W, costs k x W /\ effort k f e + W <= calls e * (4 * N + 8).
Proof.
  intros O M L H. split; [exact (EffortProofs.effort_bound k m N O M L f e H)|].
  intros x E. exact (proj2 (EffortProofs.effort_read k m N O M L f e H x E)).
Qed.
Print Assumptions c63_formula.

(** Two formulas, and their comparison. *)
Theorem c63_compare k m N f e1 e2 x y : ovf k = true -> (1 <= m)%Z -> (m * m + 3 * m - 4 <= 2 * Z.of_nat N)%Z ->
  contained k (2 ^ m) e1 -> contained k (2 ^ m) e2 -> evaluate k f e1 = Ok x -> evaluate k f e2 = Ok y ->
  effort k f e1 + effort k f e2 + work (number_compare_nests k f x y) <= (calls e1 + calls e2) * (4 * N + 8).
Proof. intros O M L. exact (EffortProofs.effort_compare k m N O M L f e1 e2 x y). Qed.
Print Assumptions c63_compare.

(** One operation on machine fractions, with any coefficients: numbers that depend on the
    width only.  First the call, whether it panics or not; then the call and all of its
    result. *)
Definition of_width (k : cfg) (n64 n32 n16 : Z) : Z := match wd k with W64 => n64 | W32 => n32 | W16 => n16 end.

Ltac numbers :=
  repeat match goal with
  | H : context[EffortProofs.longest ?t] |- _ =>
      let v := eval vm_compute in (EffortProofs.longest t) in change (EffortProofs.longest t) with v in H
  end; lia.

Theorem c63_homographic k num den x nx n dx d f : ovf k = true -> isize k num -> isize k den -> den <> 0%Z ->
  number_ratio k num den = Ok x -> isize k nx -> isize k n -> isize k dx -> isize k d ->
  ~ (hom_num dx d (zq num / zq den) == 0)%Q ->
  let m := number_homographic_nests k f x nx n dx d in
  (Z.of_nat (work m) <= of_width k 6234 1578 402)%Z /\
  forall y, number_homographic k f x nx n dx d = Ok y ->
  exists V, costs k y V /\ (Z.of_nat (work m + V) <= of_width k 22744 5736 1456)%Z.
Proof.
  intros O I1 I2 D E J1 J2 J3 J4 ND m.
  destruct (EffortProofs.machine_homographic k O num den x nx n dx d f I1 I2 D E J1 J2 J3 J4 ND) as [A B]. fold m in A, B.
  clearbody m. clear - A B. split.
  - clear B. destruct k as [[] o]; unfold of_width; cbn [wd] in *; numbers.
  - intros y Ey. destruct (B y Ey) as (V & C & L). exists V. split; [exact C|]. clear - L.
    destruct k as [[] o]; unfold of_width; cbn [wd] in *; numbers.
Qed.
Print Assumptions c63_homographic.

Theorem c63_combine k num den x num' den' y nxy nx ny n dxy dx dy d f : ovf k = true ->
  isize k num -> isize k den -> den <> 0%Z -> isize k num' -> isize k den' -> den' <> 0%Z ->
  number_ratio k num den = Ok x -> number_ratio k num' den' = Ok y ->
  isize k nxy -> isize k nx -> isize k ny -> isize k n -> isize k dxy -> isize k dx -> isize k dy -> isize k d ->
  ~ (comb_num dxy dx dy d (zq num / zq den) (zq num' / zq den') == 0)%Q ->
  let m := number_combine_nests k f x y nxy nx ny n dxy dx dy d in
  (Z.of_nat (work m) <= of_width k 12468 3156 804)%Z /\
  forall z, number_combine k f x y nxy nx ny n dxy dx dy d = Ok z ->
  exists V, costs k z V /\ (Z.of_nat (work m + V) <= of_width k 49524 12468 3156)%Z.
Proof.
  intros O I1 I2 D I1' I2' D' E E' J1 J2 J3 J4 J5 J6 J7 J8 ND m.
  destruct (EffortProofs.machine_combine k O num den x num' den' y nxy nx ny n dxy dx dy d f
    I1 I2 D I1' I2' D' E E' J1 J2 J3 J4 J5 J6 J7 J8 ND) as [A B]. fold m in A, B.
  clearbody m. clear - A B. split.
  - clear B. destruct k as [[] o]; unfold of_width; cbn [wd] in *; numbers.
  - intros z Ez. destruct (B z Ez) as (V & C & L). exists V. split; [exact C|]. clear - L.
    destruct k as [[] o]; unfold of_width; cbn [wd] in *; numbers.
Qed.
Print Assumptions c63_combine.

Theorem c63_order k num den x num' den' y f : ovf k = true ->
  isize k num -> isize k den -> den <> 0%Z -> isize k num' -> isize k den' -> den' <> 0%Z ->
  number_ratio k num den = Ok x -> number_ratio k num' den' = Ok y ->
  (Z.of_nat (work (number_compare_nests k f x y)) <= of_width k 8312 2104 536)%Z.
Proof.
  intros O I1 I2 D I1' I2' D' E E'.
  pose proof (EffortProofs.machine_compare k O num den x num' den' y f I1 I2 D I1' I2' D' E E') as A.
  set (m := number_compare_nests k f x y) in *. clearbody m. clear - A.
  destruct k as [[] o]; unfold of_width; cbn [wd] in *; numbers.
Qed.
Print Assumptions c63_order.

(** (1/3 + 2/7) * 3 = 13/7: four calls; all parts are at most 2^5, so that no number gives
    more than 18 symbols and the work is at most 320; evaluating it is 18 activations. *)
Definition formula_ex : formula :=
  FHomographic (FCombine (FRatio 1 3) (FRatio 2 7) 0 1 1 0 0 0 0 1) 3 0 0 1.

Example c63_ex : contained k64 (2 ^ 5) formula_ex /\ calls formula_ex = 4 /\ effort k64 50 formula_ex = 18 /\
  (exists x W, evaluate k64 50 formula_ex = Ok x /\ costs k64 x W /\ 18 + W <= 320) /\
  (exists V, costs k64 sum V /\ (Z.of_nat (14 + V) <= 49524)%Z).
Proof.
  assert (C : contained k64 (2 ^ 5) formula_ex).
  { unfold formula_ex. cbn [contained worth]. change (2 ^ 5)%Z with 32%Z.
    split; [exists 13%Z, 7%Z; repeat split; cbn; lia|]. split; [|repeat split; try size; discriminate].
    split; [exists 13%Z, 21%Z; repeat split; cbn; lia|].
    split; [split; [exists 1%Z, 3%Z; repeat split; cbn; lia|repeat split; try size; discriminate]|].
    split; [split; [exists 2%Z, 7%Z; repeat split; cbn; lia|repeat split; try size; discriminate]|].
    repeat split; try size; discriminate. }
  split; [exact C|]. split; [reflexivity|]. assert (E : effort k64 50 formula_ex = 18) by (vm_compute; reflexivity).
  split; [exact E|]. split.
  - destruct (c63_formula k64 5 18 50 formula_ex eq_refl ltac:(lia) ltac:(vm_compute; discriminate) C) as [_ H].
    eassert (Ev : evaluate k64 50 formula_ex = Ok _) by (vm_compute; reflexivity).
    destruct (H _ Ev) as (W & A & B). eexists _, W. split; [exact Ev|]. split; [exact A|]. rewrite E in B. exact B.
  - assert (X : number_ratio k64 1 3 = Ok third) by (vm_compute; reflexivity).
    assert (Y : number_ratio k64 2 7 = Ok two_sevenths) by (vm_compute; reflexivity).
    pose proof (c63_combine k64 1 3 third 2 7 two_sevenths 0 1 1 0 0 0 0 1 50 eq_refl ltac:(size) ltac:(size) ltac:(discriminate)
      ltac:(size) ltac:(size) ltac:(discriminate) X Y ltac:(size) ltac:(size) ltac:(size) ltac:(size) ltac:(size) ltac:(size) ltac:(size) ltac:(size)
      ltac:(discriminate)) as [_ H].
    destruct (H sum) as (V & A & B); [vm_compute; reflexivity|]. exists V. split; [exact A|].
    replace (work (number_combine_nests k64 50 third two_sevenths 0 1 1 0 0 0 0 1)) with 14 in B by (vm_compute; reflexivity). exact B.
Qed.
