(** * Properties C11-C13, C18, C19, C24, C34: homographic and combine. *)

From Coq Require Import ZArith QArith List Lia.
From Verif Require Import Machine Protocol Types Lib Spec ExampleTools.
From Verif Require ApiProofs ArithProofs BuildProofs RecipProofs DivProofs.
Import ListNotations.
Open Scope Z_scope.

(** ** C11: homographic. *)

Theorem c11_homographic k x q nx n dx d :
  ovf k = true -> num_has k x q -> isize k nx -> isize k n -> isize k dx -> isize k d ->
  ~ (hom_num dx d q == 0)%Q ->
  yields (fun f => number_homographic k f x nx n dx d)
    (fun y => num_has k y (hom nx n dx d q) /\ shows k y (hom nx n dx d q)).
Proof. exact (ArithProofs.homographic_value k x q nx n dx d). Qed.
Print Assumptions c11_homographic.

(** (13/21 - 2) / (3 * 13/21 + 1) = -29/60. *)
Example c11_ex : ovf k64 = true /\ num_has k64 sum (13#21) /\ isize k64 1 /\ isize k64 (-2) /\ isize k64 3 /\
  ~ (hom_num 3 1 (13#21) == 0)%Q /\ (hom 1 (-2) 3 1 (13#21) == -29#60)%Q /\
  number_homographic k64 50 sum 1 (-2) 3 1 =
    Ok (NOther (Some Reflect) (CHomographic (CHomographic (CRatio (MkRatio 3 4)) (HC 4 1 2 5)) (HC 2 1 1 4))).
Proof.
  split; [reflexivity|]. split; [exact sum_has|]. split; [size|]. split; [size|]. split; [size|].
  split; [discriminate|]. split; [reflexivity|]. vm_compute. reflexivity.
Qed.

(** ** C12: combine. *)

Theorem c12_combine k x p y q nxy nx ny n dxy dx dy d :
  ovf k = true -> num_has k x p -> num_has k y q ->
  isize k nxy -> isize k nx -> isize k ny -> isize k n -> isize k dxy -> isize k dx -> isize k dy -> isize k d ->
  ~ (comb_num dxy dx dy d p q == 0)%Q ->
  yields (fun f => number_combine k f x y nxy nx ny n dxy dx dy d)
    (fun z => num_has k z (comb nxy nx ny n dxy dx dy d p q) /\ shows k z (comb nxy nx ny n dxy dx dy d p q)).
Proof. exact (ArithProofs.combine_value k x p y q nxy nx ny n dxy dx dy d). Qed.
Print Assumptions c12_combine.

(** (13/21 + 2/7) by combining the sum above with 2/7 once more. *)
Example c12_ex : ovf k64 = true /\ num_has k64 sum (13#21) /\ num_has k64 two_sevenths (2#7) /\
  isize k64 0 /\ isize k64 1 /\ ~ (comb_num 0 0 0 1 (13#21) (2#7) == 0)%Q /\
  (comb 0 1 1 0 0 0 0 1 (13#21) (2#7) == 19#21)%Q /\
  exists z, number_combine k64 60 sum two_sevenths 0 1 1 0 0 0 0 1 = Ok z /\
    drain k64 60 (match z with NOther _ c => c | _ => sum_clog end)
      = drain k64 60 (CRatio (MkRatio 19 21)).
Proof.
  split; [reflexivity|]. split; [exact sum_has|]. split; [exact (two_sevenths_has k64)|]. split; [size|].
  split; [size|]. split; [discriminate|]. split; [reflexivity|].
  eexists. split; [vm_compute; reflexivity|]. vm_compute. reflexivity.
Qed.

(** ** C13: the four operations, and the laws of arithmetic as compare sees them. *)

Theorem c13_add k x p y q : ovf k = true -> num_has k x p -> num_has k y q ->
  yields (fun f => number_add k f x y) (fun z => num_has k z (p + q) /\ shows k z (p + q)).
Proof. exact (ArithProofs.add_value k x p y q). Qed.
Print Assumptions c13_add.

Theorem c13_sub k x p y q : ovf k = true -> num_has k x p -> num_has k y q ->
  yields (fun f => number_sub k f x y) (fun z => num_has k z (p - q) /\ shows k z (p - q)).
Proof. exact (ArithProofs.sub_value k x p y q). Qed.
Print Assumptions c13_sub.

Theorem c13_mul k x p y q : ovf k = true -> num_has k x p -> num_has k y q ->
  yields (fun f => number_mul k f x y) (fun z => num_has k z (p * q) /\ shows k z (p * q)).
Proof. exact (ArithProofs.mul_value k x p y q). Qed.
Print Assumptions c13_mul.

Theorem c13_div k x p y q : ovf k = true -> num_has k x p -> num_has k y q -> ~ (q == 0)%Q ->
  yields (fun f => number_div k f x y) (fun z => num_has k z (p / q) /\ shows k z (p / q)).
Proof. exact (ArithProofs.div_value k x p y q). Qed.
Print Assumptions c13_div.

Theorem c13_laws k x y z p q r : ovf k = true -> num_has k x p -> num_has k y q -> num_has k z r ->
  let same u v := yields (fun f => number_compare k f u v) (eq Eq) in
  (forall f u v, number_add k f x y = Ok u -> number_add k f y x = Ok v -> same u v) /\
  (forall f u v, number_mul k f x y = Ok u -> number_mul k f y x = Ok v -> same u v) /\
  (forall f u v, number_add k f x y = Ok u -> number_sub k f u y = Ok v -> same v x) /\
  (forall f u v, ~ (q == 0)%Q -> number_mul k f x y = Ok u -> number_div k f u y = Ok v -> same v x) /\
  (forall f u v u' v', number_add k f x y = Ok u -> number_add k f u z = Ok v ->
     number_add k f y z = Ok u' -> number_add k f x u' = Ok v' -> same v v') /\
  (forall f u v u' v', number_mul k f x y = Ok u -> number_mul k f u z = Ok v ->
     number_mul k f y z = Ok u' -> number_mul k f x u' = Ok v' -> same v v') /\
  (forall f s u u1 u2 v, number_add k f y z = Ok s -> number_mul k f x s = Ok u ->
     number_mul k f x y = Ok u1 -> number_mul k f x z = Ok u2 -> number_add k f u1 u2 = Ok v -> same u v).
Proof. exact (ArithProofs.arithmetic_laws k x y z p q r). Qed.
Print Assumptions c13_laws.

(** (1/3 + 2/7) - 2/7 compares equal to 1/3. *)
Example c13_ex : ovf k64 = true /\ num_has k64 third (1#3) /\ num_has k64 two_sevenths (2#7) /\
  number_add k64 50 third two_sevenths = Ok sum /\
  exists v, number_sub k64 50 sum two_sevenths = Ok v /\ number_compare k64 50 v third = Ok Eq.
Proof.
  split; [reflexivity|]. split; [exact (third_has k64)|]. split; [exact (two_sevenths_has k64)|].
  split; [exact sum_made|]. eexists. split; [vm_compute; reflexivity|]. vm_compute. reflexivity.
Qed.

(** ** C18: division by zero in homographic panics.  Refuted: when both coefficients
    of the denominator are zero, the call can return, and the number it returns
    never ends. *)

Definition c18_claim : Prop := forall k x q nx n dx d,
  num_has k x q -> isize k nx -> isize k n -> isize k dx -> isize k d -> (hom_num dx d q == 0)%Q ->
  forall f y, number_homographic k f x nx n dx d <> Ok y.

(** (1/3 + 1) / 0, in any build. *)
Theorem c18_homographic_by_zero_refuted k : num_has k third (1#3) /\ isize k 1 /\ isize k 0 /\
  (hom_num 0 0 (1#3) == 0)%Q /\
  returns (fun f => number_homographic k f third 1 1 0 0)
    (NOther (Some Turn) (CHomographic (CRatio (MkRatio 1 3)) (HC 0 0 1 1))).
Proof.
  split; [exact (third_has k)|]. split; [destruct k as [[] []]; size|]. split; [destruct k as [[] []]; size|].
  split; [reflexivity|]. apply ran_homographic with (f := 50%nat); [|discriminate].
  destruct k as [[] []]; vm_compute; reflexivity.
Qed.
Print Assumptions c18_homographic_by_zero_refuted.

Theorem c18_claim_refuted : ~ c18_claim.
Proof.
  intro H. destruct (c18_homographic_by_zero_refuted k64) as (A & B & C & D & (F & E)).
  exact (H k64 third (1#3) 1 1 0 0 A B B C C D F _ (E F (le_n _))).
Qed.
Print Assumptions c18_claim_refuted.

(** What holds of any division by zero: it panics, or both coefficients are zero and
    it returns a number that only ever gives [Amplify] (build with overflow checks). *)
Theorem c18_homographic_by_zero_partial k x q nx n dx d : ovf k = true -> num_has k x q -> (hom_num dx d q == 0)%Q ->
  settles (fun f => number_homographic k f x nx n dx d) (Panic PDivZero) \/
  overflows (fun f => number_homographic k f x nx n dx d) \/
  (dx = 0 /\ d = 0) /\ exists p c,
    returns (fun f => number_homographic k f x nx n dx d) (NOther (Some p) c) /\
    (p = Turn \/ p = Ground) /\ endless k c.
Proof. exact (DivProofs.homographic_by_zero k x q nx n dx d). Qed.
Print Assumptions c18_homographic_by_zero_partial.

(** 1 / (3 * 1/3 - 1) panics. *)
Example c18_ex : ovf k64 = true /\ num_has k64 third (1#3) /\ (hom_num 3 (-1) (1#3) == 0)%Q /\
  number_homographic k64 50 third 0 1 3 (-1) = Panic PDivZero.
Proof. split; [reflexivity|]. split; [exact (third_has k64)|]. split; [reflexivity|]. vm_compute. reflexivity. Qed.

(** ** C19: division by zero in combine panics.  Refuted: a non-zero number divided
    by Zero may return, and the number it returns never ends. *)

Definition c19_claim : Prop := forall k x p y q nxy nx ny n dxy dx dy d,
  num_has k x p -> num_has k y q ->
  isize k nxy -> isize k nx -> isize k ny -> isize k n -> isize k dxy -> isize k dx -> isize k dy -> isize k d ->
  (comb_num dxy dx dy d p q == 0)%Q ->
  forall f z, number_combine k f x y nxy nx ny n dxy dx dy d <> Ok z.

(** 1/3 divided by Zero, in any build. *)
Theorem c19_combine_by_zero_refuted k : num_has k third (1#3) /\ num_has k (NSpecial Zero) 0%Q /\
  isize k 1 /\ isize k 0 /\ (comb_num 0 0 1 0 (1#3) 0 == 0)%Q /\
  returns (fun f => number_combine k f third (NSpecial Zero) 0 1 0 0 0 0 1 0)
    (NOther (Some Turn) (CHomographic (CRatio (MkRatio 1 2)) (HC 0 0 0 1))).
Proof.
  split; [exact (third_has k)|]. split; [exact (has_special k Zero)|].
  split; [destruct k as [[] []]; size|]. split; [destruct k as [[] []]; size|].
  split; [reflexivity|]. apply ran_combine with (n := 50%nat); [|discriminate].
  destruct k as [[] []]; vm_compute; reflexivity.
Qed.
Print Assumptions c19_combine_by_zero_refuted.

Theorem c19_claim_refuted : ~ c19_claim.
Proof.
  intro H. destruct (c19_combine_by_zero_refuted k64) as (A & A' & B & C & D & (F & E)).
  exact (H k64 third (1#3) (NSpecial Zero) 0%Q 0 1 0 0 0 0 1 0 A A' C B C C C C B C D F _ (E F (le_n _))).
Qed.
Print Assumptions c19_claim_refuted.

(** What holds of any division by zero: it panics, or the denominator vanishes
    whatever the other operand is and the result only ever gives [Amplify]. *)
Theorem c19_combine_by_zero_partial k x p y q nxy nx ny n dxy dx dy d :
  ovf k = true -> num_has k x p -> num_has k y q -> (comb_num dxy dx dy d p q == 0)%Q ->
  settles (fun f => number_combine k f x y nxy nx ny n dxy dx dy d) (Panic PDivZero) \/
  overflows (fun f => number_combine k f x y nxy nx ny n dxy dx dy d) \/
  spec_hole dxy dx dy d p q /\ exists pr c,
    returns (fun f => number_combine k f x y nxy nx ny n dxy dx dy d) (NOther (Some pr) c) /\
    (pr = Turn \/ pr = Ground) /\ endless k c.
Proof. exact (DivProofs.combine_by_zero k x p y q nxy nx ny n dxy dx dy d). Qed.
Print Assumptions c19_combine_by_zero_partial.

(** 1 / (1/3 - 2/7 - 1/21) panics (multiplied by 21). *)
Example c19_ex : ovf k64 = true /\ num_has k64 third (1#3) /\ num_has k64 two_sevenths (2#7) /\
  (comb_num 0 21 (-21) (-1) (1#3) (2#7) == 0)%Q /\
  number_combine k64 50 third two_sevenths 0 0 0 1 0 21 (-21) (-1) = Panic PDivZero.
Proof.
  split; [reflexivity|]. split; [exact (third_has k64)|]. split; [exact (two_sevenths_has k64)|].
  split; [reflexivity|]. vm_compute. reflexivity.
Qed.

(** ** C24: identity and negation never overflow, in any build, on anything that
    itself reads without a panic. *)

Theorem c24_identity k x q r : read k x r -> represents q r ->
  exists y, returns (fun f => number_homographic k f x 1 0 0 1) y /\ read k y r.
Proof. exact (BuildProofs.identity_total k x q r). Qed.
Print Assumptions c24_identity.

Theorem c24_negation k x q r : read k x r -> represents q r ->
  exists y r', returns (fun f => number_homographic k f x (-1) 0 0 1) y /\ represents (- q) r' /\ read k y r'.
Proof. exact (BuildProofs.negation_total k x q r). Qed.
Print Assumptions c24_negation.

(** 2/7 reads as the symbols A U U A U. *)
Example c24_ex k : read k two_sevenths (inr (None, [Amplify; Uncover; Uncover; Amplify; Uncover])) /\
  represents (2#7) (inr (None, [Amplify; Uncover; Uncover; Amplify; Uncover])).
Proof.
  split.
  - split; [reflexivity|]. apply ran_drain with (f := 50%nat). destruct k as [[] []]; vm_compute; reflexivity.
  - exists (2#7). split; [|reflexivity]. repeat (first [apply seq_end; reflexivity | apply seq_amplify; [reflexivity|reflexivity|] | apply seq_uncover; [reflexivity|reflexivity|]]).
Qed.

(** ** C34: the reciprocal never overflows.  Refuted: it does for negative numbers
    below 2^-(w-2) in absolute value, where w is the width of the machine; there
    are such numbers, made by [ratio_u].  Everything else is exactly right. *)

Definition c34_claim : Prop := forall k x q r, read k x r -> represents q r -> ~ (q == 0)%Q ->
  forall f p, number_homographic k f x 0 1 1 0 <> Panic p.

(** x = -1 / (2^w - 1), in any build. *)
Theorem c34_reciprocal_refuted k : exists x, number_ratio_u false 1 (umax k) = Ok x /\
  settles (fun f => number_homographic k f x 0 1 1 0) (Panic PChecked).
Proof.
  exists (NOther (Some Reflect) (CRatio (MkRatio 1 (umax k)))). split.
  - destruct k as [[] []]; vm_compute; reflexivity.
  - apply ran_homographic with (f := 400%nat); [|discriminate].
    destruct k as [[] []]; vm_compute; reflexivity.
Qed.
Print Assumptions c34_reciprocal_refuted.

Theorem c34_claim_refuted : ~ c34_claim.
Proof.
  intro H. destruct (c34_reciprocal_refuted k64) as (x & A & (F & E)).
  destruct (ApiProofs.ratio_u_value k64 false 1 (umax k64)) as (_ & (n & r & B & C & D)); [size|size|discriminate|].
  rewrite A in B. injection B as <-.
  exact (H k64 x _ r D C ltac:(vm_compute; discriminate) F PChecked (E F (le_n _))).
Qed.
Print Assumptions c34_claim_refuted.

(** Not negative, or -1 or less: exactly right, and 1/0 panics. *)
Theorem c34_reciprocal_partial k x q r : read k x r -> represents q r -> (q <= -1)%Q \/ (0 <= q)%Q ->
  ((q == 0)%Q -> forall f, number_homographic k (S f) x 0 1 1 0 = Panic PDivZero) /\
  (~ (q == 0)%Q -> exists y r', returns (fun f => number_homographic k f x 0 1 1 0) y /\
     represents (/ q) r' /\ read k y r').
Proof. exact (BuildProofs.reciprocal_total k x q r). Qed.
Print Assumptions c34_reciprocal_partial.

(** Between -1 and 0: right from 2^-(w-2) on, overflow below. *)
Theorem c34_reciprocal_negative_partial k x q r : read k x r -> represents q r -> (-1 < q)%Q -> (q < 0)%Q ->
  ((1 <= zq (2 ^ (bits (wd k) - 2)) * - q)%Q ->
     exists y r', returns (fun f => number_homographic k f x 0 1 1 0) y /\ represents (/ q) r' /\ read k y r') /\
  ((zq (2 ^ (bits (wd k) - 2)) * - q < 1)%Q ->
     settles (fun f => number_homographic k f x 0 1 1 0) (Panic PChecked)).
Proof. exact (RecipProofs.reciprocal_negative k x q r). Qed.
Print Assumptions c34_reciprocal_negative_partial.

(** The least negative number with a reciprocal, and the one after it, on 16 bits:
    -1/16384 and -1/16385. *)
Example c34_ex : let k := Cfg W16 true in
  (1 <= zq (2 ^ (bits (wd k) - 2)) * - (-1#16384))%Q /\ (zq (2 ^ (bits (wd k) - 2)) * - (-1#16385) < 1)%Q /\
  (exists x y, number_ratio k (-1) 16384 = Ok x /\ number_homographic k 100 x 0 1 1 0 = Ok y) /\
  (exists x, number_ratio k (-1) 16385 = Ok x /\ number_homographic k 100 x 0 1 1 0 = Panic PChecked).
Proof.
  cbv zeta. split; [vm_compute; discriminate|]. split; [vm_compute; reflexivity|]. split.
  - eexists. eexists. split; [vm_compute; reflexivity|]. vm_compute. reflexivity.
  - eexists. split; [vm_compute; reflexivity|]. vm_compute. reflexivity.
Qed.
