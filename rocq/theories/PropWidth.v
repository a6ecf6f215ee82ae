(** * Property C54: a build for a wider machine gives the same answers. *)

From Coq Require Import ZArith QArith List Lia.
From Verif Require Import Machine Protocol Types Lib Spec SpecWidth ExampleTools.
From Verif Require WidthProofs.
Import ListNotations.
Open Scope Z_scope.

(** ** C54.  [k1] has overflow checks; [k2] is any build, with or without checks, for
    a machine at least as wide.  Whatever a call does on [k1] except panicking by
    overflow (an answer, another panic, running on), it does on [k2].
    ([ratio_u] does not depend on the build.) *)

Theorem c54_ratio k1 k2 n d : fits_in k1 k2 -> isize k1 n -> isize k1 d ->
  overflows (number_ratio k1 n d) \/ number_ratio k1 n d = number_ratio k2 n d.
Proof. exact (fun H => WidthProofs.wide_number_ratio k1 k2 H n d). Qed.
Print Assumptions c54_ratio.

Theorem c54_egest k1 k2 f c : fits_in k1 k2 ->
  overflows (clog_egest k1 f c) \/ clog_egest k1 f c = clog_egest k2 f c.
Proof. exact (fun H => WidthProofs.wide_egest k1 k2 H f c). Qed.
Print Assumptions c54_egest.

Theorem c54_drain k1 k2 f c : fits_in k1 k2 ->
  overflows (drain k1 f c) \/ drain k1 f c = drain k2 f c.
Proof. exact (fun H => WidthProofs.wide_drain k1 k2 H f c). Qed.
Print Assumptions c54_drain.

Theorem c54_homographic k1 k2 f x nx n dx d : fits_in k1 k2 ->
  isize k1 nx -> isize k1 n -> isize k1 dx -> isize k1 d ->
  overflows (number_homographic k1 f x nx n dx d) \/
  number_homographic k1 f x nx n dx d = number_homographic k2 f x nx n dx d.
Proof. exact (fun H _ I _ => WidthProofs.wide_homographic k1 k2 H f x nx n dx d I). Qed.
Print Assumptions c54_homographic.

Theorem c54_combine k1 k2 f x y nxy nx ny n dxy dx dy d : fits_in k1 k2 ->
  isize k1 nxy -> isize k1 nx -> isize k1 ny -> isize k1 n ->
  isize k1 dxy -> isize k1 dx -> isize k1 dy -> isize k1 d ->
  overflows (number_combine k1 f x y nxy nx ny n dxy dx dy d) \/
  number_combine k1 f x y nxy nx ny n dxy dx dy d = number_combine k2 f x y nxy nx ny n dxy dx dy d.
Proof. exact (fun H _ _ _ I _ _ _ => WidthProofs.wide_combine k1 k2 H f x y nxy nx ny n dxy dx dy d I). Qed.
Print Assumptions c54_combine.

Theorem c54_compare k1 k2 f x y : fits_in k1 k2 ->
  overflows (number_compare k1 f x y) \/ number_compare k1 f x y = number_compare k2 f x y.
Proof. exact (fun H => WidthProofs.wide_compare k1 k2 H f x y). Qed.
Print Assumptions c54_compare.

(** Whole histories, consuming included: an object of the narrow build is an object
    of the wide build, with the same value. *)
Theorem c54_has k1 k2 : fits_in k1 k2 ->
  (forall c v, clog_has k1 c v -> clog_has k2 c v) /\
  (forall n q, num_has k1 n q -> num_has k2 n q).
Proof. exact (WidthProofs.wide_has k1 k2). Qed.
Print Assumptions c54_has.

(** Consuming is the exception: it stops when a coefficient reaches a quarter of
    isize::MAX, so its answer depends on the width. *)
Definition c54_claim : Prop := forall k1 k2 f x q, fits_in k1 k2 -> num_has k1 x q ->
  overflows (number_consume k1 f x) \/ number_consume k1 f x = number_consume k2 f x.

(** 1/20000: on 16 bits a symbol is left unread, on 32 bits nothing is left. *)
Theorem c54_consume_refuted : exists x y m m',
  number_ratio (Cfg W16 true) 1 20000 = Ok x /\
  returns (fun f => number_consume (Cfg W16 true) f x) (Some y, m) /\
  returns (fun f => number_consume (Cfg W32 true) f x) (None, m').
Proof.
  do 4 eexists. split; [vm_compute; reflexivity|]. split.
  - apply ran_consume with (f := 100%nat); [vm_compute; reflexivity | discriminate].
  - apply ran_consume with (f := 100%nat); [vm_compute; reflexivity | discriminate].
Qed.
Print Assumptions c54_consume_refuted.

Theorem c54_claim_refuted : ~ c54_claim.
Proof.
  intro H. destruct c54_consume_refuted as (x & y & m & m' & X & (F & A) & (G & B)).
  assert (N : num_has (Cfg W16 true) x (1#20000)).
  { apply (ratio_has (Cfg W16 true) 1 20000); [size | size | exact X | reflexivity]. }
  assert (W : fits_in (Cfg W16 true) (Cfg W32 true)) by (split; [reflexivity | cbn; lia]).
  destruct (H (Cfg W16 true) (Cfg W32 true) (Nat.max F G) x _ W N) as [[E|E]|E];
    rewrite A in E by lia; try discriminate.
  rewrite B in E by lia. discriminate.
Qed.
Print Assumptions c54_claim_refuted.

(** Where the narrow build read the number to its end, the answer is the same. *)
Theorem c54_consume_partial k1 k2 f x : fits_in k1 k2 ->
  (exists y m, number_consume k1 f x = Ok (Some y, m)) \/
  overflows (number_consume k1 f x) \/ number_consume k1 f x = number_consume k2 f x.
Proof. exact (fun H => WidthProofs.wide_consume k1 k2 H f x). Qed.
Print Assumptions c54_consume_partial.

(** 1/3 + 2/7 on 16 bits is 1/3 + 2/7 on 64 bits; -32768/3 overflows on 16.*)
Example c54_ex : fits_in (Cfg W16 true) (release k64) /\
  number_combine (Cfg W16 true) 50 third two_sevenths 0 1 1 0 0 0 0 1 = Ok sum /\
  number_combine (release k64) 50 third two_sevenths 0 1 1 0 0 0 0 1 = Ok sum /\
  drain (Cfg W16 true) 50 sum_clog = Ok (repeat Uncover 5) /\
  number_consume (Cfg W16 true) 50 sum = Ok (None, HC 3 5 5 8) /\
  overflows (number_ratio (Cfg W16 true) (-32768) 3) /\
  number_ratio k64 (-32768) 3 = Ok (NOther (Some Ground) (CRatio (MkRatio 3 32768))).
Proof.
  split; [split; [reflexivity | cbn; lia]|].
  repeat match goal with |- _ /\ _ => split end; try (vm_compute; reflexivity).
  right. vm_compute. reflexivity.
Qed.
