(** * Properties C09, C11-C14, C16, C20, C23, C26, C29, C31, C33, C37 in the build without overflow checks.

    The build with overflow checks is the reference ([num_has (debug k)]): wherever it
    does not panic in a built-in operator, the other build does the same (C25), hence
    the right thing.  The refutations show that the reservation is needed. *)

From Coq Require Import ZArith QArith List Lia.
From Verif Require Import Machine Protocol Types Lib Spec SpecEnd SpecRelease ExampleTools.
From Verif Require ArithProofs BuildProofs FinalProofs ReleaseProofs.
Import ListNotations.
Open Scope Z_scope.

(** ** C09: compare. *)

Theorem c09_compare_release k x y p q : num_has (debug k) x p -> num_has (debug k) y q ->
  yields (fun f => number_compare (release k) f x y) (eq (p ?= q)%Q) \/
  settles (fun f => number_compare (debug k) f x y) (Panic PArith).
Proof. exact (ReleaseProofs.compare_release k x y p q). Qed.
Print Assumptions c09_compare_release.

(** ** C11, C12, C13: arithmetic. *)

Theorem c11_homographic_release k x q nx n dx d : num_has (debug k) x q ->
  isize k nx -> isize k n -> isize k dx -> isize k d -> ~ (hom_num dx d q == 0)%Q ->
  yields (fun f => number_homographic (release k) f x nx n dx d)
    (fun y => num_has (debug k) y (hom nx n dx d q) /\ shows_release k y (hom nx n dx d q)) \/
  settles (fun f => number_homographic (debug k) f x nx n dx d) (Panic PArith).
Proof. exact (ReleaseProofs.homographic_right k x q nx n dx d). Qed.
Print Assumptions c11_homographic_release.

Theorem c12_combine_release k x p y q nxy nx ny n dxy dx dy d : num_has (debug k) x p -> num_has (debug k) y q ->
  isize k nxy -> isize k nx -> isize k ny -> isize k n -> isize k dxy -> isize k dx -> isize k dy -> isize k d ->
  ~ (comb_num dxy dx dy d p q == 0)%Q ->
  yields (fun f => number_combine (release k) f x y nxy nx ny n dxy dx dy d)
    (fun z => num_has (debug k) z (comb nxy nx ny n dxy dx dy d p q) /\
              shows_release k z (comb nxy nx ny n dxy dx dy d p q)) \/
  settles (fun f => number_combine (debug k) f x y nxy nx ny n dxy dx dy d) (Panic PArith).
Proof. exact (ReleaseProofs.combine_right k x p y q nxy nx ny n dxy dx dy d). Qed.
Print Assumptions c12_combine_release.

Theorem c13_add_release k x p y q : num_has (debug k) x p -> num_has (debug k) y q ->
  yields (fun f => number_add (release k) f x y) (fun z => num_has (debug k) z (p + q) /\ shows_release k z (p + q)) \/
  settles (fun f => number_add (debug k) f x y) (Panic PArith).
Proof.
  intros. apply (ReleaseProofs.op_right number_add); [intro f; apply BuildProofs.builds_combine|].
  apply ArithProofs.add_value; auto.
Qed.
Print Assumptions c13_add_release.

Theorem c13_sub_release k x p y q : num_has (debug k) x p -> num_has (debug k) y q ->
  yields (fun f => number_sub (release k) f x y) (fun z => num_has (debug k) z (p - q) /\ shows_release k z (p - q)) \/
  settles (fun f => number_sub (debug k) f x y) (Panic PArith).
Proof.
  intros. apply (ReleaseProofs.op_right number_sub); [intro f; apply BuildProofs.builds_combine|].
  apply ArithProofs.sub_value; auto.
Qed.
Print Assumptions c13_sub_release.

Theorem c13_mul_release k x p y q : num_has (debug k) x p -> num_has (debug k) y q ->
  yields (fun f => number_mul (release k) f x y) (fun z => num_has (debug k) z (p * q) /\ shows_release k z (p * q)) \/
  settles (fun f => number_mul (debug k) f x y) (Panic PArith).
Proof.
  intros. apply (ReleaseProofs.op_right number_mul); [intro f; apply BuildProofs.builds_combine|].
  apply ArithProofs.mul_value; auto.
Qed.
Print Assumptions c13_mul_release.

Theorem c13_div_release k x p y q : num_has (debug k) x p -> num_has (debug k) y q -> ~ (q == 0)%Q ->
  yields (fun f => number_div (release k) f x y) (fun z => num_has (debug k) z (p / q) /\ shows_release k z (p / q)) \/
  settles (fun f => number_div (debug k) f x y) (Panic PArith).
Proof.
  intros. apply (ReleaseProofs.op_right number_div); [intro f; apply BuildProofs.builds_combine|].
  apply ArithProofs.div_value; auto.
Qed.
Print Assumptions c13_div_release.

Theorem c13_laws_release k x y p q f u v : num_has (debug k) x p -> num_has (debug k) y q ->
  let same := yields (fun f => number_compare (release k) f u v) (eq Eq) \/
              settles (fun f => number_compare (debug k) f u v) (Panic PArith) in
  let wraps op x y := settles (fun f => op (debug k) f x y) (Panic PArith) in
  (number_add (release k) f x y = Ok u -> number_add (release k) f y x = Ok v ->
     same \/ wraps number_add x y \/ wraps number_add y x) /\
  (number_mul (release k) f x y = Ok u -> number_mul (release k) f y x = Ok v ->
     same \/ wraps number_mul x y \/ wraps number_mul y x) /\
  (forall s, number_add (release k) f x y = Ok s -> number_sub (release k) f s y = Ok u -> v = x ->
     same \/ wraps number_add x y \/ wraps number_sub s y).
Proof.
  intros X Y same wraps. repeat split.
  - intros U V. destruct (ReleaseProofs.add_returned k f x p y q u X Y U) as [A|A]; [|auto].
    destruct (ReleaseProofs.add_returned k f y q x p v Y X V) as [B|B]; [|auto].
    left. apply (ReleaseProofs.same_release k u v _ _ A B). ring.
  - intros U V. destruct (ReleaseProofs.mul_returned k f x p y q u X Y U) as [A|A]; [|auto].
    destruct (ReleaseProofs.mul_returned k f y q x p v Y X V) as [B|B]; [|auto].
    left. apply (ReleaseProofs.same_release k u v _ _ A B). ring.
  - intros s S U ->. destruct (ReleaseProofs.add_returned k f x p y q s X Y S) as [A|A]; [|auto].
    destruct (ReleaseProofs.sub_returned k f s (p + q) y q u A Y U) as [B|B]; [|auto].
    left. apply (ReleaseProofs.same_release k u x _ _ B X). ring.
Qed.
Print Assumptions c13_laws_release.

(** ** C14: egestion. *)

Theorem c14_egest_release k c v : clog_has (debug k) c v ->
  yields (fun f => clog_egest (release k) f c) (fun '(o, c') => o = spec_symbol v /\ clog_has (debug k) c' (spec_rest v)) \/
  settles (fun f => clog_egest (debug k) f c) (Panic PArith).
Proof. exact (ReleaseProofs.egest_release k c v). Qed.
Print Assumptions c14_egest_release.

Theorem c14_drain_release k c v : clog_has (debug k) c v ->
  (exists l, clog_seq v l /\ yields (fun f => drain (release k) f c) (eq l)) \/
  settles (fun f => drain (debug k) f c) (Panic PArith).
Proof. exact (ReleaseProofs.drain_release k c v). Qed.
Print Assumptions c14_drain_release.

(** ** C20 and C23: consume. *)

Theorem c20_consume_release k x q : num_has (debug k) x q ->
  yields (fun f => number_consume (release k) f x) (fun '(y, m) => exists w,
    match y with Some y => num_has (debug k) y w /\ (0 < w)%Q /\ (w < 1)%Q | None => (w == 1#2)%Q end /\
    ~ (hom_num (h_dx m) (h_d m) w == 0)%Q /\
    (hom (h_nx m) (h_n m) (h_dx m) (h_d m) w == q)%Q) \/
  settles (fun f => number_consume (debug k) f x) (Panic PArith).
Proof. exact (ReleaseProofs.consume_release k x q). Qed.
Print Assumptions c20_consume_release.

Theorem c23_rebuild_release k x q f m : num_has (debug k) x q -> number_consume (release k) f x = Ok (None, m) ->
  (exists y, number_ratio (release k) (h_nx m + 2 * h_n m) (h_dx m + 2 * h_d m) = Ok y /\ num_has (debug k) y q /\
     (yields (fun f => number_compare (release k) f x y) (eq Eq) \/
      settles (fun f => number_compare (debug k) f x y) (Panic PArith))) \/
  settles (fun f => number_consume (debug k) f x) (Panic PArith).
Proof.
  intros X H. destruct (ReleaseProofs.rebuild_release k x q f m X H) as [(y & R & Y)|P]; [left|now right].
  exists y. split; [exact R|]. split; [exact Y|]. apply (ReleaseProofs.same_release k x y q q X Y). reflexivity.
Qed.
Print Assumptions c23_rebuild_release.

(** ** C16: None is final. *)

Theorem c16_none_final_release k c v f c' : clog_has (debug k) c v -> clog_egest (release k) f c = Ok (None, c') ->
  ((v == 1#2)%Q /\ clog_has (debug k) c' (1#2) /\ returns (fun f => clog_egest (release k) f c') (None, c')) \/
  settles (fun f => clog_egest (debug k) f c) (Panic PArith).
Proof. exact (ReleaseProofs.none_final_release k c v f c'). Qed.
Print Assumptions c16_none_final_release.

(** ** C29 and C31: Special and primer of what homographic and combine return. *)

Theorem c29_homographic_release k f x q nx n dx d y : num_has (debug k) x q ->
  isize k nx -> isize k n -> isize k dx -> isize k d -> ~ (hom_num dx d q == 0)%Q ->
  number_homographic (release k) f x nx n dx d = Ok y ->
  (forall s, unwrap_special y = Ok s <-> (hom nx n dx d q == special_val s)%Q) \/
  settles (fun f => number_homographic (debug k) f x nx n dx d) (Panic PArith).
Proof.
  intros X A B C D N H. destruct (ReleaseProofs.homographic_release k f x q nx n dx d y X A B C D N H) as [Y|P]; [left|now right].
  exact (FinalProofs.special_iff (debug k) y _ eq_refl Y).
Qed.
Print Assumptions c29_homographic_release.

Theorem c29_combine_release k f x q y r nxy nx ny n dxy dx dy d z : num_has (debug k) x q -> num_has (debug k) y r ->
  isize k nxy -> isize k nx -> isize k ny -> isize k n -> isize k dxy -> isize k dx -> isize k dy -> isize k d ->
  ~ (comb_num dxy dx dy d q r == 0)%Q ->
  number_combine (release k) f x y nxy nx ny n dxy dx dy d = Ok z ->
  (forall s, unwrap_special z = Ok s <-> (comb nxy nx ny n dxy dx dy d q r == special_val s)%Q) \/
  settles (fun f => number_combine (debug k) f x y nxy nx ny n dxy dx dy d) (Panic PArith).
Proof.
  intros X Y A B C D E F G H N P.
  destruct (ReleaseProofs.combine_release k f x q y r nxy nx ny n dxy dx dy d z X Y A B C D E F G H N P) as [Z0|Q]; [left|now right].
  exact (FinalProofs.special_iff (debug k) z _ eq_refl Z0).
Qed.
Print Assumptions c29_combine_release.

Theorem c31_homographic_release k f x q nx n dx d p c : num_has (debug k) x q ->
  isize k nx -> isize k n -> isize k dx -> isize k d -> ~ (hom_num dx d q == 0)%Q ->
  number_homographic (release k) f x nx n dx d = Ok (NOther p c) ->
  match p with
  | Some Turn => (1 < hom nx n dx d q)%Q
  | Some Reflect => (-1 < hom nx n dx d q)%Q /\ (hom nx n dx d q < 0)%Q
  | Some Ground => (hom nx n dx d q < -1)%Q
  | None => (0 < hom nx n dx d q)%Q /\ (hom nx n dx d q < 1)%Q
  end \/ settles (fun f => number_homographic (debug k) f x nx n dx d) (Panic PArith).
Proof.
  intros X A B C D N H.
  destruct (ReleaseProofs.homographic_release k f x q nx n dx d _ X A B C D N H) as [Y|P]; [left|now right].
  apply (FinalProofs.primer_iff (debug k) _ _ eq_refl Y p). now exists c.
Qed.
Print Assumptions c31_homographic_release.

Theorem c31_combine_release k f x q y r nxy nx ny n dxy dx dy d p c : let v := comb nxy nx ny n dxy dx dy d q r in
  num_has (debug k) x q -> num_has (debug k) y r ->
  isize k nxy -> isize k nx -> isize k ny -> isize k n -> isize k dxy -> isize k dx -> isize k dy -> isize k d ->
  ~ (comb_num dxy dx dy d q r == 0)%Q ->
  number_combine (release k) f x y nxy nx ny n dxy dx dy d = Ok (NOther p c) ->
  match p with
  | Some Turn => (1 < v)%Q
  | Some Reflect => (-1 < v)%Q /\ (v < 0)%Q
  | Some Ground => (v < -1)%Q
  | None => (0 < v)%Q /\ (v < 1)%Q
  end \/ settles (fun f => number_combine (debug k) f x y nxy nx ny n dxy dx dy d) (Panic PArith).
Proof.
  intros v X Y A B C D E F G H N P.
  destruct (ReleaseProofs.combine_release k f x q y r nxy nx ny n dxy dx dy d _ X Y A B C D E F G H N P) as [Z0|Q]; [left|now right].
  apply (FinalProofs.primer_iff (debug k) _ _ eq_refl Z0 p). now exists c.
Qed.
Print Assumptions c31_combine_release.

(** ** C33: results depend on operand values only. *)

Theorem c33_homographic_release k x1 x2 q nx n dx d f1 f2 y1 y2 r1 r2 :
  num_has (debug k) x1 q -> num_has (debug k) x2 q ->
  isize k nx -> isize k n -> isize k dx -> isize k d -> ~ (hom_num dx d q == 0)%Q ->
  number_homographic (release k) f1 x1 nx n dx d = Ok y1 -> number_homographic (release k) f2 x2 nx n dx d = Ok y2 ->
  read (release k) y1 r1 -> read (release k) y2 r2 ->
  r1 = r2 \/ settles (fun f => number_homographic (debug k) f x1 nx n dx d) (Panic PArith) \/
  settles (fun f => number_homographic (debug k) f x2 nx n dx d) (Panic PArith) \/
  read_overflows k y1 \/ read_overflows k y2.
Proof. exact (ReleaseProofs.homographic_same_release k x1 x2 q nx n dx d f1 f2 y1 y2 r1 r2). Qed.
Print Assumptions c33_homographic_release.

Theorem c33_combine_release k x1 x2 p y1 y2 q nxy nx ny n dxy dx dy d f1 f2 z1 z2 r1 r2 :
  num_has (debug k) x1 p -> num_has (debug k) x2 p -> num_has (debug k) y1 q -> num_has (debug k) y2 q ->
  isize k nxy -> isize k nx -> isize k ny -> isize k n -> isize k dxy -> isize k dx -> isize k dy -> isize k d ->
  ~ (comb_num dxy dx dy d p q == 0)%Q ->
  number_combine (release k) f1 x1 y1 nxy nx ny n dxy dx dy d = Ok z1 ->
  number_combine (release k) f2 x2 y2 nxy nx ny n dxy dx dy d = Ok z2 ->
  read (release k) z1 r1 -> read (release k) z2 r2 ->
  r1 = r2 \/ settles (fun f => number_combine (debug k) f x1 y1 nxy nx ny n dxy dx dy d) (Panic PArith) \/
  settles (fun f => number_combine (debug k) f x2 y2 nxy nx ny n dxy dx dy d) (Panic PArith) \/
  read_overflows k z1 \/ read_overflows k z2.
Proof. exact (ReleaseProofs.combine_same_release k x1 x2 p y1 y2 q nxy nx ny n dxy dx dy d f1 f2 z1 z2 r1 r2). Qed.
Print Assumptions c33_combine_release.

Theorem c33_compare_release k x1 x2 p y1 y2 q f1 f2 o1 o2 :
  num_has (debug k) x1 p -> num_has (debug k) x2 p -> num_has (debug k) y1 q -> num_has (debug k) y2 q ->
  number_compare (release k) f1 x1 y1 = Ok o1 -> number_compare (release k) f2 x2 y2 = Ok o2 ->
  o1 = o2 \/ settles (fun f => number_compare (debug k) f x1 y1) (Panic PArith) \/
  settles (fun f => number_compare (debug k) f x2 y2) (Panic PArith).
Proof. exact (ReleaseProofs.compare_same_release k x1 x2 p y1 y2 q f1 f2 o1 o2). Qed.
Print Assumptions c33_compare_release.

Theorem c33_consume_release k x1 x2 q f1 f2 y1 m1 y2 m2 :
  num_has (debug k) x1 q -> num_has (debug k) x2 q ->
  number_consume (release k) f1 x1 = Ok (y1, m1) -> number_consume (release k) f2 x2 = Ok (y2, m2) ->
  (m1 = m2 /\
   match y1, y2 with
   | Some z1, Some z2 => exists w, num_has (debug k) z1 w /\ num_has (debug k) z2 w
   | None, None => True
   | _, _ => False
   end) \/ settles (fun f => number_consume (debug k) f x1) (Panic PArith) \/
  settles (fun f => number_consume (debug k) f x2) (Panic PArith).
Proof. exact (ReleaseProofs.consume_same_release k x1 x2 q f1 f2 y1 m1 y2 m2). Qed.
Print Assumptions c33_consume_release.

(** 13/21 = 1/3 + 2/7, built with checks, read without them. *)
Example release_ex : num_has (debug k64) sum (13#21) /\ clog_has (debug k64) sum_clog (13#21) /\
  number_add (release k64) 50 third two_sevenths = Ok sum /\ number_compare (release k64) 50 sum third = Ok Gt /\
  drain (release k64) 50 sum_clog = Ok (repeat Uncover 5) /\
  number_consume (release k64) 50 sum = Ok (None, HC 3 5 5 8) /\
  (exists y, number_ratio (release k64) (3 + 2 * 5) (5 + 2 * 8) = Ok y) /\
  clog_egest (release k64) 50 (CRatio (MkRatio 1 2)) = Ok (None, CRatio (MkRatio 1 2)) /\
  number_homographic (release k64) 50 sum 21 0 0 13 = Ok (NSpecial PosOne) /\
  number_homographic (release k64) 50 sum 1 1 0 1 = Ok (NOther (Some Turn) (CHomographic sum_clog (HC 0 1 1 1))).
Proof.
  split; [exact sum_has|]. split; [exact sum_clog_has|]. split; [vm_compute; reflexivity|]. split; [vm_compute; reflexivity|].
  split; [vm_compute; reflexivity|]. split; [vm_compute; reflexivity|]. split; [eexists; reflexivity|].
  repeat split; vm_compute; reflexivity.
Qed.

(** ** C26: further ways to a wrong number, with no argument equal to isize::MIN. *)

(** A positive number that compares less than zero: a reduction is about to negate
    a denominator that has become isize::MIN. *)
Theorem c26_wrong_sign_refuted k : let w := bits (wd k) in exists y,
  num_has (release k) third (1#3) /\ imin k < 1 <= imax k /\ imin k < -1 <= imax k /\
  imin k < 3 * 2 ^ (w - 3) <= imax k /\ imin k < - 2 ^ (w - 2) <= imax k /\
  returns (fun f => number_homographic (release k) f third 1 (-1) (3 * 2 ^ (w - 3)) (- 2 ^ (w - 2))) y /\
  returns (fun f => number_compare (release k) f y (NSpecial Zero)) Lt /\
  (0 < hom 1 (-1) (3 * 2 ^ (w - 3)) (- 2 ^ (w - 2)) (1#3))%Q.
Proof. exact (ReleaseProofs.wrong_sign k). Qed.
Print Assumptions c26_wrong_sign_refuted.

(** A number that can be read completely, and is negative where the value is positive. *)
Theorem c26_combine_wrong_refuted k : let w := bits (wd k) in exists y c l,
  num_has (release k) (NSpecial NegOne) (-1) /\ num_has (release k) y (-1#2) /\
  imin k < -1101 /\ imin k < 2 ^ (w - 3) <= imax k /\ imin k < -3 * 2 ^ (w - 3) <= imax k /\
  returns (fun f => number_combine (release k) f (NSpecial NegOne) y (-3) (-1101) 3 31 (2 ^ (w - 3)) (-1) (-3 * 2 ^ (w - 3)) 0)
    (NOther (Some Reflect) c) /\
  returns (fun f => drain (release k) f c) l /\
  (0 < comb (-3) (-1101) 3 31 (2 ^ (w - 3)) (-1) (-3 * 2 ^ (w - 3)) 0 (-1) (-1#2))%Q.
Proof. exact (ReleaseProofs.combine_wrong k). Qed.
Print Assumptions c26_combine_wrong_refuted.

(** ** C37: the sanity panics are unreachable without overflow checks, too.  Refuted:
    a coefficient that wraps around takes the value out of (0,1). *)

Definition c37_claim : Prop := forall k x q nx n dx d p c,
  num_has (release k) x q -> isize k nx -> isize k n -> isize k dx -> isize k d -> ~ (hom_num dx d q == 0)%Q ->
  returns (fun f => number_homographic (release k) f x nx n dx d) (NOther p c) ->
  ~ settles (fun f => drain (release k) f c) (Panic PLogic).

Theorem c37_logic_error_refuted k : let w := bits (wd k) in exists c,
  num_has (release k) third (1#3) /\ isize k 1 /\ isize k 0 /\ isize k (- 2 ^ (w - 2)) /\
  ~ (hom_num (- 2 ^ (w - 2)) (- 2 ^ (w - 2)) (1#3) == 0)%Q /\
  returns (fun f => number_homographic (release k) f third 1 0 (- 2 ^ (w - 2)) (- 2 ^ (w - 2))) (NOther None c) /\
  settles (fun f => drain (release k) f c) (Panic PLogic).
Proof. exact (ReleaseProofs.logic_error k). Qed.
Print Assumptions c37_logic_error_refuted.

(** A division-by-zero panic where the denominator is 2^(w-1). *)
Theorem c37_divzero_refuted k : let w := bits (wd k) in exists x,
  num_has (release k) x (-1#2) /\ isize k 2 /\ isize k 0 /\ isize k (imin k) /\ isize k (2 ^ (w - 2)) /\
  (hom_num (imin k) (2 ^ (w - 2)) (-1#2) == zq (2 ^ (w - 1)))%Q /\
  settles (fun f => number_homographic (release k) f x 2 0 (imin k) (2 ^ (w - 2))) (Panic PDivZero).
Proof. exact (ReleaseProofs.div_zero k). Qed.
Print Assumptions c37_divzero_refuted.

Theorem c37_claim_refuted : ~ c37_claim.
Proof.
  intro H. destruct (c37_logic_error_refuted k64) as (c & A & B & C & D & E & F & G).
  exact (H k64 third (1#3) 1 0 _ _ None c A B C D D E F G).
Qed.
Print Assumptions c37_claim_refuted.

(** What holds: any panic is a checked overflow, unless the build with overflow checks
    panics in a built-in operator. *)
Theorem c37_egest_partial k f c v p : clog_has (debug k) c v -> clog_egest (release k) f c = Panic p ->
  p = PChecked \/ settles (fun f => clog_egest (debug k) f c) (Panic PArith).
Proof. exact (ReleaseProofs.egest_panic k f c v p). Qed.
Print Assumptions c37_egest_partial.

Theorem c37_compare_partial k f x y q r p : num_has (debug k) x q -> num_has (debug k) y r ->
  number_compare (release k) f x y = Panic p ->
  p = PChecked \/ settles (fun f => number_compare (debug k) f x y) (Panic PArith).
Proof. exact (ReleaseProofs.compare_panic k f x y q r p). Qed.
Print Assumptions c37_compare_partial.

Theorem c37_consume_partial k f x q p : num_has (debug k) x q -> number_consume (release k) f x = Panic p ->
  p = PChecked \/ settles (fun f => number_consume (debug k) f x) (Panic PArith).
Proof. exact (ReleaseProofs.consume_panic k f x q p). Qed.
Print Assumptions c37_consume_partial.

Theorem c37_homographic_partial k f x q nx n dx d p : num_has (debug k) x q ->
  isize k nx -> isize k n -> isize k dx -> isize k d -> ~ (hom_num dx d q == 0)%Q ->
  number_homographic (release k) f x nx n dx d = Panic p ->
  p = PChecked \/ settles (fun f => number_homographic (debug k) f x nx n dx d) (Panic PArith).
Proof. exact (ReleaseProofs.homographic_panic k f x q nx n dx d p). Qed.
Print Assumptions c37_homographic_partial.

Theorem c37_combine_partial k f x q y r nxy nx ny n dxy dx dy d p : num_has (debug k) x q -> num_has (debug k) y r ->
  isize k nxy -> isize k nx -> isize k ny -> isize k n -> isize k dxy -> isize k dx -> isize k dy -> isize k d ->
  ~ (comb_num dxy dx dy d q r == 0)%Q ->
  number_combine (release k) f x y nxy nx ny n dxy dx dy d = Panic p ->
  p = PChecked \/ settles (fun f => number_combine (debug k) f x y nxy nx ny n dxy dx dy d) (Panic PArith).
Proof. exact (ReleaseProofs.combine_panic k f x q y r nxy nx ny n dxy dx dy d p). Qed.
Print Assumptions c37_combine_partial.

(** 20000 + 32767, on 16 bits without checks: a checked addition fails. *)
Example c37_ex : let k := Cfg W16 true in exists x, number_ratio k 20000 1 = Ok x /\ num_has (debug k) x 20000 /\
  number_homographic (release k) 50 x 1 32767 0 1 = Panic PChecked.
Proof.
  exists (NOther (Some Turn) (CRatio (MkRatio 1 20000))). split; [vm_compute; reflexivity|]. split.
  - apply (ratio_has _ 20000 1); [size|size|vm_compute; reflexivity|reflexivity].
  - vm_compute. reflexivity.
Qed.
