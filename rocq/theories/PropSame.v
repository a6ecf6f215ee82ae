(** * Property C69: what is read off the operands decides how a call comes out.

    In any build, for any operands and coefficients, overflow, division by zero and calls
    that never end included.  [same k x1 x2]: x1 and x2 have the same [Special] or primer,
    and [egest] returns the same symbols on both, up to the same end or panic.
    [alike T f g]: the calls f and g panic with the same panic, or return things related
    by T, or both never end. *)

From Coq Require Import ZArith QArith List Lia.
From Verif Require Import Machine Protocol Types Lib Spec SpecFormula SpecSame ExampleTools.
From Verif Require SameProofs ApiProofs BuildProofs NeutralProofs.
Import ListNotations.
Open Scope Z_scope.

Theorem c69_homographic k x1 x2 nx n dx d : same k x1 x2 ->
  alike (same k) (fun f => number_homographic k f x1 nx n dx d) (fun f => number_homographic k f x2 nx n dx d).
Proof. exact (SameProofs.homographic_alike k x1 x2 nx n dx d). Qed.
Print Assumptions c69_homographic.

Theorem c69_combine k x1 x2 y1 y2 nxy nx ny n dxy dx dy d : same k x1 x2 -> same k y1 y2 ->
  alike (same k) (fun f => number_combine k f x1 y1 nxy nx ny n dxy dx dy d)
                 (fun f => number_combine k f x2 y2 nxy nx ny n dxy dx dy d).
Proof. exact (SameProofs.combine_alike k x1 x2 y1 y2 nxy nx ny n dxy dx dy d). Qed.
Print Assumptions c69_combine.

Theorem c69_compare k x1 x2 y1 y2 : same k x1 x2 -> same k y1 y2 ->
  alike eq (fun f => number_compare k f x1 y1) (fun f => number_compare k f x2 y2).
Proof. exact (SameProofs.compare_alike k x1 x2 y1 y2). Qed.
Print Assumptions c69_compare.

(** The same coefficients, and what is left is the same. *)
Theorem c69_consume k x1 x2 : same k x1 x2 ->
  alike (same_consumed k) (fun f => number_consume k f x1) (fun f => number_consume k f x2).
Proof. exact (SameProofs.consume_alike k x1 x2). Qed.
Print Assumptions c69_consume.

(** Numbers that have been read to the same end are the same, and the other way round. *)
Theorem c69_read k x y r : read k x r -> (read k y r <-> same k x y).
Proof.
  intro R. split; [exact (SameProofs.read_same k x y r R)|]. intro S. exact (SameProofs.same_read k x y r S R).
Qed.
Print Assumptions c69_read.

(** Whole formulas: a part may be put for another that comes out the same. *)
Theorem c69_formula k a b : alike (same k) (fun f => evaluate k f a) (fun f => evaluate k f b) ->
  forall e1 e2, replaced a b e1 e2 -> alike (same k) (fun f => evaluate k f e1) (fun f => evaluate k f e2).
Proof. exact (SameProofs.replaced_alike k a b). Qed.
Print Assumptions c69_formula.

(** So fractions need not be in lowest terms: no formula overflows for the sake of the
    terms in which its fractions are written.  (In builds with overflow checks -i::MIN
    is an overflow by itself.) *)
Theorem c69_fraction k a b c d : isize k a -> isize k b -> isize k c -> isize k d -> b <> 0 -> d <> 0 ->
  (ovf k = true -> ~ In (imin k) [a; b; c; d]) -> (zq a / zq b == zq c / zq d)%Q ->
  forall e1 e2, replaced (FRatio a b) (FRatio c d) e1 e2 ->
  alike (same k) (fun f => evaluate k f e1) (fun f => evaluate k f e2).
Proof.
  intros Ia Ib Ic Id Nb Nd O E. apply c69_formula. cbn [evaluate].
  destruct (ApiProofs.ratio_value k a b Ia Ib Nb) as [_ H].
  destruct H as (x & r & X & R & X'); [intros [T [U|U]]; apply (O T); cbn [In]; auto|].
  destruct (ApiProofs.ratio_value k c d Ic Id Nd) as [_ H].
  destruct H as (y & s & Y & S & Y'); [intros [T [U|U]]; apply (O T); cbn [In]; auto|].
  apply (SameProofs.reads_alike k _ _ x y r); [exists 0%nat; auto|exists 0%nat; auto|exact X'|].
  rewrite (proj1 (ApiProofs.represents_inj _ _ r s R S) E). exact Y'.
Qed.
Print Assumptions c69_fraction.

(** The number that [homographic] makes of x for 1x + 0 is the same as x, whatever x is,
    and so is what it makes for -(-x). *)
Theorem c69_identity k x : exists y, returns (fun f => number_homographic k f x 1 0 0 1) y /\ same k x y.
Proof. exact (SameProofs.identity_same k x). Qed.
Print Assumptions c69_identity.

Theorem c69_opposite k x : exists y z, returns (fun f => number_homographic k f x (-1) 0 0 1) y /\
  returns (fun f => number_homographic k f y (-1) 0 0 1) z /\ same k x z.
Proof. exact (SameProofs.opposite_same k x). Qed.
Print Assumptions c69_opposite.

(** And a zero that is added, or a one that multiplies, changes nothing anywhere. *)
Theorem c69_neutral k e a :
  In a [FHomographic e 1 0 0 1;
        FCombine e (FSpecial Zero) 0 1 1 0 0 0 0 1; FCombine (FSpecial Zero) e 0 1 1 0 0 0 0 1;
        FCombine e (FSpecial Zero) 0 1 (-1) 0 0 0 0 1;
        FCombine e (FSpecial PosOne) 1 0 0 0 0 0 0 1; FCombine (FSpecial PosOne) e 1 0 0 0 0 0 0 1;
        FCombine e (FSpecial PosOne) 0 1 0 0 0 0 1 0] ->
  forall e1 e2, replaced e a e1 e2 -> alike (same k) (fun f => evaluate k f e1) (fun f => evaluate k f e2).
Proof.
  intro A. apply c69_formula, SameProofs.neutral_alike. intro n.
  cbn [In] in A. destruct A as [<-|[<-|[<-|[<-|[<-|[<-|[<-|[]]]]]]]]; cbn [evaluate bind]; [reflexivity|..];
  destruct (evaluate k n e) as [x|p|]; cbn [bind]; try reflexivity.
  - exact (NeutralProofs.add_0 k n x).
  - exact (NeutralProofs.add_0_l k n x).
  - exact (NeutralProofs.sub_0 k n x).
  - exact (NeutralProofs.mul_1 k n x).
  - exact (NeutralProofs.mul_1_l k n x).
  - exact (NeutralProofs.div_1 k n x).
Qed.
Print Assumptions c69_neutral.

(** 1/3 and 2/6 are the same, and the sum of 1/3 and 2/7 is the same as 13/21 and 26/42;
    a formula in which they stand overflows or does not overflow with either. *)
Definition two_sixths : number := NOther None (CRatio (MkRatio 2 6)).
Example c69_ex_same : same k64 third two_sixths.
Proof.
  apply (c69_read k64 third two_sixths (inr (None, [Amplify; Uncover]))); cbn [read third two_sixths];
    (split; [reflexivity|]); apply ran_drain with (f := 20%nat); vm_compute; reflexivity.
Qed.
Print Assumptions c69_ex_same.
Example c69_ex_sum : same k64 sum (NOther None (CRatio (MkRatio 26 42))).
Proof.
  apply (c69_read k64 sum _ (inr (None, [Uncover; Uncover; Uncover; Uncover; Uncover]))); cbn [read sum];
    (split; [reflexivity|]); apply ran_drain with (f := 50%nat); vm_compute; reflexivity.
Qed.
Print Assumptions c69_ex_sum.

(** (isize::MAX x + isize::MAX)/(x + 1) for x = 1/3 and for x = 2/6: both calls panic with the same overflow. *)
Example c69_ex_overflow : number_homographic k64 50 third (imax k64) (imax k64) 1 1 = Panic PChecked /\
  number_homographic k64 50 two_sixths (imax k64) (imax k64) 1 1 = Panic PChecked.
Proof. vm_compute. split; reflexivity. Qed.
Print Assumptions c69_ex_overflow.
