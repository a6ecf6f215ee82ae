(** * Property C71: a formula may be rewritten by the laws of arithmetic.

    Not so: which integers [homographic] and [combine] meet on the way depends on how the
    formula is written.  Whatever can be read is right either way. *)

From Coq Require Import ZArith QArith List Lia.
From Verif Require Import Machine Protocol Types Lib Spec SpecScale SpecEnd SpecRelease SpecFormula SpecLaws SpecSame ExampleTools.
From Verif Require LawsProofs SameProofs BuildProofs ReleaseProofs ApiProofs.
Import ListNotations.
Open Scope Z_scope.

(** One side can be read, and is what the formula is worth; the other overflows, though
    it is worth as much and nothing in it is divided by zero. *)
Definition differ (k : cfg) (e1 e2 : formula) : Prop :=
  proper k e1 /\ proper k e2 /\ (worth e1 == worth e2)%Q /\
  computes k (fun f => evaluate k f e1) (worth e1) /\ breaks k (fun f => evaluate k f e2).

Ltac done := unfold plus, minus, times, over, opposite, twice, itself, first; cbn [proper];
  repeat apply conj; first [exact I | size | discriminate | (vm_compute; discriminate)].
Ltac law := split; [done|split; [done|split; [vm_compute; reflexivity|
  split; [apply LawsProofs.reads_as_ok|apply LawsProofs.overflows_as_ok]; vm_compute; reflexivity]]].

(** Fractions a/b, c/d and e/f for every width. *)
Definition three (w : width) (l16 l32 l64 : Z * Z * Z * Z * Z * Z) : formula * formula * formula :=
  let '(a, b, c, d, e, f) := match w with W16 => l16 | W32 => l32 | W64 => l64 end in (FRatio a b, FRatio c d, FRatio e f).

(** x + 0 y overflows, x does not. *)
Theorem c71_ignored_refuted k : let x := match wd k with W16 => FRatio 100 101 | W32 => FRatio 20000 20001 | W64 => FRatio 100000 100001 end in
  differ k (itself x) (first x x).
Proof. destruct k as [[] []]; cbv zeta; cbn [wd]; law. Qed.
Print Assumptions c71_ignored_refuted.

(** 3/2 - 2^(w-2) can be read; 3/2 + (-(2^(w-2))) overflows. *)
Theorem c71_subtract_refuted k : let x := FRatio 3 2 in let y := FRatio (2 ^ (bits (wd k) - 2)) 1 in
  differ k (minus x y) (plus x (opposite y)).
Proof. destruct k as [[] []]; cbv zeta; law. Qed.
Print Assumptions c71_subtract_refuted.

(** 2 x can be read; x + x overflows. *)
Theorem c71_double_refuted k : let x := match wd k with W16 => FRatio 4 15 | W32 => FRatio 665 884 | W64 => FRatio 17947 26721 end in
  differ k (twice x) (plus x x).
Proof. destruct k as [[] []]; cbv zeta; cbn [wd]; law. Qed.
Print Assumptions c71_double_refuted.

(** Addition is not associative, in either direction. *)
Theorem c71_add_left_refuted k : let '(x, y, z) := three (wd k) (4, 15, 19, 14, 20, 18) (784, 695, 639, 554, 360, 558)
    (25350, 38001, 35606, 7469, 20344, 46768) in
  differ k (plus (plus x y) z) (plus x (plus y z)).
Proof. destruct k as [[] []]; cbn [wd three]; law. Qed.
Print Assumptions c71_add_left_refuted.
Theorem c71_add_right_refuted k : let '(x, y, z) := three (wd k) (7, 2, 18, 17, 18, 14) (23, 208, 875, 199, 468, 836)
    (58265, 30584, 43043, 12422, 47381, 4951) in
  differ k (plus x (plus y z)) (plus (plus x y) z).
Proof. destruct k as [[] []]; cbn [wd three]; law. Qed.
Print Assumptions c71_add_right_refuted.

(** Nor is multiplication. *)
Theorem c71_mul_left_refuted k : let '(x, y, z) := three (wd k) (4, 15, 19, 14, 20, 18) (553, 461, 39, 102, 525, 489)
    (21345, 47962, 30898, 20433, 47995, 21264) in
  differ k (times (times x y) z) (times x (times y z)).
Proof. destruct k as [[] []]; cbn [wd three]; law. Qed.
Print Assumptions c71_mul_left_refuted.
Theorem c71_mul_right_refuted k : let '(x, y, z) := three (wd k) (5, 4, 3, 2, 1, 11) (564, 220, 12, 510, 41, 655)
    (59364, 3820, 39912, 51510, 44441, 25255) in
  differ k (times x (times y z)) (times (times x y) z).
Proof. destruct k as [[] []]; cbn [wd three]; law. Qed.
Print Assumptions c71_mul_right_refuted.

(** Multiplying out may overflow. *)
Theorem c71_distribute_refuted k : let '(x, y, z) := three (wd k) (5, 4, 3, 2, 1, 11) (23, 208, 875, 199, 468, 836)
    (58265, 30584, 43043, 12422, 47381, 4951) in
  differ k (times x (plus y z)) (plus (times x y) (times x z)).
Proof. destruct k as [[] []]; cbn [wd three]; law. Qed.
Print Assumptions c71_distribute_refuted.

(** What is added and taken away again, or multiplied and divided by, does not cancel. *)
Definition two (w : width) : formula * formula :=
  match w with W16 => (FRatio 5 44, FRatio 23 2) | W32 => (FRatio 4265 3584, FRatio 1043 6422) | W64 => (FRatio 58265 30584, FRatio 73043 42422) end.
Theorem c71_cancel_add_refuted k : let '(x, y) := two (wd k) in differ k (itself x) (minus (plus x y) y).
Proof. destruct k as [[] []]; cbn [wd two]; law. Qed.
Print Assumptions c71_cancel_add_refuted.
Theorem c71_cancel_mul_refuted k : let '(x, y) := two (wd k) in differ k (itself x) (over (times x y) y).
Proof. destruct k as [[] []]; cbn [wd two]; law. Qed.
Print Assumptions c71_cancel_mul_refuted.

(** 3 (3 x) can be read, 9 x overflows: one call may need more room than two. *)
Theorem c71_compose_refuted k :
  let x := match wd k with W16 => FRatio 16 9 | W32 => FRatio 7230 7991 | W64 => FRatio 398025948 396304326 end in
  differ k (FHomographic (FHomographic x 3 0 0 1) 3 0 0 1) (FHomographic x 9 0 0 1).
Proof. destruct k as [[] []]; cbv zeta; cbn [wd]; law. Qed.
Print Assumptions c71_compose_refuted.
(** And the other way round: two calls may need more room than one. *)
Theorem c71_split_refuted k :
  let x := match wd k with W16 => FRatio 37 56 | W32 => FRatio 8714 6942 | W64 => FRatio 674481782 2022856117 end in
  differ k (FHomographic x 9 0 0 1) (FHomographic (FHomographic x 3 0 0 1) 3 0 0 1).
Proof. destruct k as [[] []]; cbv zeta; cbn [wd]; law. Qed.
Print Assumptions c71_split_refuted.

(** The claim as clients would have it. *)
Definition c71_claim : Prop := forall k e1 e2, proper k e1 -> proper k e2 -> (worth e1 == worth e2)%Q ->
  alike (same k) (fun f => evaluate k f e1) (fun f => evaluate k f e2).

Theorem c71_claim_refuted : ~ c71_claim.
Proof.
  intro H. destruct (c71_double_refuted k64) as (P1 & P2 & W & C & B).
  exact (LawsProofs.not_alike _ _ _ _ C B (H k64 _ _ P1 P2 W)).
Qed.
Print Assumptions c71_claim_refuted.

(** What holds: when both formulas evaluate, and both numbers can be read, they are the same,
    and are what the formulas are worth. *)
Theorem c71_same_partial k e1 e2 u v r s : ovf k = true -> proper k e1 -> proper k e2 -> (worth e1 == worth e2)%Q ->
  returns (fun f => evaluate k f e1) u -> returns (fun f => evaluate k f e2) v -> read k u r -> read k v s ->
  represents (worth e1) r /\ r = s /\ same k u v.
Proof.
  intros Ov P1 P2 W (F & U) (G & V) R S.
  destruct (BuildProofs.has_read_good k u _ r Ov (LawsProofs.evaluate_has k F e1 P1 u (U F (le_n _))) R) as [_ Q1].
  destruct (BuildProofs.has_read_good k v _ s Ov (LawsProofs.evaluate_has k G e2 P2 v (V G (le_n _))) S) as [_ Q2].
  assert (E : r = s) by (apply (ApiProofs.represents_inj _ _ _ _ Q1 Q2), W). subst s.
  split; [exact Q1|]. split; [reflexivity|]. eapply SameProofs.read_same; eauto.
Qed.
Print Assumptions c71_same_partial.

(** Even if reading ends in an overflow: whatever symbols are read of the two numbers, the
    shorter sequence begins the longer, and both begin the representation of the worth. *)
Theorem c71_prefix_partial k e1 e2 u v : ovf k = true -> proper k e1 -> proper k e2 -> (worth e1 == worth e2)%Q ->
  returns (fun f => evaluate k f e1) u -> returns (fun f => evaluate k f e2) v ->
  match u, v with
  | NSpecial s, NSpecial t => s = t /\ (worth e1 == special_val s)%Q
  | NOther p c, NOther q d => p = q /\ forall l c' m d', egests k c l c' -> egests k d m d' ->
      ((exists t, m = l ++ t) \/ (exists t, l = m ++ t)) /\
      (exists t, represents (worth e1) (inr (p, l ++ t))) /\ (exists t, represents (worth e1) (inr (p, m ++ t)))
  | _, _ => False
  end%list.
Proof.
  intros Ov P1 P2 W (F & U) (G & V).
  assert (X := LawsProofs.evaluate_has k F e1 P1 u (U F (le_n _))).
  assert (Y := LawsProofs.evaluate_has k G e2 P2 v (V G (le_n _))).
  assert (S : forall a b, represents (worth e1) a -> represents (worth e2) b -> a = b).
  { intros a b A B. apply (ApiProofs.represents_inj _ _ _ _ A B), W. }
  destruct u as [s|p c], v as [t|q d].
  - apply LawsProofs.has_special_value in X; [|exact Ov]. apply LawsProofs.has_special_value in Y; [|exact Ov].
    pose proof (S _ _ X Y) as E. injection E as ->. split; [reflexivity|exact X].
  - apply LawsProofs.has_special_value in X; [|exact Ov].
    destruct (LawsProofs.has_prefix k q d _ [] d Ov Y (egests_nil _ _)) as (b & B). discriminate (S _ _ X B).
  - apply LawsProofs.has_special_value in Y; [|exact Ov].
    destruct (LawsProofs.has_prefix k p c _ [] c Ov X (egests_nil _ _)) as (b & B). discriminate (S _ _ B Y).
  - split.
    + destruct (LawsProofs.has_prefix k p c _ [] c Ov X (egests_nil _ _)) as (a & A).
      destruct (LawsProofs.has_prefix k q d _ [] d Ov Y (egests_nil _ _)) as (b & B).
      pose proof (S _ _ A B) as E. injection E as E _. exact E.
    + intros l c' m d' L M. destruct (LawsProofs.has_prefix k p c _ l c' Ov X L) as (a & A).
      destruct (LawsProofs.has_prefix k q d _ m d' Ov Y M) as (b & B).
      pose proof (S _ _ A B) as E. injection E as E1 E2. subst q. split; [|split].
      * clear -E2. revert m E2. induction l as [|x l IH]; intros m E2; [left; exists m; reflexivity|].
        destruct m as [|y m]; [right; exists (x :: l); reflexivity|]. cbn [app] in E2. injection E2 as -> E2.
        destruct (IH m E2) as [(t & ->)|(t & ->)]; [left|right]; exists t; reflexivity.
      * exists a. exact A.
      * exists b. eapply ApiProofs.represents_compat; [exact B|symmetry; exact W].
Qed.
Print Assumptions c71_prefix_partial.

(** In release builds too, but where the debug build reports an overflow. *)
Theorem c71_same_release_partial k e1 e2 u v r s : proper k e1 -> proper k e2 -> (worth e1 == worth e2)%Q ->
  returns (fun f => evaluate (release k) f e1) u -> returns (fun f => evaluate (release k) f e2) v ->
  read (release k) u r -> read (release k) v s ->
  (represents (worth e1) r /\ r = s /\ same (release k) u v) \/
  settles (fun f => evaluate (debug k) f e1) (Panic PArith) \/
  settles (fun f => evaluate (debug k) f e2) (Panic PArith) \/
  read_overflows k u \/ read_overflows k v.
Proof.
  intros P1 P2 W (F & U) (G & V) R S.
  destruct (LawsProofs.builds_evaluate k F e1) as [E1|E1];
    [right; left; apply (LawsProofs.ran_evaluate _ F); [exact E1|discriminate]|].
  destruct (LawsProofs.builds_evaluate k G e2) as [E2|E2];
    [right; right; left; apply (LawsProofs.ran_evaluate _ G); [exact E2|discriminate]|].
  rewrite (U F (le_n _)) in E1. rewrite (V G (le_n _)) in E2.
  destruct (ReleaseProofs.read_release k u r R) as [Q1|P]; [|tauto]. destruct (ReleaseProofs.read_release k v s S) as [Q2|P]; [|tauto].
  left.
  destruct (BuildProofs.has_read_good (debug k) u _ r eq_refl
    (LawsProofs.evaluate_has _ F e1 (LawsProofs.proper_debug k e1 P1) u (eq_sym E1)) Q1) as [_ X1].
  destruct (BuildProofs.has_read_good (debug k) v _ s eq_refl
    (LawsProofs.evaluate_has _ G e2 (LawsProofs.proper_debug k e2 P2) v (eq_sym E2)) Q2) as [_ X2].
  assert (E : r = s) by (apply (ApiProofs.represents_inj _ _ _ _ X1 X2), W). subst s.
  split; [exact X1|]. split; [reflexivity|]. eapply SameProofs.read_same; eauto.
Qed.
Print Assumptions c71_same_release_partial.

(** 1/3 + 1/3 and 2 * 1/3 on 64 bits: both can be read, and show 2/3. *)
Example c71_ex : proper k64 (plus (FRatio 1 3) (FRatio 1 3)) /\
  (worth (plus (FRatio 1 3) (FRatio 1 3)) == 2 # 3)%Q /\ (worth (twice (FRatio 1 3)) == 2 # 3)%Q /\
  computes k64 (fun f => evaluate k64 f (plus (FRatio 1 3) (FRatio 1 3))) (worth (plus (FRatio 1 3) (FRatio 1 3))) /\
  computes k64 (fun f => evaluate k64 f (twice (FRatio 1 3))) (worth (twice (FRatio 1 3))).
Proof.
  split; [done|]. split; [reflexivity|]. split; [reflexivity|].
  split; apply LawsProofs.reads_as_ok; vm_compute; reflexivity.
Qed.
Print Assumptions c71_ex.

(** What a client sees that reads at most n symbols, and the panic that stops it. *)
Fixpoint watch (k : cfg) (n : nat) (c : clog) : list reduction * option panic :=
  match n with
  | O => ([], None)
  | S n =>
      match clog_egest k 300 c with
      | Ok (Some s, c) => let (l, o) := watch k n c in (s :: l, o)
      | Panic p => ([], Some p)
      | _ => ([], None)
      end
  end.

(** 2 * 4/15 and 4/15 + 4/15 on 16 bits, which are worth 8/15: of the sum four symbols can be
    read, and they are right. *)
Example c71_ex_prefix : let k := Cfg W16 true in
  let seen e := match evaluate k 300 e with Ok (NOther p c) => Some (p, watch k 40 c) | _ => None end in
  seen (twice (FRatio 4 15)) = Some (None, ([Uncover; Uncover; Amplify; Amplify; Uncover; Uncover; Amplify; Uncover], None)) /\
  seen (plus (FRatio 4 15) (FRatio 4 15)) = Some (None, ([Uncover; Uncover; Amplify; Amplify], Some PChecked)).
Proof. cbv zeta. split; vm_compute; reflexivity. Qed.
Print Assumptions c71_ex_prefix.
