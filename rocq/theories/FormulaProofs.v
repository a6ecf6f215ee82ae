(** * FormulaProofs: formulas with small fractions evaluate without overflow. *)

From Coq Require Import ZArith QArith List Lia.
From Verif Require Import Machine Protocol Types Ratio Lib Spec SpecSmall SpecFormula Good LibProofs ApiProofs BuildProofs SmallProofs.
Import ListNotations.
Open Scope Z_scope.

Lemma returns_bind {A B} (f : nat -> res A) (g : nat -> A -> res B) a b :
  returns f a -> returns (fun n => g n a) b -> returns (fun n => let! x := f n in g n x) b.
Proof.
  intros [F R] [G T]. exists (max F G). intros n L. rewrite R by lia. cbn [bind]. apply T. lia.
Qed.

Lemma both_read k x r : read (debug k) x r -> read k x r.
Proof. apply BuildProofs.both_read. Qed.

(** A fraction with parts of at most 2^m, as an operand. *)
Lemma parts_room m q r : 1 <= m -> parts (2 ^ m) q -> represents q r ->
  exists num den, 0 < den /\ (q == zq num / zq den)%Q /\ 0 <= Z.abs num + den <= 2 ^ (m + 1) /\
    2 * Z.of_nat (amplifications r) <= m * (m - 1).
Proof.
  intros Hm (num & den & D & A & B & E) R. exists num, den. split; [exact D|]. split; [exact E|]. split.
  - rewrite Z.pow_add_r, Z.pow_1_r by lia. lia.
  - exact (amplifications_bound m q num den r Hm D E A B R).
Qed.

Definition fits_in (k : cfg) (m M : Z) : Prop := 16 * M ^ 2 * 2 ^ (4 * (m + 1) + 2 * (m * (m - 1))) <= imax k.

Lemma fits_half k m M : 1 <= m -> 1 <= M -> fits_in k m M -> 16 * M ^ 2 * 2 ^ (2 * (m + 1) + m * (m - 1)) <= imax k.
Proof.
  intros Hm H1 F. eapply Z.le_trans; [|exact F]. apply Z.mul_le_mono_nonneg_l; [nia|]. apply Z.pow_le_mono_r; nia.
Qed.

Lemma fits_isize k m M z : 1 <= m -> 1 <= M -> fits_in k m M -> Z.abs z <= M -> isize k z.
Proof.
  intros Hm H1 F B. unfold fits_in in F.
  assert (P : 1 <= 2 ^ (4 * (m + 1) + 2 * (m * (m - 1)))).
  { change 1 with (2 ^ 0). apply Z.pow_le_mono_r; nia. }
  assert (M <= imax k) by (clear - F P H1; nia). unfold isize. destruct k as [[] ?]; unfold imin, imax in *; cbn in *; lia.
Qed.

Lemma formula_debug k m M e : 1 <= m -> 1 <= M -> fits_in k m M -> modest (2 ^ m) M e ->
  exists x r, returns (fun f => evaluate (debug k) f e) x /\ returns (fun f => evaluate k f e) x /\
    num_has (debug k) x (worth e) /\ represents (worth e) r /\ read (debug k) x r.
Proof.
  intros Hm H1 F. assert (Fd : fits_in (debug k) m M) by exact F. induction e as [s|num den|e IH nx n dx d|e1 IH1 e2 IH2 a b c d e f g h]; cbn [modest evaluate worth].
  - intros _. exists (NSpecial s), (inl s). split; [exists 0%nat; reflexivity|]. split; [exists 0%nat; reflexivity|].
    split; [constructor|]. split; [reflexivity|reflexivity].
  - intros (D & A & B).
    assert (L : 2 ^ m < imax k) by (eapply (room_pow k M m); [|exact H1|exact F]; nia).
    destruct (small_ratio k m num den Hm D A B L) as (x & rx & num' & den' & X & Hx & Rx & _).
    destruct (small_ratio (debug k) m num den Hm D A B L) as (x' & _ & _ & _ & X' & _).
    assert (x' = x) as ->.
    { assert (E : returns (fun _ => number_ratio k num den) x').
      { apply (both_returns (fun k (_ : nat) => number_ratio k num den)); [intros _; apply builds_ratio|exists 0%nat; intros; exact X']. }
      destruct E as [f0 E]. specialize (E f0 (le_n _)). cbn in E. congruence. }
    destruct (has_read_good (debug k) x _ rx eq_refl Hx Rx) as [_ R].
    exists x, rx. split; [exists 0%nat; intros; exact X'|]. split; [exists 0%nat; intros; exact X|]. auto.
  - intros (Me & P & (B1 & B2 & B3 & B4) & ND). destruct (IH Me) as (x & rx & E & E' & Hx & R & Rx).
    destruct (parts_room m _ rx Hm P R) as (num & den & D & Q & Sz & Am).
    destruct (represents_ex (hom nx n dx d (worth e))) as [r Hr].
    destruct (fraction_homographic (debug k) x _ rx num den nx n dx d r M Hx Rx D Q B1 B2 B3 B4 ND Hr) as (y & Ry & Y).
    { apply (pow_room (debug k) M _ m); auto; [lia|]. now apply fits_half. }
    exists y, r. split; [eapply returns_bind; eauto|]. split.
    { eapply returns_bind; [exact E'|]. apply (both_returns (fun k f => number_homographic k f x nx n dx d)); [|exact Ry].
      intro. apply builds_homographic. }
    split; [|auto]. destruct Ry as [f0 Ry]. specialize (Ry f0 (le_n _)). cbn in Ry.
    eapply has_homographic; [exact Hx| | | | |exact ND|exact Ry]; apply (fits_isize (debug k) m M); assumption.
  - intros (Me1 & P1 & Me2 & P2 & (B1 & B2 & B3 & B4) & (B5 & B6 & B7 & B8) & ND).
    destruct (IH1 Me1) as (x & rx & E & E' & Hx & R & Rx). destruct (IH2 Me2) as (y & ry & G & G' & Hy & T & Ty).
    destruct (parts_room m _ rx Hm P1 R) as (n1 & d1 & D1 & Q1 & Sz1 & Am1).
    destruct (parts_room m _ ry Hm P2 T) as (n2 & d2 & D2 & Q2 & Sz2 & Am2).
    destruct (represents_ex (comb a b c d e f g h (worth e1) (worth e2))) as [r Hr].
    destruct (fraction_combine (debug k) x _ rx n1 d1 y _ ry n2 d2 a b c d e f g h r M Hx Rx D1 Q1 Hy Ty D2 Q2
      B1 B2 B3 B4 B5 B6 B7 B8 ND Hr) as (z & Rz & Z).
    { apply (pow_room2 (debug k) M _ _ m); auto; lia. }
    exists z, r. split.
    { eapply returns_bind; [exact E|]. eapply returns_bind; [exact G|]. exact Rz. }
    split.
    { eapply returns_bind; [exact E'|]. eapply returns_bind; [exact G'|].
      apply (both_returns (fun k n => number_combine k n x y a b c d e f g h)); [|exact Rz]. intro. apply builds_combine. }
    split; [|auto]. destruct Rz as [f0 Rz]. specialize (Rz f0 (le_n _)). cbn in Rz.
    eapply has_combine; [exact Hx|exact Hy| | | | | | | | |exact ND|exact Rz]; apply (fits_isize (debug k) m M); assumption.
Qed.

Theorem formula_value k m M e : 1 <= m -> 1 <= M -> fits_in k m M -> modest (2 ^ m) M e ->
  exists x r, returns (fun f => evaluate k f e) x /\ represents (worth e) r /\ read k x r.
Proof.
  intros Hm H1 F Me. destruct (formula_debug k m M e Hm H1 F Me) as (x & r & _ & E & _ & R & Rx).
  exists x, r. auto using both_read.
Qed.

Theorem formula_compare k m M e1 e2 : 1 <= m -> 1 <= M -> fits_in k m M -> modest (2 ^ m) M e1 -> modest (2 ^ m) M e2 ->
  exists x y, returns (fun f => evaluate k f e1) x /\ returns (fun f => evaluate k f e2) y /\
    returns (fun f => number_compare k f x y) (worth e1 ?= worth e2)%Q.
Proof.
  intros Hm H1 F Me1 Me2.
  destruct (formula_debug k m M e1 Hm H1 F Me1) as (x & rx & _ & E1 & Hx & _ & Rx).
  destruct (formula_debug k m M e2 Hm H1 F Me2) as (y & ry & _ & E2 & Hy & _ & Ry).
  exists x, y. split; [exact E1|]. split; [exact E2|].
  destruct (has_read_good (debug k) x _ rx eq_refl Hx Rx) as [G1 _].
  destruct (has_read_good (debug k) y _ ry eq_refl Hy Ry) as [G2 _].
  apply (both_returns (fun k f => number_compare k f x y)); [intro; apply builds_compare|].
  destruct (ev_returns _ _ (compare_ev (debug k) (fun _ => False) x y _ _ G1 G2)) as (o & R & ->). exact R.
Qed.
