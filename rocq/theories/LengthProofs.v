(** * LengthProofs: how long the symbol sequence of a rational can be. *)

From Coq Require Import ZArith QArith Qfield List Lia Lqa Psatz Bool.
From Verif Require Import Machine Protocol Support Types Ratio Homographic Combine Lib Spec Upto
  SeqProofs Good RatioProofs HomGood LibProofs ApiProofs RecipProofs.
Import ListNotations.
Open Scope Z_scope.

Lemma next n d l : 0 < n < d -> clog_seq (zq n / zq d) l ->
  match l with
  | [] => 2 * n = d
  | Amplify :: l' => 2 * n < d /\ clog_seq (zq (2 * n) / zq d) l'
  | Uncover :: l' => d < 2 * n /\ clog_seq (zq (d - n) / zq n) l'
  end.
Proof.
  intros H Sq. pose proof (seq_cases _ _ Sq) as C.
  assert (D : (0 < zq d)%Q) by (apply zq_pos; lia). assert (N : (0 < zq n)%Q) by (apply zq_pos; lia).
  assert (E : (zq n == zq n / zq d * zq d)%Q) by (field; now apply Qlt_neq).
  set (v := (zq n / zq d)%Q) in *.
  destruct l as [|[|] l].
  - apply (proj2 (zq_eq _ _)). rewrite zq_mul, E, C, zq_2. field.
  - destruct C as [C C']. split.
    + apply (proj2 (zq_lt _ _)). rewrite zq_mul, zq_2, E. clear - C D. nra.
    + eapply clog_seq_compat; [exact C'|]. unfold v. rewrite zq_mul, zq_2. field. now apply Qlt_neq.
  - destruct C as (C & C'). split.
    + apply (proj2 (zq_lt _ _)). rewrite zq_mul, zq_2, E. clear - C D. nra.
    + eapply clog_seq_compat; [exact C'|]. unfold v. rewrite zq_sub. field. split; now apply Qlt_neq.
Qed.

Lemma frac_half n d : 0 < d -> (zq (2 * n) / zq (2 * d) == zq n / zq d)%Q.
Proof. intro H. rewrite !zq_mul, zq_2. field. apply zq_neq. lia. Qed.

(** The run of [Amplify] symbols at the front of the sequence of n/d. *)
Lemma run l : forall n d, 0 < n < d -> clog_seq (zq n / zq d) l ->
  exists (a : nat) rest, length l = (a + length rest)%nat /\
    let e := 2 ^ Z.of_nat a * n in
    e < d /\ d <= 2 * e /\ (2 * n < d -> (1 <= a)%nat) /\
    match rest with
    | [] => True
    | Amplify :: _ => False
    | Uncover :: r => clog_seq (zq (d - e) / zq e) r /\ d < 2 * e
    end.
Proof.
  induction l as [|[|] l IH]; intros n d H Sq; pose proof (next n d _ H Sq) as N; cbv beta iota in N.
  - exists 0%nat, []. cbv zeta. rewrite Z.pow_0_r. cbn [length]. repeat split; lia.
  - destruct N as [N S']. destruct (IH (2 * n) d ltac:(lia) S') as (a & rest & L & A & B & C & D).
    assert (E : 2 ^ Z.of_nat (S a) * n = 2 ^ Z.of_nat a * (2 * n)).
    { rewrite Nat2Z.inj_succ, Z.pow_succ_r by lia. ring. }
    exists (S a), rest. cbv zeta. rewrite E. cbn [length]. repeat split; auto; lia.
  - destruct N as [N S']. exists 0%nat, (Uncover :: l). cbv zeta. rewrite Z.pow_0_r, Z.mul_1_l.
    cbn [length]. repeat split; auto; lia.
Qed.

(** One more symbol takes an even denominator below half of the one before. *)
Lemma one_more n e d l : 0 < n < 2 * e -> 2 * e < d -> d = 2 * e + n -> 
  clog_seq (zq n / zq (2 * e)) l ->
  l = [] \/ exists n' d' l', length l = S (length l') /\ 0 < n' < d' /\ 2 * d' < d /\
    clog_seq (zq n' / zq d') l'.
Proof.
  intros H L E Sq. pose proof (next n (2 * e) l H Sq) as N. destruct l as [|[|] l]; cbv beta iota in N.
  - now left.
  - right. destruct N as [N S']. exists n, e, l. repeat split; try lia.
    eapply clog_seq_compat; [exact S'|]. apply frac_half. lia.
  - right. destruct N as [N S']. exists (2 * e - n), n, l. repeat split; try lia. exact S'.
Qed.

Lemma pow2_succ m : 2 ^ Z.of_nat (S m) = 2 * 2 ^ Z.of_nat m.
Proof. now rewrite Nat2Z.inj_succ, Z.pow_succ_r by lia. Qed.

Lemma pow2_lt a m : 2 ^ Z.of_nat a < 2 ^ Z.of_nat m -> (a < m)%nat.
Proof. intro H. apply Z.pow_lt_mono_r_iff in H; lia. Qed.

Lemma even_pow a n : (1 <= a)%nat -> exists h, 2 ^ Z.of_nat a * n = 2 * h /\ h = 2 ^ Z.of_nat (a - 1) * n.
Proof.
  intro H. destruct a as [|a]; [lia|]. exists (2 ^ Z.of_nat a * n). rewrite pow2_succ.
  replace (S a - 1)%nat with a by lia. split; ring.
Qed.

(** Within [m + 1] symbols a denominator up to 2^m comes down to 2^(m-1). *)
Lemma halve m n d l : (1 <= m)%nat -> 0 < n < d -> d <= 2 ^ Z.of_nat (S m) -> clog_seq (zq n / zq d) l ->
  (length l <= m + 2)%nat \/
  exists n' d' l', (length l <= m + 2 + length l')%nat /\ 0 < n' < d' /\ d' <= 2 ^ Z.of_nat m /\
    clog_seq (zq n' / zq d') l'.
Proof.
  intros M H D Sq. rewrite pow2_succ in D. pose proof (pow2_pos m) as Pm.
  destruct (run l n d H Sq) as (a & rest & L & A & B & C & R). cbv zeta in *.
  pose proof (pow2_pos a) as Pa.
  assert (Am : (a <= m)%nat).
  { assert (a < S m)%nat; [|lia]. apply pow2_lt. rewrite pow2_succ. nia. }
  destruct rest as [|[|] r1]; [left; cbn [length] in L; lia | contradiction | destruct R as [R R']].
  cbn [length] in L. destruct a as [|a].
  - rewrite Z.pow_0_r, Z.mul_1_l in *. clear A Am Pa.
    destruct (run r1 (d - n) n ltac:(lia) R) as (b & rest & L2 & A2 & B2 & C2 & R2). cbv zeta in *.
    pose proof (pow2_pos b) as Pb.
    destruct rest as [|[|] r3]; [ | contradiction | destruct R2 as [R2 R2']].
    + left. cbn [length] in L2. assert (b < S m)%nat; [|lia]. apply pow2_lt. rewrite pow2_succ. nia.
    + cbn [length] in L2. destruct b as [|b].
      * rewrite Z.pow_0_r, Z.mul_1_l in *. right. exists (n - (d - n)), (d - n), r3.
        repeat split; try lia. exact R2.
      * assert (Bm : (S b < S m)%nat) by (apply pow2_lt; rewrite (pow2_succ m); nia).
        destruct (Nat.eq_dec (S b) m) as [Eb|Nb].
        -- rewrite Eb in *. right. assert (d - n = 1) by nia.
           exists (n - 2 ^ Z.of_nat m * (d - n)), (2 ^ Z.of_nat m * (d - n)), r3.
           repeat split; try lia. exact R2.
        -- destruct (even_pow (S b) (d - n) ltac:(lia)) as (h & E & _). rewrite E in *.
           destruct (one_more (n - 2 * h) h n r3 ltac:(lia) ltac:(lia) ltac:(lia) R2) as [->|(n' & d' & l' & X & Y & Z & T)].
           ++ left. cbn [length] in *. lia.
           ++ right. exists n', d', l'. repeat split; auto; lia.
  - destruct (even_pow (S a) n ltac:(lia)) as (h & E & _). rewrite E in *.
    destruct (one_more (d - 2 * h) h d r1 ltac:(lia) ltac:(lia) ltac:(lia) R) as [->|(n' & d' & l' & X & Y & Z & T)].
    + left. cbn [length] in *. lia.
    + right. exists n', d', l'. repeat split; auto; lia.
Qed.

Fixpoint tri (m : nat) : nat := match m with O => O | S m' => (m' + 3 + tri m')%nat end.

Lemma tri_eq m : Z.of_nat (tri m) * 2 = Z.of_nat m * Z.of_nat m + 5 * Z.of_nat m.
Proof. induction m as [|m IH]; [reflexivity|]. cbn [tri]. nia. Qed.

Lemma length_tri m : forall n d l, 0 < n < d -> d <= 2 ^ Z.of_nat (S m) -> clog_seq (zq n / zq d) l ->
  (length l <= tri m)%nat.
Proof.
  induction m as [|m IH]; intros n d l H D Sq.
  - change (2 ^ Z.of_nat 1) with 2 in D. pose proof (next n d l H Sq) as N.
    destruct l as [|[|] l]; cbn [length]; lia.
  - destruct (halve (S m) n d l ltac:(lia) H D Sq) as [L|(n' & d' & l' & L & H' & D' & S')];
      cbn [tri]; [lia|]. pose proof (IH n' d' l' H' D' S'). lia.
Qed.

(** With the denominator at most 2^m the sequence has at most (m^2 + 3 m) / 2 - 2 symbols. *)
Theorem length_bound m n d l : 0 <= m -> 0 < n < d -> d <= 2 ^ m -> clog_seq (zq n / zq d) l ->
  2 * Z.of_nat (length l) <= m * m + 3 * m - 4.
Proof.
  intros M H D Sq. destruct (Z.eq_dec m 0) as [->|]; [change (2 ^ 0) with 1 in D; lia|].
  replace m with (Z.of_nat (S (Z.to_nat (m - 1)))) in D by lia.
  pose proof (length_tri _ n d l H D Sq) as L. pose proof (tri_eq (Z.to_nat (m - 1))) as T.
  rewrite Z2Nat.id in T by lia. nia.
Qed.
