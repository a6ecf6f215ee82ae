(** * LongestProofs: exactly how long the symbol sequence of a rational can be (C74). *)

From Coq Require Import ZArith QArith Qfield List Lia Lqa Psatz.
From Verif Require Import Machine Protocol Types Ratio Lib Spec Upto SeqProofs Good RatioProofs LibProofs
  HomGood ApiProofs RecipProofs LengthProofs FinalProofs.
From Verif Require LongProofs.
Import ListNotations.
Open Scope Z_scope.

(** ** Above *)

(** As [LengthProofs.halve], for a denominator below 2^(m+1): either the new one is below 2^m,
    or the fraction was (2^m + n') / (2^m + n' + 1). *)
Lemma halve m n d l : (1 <= m)%nat -> 0 < n < d -> d < 2 ^ Z.of_nat (S m) -> clog_seq (zq n / zq d) l ->
  (length l <= m + 2)%nat \/
  exists n' d' l', (length l <= m + 2 + length l')%nat /\ 0 < n' < d' /\ clog_seq (zq n' / zq d') l' /\
    (d' < 2 ^ Z.of_nat m \/ d' = 2 ^ Z.of_nat m /\ n' <= 2 ^ Z.of_nat m - 2).
Proof.
  intros M H D Sq. rewrite pow2_succ in D. pose proof (pow2_pos m) as Pm.
  destruct (run l n d H Sq) as (a & rest & L & A & B & C & R). cbv zeta in *.
  pose proof (pow2_pos a) as Pa.
  assert (Am : (a <= m)%nat).
  { assert (a < S m)%nat; [|lia]. apply pow2_lt. rewrite pow2_succ. nia. }
  destruct rest as [|[|] r1]; [left; cbn [length] in L; lia | contradiction | destruct R as [R R']].
  cbn [length] in L. destruct a as [|a].
  - rewrite Z.pow_0_r, Z.mul_1_l in *. clear A Am Pa.
    destruct (run r1 (d - n) n ltac:(lia) R) as (b & rest & L2 & A2 & B2 & C2 & R2). cbv zeta in *.
    pose proof (pow2_pos b) as Pb.
    destruct rest as [|[|] r3]; [ | contradiction | destruct R2 as [R2 R2']].
    + left. cbn [length] in L2. assert (b < S m)%nat; [|lia]. apply pow2_lt. rewrite pow2_succ. nia.
    + cbn [length] in L2. destruct b as [|b].
      * rewrite Z.pow_0_r, Z.mul_1_l in *. right. exists (n - (d - n)), (d - n), r3.
        repeat split; try lia. exact R2.
      * assert (Bm : (S b < S m)%nat) by (apply pow2_lt; rewrite (pow2_succ m); nia).
        destruct (Nat.eq_dec (S b) m) as [Eb|Nb].
        -- rewrite Eb in *. right. assert (d - n = 1) by nia.
           exists (n - 2 ^ Z.of_nat m * (d - n)), (2 ^ Z.of_nat m * (d - n)), r3.
           repeat split; try lia. exact R2.
        -- destruct (even_pow (S b) (d - n) ltac:(lia)) as (h & E & _). rewrite E in *.
           destruct (one_more (n - 2 * h) h n r3 ltac:(lia) ltac:(lia) ltac:(lia) R2) as [->|(n' & d' & l' & X & Y & Z & T)].
           ++ left. cbn [length] in *. lia.
           ++ right. exists n', d', l'. repeat split; auto; lia.
  - destruct (even_pow (S a) n ltac:(lia)) as (h & E & _). rewrite E in *.
    destruct (one_more (d - 2 * h) h d r1 ltac:(lia) ltac:(lia) ltac:(lia) R) as [->|(n' & d' & l' & X & Y & Z & T)].
    + left. cbn [length] in *. lia.
    + right. exists n', d', l'. repeat split; auto; lia.
Qed.

(** Denominator 2^(m+1), but not the numerator just below it; [B] is the bound for smaller denominators. *)
Lemma at_power m n l : (forall n d l, 0 < n < d -> d < 2 ^ Z.of_nat (S m) -> clog_seq (zq n / zq d) l -> (length l < tri m)%nat) ->
  (1 <= m)%nat -> 0 < n <= 2 ^ Z.of_nat (S (S m)) - 2 -> clog_seq (zq n / zq (2 ^ Z.of_nat (S (S m)))) l ->
  (length l < tri (S m))%nat.
Proof.
  intros B M H Sq. rewrite (pow2_succ (S m)) in *. pose proof (pow2_pos (S m)) as P. set (e := 2 ^ Z.of_nat (S m)) in *.
  assert (T3 : (3 <= tri m)%nat) by (destruct m as [|m]; [lia|]; cbn [tri]; lia).
  cbn [tri]. pose proof (next n (2 * e) l ltac:(lia) Sq) as N. destruct l as [|[|] l]; cbv beta iota in N; cbn [length]; [lia| |].
  - (* the half that remains has denominator e *)
    destruct N as [N S'].
    assert (F : clog_seq (zq n / zq e) l) by (eapply clog_seq_compat; [exact S'|]; apply frac_half; lia).
    pose proof (length_tri m n e l ltac:(lia) ltac:(lia) F). lia.
  - destruct N as [N S']. destruct (Z.Even_or_Odd n) as [[h E]|[h E]].
    + (* not in lowest terms *)
      assert (F : clog_seq (zq (e - h) / zq h) l).
      { eapply clog_seq_compat; [exact S'|]. rewrite E. replace (2 * e - 2 * h) with (2 * (e - h)) by lia. apply frac_half. lia. }
      pose proof (length_tri m (e - h) h l ltac:(lia) ltac:(lia) F). lia.
    + set (r := 2 * e - n) in *. assert (R3 : 3 <= r) by lia.
      destruct (run l r n ltac:(lia) S') as (a & rest & L & A & U & C & R). cbv zeta in *.
      pose proof (pow2_pos a) as Pa.
      assert (Am : (a <= m)%nat).
      { assert (a < S m)%nat; [|lia]. apply pow2_lt. fold e. nia. }
      destruct rest as [|[|] r1]; [cbn [length] in L; lia | contradiction | destruct R as [R R']].
      cbn [length] in L. destruct a as [|a].
      * rewrite Z.pow_0_r, Z.mul_1_l in *. pose proof (B (n - r) r r1 ltac:(lia) ltac:(lia) R). lia.
      * destruct (even_pow (S a) r ltac:(lia)) as (g & E' & _). rewrite E' in *.
        destruct (one_more (n - 2 * g) g n r1 ltac:(lia) ltac:(lia) ltac:(lia) R) as [->|(n' & d' & l' & X & Y & Z & T)].
        -- cbn [length] in *. lia.
        -- pose proof (B n' d' l' Y ltac:(lia) T). lia.
Qed.

Lemma length_below m : forall n d l, 0 < n < d -> d < 2 ^ Z.of_nat (S (S m)) -> clog_seq (zq n / zq d) l ->
  (length l < tri (S m))%nat.
Proof.
  enough (X : (forall n d l, 0 < n < d -> d < 2 ^ Z.of_nat (S m) -> clog_seq (zq n / zq d) l -> (1 <= m)%nat -> (length l < tri m)%nat) /\
              (forall n d l, 0 < n < d -> d < 2 ^ Z.of_nat (S (S m)) -> clog_seq (zq n / zq d) l -> (length l < tri (S m))%nat))
    by apply X.
  induction m as [|m [IH1 IH2]]; split.
  - lia.
  - (* denominators 2 and 3 *)
    intros n d l H D Sq. change (2 ^ Z.of_nat 2) with 4 in D. cbn [tri].
    pose proof (next n d l H Sq) as N. destruct l as [|[|] l]; cbv beta iota in N; cbn [length]; [lia| |].
    + destruct N as [N S']. assert (d = 3) by lia. assert (n = 1) by lia. subst.
      pose proof (next (2 * 1) 3 l ltac:(lia) S') as N'. destruct l as [|[|] l]; cbv beta iota in N'; cbn [length]; try lia.
      destruct N' as [_ N']. pose proof (next (3 - 2 * 1) (2 * 1) l ltac:(lia) N') as N2.
      destruct l as [|[|] l]; cbn [length]; lia.
    + destruct N as [N S']. assert (d = 3) by lia. assert (n = 2) by lia. subst.
      pose proof (next (3 - 2) 2 l ltac:(lia) S') as N2. destruct l as [|[|] l]; cbn [length]; lia.
  - intros n d l H D Sq _. exact (IH2 n d l H D Sq).
  - intros n d l H D Sq.
    destruct (halve (S (S m)) n d l ltac:(lia) H D Sq) as [L|(n' & d' & l' & L & H' & S' & [D'|[-> D']])].
    + cbn [tri]. lia.
    + pose proof (IH2 n' d' l' H' D' S'). cbn [tri] in *. lia.
    + assert (X : (length l' < tri (S m))%nat); [|cbn [tri] in *; lia]. destruct m as [|m].
      * (* denominator 4 *)
        change (2 ^ Z.of_nat 2) with 4 in *. cbn [tri].
        pose proof (next n' 4 l' H' S') as N. destruct l' as [|[|] l']; cbv beta iota in N; cbn [length]; try lia.
        destruct N as [N S2]. assert (n' = 1) by lia. subst.
        pose proof (next (2 * 1) 4 l' ltac:(lia) S2) as N2. destruct l' as [|[|] l']; cbn [length]; lia.
      * apply (at_power (S m) n'); auto; try lia. intros n0 d0 l0 A1 A2 A3. apply (IH1 n0 d0); auto. lia.
Qed.

(** With the denominator below 2^m there are at most (m^2 + 3 m) / 2 - 3 symbols. *)
Theorem bound_below m n d l : 2 <= m -> 0 < n < d -> d < 2 ^ m -> clog_seq (zq n / zq d) l ->
  2 * Z.of_nat (length l) <= m * m + 3 * m - 6.
Proof.
  intros M H D Sq. replace m with (Z.of_nat (S (S (Z.to_nat (m - 2))))) in D by lia.
  pose proof (length_below _ n d l H D Sq) as L. pose proof (tri_eq (S (Z.to_nat (m - 2)))) as T. nia.
Qed.

(** ** Below *)

Lemma amplified a : forall n d l, 0 < n -> 2 ^ Z.of_nat a * n < d -> clog_seq (zq (2 ^ Z.of_nat a * n) / zq d) l ->
  clog_seq (zq n / zq d) (repeat Amplify a ++ l).
Proof.
  induction a as [|a IH]; intros n d l H D S.
  - cbn [repeat app]. eapply clog_seq_compat; [exact S|]. now rewrite Z.pow_0_r, Z.mul_1_l.
  - rewrite pow2_succ in *. pose proof (pow2_pos a) as P. cbn [repeat app].
    assert (Dq : (0 < zq d)%Q) by (apply zq_pos; nia). assert (Nq : (0 < zq n)%Q) by now apply zq_pos.
    apply seq_amplify.
    + apply Qlt_shift_div_l; lra.
    + apply Qlt_shift_div_r; [exact Dq|]. assert (2 * n < d) by nia.
      assert (X : (zq (2 * n) < zq d)%Q) by (apply (proj1 (zq_lt _ _)); lia). rewrite zq_mul, zq_2 in X. lra.
    + apply (clog_seq_compat (zq (2 * n) / zq d)%Q).
      * apply IH; [lia|nia|]. eapply clog_seq_compat; [exact S|]. now replace (2 ^ Z.of_nat a * (2 * n)) with (2 * 2 ^ Z.of_nat a * n) by ring.
      * rewrite zq_mul, zq_2. field. lra.
Qed.

Lemma uncovered n d l : 0 < n < d -> d < 2 * n -> clog_seq (zq (d - n) / zq n) l -> clog_seq (zq n / zq d) (Uncover :: l).
Proof.
  intros H D S. assert (Dq : (0 < zq d)%Q) by (apply zq_pos; lia). assert (Nq : (0 < zq n)%Q) by (apply zq_pos; lia).
  apply seq_uncover.
  - apply Qlt_shift_div_l; [exact Dq|]. assert (X : (zq d < zq (2 * n))%Q) by (apply (proj1 (zq_lt _ _)); lia). rewrite zq_mul, zq_2 in X. lra.
  - apply Qlt_shift_div_r; [exact Dq|]. assert (X : (zq n < zq d)%Q) by (apply (proj1 (zq_lt _ _)); lia). lra.
  - eapply clog_seq_compat; [exact S|]. rewrite zq_sub. field. split; lra.
Qed.

(** 1 / (2^m - 1), and (2^m - 1) / 2^m. *)
Lemma reached m : exists l, clog_seq (zq 1 / zq (2 ^ Z.of_nat (S (S m)) - 1)) l /\ S (length l) = tri (S m).
Proof.
  induction m as [|m (l & Sq & L)].
  - exists [Amplify; Uncover]. split; [|reflexivity]. change (2 ^ Z.of_nat 2 - 1) with 3.
    apply (amplified 1); [lia|reflexivity|]. apply uncovered; [cbn; lia|cbn; lia|]. apply seq_end. reflexivity.
  - exists (repeat Amplify (S (S m)) ++ Uncover :: Uncover :: l). split.
    + pose proof (pow2_pos m) as P. apply amplified; [lia|rewrite !(pow2_succ); lia|]. rewrite Z.mul_1_r.
      rewrite (pow2_succ (S (S m))) in *. assert (3 < 2 ^ Z.of_nat (S (S m))) by (rewrite !pow2_succ; lia).
      set (e := 2 ^ Z.of_nat (S (S m))) in *. apply uncovered; [lia|lia|].
      replace (2 * e - 1 - e) with (e - 1) by lia. apply uncovered; [lia|lia|].
      replace (e - (e - 1)) with 1 by lia. exact Sq.
    + rewrite app_length, repeat_length. cbn [length tri] in *. lia.
Qed.

Theorem bound_reached m : 2 <= m -> exists l, clog_seq (zq 1 / zq (2 ^ m - 1)) l /\
  2 * Z.of_nat (length l) = m * m + 3 * m - 6.
Proof.
  intro M. destruct (reached (Z.to_nat (m - 2))) as (l & Sq & L).
  replace (Z.of_nat (S (S (Z.to_nat (m - 2))))) with m in Sq by lia.
  exists l. split; [exact Sq|]. pose proof (tri_eq (S (Z.to_nat (m - 2)))) as T. nia.
Qed.

Theorem bound_at_reached m : 2 <= m -> exists l, clog_seq (zq (2 ^ m - 1) / zq (2 ^ m)) l /\
  2 * Z.of_nat (length l) = m * m + 3 * m - 4.
Proof.
  intro M. destruct (bound_reached m M) as (l & Sq & L). exists (Uncover :: l).
  assert (4 <= 2 ^ m) by (change 4 with (2 ^ 2); apply Z.pow_le_mono_r; lia). split.
  - apply uncovered; [lia|lia|]. now replace (2 ^ m - (2 ^ m - 1)) with 1 by lia.
  - cbn [length]. lia.
Qed.

(** ** Numbers *)

(** Numbers whose symbols are those of a fraction in (0, 1). *)
Lemma ratio_u_frac k (pos : bool) num den p c l c' : usize k num -> usize k den ->
  number_ratio_u pos num den = Ok (NOther p c) -> egests k c l c' ->
  exists a b l', 0 < a < b /\ b <= Z.max num den /\ clog_seq (zq a / zq b) l' /\ (length l <= length l')%nat.
Proof.
  intros In Id H E. pose proof (made_u_good k (fun _ => False) pos num den _ In Id H) as G.
  pose proof (ratio_u_den pos num den _ H) as D. cbn [numgood] in G. destruct G as (v & l' & Sq & Ev & G).
  destruct (clog_seq_range _ _ Sq) as [V0 V1]. unfold usize in *.
  destruct (unprimed_frac p v num den pos) as (a & b & Hab & Hb & Hv); auto; try lia.
  destruct (good_egests k l' c G) as (c1 & c2 & H1 & H2 & H3).
  exists a, b, l'. repeat (split; [eassumption|]). split; [eapply clog_seq_compat; eauto|].
  exact (LongProofs.egests_prefix k _ _ _ _ H1 H2 _ _ E).
Qed.
