(** * LogProofs: symbol sequences are continued logarithms. *)

From Coq Require Import ZArith QArith Qfield List Lia Lqa.
From Verif Require Import Machine Protocol Types Lib Spec SpecLog.
From Verif Require SeqProofs ApiProofs.
Import ListNotations.
Open Scope Q_scope.

Lemma two_pos a : 0 < two a.
Proof. unfold two. change 0 with (inject_Z 0). rewrite <- Zlt_Qlt. apply Z.pow_pos_nonneg; lia. Qed.

Lemma two_S a : two (S a) == 2 * two a.
Proof. unfold two. rewrite Nat2Z.inj_succ, Z.pow_succ_r by lia. rewrite inject_Z_mult. reflexivity. Qed.

Lemma gosper_size l : forall a, two a < gosper a l /\ gosper a l <= two (S a) /\ (gosper a l == two (S a) <-> l = []) /\ 1 < gosper a l.
Proof.
  assert (T1 : forall a, 1 <= two a).
  { intro a. unfold two. change 1 with (inject_Z 1). rewrite <- Zle_Qle. pose proof (Z.pow_pos_nonneg 2 (Z.of_nat a)). lia. }
  induction l as [|b l IH]; intro a; cbn [gosper]; pose proof (two_S a) as S; pose proof (T1 a) as P.
  - repeat split; auto; lra.
  - destruct (IH b) as (_ & _ & _ & G).
    assert (I : 0 < / gosper b l) by (apply Qinv_lt_0_compat; lra).
    assert (J : / gosper b l < 1).
    { apply Qmult_lt_l with (gosper b l); [lra|]. rewrite Qmult_inv_r by lra. lra. }
    unfold Qdiv. repeat split; try discriminate; try nra; intro E; nra.
Qed.

Lemma gosper_inv a l : 0 < / gosper a l /\ / gosper a l < 1.
Proof.
  destruct (gosper_size l a) as (_ & _ & _ & G). assert (I : 0 < / gosper a l) by (apply Qinv_lt_0_compat; lra).
  split; [exact I|]. apply Qmult_lt_l with (gosper a l); [lra|]. rewrite Qmult_inv_r by lra. lra.
Qed.

Lemma two_0 : two 0 == 1. Proof. reflexivity. Qed.

Lemma gosper_S a l : gosper (S a) l == 2 * gosper a l.
Proof.
  destruct l as [|b l]; cbn [gosper]; rewrite !two_S; [reflexivity|].
  destruct (gosper_size l b) as (_ & _ & _ & G). field. lra.
Qed.

Lemma runs_S a l : runs (S a) l = Amplify :: runs a l.
Proof. destruct l; reflexivity. Qed.

Lemma runs_seq l : forall a, clog_seq (/ gosper a l) (runs a l).
Proof.
  induction l as [|b l IH]; induction a as [|a IHa].
  - apply seq_end. reflexivity.
  - rewrite runs_S. pose proof (gosper_inv a []) as G. pose proof (gosper_inv (S a) []) as G'.
    destruct (gosper_size [] a) as (_ & _ & _ & Ga).
    assert (E : 2 * / gosper (S a) [] == / gosper a []) by (rewrite gosper_S; field; lra).
    apply seq_amplify; [apply G'|lra|]. apply (SeqProofs.clog_seq_compat _ _ IHa). now rewrite E.
  - change (runs 0 (b :: l)) with (Uncover :: runs b l).
    destruct (gosper_size (b :: l) 0) as (_ & U & N & _). pose proof (gosper_inv 0 (b :: l)) as G'.
    destruct (gosper_size l b) as (_ & _ & _ & Gb).
    assert (V : gosper 0 (b :: l) < 2).
    { apply Qle_lteq in U. destruct U as [U|U]; [exact U|]. apply N in U. discriminate. }
    destruct (gosper_size (b :: l) 0) as (_ & _ & _ & G1).
    assert (H : 1 # 2 < / gosper 0 (b :: l)).
    { apply Qmult_lt_l with (gosper 0 (b :: l)); [lra|]. rewrite Qmult_inv_r by lra. lra. }
    apply seq_uncover; [exact H|apply G'|].
    apply (SeqProofs.clog_seq_compat _ _ (IH b)).
    cbn [gosper]. rewrite Qinv_involutive, two_0. field. lra.
  - rewrite runs_S. pose proof (gosper_inv a (b :: l)) as G. pose proof (gosper_inv (S a) (b :: l)) as G'.
    destruct (gosper_size (b :: l) a) as (_ & _ & _ & Ga).
    assert (E : 2 * / gosper (S a) (b :: l) == / gosper a (b :: l)) by (rewrite gosper_S; field; lra).
    apply seq_amplify; [apply G'|lra|]. apply (SeqProofs.clog_seq_compat _ _ IHa). now rewrite E.
Qed.

Lemma runs_all r : exists a l, runs a l = r.
Proof.
  induction r as [|[] r (a & l & IH)].
  - now exists O, [].
  - exists (S a), l. now rewrite runs_S, IH.
  - exists O, (a :: l). cbn. now rewrite IH.
Qed.

Lemma runs_inj l : forall a a' l', runs a l = runs a' l' -> a = a' /\ l = l'.
Proof.
  induction l as [|b l IH]; induction a as [|a IHa]; intros [|a'] [|b' l'] H; rewrite ?runs_S in H; try discriminate; auto.
  - apply (f_equal (@tl _)) in H; cbn [tl] in H. destruct (IHa a' [] H) as [-> _]. auto.
  - apply (f_equal (@tl _)) in H; cbn [tl] in H. destruct (IHa a' _ H) as [-> E]. now split.
  - injection H as H. destruct (IH _ _ _ H) as [-> ->]. auto.
  - apply (f_equal (@tl _)) in H; cbn [tl] in H. destruct (IHa a' _ H) as [-> E]. now split.
  - apply (f_equal (@tl _)) in H; cbn [tl] in H. destruct (IHa a' _ H) as [-> E]. now split.
Qed.

Lemma two_mono a b : (a <= b)%nat -> two a <= two b.
Proof. intro H. unfold two. rewrite <- Zle_Qle. apply Z.pow_le_mono_r; lia. Qed.

Lemma inv_compare x y : 0 < x -> 0 < y -> (/ x ?= / y) = CompOpp (x ?= y).
Proof.
  intros X Y. destruct (x ?= y) eqn:C; cbn [CompOpp].
  - apply Qeq_alt in C. apply Qeq_alt. now rewrite C.
  - apply <- Qlt_alt in C. apply -> Qgt_alt. now apply (proj1 (Qinv_lt_contravar x y X Y)).
  - apply <- Qgt_alt in C. apply -> Qlt_alt. now apply (proj1 (Qinv_lt_contravar y x Y X)).
Qed.

Lemma opp_compare x y : (- x ?= - y) = CompOpp (x ?= y).
Proof.
  destruct (x ?= y) eqn:C; cbn [CompOpp].
  - apply Qeq_alt in C. apply Qeq_alt. now rewrite C.
  - apply <- Qlt_alt in C. apply -> Qgt_alt. now apply Qopp_lt_compat.
  - apply <- Qgt_alt in C. apply -> Qlt_alt. now apply Qopp_lt_compat.
Qed.

Lemma gosper_order l : forall a a' l', (gosper a l ?= gosper a' l') = order a l a' l'.
Proof.
  induction l as [|b l IH]; intros a a' l'; cbn [order];
    destruct (gosper_size l' a') as (A1 & A2 & A3 & A4);
    [destruct (gosper_size [] a) as (B1 & B2 & B3 & B4)|destruct (gosper_size (b :: l) a) as (B1 & B2 & B3 & B4)];
    (destruct (Nat.compare_spec a a') as [->|L|L];
      [|apply -> Qlt_alt; pose proof (two_mono (S a) a' L); lra|apply -> Qgt_alt; pose proof (two_mono (S a') a L); lra]).
  - destruct l' as [|b' l']; [now apply Qeq_alt|]. apply -> Qgt_alt.
    apply Qle_lteq in A2. destruct A2 as [A2|A2]; [exact A2|]. apply A3 in A2. discriminate.
  - destruct l' as [|b' l'].
    + apply -> Qlt_alt. apply Qle_lteq in B2. destruct B2 as [B2|B2]; [exact B2|]. apply B3 in B2. discriminate.
    + rewrite <- IH. destruct (gosper_size l b) as (_ & _ & _ & G). destruct (gosper_size l' b') as (_ & _ & _ & G').
      rewrite <- inv_compare by lra. cbn [gosper]. unfold Qdiv. pose proof (two_pos a') as P.
      destruct (/ gosper b l ?= / gosper b' l') eqn:C.
      * apply Qeq_alt in C. apply Qeq_alt. now rewrite C.
      * apply <- Qlt_alt in C. apply -> Qlt_alt. nra.
      * apply <- Qgt_alt in C. apply -> Qgt_alt. nra.
Qed.
