(** * Property C75: how much n symbols tell about a number. *)

From Coq Require Import ZArith QArith Qreals Reals List Lia Lra.
From Verif Require Import Machine Protocol Types Lib Spec SpecReal SpecWorth Good.
From Verif Require Import SpecRate.
From Verif Require ArithProofs WorthProofs RateProofs.
Import ListNotations.
Open Scope R_scope.

(** Every symbol shrinks the uncertainty to less than 3/5. *)
Theorem c75_precision l x y : 0 < x < 1 -> 0 < y < 1 -> starts x l -> starts y l ->
  Rabs (x - y) < (3 / 5) ^ length l.
Proof.
  intros X Y A B. rewrite <- WorthProofs.far_zero.
  pose proof (WorthProofs.within l 0 x y ltac:(lra) X Y A B) as W.
  pose proof (WorthProofs.wide_le l 0 ltac:(lra)) as L. lra.
Qed.
Print Assumptions c75_precision.

(** Uncover, Amplify, Amplify, Amplify, again and again, shrinks it to no less than 1/10 in four symbols. *)
Theorem c75_slow m e : e < (1 / 10) ^ m ->
  let l := concat (repeat [Uncover; Amplify; Amplify; Amplify] m) in
  exists x y, 0 < x < 1 /\ 0 < y < 1 /\ starts x l /\ starts y l /\ e < Rabs (x - y).
Proof.
  intros E l. pose proof (WorthProofs.wide_slow m 0 ltac:(lra)) as W.
  destruct (WorthProofs.sharp l 0 e ltac:(lra)) as (x & y & X & Y & A & B & F); [unfold l; lra|].
  rewrite WorthProofs.far_zero in F. exists x, y. auto.
Qed.
Print Assumptions c75_slow.

(** Exactly: the fourth root of 5 - 2 sqrt 6 per symbol, 0.56377..., but for a factor of 4/3 in all. *)
Theorem c75_rate l x y : 0 < x < 1 -> 0 < y < 1 -> starts x l -> starts y l ->
  Rabs (x - y) < 4 / 3 * rate ^ length l.
Proof.
  intros X Y A B. rewrite <- WorthProofs.far_zero.
  pose proof (WorthProofs.within l 0 x y ltac:(lra) X Y A B) as W.
  pose proof (RateProofs.wide_rate_zero l) as L. lra.
Qed.
Print Assumptions c75_rate.

Theorem c75_rate_reached m e : e < rate ^ (4 * m) ->
  let l := concat (repeat [Uncover; Amplify; Amplify; Amplify] m) in
  exists x y, 0 < x < 1 /\ 0 < y < 1 /\ starts x l /\ starts y l /\ e < Rabs (x - y).
Proof.
  intros E l. pose proof (RateProofs.wide_cycle_zero m) as W.
  destruct (WorthProofs.sharp l 0 e ltac:(lra)) as (x & y & X & Y & A & B & F); [unfold l; lra|].
  rewrite WorthProofs.far_zero in F. exists x, y. auto.
Qed.
Print Assumptions c75_rate_reached.

Theorem c75_rate_is : rate ^ 4 = 5 - 2 * sqrt 6 /\ 0.5637 < rate < 0.5639.
Proof. split; [exact RateProofs.rate_four|exact RateProofs.rate_bounds]. Qed.
Print Assumptions c75_rate_is.

(** No n symbols tell more than n uncovers do. *)
Theorem c75_most l e : e < / IZR (fib (length l) * fib (S (length l))) ->
  exists x y, 0 < x < 1 /\ 0 < y < 1 /\ starts x l /\ starts y l /\ e < Rabs (x - y).
Proof.
  intro E. rewrite <- WorthProofs.narrow_zero in E. pose proof (WorthProofs.wide_ge l 0 ltac:(lra)) as W.
  destruct (WorthProofs.sharp l 0 e ltac:(lra) ltac:(lra)) as (x & y & X & Y & A & B & F).
  rewrite WorthProofs.far_zero in F. exists x, y. auto.
Qed.
Print Assumptions c75_most.

Theorem c75_uncovers n x y : 0 < x < 1 -> 0 < y < 1 -> starts x (repeat Uncover n) -> starts y (repeat Uncover n) ->
  Rabs (x - y) < / IZR (fib n * fib (S n)).
Proof.
  intros X Y A B. rewrite <- WorthProofs.narrow_zero, <- WorthProofs.far_zero, <- WorthProofs.wide_uncovers by lra.
  apply WorthProofs.within; auto. lra.
Qed.
Print Assumptions c75_uncovers.

Lemma read_starts k l : ovf k = true -> forall c v c', clog_has k c v -> egests k c l c' -> starts (Q2R v) l.
Proof.
  intros O. assert (H2 : Q2R (1 # 2) = 1 / 2) by (unfold Q2R; cbn; lra).
  induction l as [|s l IH]; intros c v c' H E; [exists (Q2R v); constructor|].
  inversion E as [|? ? c1 ? ? R E']; subst.
  destruct (ArithProofs.egest_value k c v O H) as [([o c2] & S & W)|S]; [|destruct S as [S|S]; pose proof (settles_det _ _ _ R S); discriminate].
  pose proof (settles_det _ _ _ R S) as X. injection X as <- <-. destruct W as [W H1].
  destruct (IH c1 _ c' H1 E') as [x' Ex].
  unfold spec_symbol in W. unfold spec_rest in *. destruct (v ?= 1 # 2)%Q eqn:C; try discriminate; injection W as ->; exists x'.
  - apply Qlt_alt, Qlt_Rlt in C. rewrite H2 in C. constructor; [exact C|].
    rewrite Q2R_mult in Ex. replace (Q2R 2) with 2 in Ex by (unfold Q2R; cbn; lra). exact Ex.
  - apply Qgt_alt in C. pose proof (Qlt_Rlt _ _ C) as C'. rewrite H2 in C'. constructor; [exact C'|].
    rewrite Q2R_minus, Q2R_inv in Ex.
    + replace (Q2R 1) with 1 in Ex by (unfold Q2R; cbn; lra). exact Ex.
    + intro Z. rewrite Z in C. discriminate.
Qed.

(** So two numbers off which the same n symbols have been read, by any history, are as close. *)
Theorem c75_read k1 k2 l c d v w c' d' : ovf k1 = true -> ovf k2 = true -> clog_has k1 c v -> clog_has k2 d w ->
  egests k1 c l c' -> egests k2 d l d' -> Rabs (Q2R v - Q2R w) < (3 / 5) ^ length l.
Proof.
  intros O1 O2 H1 H2 E1 E2.
  assert (R : forall k c v, ovf k = true -> clog_has k c v -> 0 < Q2R v < 1).
  { intros k x q O H. destruct (ArithProofs.has_range k x q O H) as [A B]. apply Qlt_Rlt in A, B.
    unfold Q2R in *. cbn in A, B |- *. lra. }
  apply c75_precision; [exact (R _ _ _ O1 H1)|exact (R _ _ _ O2 H2)|exact (read_starts k1 l O1 c v c' H1 E1)|exact (read_starts k2 l O2 d w d' H2 E2)].
Qed.
Print Assumptions c75_read.

Theorem c75_read_rate k1 k2 l c d v w c' d' : ovf k1 = true -> ovf k2 = true -> clog_has k1 c v -> clog_has k2 d w ->
  egests k1 c l c' -> egests k2 d l d' -> Rabs (Q2R v - Q2R w) < 4 / 3 * rate ^ length l.
Proof.
  intros O1 O2 H1 H2 E1 E2.
  assert (R : forall k c v, ovf k = true -> clog_has k c v -> 0 < Q2R v < 1).
  { intros k x q O H. destruct (ArithProofs.has_range k x q O H) as [A B]. apply Qlt_Rlt in A, B.
    unfold Q2R in *. cbn in A, B |- *. lra. }
  apply c75_rate; [exact (R _ _ _ O1 H1)|exact (R _ _ _ O2 H2)|exact (read_starts k1 l O1 c v c' H1 E1)|exact (read_starts k2 l O2 d w d' H2 E2)].
Qed.
Print Assumptions c75_read_rate.

(** 1/3 and 2/5 share two symbols; 2/3 and 3/5 share an uncover. *)
Example c75_ex : starts (1 / 3) [Amplify; Uncover] /\ starts (2 / 5) [Amplify; Uncover] /\
  Rabs (1 / 3 - 2 / 5) < (3 / 5) ^ 2 /\ starts (2 / 3) (repeat Uncover 1) /\ starts (3 / 5) (repeat Uncover 1) /\
  (fib 1 * fib 2)%Z = 2%Z.
Proof.
  assert (A : Rabs (1 / 3 - 2 / 5) = 1 / 15) by (rewrite Rabs_left; lra). rewrite A.
  split; [eexists; repeat (constructor; [lra|]); constructor|]. split; [eexists; repeat (constructor; [lra|]); constructor|].
  split; [cbn; lra|]. split; [eexists; constructor; [lra|]; constructor|]. split; [eexists; constructor; [lra|]; constructor|]. reflexivity.
Qed.
