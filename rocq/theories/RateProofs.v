(** * RateProofs: exactly how fast n symbols pin a value down (C75).

    The values that begin with l lie within the width of the image of (0, 1) under a map
    (a t + b) / (c t + d).  An amplification turns (c, d) into (c, 2 d), an uncover into
    (d, c + d).  Four linear forms in c and d bound the growth of (c, d) from below; they
    are those that the slowest sequence, Uncover Amplify Amplify Amplify, leaves alone. *)

From Coq Require Import ZArith Reals List Lia Lra Psatz.
From Verif Require Import Protocol SpecReal SpecRate.
From Verif Require Import WorthProofs.
Import ListNotations.
Open Scope R_scope.

Definition form : R := 2 * sqrt 6 - 4.
Definition su : R := sqrt (/ rate).
Definition sa : R := sqrt (2 * / rate).

Lemma six : 2.44948 < sqrt 6 < 2.4495 /\ sqrt 6 * sqrt 6 = 6.
Proof.
  assert (S : sqrt 6 * sqrt 6 = 6) by (apply sqrt_sqrt; lra). assert (P : 0 <= sqrt 6) by apply sqrt_pos.
  split; [|exact S]. split; apply Rnot_le_lt; intro H.
  - assert (sqrt 6 * sqrt 6 <= 2.44948 * 2.44948) by (apply Rmult_le_compat; lra). lra.
  - assert (2.4495 * 2.4495 <= sqrt 6 * sqrt 6) by (apply Rmult_le_compat; lra). lra.
Qed.

Lemma between x lo hi : 0 <= x -> 0 < lo -> 0 < hi -> lo * lo < x * x < hi * hi -> lo < x < hi.
Proof.
  intros X L H [A B]. split; apply Rnot_le_lt; intro N.
  - assert (x * x <= lo * lo) by (apply Rmult_le_compat; lra). lra.
  - assert (hi * hi <= x * x) by (apply Rmult_le_compat; lra). lra.
Qed.

Lemma rate_four : rate ^ 4 = 5 - 2 * sqrt 6.
Proof.
  destruct six as [A _]. assert (P : 0 <= 5 - 2 * sqrt 6) by lra. pose proof (sqrt_pos (5 - 2 * sqrt 6)) as Q.
  unfold rate. replace (sqrt (sqrt (5 - 2 * sqrt 6)) ^ 4) with
    ((sqrt (sqrt (5 - 2 * sqrt 6)) * sqrt (sqrt (5 - 2 * sqrt 6))) * (sqrt (sqrt (5 - 2 * sqrt 6)) * sqrt (sqrt (5 - 2 * sqrt 6)))) by ring.
  rewrite sqrt_sqrt by exact Q. now rewrite sqrt_sqrt.
Qed.

Lemma rate_bounds : 0.5637 < rate < 0.5639.
Proof.
  destruct six as [A _]. pose proof rate_four as F. assert (P : 0 <= rate) by apply sqrt_pos.
  apply between; [exact P|lra|lra|]. apply between; [now apply Rmult_le_pos|lra|lra|].
  replace (rate * rate * (rate * rate)) with (rate ^ 4) by ring. rewrite F. lra.
Qed.

Lemma inv_rate : 1.7733 < / rate < 1.7741.
Proof.
  pose proof rate_bounds. split.
  - apply Rmult_lt_reg_r with rate; [lra|]. rewrite Rinv_l; lra.
  - apply Rmult_lt_reg_r with rate; [lra|]. rewrite Rinv_l; lra.
Qed.

Lemma su_sq : su * su = / rate.
Proof. apply sqrt_sqrt. pose proof inv_rate. lra. Qed.
Lemma sa_sq : sa * sa = 2 * / rate.
Proof. apply sqrt_sqrt. pose proof inv_rate. lra. Qed.
Lemma su_bounds : 1.3316 < su < 1.3320.
Proof. pose proof inv_rate. apply between; [apply sqrt_pos|lra|lra|]. rewrite su_sq. lra. Qed.
Lemma sa_bounds : 1.8832 < sa < 1.8837.
Proof. pose proof inv_rate. apply between; [apply sqrt_pos|lra|lra|]. rewrite sa_sq. lra. Qed.
Lemma form_bounds : 0.8988 < form < 0.8990.
Proof. destruct six. unfold form. lra. Qed.
Lemma form_eigen : form * (8 + form) = 8.
Proof.
  destruct six as [_ S]. unfold form.
  replace ((2 * sqrt 6 - 4) * (8 + (2 * sqrt 6 - 4))) with (4 * (sqrt 6 * sqrt 6) - 16) by ring. rewrite S. lra.
Qed.

Lemma cycle : sa * sa * sa * su = 8 + form.
Proof.
  pose proof su_bounds. pose proof sa_bounds. pose proof form_bounds. pose proof rate_bounds. destruct six as [B S].
  assert (P : 0 <= sa * sa * sa * su) by (repeat apply Rmult_le_pos; lra).
  apply Rsqr_inj; [exact P|lra|]. unfold Rsqr.
  replace (sa * sa * sa * su * (sa * sa * sa * su)) with ((sa * sa) * (sa * sa) * (sa * sa) * (su * su)) by ring.
  rewrite su_sq, sa_sq.
  replace (2 * / rate * (2 * / rate) * (2 * / rate) * / rate) with (8 * / (rate ^ 4)) by (field; lra).
  rewrite rate_four. unfold form.
  apply Rmult_eq_reg_r with (5 - 2 * sqrt 6); [|lra].
  rewrite Rmult_assoc, Rinv_l, Rmult_1_r by lra.
  replace ((8 + (2 * sqrt 6 - 4)) * (8 + (2 * sqrt 6 - 4)) * (5 - 2 * sqrt 6)) with
    (80 + 48 * sqrt 6 - 12 * (sqrt 6 * sqrt 6) - 8 * sqrt 6 * (sqrt 6 * sqrt 6)) by ring.
  rewrite S. ring.
Qed.

Definition under (t c d : R) : Prop :=
  t <= form * c + d /\ sa * t <= form * c + 2 * d /\ sa * sa * t <= form * c + 4 * d /\ sa * sa * sa * t <= form * c + 8 * d.

Lemma under_amplify t c d : 0 <= c <= d -> under t c d -> under (sa * t) c (2 * d).
Proof.
  intros C (H0 & H1 & H2 & H3). pose proof sa_bounds as A. pose proof form_bounds as F. unfold under.
  split; [lra|]. split; [lra|]. split; [lra|].
  assert (X : sa * (sa * sa * sa * t) <= sa * (form * c + 8 * d)) by (apply Rmult_le_compat_l; lra).
  assert (Y : (sa - 1) * (form * c) <= 0.8837 * (0.8990 * d)).
  { assert (0 <= form * c) by (apply Rmult_le_pos; lra).
    assert (form * c <= 0.8990 * d) by (apply Rmult_le_compat; lra).
    apply Rmult_le_compat; lra. }
  assert (Z : sa * d <= 1.8837 * d) by (apply Rmult_le_compat_r; lra).
  lra.
Qed.

Lemma under_uncover t c d : 0 <= c <= d -> 0 < t -> under t c d -> under (su * t) d (c + d).
Proof.
  intros C T (H0 & H1 & H2 & H3). pose proof sa_bounds as A. pose proof su_bounds as U. pose proof form_bounds as F.
  assert (AU : 0 < sa * su < 2.5092).
  { split; [apply Rmult_lt_0_compat; lra|]. apply Rlt_le_trans with (1.8837 * 1.3320); [apply Rmult_gt_0_lt_compat; lra|lra]. }
  assert (AAU : 0 < sa * (sa * su) < 4.7266).
  { split; [apply Rmult_lt_0_compat; lra|]. apply Rlt_le_trans with (1.8837 * 2.5092); [apply Rmult_gt_0_lt_compat; lra|lra]. }
  assert (FC : 0 <= form * c <= 0.8990 * c) by (split; [apply Rmult_le_pos; lra|apply Rmult_le_compat_r; lra]).
  assert (FD : 0.8988 * d <= form * d) by (apply Rmult_le_compat_r; lra).
  assert (M : forall x y z hi, 0 <= x <= hi -> 0 <= y -> y <= z -> x * y <= hi * z).
  { intros. apply Rmult_le_compat; lra. }
  unfold under. split; [|split; [|split]].
  - pose proof (M su t (0.8990 * c + d) 1.3320 ltac:(lra) ltac:(lra) ltac:(lra)). lra.
  - pose proof (M (sa * su) t (0.8990 * c + d) 2.5092 ltac:(lra) ltac:(lra) ltac:(lra)). lra.
  - pose proof (M (sa * (sa * su)) t (0.8990 * c + d) 4.7266 ltac:(lra) ltac:(lra) ltac:(lra)) as X.
    assert (ST : 0 <= sa * t) by (apply Rmult_le_pos; lra).
    pose proof (M (sa * su) (sa * t) (0.8990 * c + 2 * d) 2.5092 ltac:(lra) ST ltac:(lra)) as Y.
    replace (sa * sa * (su * t)) with (sa * (sa * su) * t) by ring.
    replace (sa * su * (sa * t)) with (sa * (sa * su) * t) in Y by ring. lra.
  - replace (sa * sa * sa * (su * t)) with ((sa * sa * sa * su) * t) by ring. rewrite cycle.
    replace (form * d + 8 * (c + d)) with (form * (8 + form) * c + (8 + form) * d) by (rewrite form_eigen; ring).
    replace (form * (8 + form) * c + (8 + form) * d) with ((8 + form) * (form * c + d)) by ring.
    apply Rmult_le_compat_l; lra.
Qed.

Lemma wide_rate l : forall c d t, 0 <= c <= d -> 0 < d -> 0 < t -> under t c d ->
  wide l (c / d) * (t * t) <= 4 / 3 * (d * (c + d)) * rate ^ length l.
Proof.
  pose proof sa_bounds as A. pose proof su_bounds as U. pose proof form_bounds as F. pose proof rate_bounds as W.
  induction l as [|[|] l IH]; intros c d t C D T H; cbn [wide length pow].
  - destruct H as (H0 & _ & _ & H3). rewrite Rmult_1_l, Rmult_1_r.
    assert (FC : form * c <= 1 * c) by (apply Rmult_le_compat_r; lra).
    assert (X : t <= su * d).
    { assert (S3 : 0 < sa * sa * sa) by (repeat apply Rmult_lt_0_compat; lra).
      apply Rmult_le_reg_l with (sa * sa * sa); [exact S3|].
      replace (sa * sa * sa * (su * d)) with ((sa * sa * sa * su) * d) by ring. rewrite cycle.
      assert (form * c <= form * d) by (apply Rmult_le_compat_l; lra). lra. }
    assert (Y : su * d <= 4 / 3 * d) by (apply Rmult_le_compat_r; lra).
    apply Rle_trans with ((4 / 3 * d) * (c + d)); [apply Rmult_le_compat; lra|lra].
  - specialize (IH c (2 * d) (sa * t) ltac:(lra) ltac:(lra) ltac:(apply Rmult_lt_0_compat; lra) (under_amplify t c d C H)).
    replace (c / d / 2) with (c / (2 * d)) by (field; lra). set (x := wide l (c / (2 * d))) in *.
    replace (sa * t * (sa * t)) with ((sa * sa) * (t * t)) in IH by ring. rewrite sa_sq in IH.
    replace ((1 + c / d) / (2 + c / d)) with ((c + d) / (c + 2 * d)) by (field; lra).
    assert (P : 0 < (c + d) / (c + 2 * d) * (rate / 2)) by (apply Rmult_lt_0_compat; [apply Rdiv_lt_0_compat; lra|lra]).
    apply Rmult_le_compat_l with (r := (c + d) / (c + 2 * d) * (rate / 2)) in IH; [|lra].
    replace ((c + d) / (c + 2 * d) * (rate / 2) * (x * (2 * / rate * (t * t)))) with ((c + d) / (c + 2 * d) * x * (t * t)) in IH by (field; lra).
    replace ((c + d) / (c + 2 * d) * (rate / 2) * (4 / 3 * (2 * d * (c + 2 * d)) * rate ^ length l))
      with (4 / 3 * (d * (c + d)) * (rate * rate ^ length l)) in IH by (field; lra).
    exact IH.
  - specialize (IH d (c + d) (su * t) ltac:(lra) ltac:(lra) ltac:(apply Rmult_lt_0_compat; lra) (under_uncover t c d C T H)).
    replace (/ (1 + c / d)) with (d / (c + d)) by (field; lra). set (x := wide l (d / (c + d))) in *.
    replace (su * t * (su * t)) with ((su * su) * (t * t)) in IH by ring. rewrite su_sq in IH.
    replace (/ (2 + c / d)) with (d / (c + 2 * d)) by (field; lra).
    assert (P : 0 < d / (c + 2 * d) * rate) by (apply Rmult_lt_0_compat; [apply Rdiv_lt_0_compat; lra|lra]).
    apply Rmult_le_compat_l with (r := d / (c + 2 * d) * rate) in IH; [|lra].
    replace (d / (c + 2 * d) * rate * (x * (/ rate * (t * t)))) with (d / (c + 2 * d) * x * (t * t)) in IH by (field; lra).
    replace (d / (c + 2 * d) * rate * (4 / 3 * ((c + d) * (d + (c + d))) * rate ^ length l))
      with (4 / 3 * (d * (c + d)) * (rate * rate ^ length l)) in IH by (field; lra).
    exact IH.
Qed.

Theorem wide_rate_zero l : wide l 0 <= 4 / 3 * rate ^ length l.
Proof.
  pose proof sa_bounds as A.
  assert (A2 : sa * sa <= 4) by (apply Rle_trans with (2 * 2); [apply Rmult_le_compat; lra|lra]).
  assert (A3 : sa * sa * sa <= 8) by (apply Rle_trans with (4 * 2); [apply Rmult_le_compat; try lra; apply Rmult_le_pos; lra|lra]).
  pose proof (wide_rate l 0 1 1 ltac:(lra) ltac:(lra) ltac:(lra)) as H.
  replace (0 / 1) with 0 in H by field. unfold under in H. specialize (H ltac:(lra)). lra.
Qed.

(** The slowest sequence. *)
Lemma wide_cycle m : forall c d, 0 <= c <= d -> 0 < d ->
  d * (c + d) * (5 - 2 * sqrt 6) ^ m <= wide (concat (repeat [Uncover; Amplify; Amplify; Amplify] m)) (c / d) * ((form * c + d) * (form * c + d)).
Proof.
  pose proof form_bounds as F. destruct six as [B S].
  induction m as [|m IH]; intros c d C D; cbn [repeat concat app wide pow].
  - assert (FC : 1 / 2 * c <= form * c) by (apply Rmult_le_compat_r; lra).
    assert (X : 0 <= form * c) by (apply Rmult_le_pos; lra).
    assert (Y : 0 <= (form * c) * (form * c)) by (now apply Rmult_le_pos).
    assert (Z : d * (1 / 2 * c) <= d * (form * c)) by (apply Rmult_le_compat_l; lra). lra.
  - specialize (IH d (8 * (c + d)) ltac:(lra) ltac:(lra)).
    replace (/ (1 + c / d) / 2 / 2 / 2) with (d / (8 * (c + d))) by (field; lra).
    set (x := wide (concat (repeat [Uncover; Amplify; Amplify; Amplify] m)) (d / (8 * (c + d)))) in *.
    assert (E : form * d + 8 * (c + d) = (8 + form) * (form * c + d)).
    { replace ((8 + form) * (form * c + d)) with (form * (8 + form) * c + (8 + form) * d) by ring. rewrite form_eigen. ring. }
    rewrite E in IH.
    replace (/ (2 + c / d) * ((1 + / (1 + c / d)) / (2 + / (1 + c / d)) * ((1 + / (1 + c / d) / 2) / (2 + / (1 + c / d) / 2) *
      ((1 + / (1 + c / d) / 2 / 2) / (2 + / (1 + c / d) / 2 / 2) * x)))) with (d / (8 * c + 9 * d) * x) by (field; repeat split; lra).
    assert (P : 0 < d / (8 * c + 9 * d) * ((5 - 2 * sqrt 6) / 8)) by (apply Rmult_lt_0_compat; [apply Rdiv_lt_0_compat; lra|lra]).
    apply Rmult_le_compat_l with (r := d / (8 * c + 9 * d) * ((5 - 2 * sqrt 6) / 8)) in IH; [|lra].
    assert (G : (8 + form) * (8 + form) * ((5 - 2 * sqrt 6) / 8) = 1).
    { unfold form. replace ((8 + (2 * sqrt 6 - 4)) * (8 + (2 * sqrt 6 - 4)) * ((5 - 2 * sqrt 6) / 8)) with
        ((80 + 48 * sqrt 6 - 12 * (sqrt 6 * sqrt 6) - 8 * sqrt 6 * (sqrt 6 * sqrt 6)) / 8) by field. rewrite S. field. }
    replace (d / (8 * c + 9 * d) * ((5 - 2 * sqrt 6) / 8) * (x * ((8 + form) * (form * c + d) * ((8 + form) * (form * c + d)))))
      with (d / (8 * c + 9 * d) * x * ((form * c + d) * (form * c + d)) * ((8 + form) * (8 + form) * ((5 - 2 * sqrt 6) / 8))) in IH by (field; lra).
    rewrite G, Rmult_1_r in IH.
    replace (d / (8 * c + 9 * d) * ((5 - 2 * sqrt 6) / 8) * (8 * (c + d) * (d + 8 * (c + d)) * (5 - 2 * sqrt 6) ^ m))
      with (d * (c + d) * ((5 - 2 * sqrt 6) * (5 - 2 * sqrt 6) ^ m)) in IH by (field; lra).
    exact IH.
Qed.

Theorem wide_cycle_zero m : rate ^ (4 * m) <= wide (concat (repeat [Uncover; Amplify; Amplify; Amplify] m)) 0.
Proof.
  pose proof (wide_cycle m 0 1 ltac:(lra) ltac:(lra)) as H. replace (0 / 1) with 0 in H by field.
  rewrite pow_mult, rate_four. lra.
Qed.
