(** * WorthProofs: how much n symbols tell about a real number (C75). *)

From Coq Require Import ZArith Reals List Lia Lra Psatz.
From Verif Require Import Protocol SpecReal SpecWorth RealProofs.
Import ListNotations.
Open Scope R_scope.

(** The distance of t and u after the map t (1 + r) / (1 + r t) of (0, 1) onto itself. *)
Definition far r t u := Rabs (t - u) * (1 + r) / ((1 + r * t) * (1 + r * u)).

(** The least upper bound of this distance, for values that start with l. *)
Fixpoint wide (l : list reduction) (r : R) : R :=
  match l with
  | [] => 1
  | Amplify :: l => (1 + r) / (2 + r) * wide l (r / 2)
  | Uncover :: l => / (2 + r) * wide l (/ (1 + r))
  end.

Lemma far_zero t u : far 0 t u = Rabs (t - u).
Proof. unfold far. field. Qed.

Lemma far_amplify r t u : 0 <= r -> 0 < t < 1 -> 0 < u < 1 -> far r (t / 2) (u / 2) = (1 + r) / (2 + r) * far (r / 2) t u.
Proof.
  intros R T U. unfold far. replace (t / 2 - u / 2) with (/ 2 * (t - u)) by field.
  rewrite Rabs_mult, (Rabs_pos_eq (/ 2)) by lra. field. repeat split; nra.
Qed.
Lemma far_uncover r t u : 0 <= r -> 0 < t < 1 -> 0 < u < 1 -> far r (/ (1 + t)) (/ (1 + u)) = / (2 + r) * far (/ (1 + r)) t u.
Proof.
  intros R T U. unfold far. replace (/ (1 + t) - / (1 + u)) with (/ ((1 + t) * (1 + u)) * (u - t)) by (field; lra).
  rewrite Rabs_mult, (Rabs_minus_sym u t), (Rabs_pos_eq (/ ((1 + t) * (1 + u)))).
  - field. repeat split; nra.
  - left. apply Rinv_0_lt_compat, Rmult_lt_0_compat; lra.
Qed.

Lemma far_lt r t u : 0 <= r -> 0 < t < 1 -> 0 < u < 1 -> far r t u < 1.
Proof.
  intros R T U. unfold far. assert (A : 0 <= r * t) by (apply Rmult_le_pos; lra). assert (B : 0 <= r * u) by (apply Rmult_le_pos; lra).
  assert (P : 0 < (1 + r * t) * (1 + r * u)) by (apply Rmult_lt_0_compat; lra).
  apply (Rmult_lt_reg_r ((1 + r * t) * (1 + r * u))); [exact P|].
  replace (Rabs (t - u) * (1 + r) / ((1 + r * t) * (1 + r * u)) * ((1 + r * t) * (1 + r * u))) with (Rabs (t - u) * (1 + r)) by (field; nra).
  unfold Rabs. destruct (Rcase_abs (t - u)); nra.
Qed.
Lemma far_ex r e : 0 <= r -> e < 1 -> exists t u, 0 < t < 1 /\ 0 < u < 1 /\ e < far r t u.
Proof.
  intros R E. pose (e' := Rmax e 0). assert (E' : e <= e' /\ 0 <= e' < 1).
  { unfold e', Rmax. destruct (Rle_dec e 0); lra. }
  pose (p := (1 - e') / 4). assert (P : 0 < p <= 1 / 4) by (unfold p; lra).
  assert (A : 0 < 1 + r - r * p) by nra. assert (B : 0 < 1 + r - r * (1 - p)) by nra.
  exists ((1 - p) / (1 + r - r * (1 - p))), (p / (1 + r - r * p)).
  assert (T : forall q, 0 < q < 1 -> 0 < 1 + r - r * q -> 0 < q / (1 + r - r * q) < 1).
  { intros q Q D. split; [apply Rdiv_lt_0_compat; lra|]. apply (Rmult_lt_reg_r (1 + r - r * q)); [lra|].
    unfold Rdiv. rewrite Rmult_assoc, Rinv_l by lra. nra. }
  split; [apply T; lra|]. split; [apply T; lra|].
  assert (F : far r ((1 - p) / (1 + r - r * (1 - p))) (p / (1 + r - r * p)) = 1 - p - p).
  { unfold far. replace ((1 - p) / (1 + r - r * (1 - p)) - p / (1 + r - r * p)) with ((1 - p - p) * ((1 + r) / ((1 + r - r * (1 - p)) * (1 + r - r * p)))) by (field; lra).
    rewrite Rabs_pos_eq.
    - field. repeat split; try lra.
    - apply Rmult_le_pos; [lra|]. left. apply Rdiv_lt_0_compat; [lra|nra]. }
  rewrite F. unfold p. lra.
Qed.

Lemma wide_pos l : forall r, 0 <= r -> 0 < wide l r.
Proof.
  induction l as [|[|] l IH]; intros r R; cbn [wide]; [lra| |].
  - apply Rmult_lt_0_compat; [apply Rdiv_lt_0_compat; lra|]. apply IH. lra.
  - assert (0 < / (1 + r)) by (apply Rinv_0_lt_compat; lra). apply Rmult_lt_0_compat; [apply Rinv_0_lt_compat; lra|]. apply IH. lra.
Qed.

Lemma within l : forall r t u, 0 <= r -> 0 < t < 1 -> 0 < u < 1 -> starts t l -> starts u l -> far r t u < wide l r.
Proof.
  induction l as [|[|] l IH]; intros r t u R T U [t' Et] [u' Eu]; cbn [wide].
  - now apply far_lt.
  - apply emits_inv in Et, Eu. destruct Et as [Lt Et], Eu as [Lu Eu].
    assert (X := IH (r / 2) (2 * t) (2 * u) ltac:(lra) ltac:(lra) ltac:(lra) (ex_intro _ _ Et) (ex_intro _ _ Eu)).
    replace t with (2 * t / 2) by field. replace u with (2 * u / 2) by field. rewrite far_amplify by lra.
    apply Rmult_lt_compat_l; [apply Rdiv_lt_0_compat; lra|exact X].
  - apply emits_inv in Et, Eu. destruct Et as [Lt Et], Eu as [Lu Eu].
    pose proof (uncover_range t T Lt) as Rt. pose proof (uncover_range u U Lu) as Ru.
    assert (I : 0 < / (1 + r)) by (apply Rinv_0_lt_compat; lra).
    assert (X := IH (/ (1 + r)) (/ t - 1) (/ u - 1) ltac:(lra) Rt Ru (ex_intro _ _ Et) (ex_intro _ _ Eu)).
    replace t with (/ (1 + (/ t - 1))) by (field; lra). replace u with (/ (1 + (/ u - 1))) by (field; lra).
    rewrite far_uncover by lra. apply Rmult_lt_compat_l; [apply Rinv_0_lt_compat; lra|exact X].
Qed.

Lemma sharp l : forall r e, 0 <= r -> e < wide l r ->
  exists t u, 0 < t < 1 /\ 0 < u < 1 /\ starts t l /\ starts u l /\ e < far r t u.
Proof.
  induction l as [|[|] l IH]; intros r e R E; cbn [wide] in E.
  - destruct (far_ex r e R E) as (t & u & T & U & F). exists t, u. repeat split; try lra; eexists; constructor.
  - assert (P : 0 < (1 + r) / (2 + r)) by (apply Rdiv_lt_0_compat; lra).
    destruct (IH (r / 2) (e / ((1 + r) / (2 + r))) ltac:(lra)) as (t & u & T & U & [t' St] & [u' Su] & F).
    { apply (Rmult_lt_reg_l ((1 + r) / (2 + r))); [exact P|]. replace ((1 + r) / (2 + r) * (e / ((1 + r) / (2 + r)))) with e by (field; lra). exact E. }
    exists (t / 2), (u / 2). split; [lra|]. split; [lra|].
    split; [exists t'; constructor; [lra|]; now replace (2 * (t / 2)) with t by field|].
    split; [exists u'; constructor; [lra|]; now replace (2 * (u / 2)) with u by field|].
    rewrite far_amplify by auto. apply (Rmult_lt_compat_l ((1 + r) / (2 + r))) in F; [|exact P].
    replace ((1 + r) / (2 + r) * (e / ((1 + r) / (2 + r)))) with e in F by (field; lra). exact F.
  - assert (P : 0 < / (2 + r)) by (apply Rinv_0_lt_compat; lra).
    assert (I : 0 < / (1 + r)) by (apply Rinv_0_lt_compat; lra).
    destruct (IH (/ (1 + r)) (e * (2 + r)) ltac:(lra)) as (t & u & T & U & [t' St] & [u' Su] & F).
    { apply (Rmult_lt_reg_l (/ (2 + r))); [exact P|]. replace (/ (2 + r) * (e * (2 + r))) with e by (field; lra). exact E. }
    assert (H : forall v, 0 < v < 1 -> 1 / 2 < / (1 + v) /\ 0 < / (1 + v) < 1).
    { intros v V. assert (/ 2 < / (1 + v)) by (apply Rinv_lt_contravar; lra).
      assert (/ (1 + v) < / 1) by (apply Rinv_lt_contravar; lra). rewrite Rinv_1 in *. lra. }
    exists (/ (1 + t)), (/ (1 + u)). split; [apply H, T|]. split; [apply H, U|].
    split; [exists t'; constructor; [apply H, T|]; now replace (/ / (1 + t) - 1) with t by (field; lra)|].
    split; [exists u'; constructor; [apply H, U|]; now replace (/ / (1 + u) - 1) with u by (field; lra)|].
    rewrite far_uncover by auto. apply (Rmult_lt_compat_l (/ (2 + r))) in F; [|exact P].
    replace (/ (2 + r) * (e * (2 + r))) with e in F by (field; lra). exact F.
Qed.

(** ** Every symbol is worth a factor of 3/5 *)

Lemma wide_le l : forall r, 0 <= r <= 1 -> wide l r <= (3 / 5) ^ length l * (1 + r * r / 5).
Proof.
  induction l as [|[|] l IH]; intros r R; cbn [wide length pow]; [nra| |].
  - specialize (IH (r / 2) ltac:(lra)). pose proof (pow_lt (3 / 5) (length l) ltac:(lra)) as P.
    set (q := (3 / 5) ^ length l) in *. assert (A : 0 < (1 + r) / (2 + r)) by (apply Rdiv_lt_0_compat; lra).
    apply Rle_trans with ((1 + r) / (2 + r) * (q * (1 + r / 2 * (r / 2) / 5))); [apply Rmult_le_compat_l; lra|].
    apply (Rmult_le_reg_r (2 + r)); [lra|].
    replace ((1 + r) / (2 + r) * (q * (1 + r / 2 * (r / 2) / 5)) * (2 + r)) with (q * ((1 + r) * (1 + r / 2 * (r / 2) / 5))) by (field; lra).
    replace (3 / 5 * q * (1 + r * r / 5) * (2 + r)) with (q * (3 / 5 * (1 + r * r / 5) * (2 + r))) by ring.
    apply Rmult_le_compat_l; [lra|].
    assert (0 <= (r - 3 / 4) * (r - 3 / 4) * (r + 3 / 2)) by (apply Rmult_le_pos; [apply Rle_0_sqr|lra]).
    pose proof (Rle_0_sqr (r - 3 / 4)) as K. unfold Rsqr in K. lra.
  - assert (I : 0 < / (1 + r) <= 1).
    { split; [apply Rinv_0_lt_compat; lra|]. rewrite <- Rinv_1. apply Rinv_le_contravar; lra. }
    specialize (IH (/ (1 + r)) ltac:(lra)). pose proof (pow_lt (3 / 5) (length l) ltac:(lra)) as P.
    set (q := (3 / 5) ^ length l) in *. set (s := / (1 + r)) in *.
    apply Rle_trans with (/ (2 + r) * (q * (1 + s * s / 5))); [apply Rmult_le_compat_l; [left; apply Rinv_0_lt_compat; lra|lra]|].
    apply (Rmult_le_reg_r (2 + r)); [lra|].
    replace (/ (2 + r) * (q * (1 + s * s / 5)) * (2 + r)) with (q * (1 + s * s / 5)) by (field; lra).
    replace (3 / 5 * q * (1 + r * r / 5) * (2 + r)) with (q * (3 / 5 * (1 + r * r / 5) * (2 + r))) by ring.
    apply Rmult_le_compat_l; [lra|]. assert (s * s <= 1 * 1) by (apply Rmult_le_compat; lra).
    assert (0 <= r * r) by apply Rle_0_sqr. assert (0 <= r * r * r) by (apply Rmult_le_pos; lra). lra.
Qed.

(** ** No symbols are worth more than uncovers *)

Lemma fib_next n : fib (S (S n)) = (fib n + fib (S n))%Z.
Proof. unfold fib. cbn [fibs]. destruct (fibs n) as [a b]. reflexivity. Qed.
Lemma fib_pos n : (1 <= fib n)%Z /\ (1 <= fib (S n))%Z.
Proof. induction n as [|n [A B]]; [split; reflexivity|]. split; [exact B|]. rewrite fib_next. lia. Qed.

(** The width after n uncovers; a and b are two Fibonacci numbers, one after the other. *)
Definition narrow (a b r : R) : R := (1 + r) / ((a * r + b) * (b * r + (a + b))).

Lemma narrow_uncover a b r : 0 <= a -> 0 < b -> 0 <= r -> / (2 + r) * narrow a b (/ (1 + r)) = narrow b (a + b) r.
Proof.
  intros A B R. unfold narrow. assert (0 <= a * r) by (apply Rmult_le_pos; lra). assert (0 <= b * r) by (apply Rmult_le_pos; lra).
  field. repeat split; lra.
Qed.

Lemma narrow_amplify a b r : 0 <= a -> 0 < b -> 0 <= r -> narrow b (a + b) r <= (1 + r) / (2 + r) * narrow a b (r / 2).
Proof.
  intros A B R. unfold narrow. assert (P1 : 0 <= a * r) by (apply Rmult_le_pos; lra). assert (P2 : 0 <= b * r) by (apply Rmult_le_pos; lra).
  replace ((1 + r) / (2 + r) * ((1 + r / 2) / ((a * (r / 2) + b) * (b * (r / 2) + (a + b)))))
    with ((1 + r) * / ((a * r + 2 * b) * (b * r + 2 * (a + b)) / 2)) by (field; repeat split; lra).
  apply Rmult_le_compat_l; [lra|]. apply Rinv_le_contravar.
  - apply Rdiv_lt_0_compat; [apply Rmult_lt_0_compat|]; lra.
  - assert (0 <= a * a) by apply Rle_0_sqr. assert (0 <= b * b) by apply Rle_0_sqr.
    assert (0 <= a * b) by (apply Rmult_le_pos; lra). assert (0 <= a * b * r) by (apply Rmult_le_pos; lra).
    assert (0 <= b * b * r) by (apply Rmult_le_pos; lra). assert (0 <= a * b * (r * r)) by (apply Rmult_le_pos; [lra|apply Rle_0_sqr]).
    assert (0 <= b * b * (r * r)) by (apply Rmult_le_pos; [lra|apply Rle_0_sqr]). lra.
Qed.

(** F(n-1) r + F(n), where F(0) = F(1) = 1 and F(-1) = 0. *)
Definition before (n : nat) : Z := match n with O => 0 | S n => fib n end.

Lemma narrow_next n r : 0 <= r -> / (2 + r) * narrow (IZR (before n)) (IZR (fib n)) (/ (1 + r)) = narrow (IZR (before (S n))) (IZR (fib (S n))) r.
Proof.
  intro R. assert (A : (0 <= before n)%Z) by (destruct n; cbn; [lia|]; pose proof (fib_pos n); lia).
  assert (E : fib (S n) = (before n + fib n)%Z) by (destruct n; [reflexivity|]; apply fib_next).
  rewrite narrow_uncover; [|now apply IZR_le|apply IZR_lt; pose proof (fib_pos n); lia|exact R].
  rewrite <- plus_IZR, <- E. reflexivity.
Qed.
Lemma narrow_other n r : 0 <= r -> narrow (IZR (before (S n))) (IZR (fib (S n))) r <= (1 + r) / (2 + r) * narrow (IZR (before n)) (IZR (fib n)) (r / 2).
Proof.
  intro R. assert (A : (0 <= before n)%Z) by (destruct n; cbn; [lia|]; pose proof (fib_pos n); lia).
  assert (E : fib (S n) = (before n + fib n)%Z) by (destruct n; [reflexivity|]; apply fib_next).
  rewrite E, plus_IZR. apply narrow_amplify; [now apply IZR_le|apply IZR_lt; pose proof (fib_pos n); lia|exact R].
Qed.

Lemma narrow_zero n : narrow (IZR (before n)) (IZR (fib n)) 0 = / IZR (fib n * fib (S n)).
Proof.
  assert (E : fib (S n) = (before n + fib n)%Z) by (destruct n; [reflexivity|]; apply fib_next).
  rewrite mult_IZR, E, plus_IZR. unfold narrow. pose proof (fib_pos n) as [A B]. rewrite E in B.
  assert (0 < IZR (fib n)) by (apply IZR_lt; lia). assert (0 < IZR (before n) + IZR (fib n)) by (rewrite <- plus_IZR; apply IZR_lt; lia).
  field. lra.
Qed.

Lemma wide_ge l : forall r, 0 <= r -> narrow (IZR (before (length l))) (IZR (fib (length l))) r <= wide l r.
Proof.
  induction l as [|[|] l IH]; intros r R; cbn [wide length].
  - unfold narrow. cbn. right. field. lra.
  - eapply Rle_trans; [apply narrow_other, R|]. apply Rmult_le_compat_l; [left; apply Rdiv_lt_0_compat; lra|]. apply IH. lra.
  - rewrite <- narrow_next by exact R. apply Rmult_le_compat_l; [left; apply Rinv_0_lt_compat; lra|]. apply IH.
    left. apply Rinv_0_lt_compat. lra.
Qed.
Lemma wide_uncovers n : forall r, 0 <= r -> wide (repeat Uncover n) r = narrow (IZR (before n)) (IZR (fib n)) r.
Proof.
  induction n as [|n IH]; intros r R; cbn [wide repeat].
  - unfold narrow. cbn. field. lra.
  - rewrite IH; [now apply narrow_next|]. left. apply Rinv_0_lt_compat. lra.
Qed.

(** ** Symbols that are worth little *)

Lemma wide_slow m : forall r, 0 <= r <= 1 / 8 ->
  (1 / 10) ^ m <= wide (concat (repeat [Uncover; Amplify; Amplify; Amplify] m)) r.
Proof.
  induction m as [|m IH]; intros r R; cbn [repeat concat app wide pow]; [lra|].
  set (s := / (1 + r) / 2 / 2 / 2). assert (S : 0 <= s <= 1 / 8).
  { assert (I : 0 < / (1 + r) <= 1).
    { split; [apply Rinv_0_lt_compat; lra|]. rewrite <- Rinv_1. apply Rinv_le_contravar; lra. }
    unfold s. lra. }
  specialize (IH s S). set (w := wide (concat (repeat [Uncover; Amplify; Amplify; Amplify] m)) s) in *.
  assert (P : 0 < (1 / 10) ^ m) by (apply pow_lt; lra).
  replace (/ (2 + r) * ((1 + / (1 + r)) / (2 + / (1 + r)) * ((1 + / (1 + r) / 2) / (2 + / (1 + r) / 2) *
    ((1 + / (1 + r) / 2 / 2) / (2 + / (1 + r) / 2 / 2) * w)))) with (/ (9 + 8 * r) * w) by (field; repeat split; lra).
  apply Rmult_le_compat; [lra|lra| |exact IH].
  replace (1 / 10) with (/ 10) by field. apply Rinv_le_contravar; lra.
Qed.
