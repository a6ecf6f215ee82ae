(** * SeqProofs: the theory of reduction sequences (specification side only). *)

From Coq Require Import ZArith QArith Qfield List Lia Lqa Psatz Qabs.
From Verif Require Import Machine Protocol Types Lib Spec.
Import ListNotations.
Open Scope Q_scope.

Lemma inv_pos v : 0 < v -> 0 < / v.
Proof. apply Qinv_lt_0_compat. Qed.

Lemma inv_mul v : 0 < v -> v * / v == 1.
Proof. intro H. apply Qmult_inv_r. intro E. rewrite E in H. now apply Qlt_irrefl in H. Qed.

Lemma Qlt_neq v : 0 < v -> ~ v == 0.
Proof. intros H E. rewrite E in H. now apply Qlt_irrefl in H. Qed.

Lemma inv_lt a b : 0 < a -> a < b -> / b < / a.
Proof.
  intros Ha Hab. assert (Hb : 0 < b) by lra.
  exact (proj1 (Qinv_lt_contravar a b Ha Hb) Hab).
Qed.

Lemma uncover_pos v : 1#2 < v -> v < 1 -> 0 < / v - 1 /\ / v - 1 < 1.
Proof.
  intros H1 H2. assert (H0 : 0 < v) by lra.
  pose proof (inv_lt _ _ H0 H2) as A.
  assert (B : / v < / (1#2)) by (apply inv_lt; lra).
  change (/ 1) with 1 in A. change (/ (1#2)) with 2 in B. lra.
Qed.

Lemma clog_seq_range v l : clog_seq v l -> 0 < v /\ v < 1.
Proof. destruct 1; lra. Qed.

Lemma clog_seq_compat v l : clog_seq v l -> forall w, v == w -> clog_seq w l.
Proof.
  induction 1; intros w E.
  - apply seq_end. now rewrite <- E.
  - apply seq_amplify; [now rewrite <- E | now rewrite <- E |]. apply IHclog_seq. now rewrite E.
  - apply seq_uncover; [now rewrite <- E | now rewrite <- E |]. apply IHclog_seq. now rewrite E.
Qed.

Lemma clog_seq_det v l : clog_seq v l -> forall w l', clog_seq w l' -> v == w -> l = l'.
Proof.
  induction 1 as [v Hv | v l H1 H2 H IH | v l H1 H2 H IH];
    intros w l' H' E; destruct H' as [w Hw | w l' H3 H4 H' | w l' H3 H4 H'];
    try reflexivity; try (exfalso; lra).
  - f_equal. eapply IH; [exact H' | now rewrite E].
  - f_equal. eapply IH; [exact H' | now rewrite E].
Qed.

Lemma clog_seq_inj v l : clog_seq v l -> forall w, clog_seq w l -> v == w.
Proof.
  induction 1 as [v Hv | v l H1 H2 H IH | v l H1 H2 H IH]; intros w H'; inversion H'; subst.
  - now rewrite Hv.
  - specialize (IH _ H6). lra.
  - specialize (IH _ H6).
    assert (E : / v == / w) by lra.
    rewrite <- (Qinv_involutive v), <- (Qinv_involutive w). now rewrite E.
Qed.

Lemma zq_pos z : (0 < z)%Z -> 0 < zq z.
Proof. intro H. unfold zq. rewrite <- (Zlt_Qlt 0). exact H. Qed.

Lemma zq_lt a b : (a < b)%Z <-> zq a < zq b.
Proof. unfold zq. now rewrite Zlt_Qlt. Qed.
Lemma zq_le a b : (a <= b)%Z <-> zq a <= zq b.
Proof. unfold zq. now rewrite Zle_Qle. Qed.
Lemma zq_eq a b : a = b <-> zq a == zq b.
Proof. unfold zq. symmetry. apply inject_Z_injective. Qed.
Lemma zq_add a b : zq (a + b) == zq a + zq b.
Proof. unfold zq. now rewrite inject_Z_plus. Qed.
Lemma zq_sub a b : zq (a - b) == zq a - zq b.
Proof. unfold zq, Z.sub. rewrite inject_Z_plus, inject_Z_opp. reflexivity. Qed.
Lemma zq_mul a b : zq (a * b) == zq a * zq b.
Proof. unfold zq. now rewrite inject_Z_mult. Qed.
Lemma zq_opp a : zq (- a) == - zq a.
Proof. unfold zq. now rewrite inject_Z_opp. Qed.
Lemma zq_0 : zq 0 == 0. Proof. reflexivity. Qed.
Lemma zq_1 : zq 1 == 1. Proof. reflexivity. Qed.
Lemma zq_2 : zq 2 == 2. Proof. reflexivity. Qed.
Lemma zq_neq a : a <> 0%Z -> ~ zq a == 0.
Proof. intros H E. apply H. now apply zq_eq. Qed.

Lemma div_lt_iff a b c : 0 < b -> (a / b < c <-> a < c * b).
Proof.
  intro Hb. split; intro H.
  - assert (a == a / b * b) by (field; now apply Qlt_neq). rewrite H0.
    apply Qmult_lt_r; auto.
  - apply Qlt_shift_div_r; auto.
Qed.
Lemma lt_div_iff a b c : 0 < b -> (c < a / b <-> c * b < a).
Proof.
  intro Hb. split; intro H.
  - assert (a == a / b * b) by (field; now apply Qlt_neq). rewrite H0.
    apply Qmult_lt_r; auto.
  - apply Qlt_shift_div_l; auto.
Qed.
Lemma div_eq_iff a b c : ~ b == 0 -> (a / b == c <-> a == c * b).
Proof.
  intro Hb. split; intro H.
  - rewrite <- H. field. auto.
  - rewrite H. field. auto.
Qed.

(** Where a fraction of positive integers lies relative to one half. *)
Lemma frac_half n d : (0 < d)%Z ->
  ((zq n / zq d < 1#2 <-> (2 * n < d)%Z) /\ (zq n / zq d == 1#2 <-> (2 * n = d)%Z)
   /\ (1#2 < zq n / zq d <-> (d < 2 * n)%Z)).
Proof.
  intro Hd. pose proof (zq_pos _ Hd) as Hq.
  rewrite div_lt_iff, lt_div_iff, div_eq_iff by (auto using Qlt_neq).
  rewrite !zq_lt, zq_eq, !zq_mul, !zq_2.
  repeat split; intro; lra.
Qed.

Lemma frac_seq_ex : forall (D : nat) (d n : Z), (Z.to_nat d <= D)%nat ->
  (0 < n < d)%Z -> exists l, clog_seq (zq n / zq d) l.
Proof.
  induction D as [|D IHD]; [intros; lia|].
  intros d n HD.
  (* descend on d - n while the denominator stays the same *)
  remember (Z.to_nat (d - n)) as K eqn:HK.
  revert n HK. induction K as [K IHK] using (well_founded_induction Wf_nat.lt_wf).
  intros n HK Hn.
  assert (Hd : 0 < zq d) by (apply zq_pos; lia).
  assert (Hz : 0 < zq n) by (apply zq_pos; lia).
  destruct (frac_half n d) as (F1 & F2 & F3); [lia|].
  assert (P : 0 < zq n / zq d) by (apply lt_div_iff; [auto | lra]).
  assert (L : zq n / zq d < 1).
  { apply div_lt_iff; auto. assert (zq n < zq d) by (apply (proj1 (zq_lt _ _)); lia). lra. }
  destruct (Ztrichotomy_inf (2 * n) d) as [[H|H]|H].
  - destruct (Z.eq_dec (d mod 2) 0) as [E|E].
    + assert (Ed : d = (2 * (d / 2))%Z) by (pose proof (Z.div_mod d 2); lia).
      destruct (IHD (d / 2)%Z n) as [l Hl]; [lia | lia |].
      exists (Amplify :: l). apply seq_amplify; [auto | now apply F1 |].
      eapply clog_seq_compat; [exact Hl|].
      assert (E2 : zq d == 2 * zq (d / 2)) by (rewrite Ed at 1; now rewrite zq_mul).
      rewrite E2. field. apply Qlt_neq, zq_pos. lia.
    + destruct (IHK (Z.to_nat (d - 2 * n))) with (n := (2 * n)%Z) as [l Hl]; try lia.
      exists (Amplify :: l). apply seq_amplify; [auto | now apply F1 |].
      eapply clog_seq_compat; [exact Hl|].
      rewrite zq_mul, zq_2. field. now apply Qlt_neq.
  - exists []. apply seq_end. now apply F2.
  - destruct (IHD n (d - n)%Z) as [l Hl]; [lia | lia |].
    exists (Uncover :: l). apply seq_uncover; [apply F3; lia | auto |].
    eapply clog_seq_compat; [exact Hl|].
    rewrite zq_sub. field. split; now apply Qlt_neq.
Qed.

Lemma Q_as_frac v : v == zq (Qnum v) / zq (QDen v).
Proof. unfold zq. rewrite <- Qmake_Qdiv. now destruct v. Qed.

Theorem clog_seq_ex v : 0 < v -> v < 1 -> exists l, clog_seq v l.
Proof.
  intros H0 H1.
  assert (Hd : (0 < QDen v)%Z) by reflexivity.
  pose proof (zq_pos _ Hd) as Hq.
  rewrite (Q_as_frac v) in H0, H1.
  apply lt_div_iff in H0; auto. apply div_lt_iff in H1; auto.
  destruct (frac_seq_ex _ (QDen v) (Qnum v) (le_n _)) as [l Hl].
  - split; apply zq_lt; rewrite ?zq_0; lra.
  - exists l. eapply clog_seq_compat; [exact Hl|]. symmetry. apply Q_as_frac.
Qed.

(** The symbol and the rest of a value. *)
Lemma clog_seq_symbol v l : clog_seq v l ->
  spec_symbol v = match l with [] => None | s :: _ => Some s end.
Proof.
  unfold spec_symbol. destruct 1 as [v E | v l A B _ | v l A B _].
  - now rewrite (proj1 (Qeq_alt _ _) E).
  - now rewrite (proj1 (Qlt_alt _ _) B).
  - now rewrite (proj1 (Qgt_alt _ _) A).
Qed.

Lemma clog_seq_rest v l : clog_seq v l ->
  clog_seq (spec_rest v) (match l with [] => [] | _ :: l' => l' end).
Proof.
  unfold spec_rest. destruct 1 as [v E | v l A B H | v l A B H].
  - rewrite (proj1 (Qeq_alt _ _) E). now apply seq_end.
  - now rewrite (proj1 (Qlt_alt _ _) B).
  - now rewrite (proj1 (Qgt_alt _ _) A).
Qed.

Lemma spec_rest_range v : 0 < v -> v < 1 -> 0 < spec_rest v /\ spec_rest v < 1.
Proof.
  intros A B. unfold spec_rest. destruct (v ?= 1#2) eqn:E.
  - auto.
  - apply Qlt_alt in E. lra.
  - apply Qgt_alt in E. now apply uncover_pos.
Qed.

Lemma spec_symbol_compat v w : v == w -> spec_symbol v = spec_symbol w.
Proof. intro E. unfold spec_symbol. now rewrite E. Qed.
Lemma spec_rest_compat v w : v == w -> spec_rest v == spec_rest w.
Proof.
  intro E. unfold spec_rest. rewrite <- (Qcompare_comp v w E (1#2) (1#2) (Qeq_refl _)).
  destruct (v ?= 1#2); now rewrite E.
Qed.

(** Primers. *)
Lemma primed_compat p v w : v == w -> primed p v == primed p w.
Proof. intro E. destruct p as [[]|]; simpl; now rewrite E. Qed.

Lemma primed_range p v : 0 < v -> v < 1 ->
  match p with
  | None => 0 < primed p v /\ primed p v < 1
  | Some Turn => 1 < primed p v
  | Some Reflect => -1 < primed p v /\ primed p v < 0
  | Some Ground => primed p v < -1
  end.
Proof.
  intros A B. pose proof (inv_lt _ _ A B) as I. change (/ 1) with 1 in I.
  destruct p as [[]|]; simpl; lra.
Qed.

Lemma primed_inj p p' v w : 0 < v -> v < 1 -> 0 < w -> w < 1 ->
  primed p v == primed p' w -> p = p' /\ v == w.
Proof.
  intros A B A' B' E.
  pose proof (primed_range p v A B) as R. pose proof (primed_range p' w A' B') as R'.
  destruct p as [[]|], p' as [[]|]; cbn beta iota in R, R';
    try (exfalso; lra); split; auto; simpl in E.
  - rewrite <- (Qinv_involutive v), <- (Qinv_involutive w). now rewrite E.
  - lra.
  - assert (E' : / v == / w) by lra.
    rewrite <- (Qinv_involutive v), <- (Qinv_involutive w). now rewrite E'.
Qed.

Lemma primed_not_special p v s : 0 < v -> v < 1 -> ~ primed p v == special_val s.
Proof.
  intros A B E. pose proof (primed_range p v A B) as R.
  destruct p as [[]|], s; simpl special_val in E; lra.
Qed.

Lemma special_val_inj s s' : special_val s == special_val s' -> s = s'.
Proof. destruct s, s'; simpl; intro; try reflexivity; exfalso; lra. Qed.

(** Every rational is special or primed. *)
Lemma primed_ex q : (exists s, q == special_val s) \/
  (exists p v, 0 < v /\ v < 1 /\ q == primed p v).
Proof.
  assert (Inv : forall a, 1 < a -> 0 < / a /\ / a < 1).
  { intros a Ha. split; [apply inv_pos; lra|].
    assert (H : / a < / 1) by (apply inv_lt; lra). exact H. }
  destruct (Q_dec q (-1)) as [[H|H]|H].
  - right. exists (Some Ground), (/ - q). destruct (Inv (- q)); [lra|].
    repeat split; auto. simpl. rewrite Qinv_involutive. lra.
  - destruct (Q_dec q 0) as [[H0|H0]|H0].
    + right. exists (Some Reflect), (- q). simpl. repeat split; lra.
    + destruct (Q_dec q 1) as [[H1|H1]|H1].
      * right. exists None, q. simpl. repeat split; lra.
      * right. exists (Some Turn), (/ q). destruct (Inv q); [lra|].
        repeat split; auto. simpl. now rewrite Qinv_involutive.
      * left. now exists PosOne.
    + left. now exists Zero.
  - left. now exists NegOne.
Qed.

(** ** Order *)

Lemma compare_scale a b c : 0 < c -> (c * a ?= c * b) = (a ?= b).
Proof.
  intro Hc. destruct (a ?= b) eqn:E.
  - apply Qeq_alt in E. apply (proj1 (Qeq_alt _ _)). now rewrite E.
  - apply Qlt_alt in E. apply (proj1 (Qlt_alt _ _)). apply Qmult_lt_l; auto.
  - apply Qgt_alt in E. apply (proj1 (Qgt_alt _ _)). apply Qmult_lt_l; auto.
Qed.

Lemma compare_inv a b : 0 < a -> 0 < b -> (/ a ?= / b) = CompOpp (a ?= b).
Proof.
  intros Ha Hb. destruct (a ?= b) eqn:E; simpl.
  - apply Qeq_alt in E. apply (proj1 (Qeq_alt _ _)). now rewrite E.
  - apply Qlt_alt in E. apply (proj1 (Qgt_alt _ _)). now apply inv_lt.
  - apply Qgt_alt in E. apply (proj1 (Qlt_alt _ _)). now apply inv_lt.
Qed.

Lemma compare_sub a b c : (a - c ?= b - c) = (a ?= b).
Proof.
  destruct (a ?= b) eqn:E.
  - apply Qeq_alt in E. apply (proj1 (Qeq_alt _ _)). lra.
  - apply Qlt_alt in E. apply (proj1 (Qlt_alt _ _)). lra.
  - apply Qgt_alt in E. apply (proj1 (Qgt_alt _ _)). lra.
Qed.

Lemma compare_opp a b : (- a ?= - b) = CompOpp (a ?= b).
Proof.
  destruct (a ?= b) eqn:E; simpl.
  - apply Qeq_alt in E. apply (proj1 (Qeq_alt _ _)). lra.
  - apply Qlt_alt in E. apply (proj1 (Qgt_alt _ _)). lra.
  - apply Qgt_alt in E. apply (proj1 (Qlt_alt _ _)). lra.
Qed.

Lemma compare_antisym a b : (b ?= a) = CompOpp (a ?= b).
Proof. symmetry. apply Qcompare_antisym. Qed.
