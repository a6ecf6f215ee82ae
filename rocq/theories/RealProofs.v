(** * RealProofs: finite sequences are the rationals, and a sequence fixes its real. *)

From Coq Require Import Reals ZArith QArith Qreals List Lia Lra Psatz.
From Verif Require Import Protocol Spec SpecReal SeqProofs.
Import ListNotations.
Open Scope R_scope.

Lemma amplify_range x : 0 < x < 1 -> x < 1 / 2 -> 0 < 2 * x < 1.
Proof. lra. Qed.
Lemma uncover_range x : 0 < x < 1 -> 1 / 2 < x -> 0 < / x - 1 < 1.
Proof.
  intros H L. assert (1 < / x). { rewrite <- Rinv_1 at 1. apply Rinv_lt_contravar; lra. }
  assert (/ x < / (1 / 2)) by (apply Rinv_lt_contravar; nra). lra.
Qed.

Lemma rational_amplify x : rational (2 * x) -> rational x.
Proof.
  intros (n & d & D & E). exists n, (2 * d)%Z. split; [lia|]. rewrite mult_IZR.
  assert (IZR d <> 0) by now apply not_0_IZR. apply (Rmult_eq_reg_l 2); [|lra]. rewrite E. field. auto.
Qed.
Lemma rational_uncover x : 0 < x < 1 -> 1 / 2 < x -> rational (/ x - 1) -> rational x.
Proof.
  intros H L (n & d & D & E). pose proof (uncover_range x H L) as U. rewrite E in U.
  assert (Hd : IZR d <> 0) by now apply not_0_IZR.
  assert (S : IZR d + IZR n <> 0).
  { intro Z. assert (IZR n / IZR d = -1) by (apply (Rmult_eq_reg_r (IZR d)); auto; field_simplify; lra). lra. }
  exists d, (d + n)%Z. split.
  - intro Z. apply S. rewrite <- plus_IZR, Z. reflexivity.
  - rewrite plus_IZR. assert (X : / x = (IZR d + IZR n) / IZR d) by (replace (/ x) with (IZR n / IZR d + 1) by lra; field; auto).
    rewrite <- (Rinv_inv x). rewrite X. field. split; auto.
Qed.

Lemma finite_rational x l x' : emits x l x' -> x' = 1 / 2 -> 0 < x < 1 -> rational x.
Proof.
  induction 1 as [x|x l x' L _ IH|x l x' L _ IH]; intros E H.
  - exists 1%Z, 2%Z. split; [lia|]. lra.
  - apply rational_amplify, IH; auto. now apply amplify_range.
  - apply rational_uncover, IH; auto. now apply uncover_range.
Qed.

Lemma emits_clog v l : clog_seq v l -> emits (Q2R v) l (1 / 2).
Proof.
  induction 1 as [v E|v l A B _ IH|v l A B _ IH].
  - rewrite (Qeq_eqR _ _ E). replace (Q2R (1 # 2)) with (1 / 2) by (unfold Q2R; cbn; lra). constructor.
  - apply Qlt_Rlt in A, B. rewrite RMicromega.Q2R_0 in A. replace (Q2R (1 # 2)) with (1 / 2) in B by (unfold Q2R; cbn; lra).
    constructor; auto. rewrite Q2R_mult in IH. replace (Q2R 2) with 2 in IH by (unfold Q2R; cbn; lra). exact IH.
  - pose proof A as A'. apply Qlt_Rlt in A', B. replace (Q2R (1 # 2)) with (1 / 2) in A' by (unfold Q2R; cbn; lra).
    constructor; auto. rewrite Q2R_minus, Q2R_inv in IH by lra.
    replace (Q2R 1) with 1 in IH by (unfold Q2R; cbn; lra). exact IH.
Qed.

Theorem finite_iff_rational x : 0 < x < 1 -> (finite_seq x <-> rational x).
Proof.
  intro H. split.
  - intros (l & E). eapply finite_rational; eauto.
  - intros (n & d & D & E).
    set (v := (inject_Z n / inject_Z d)%Q).
    assert (Hv : Q2R v = x).
    { unfold v, Qdiv. rewrite Q2R_mult, Q2R_inv.
      - unfold Q2R. cbn [Qnum Qden inject_Z]. rewrite E. field. now apply not_0_IZR.
      - intro Z. apply D. unfold Qeq in Z. cbn in Z. lia. }
    assert (V : (0 < v)%Q /\ (v < 1)%Q).
    { split; apply Rlt_Qlt; rewrite Hv.
      - rewrite RMicromega.Q2R_0. lra.
      - replace (Q2R 1) with 1 by (unfold Q2R; cbn; lra). lra. }
    destruct (clog_seq_ex v (proj1 V) (proj2 V)) as [l L]. exists l. rewrite <- Hv. now apply emits_clog.
Qed.

(** What one symbol does to the distance between two values. *)
Lemma uncover_distance x y : 1 / 2 < x < 1 -> 1 / 2 < y < 1 ->
  Rabs (/ x - 1 - (/ y - 1)) * (x * y) = Rabs (x - y).
Proof.
  intros X Y. rewrite <- (Rabs_pos_eq (x * y)) at 1 by nra. rewrite <- Rabs_mult.
  replace ((/ x - 1 - (/ y - 1)) * (x * y)) with (y - x) by (field; lra). apply Rabs_minus_sym.
Qed.

Lemma amplify_distance x y : Rabs (2 * x - 2 * y) = 2 * Rabs (x - y).
Proof.
  replace (2 * x - 2 * y) with (2 * (x - y)) by ring. rewrite Rabs_mult, (Rabs_pos_eq 2); lra.
Qed.

Lemma distance_lt_1 x y : 0 < x < 1 -> 0 < y < 1 -> Rabs (x - y) < 1.
Proof. intros. apply Rabs_def1; lra. Qed.

(** Two symbols in common at least halve the distance. *)
Lemma emits_inv x s l x' : emits x (s :: l) x' ->
  match s with
  | Amplify => x < 1 / 2 /\ emits (2 * x) l x'
  | Uncover => 1 / 2 < x /\ emits (/ x - 1) l x'
  end.
Proof. inversion 1; auto. Qed.

Lemma close n : forall m l x y x' y', (length l <= m)%nat -> (2 * n <= length l)%nat ->
  0 < x < 1 -> 0 < y < 1 -> emits x l x' -> emits y l y' -> Rabs (x - y) * 2 ^ n < 1.
Proof.
  assert (Z : forall x y, 0 < x < 1 -> 0 < y < 1 -> Rabs (x - y) * 2 ^ 0 < 1).
  { intros. rewrite pow_O, Rmult_1_r. now apply distance_lt_1. }
  intros m. revert n. induction m as [|m IH]; intros n l x y x' y' M L X Y EX EY;
    destruct n as [|n]; try (now apply Z); [lia|].
  destruct l as [|s l]; [cbn in L; lia|]. cbn [length] in M, L.
  apply emits_inv in EX, EY. destruct s; destruct EX as [LX EX], EY as [LY EY].
  - assert (D := IH n l (2 * x) (2 * y) x' y' ltac:(lia) ltac:(lia) ltac:(lra) ltac:(lra) EX EY).
    rewrite amplify_distance in D. cbn [pow]. lra.
  - assert (UX := uncover_range x X LX). assert (UY := uncover_range y Y LY).
    assert (D := uncover_distance x y ltac:(lra) ltac:(lra)).
    set (x1 := / x - 1) in *. set (y1 := / y - 1) in *.
    assert (EX1 : x * (x1 + 1) = 1) by (unfold x1; field; lra).
    assert (EY1 : y * (y1 + 1) = 1) by (unfold y1; field; lra).
    assert (P : 0 <= Rabs (x1 - y1)) by apply Rabs_pos.
    assert (Q : 0 < 2 ^ n) by (apply pow_lt; lra).
    assert (W : 0 <= Rabs (x1 - y1) * 2 ^ n) by nra.
    destruct l as [|s l]; [cbn in L; lia|]. pose proof EX as EX'. pose proof EY as EY'.
    apply emits_inv in EX, EY. destruct s; destruct EX as [LX1 EX], EY as [LY1 EY].
    + assert (D2 := IH n l (2 * x1) (2 * y1) x' y' ltac:(cbn [length] in M; lia) ltac:(cbn [length] in L; lia)
        ltac:(lra) ltac:(lra) EX EY).
      rewrite amplify_distance in D2. cbn [pow]. rewrite <- D.
      assert (x * y < 1) by nra. clearbody x1 y1. clear - W D2 H. nra.
    + assert (D2 := IH n (Uncover :: l) x1 y1 x' y' ltac:(lia) ltac:(cbn [length] in *; lia) UX UY EX' EY').
      cbn [pow]. rewrite <- D. assert (x < 2 / 3) by nra. assert (y < 2 / 3) by nra.
      assert (XY : x * y < 1 / 2) by nra. clear - W D2 XY. nra.
Qed.

Theorem prefix_precision n l x y : (2 * n <= length l)%nat -> 0 < x < 1 -> 0 < y < 1 ->
  starts x l -> starts y l -> Rabs (x - y) < / 2 ^ n.
Proof.
  intros L X Y [x' EX] [y' EY]. pose proof (close n _ l x y x' y' (le_n _) L X Y EX EY) as C.
  assert (P : 0 < 2 ^ n) by (apply pow_lt; lra).
  apply (Rmult_lt_reg_r (2 ^ n)); auto. rewrite Rinv_l; lra.
Qed.

Lemma starts_amplify x l : 0 < x < 1 -> (starts x (Amplify :: l) <-> x < 1 / 2 /\ starts (2 * x) l).
Proof.
  intro H. split.
  - intros [x' E]. inversion E; subst. split; auto. now exists x'.
  - intros [L [x' E]]. exists x'. now constructor.
Qed.

(** The same symbols forever, or the same symbols until both reach one half. *)
Lemma same_first x y : (forall l, starts x l <-> starts y l) -> 
  (x < 1 / 2 <-> y < 1 / 2) /\ (1 / 2 < x <-> 1 / 2 < y).
Proof.
  intro S.
  assert (A : forall x, starts x [Amplify] <-> x < 1 / 2).
  { intro z. split; [intros [z' E]; inversion E; auto | intro; eexists; constructor; auto; constructor]. }
  assert (U : forall x, starts x [Uncover] <-> 1 / 2 < x).
  { intro z. split; [intros [z' E]; inversion E; auto | intro; eexists; constructor; auto; constructor]. }
  rewrite <- !A, <- !U. split; apply S.
Qed.

Lemma same_longer n : forall x y, 0 < x < 1 -> 0 < y < 1 -> (forall l, starts x l <-> starts y l) -> x <> y ->
  exists l, length l = n /\ starts x l /\ starts y l.
Proof.
  induction n as [|n IH]; intros x y X Y S N.
  - exists []. repeat split; eexists; constructor.
  - destruct (same_first x y S) as [A U]. destruct (Rtotal_order x (1 / 2)) as [L|[E|L]].
    + assert (L' := proj1 A L). destruct (IH (2 * x) (2 * y) ltac:(lra) ltac:(lra)) as (l & Hl & B & C).
      * intro l. specialize (S (Amplify :: l)). split; intros [z E].
        -- assert (T : starts y (Amplify :: l)) by (apply S; exists z; now constructor).
           destruct T as [w W]. apply emits_inv in W. destruct W as [_ W]. now exists w.
        -- assert (T : starts x (Amplify :: l)) by (apply S; exists z; now constructor).
           destruct T as [w W]. apply emits_inv in W. destruct W as [_ W]. now exists w.
      * lra.
      * exists (Amplify :: l). destruct B as [b B], C as [c C]. cbn [length].
        repeat split; [lia | exists b; now constructor | exists c; now constructor].
    + exfalso. apply N. destruct (Rtotal_order y (1 / 2)) as [M|[M|M]]; [apply A in M; lra | lra | apply U in M; lra].
    + assert (L' := proj1 U L).
      destruct (IH (/ x - 1) (/ y - 1) (uncover_range x X L) (uncover_range y Y L')) as (l & Hl & B & C).
      * intro l. specialize (S (Uncover :: l)). split; intros [z E].
        -- assert (T : starts y (Uncover :: l)) by (apply S; exists z; now constructor).
           destruct T as [w W]. apply emits_inv in W. destruct W as [_ W]. now exists w.
        -- assert (T : starts x (Uncover :: l)) by (apply S; exists z; now constructor).
           destruct T as [w W]. apply emits_inv in W. destruct W as [_ W]. now exists w.
      * intro E. apply N. rewrite <- (Rinv_inv x), <- (Rinv_inv y). f_equal. lra.
      * exists (Uncover :: l). destruct B as [b B], C as [c C]. cbn [length].
        repeat split; [lia | exists b; now constructor | exists c; now constructor].
Qed.

Theorem sequence_determines x y : 0 < x < 1 -> 0 < y < 1 ->
  (forall l, starts x l <-> starts y l) -> x = y.
Proof.
  intros X Y S. destruct (Req_dec x y) as [E|N]; auto. exfalso.
  assert (P : 0 < Rabs (x - y)) by (apply Rabs_pos_lt; lra).
  destruct (pow_lt_1_zero (1 / 2) ltac:(rewrite Rabs_pos_eq; lra) _ P) as [n Hn].
  specialize (Hn n (le_n _)).
  destruct (same_longer (2 * n) x y X Y S N) as (l & Hl & A & B).
  pose proof (prefix_precision n l x y ltac:(lia) X Y A B) as C.
  rewrite Rabs_pos_eq in Hn by (apply pow_le; lra).
  replace ((1 / 2) ^ n) with (/ 2 ^ n) in Hn; [lra|].
  rewrite <- pow_inv. f_equal. lra.
Qed.

(** Every real has its symbols: one of the three cases always applies. *)
Theorem sequence_step x : 0 < x < 1 ->
  (x = 1 / 2 /\ forall l, starts x l -> l = []) \/
  (x < 1 / 2 /\ 0 < 2 * x < 1 /\ forall l, starts x l -> l = [] \/ exists l', l = Amplify :: l' /\ starts (2 * x) l') \/
  (1 / 2 < x /\ 0 < / x - 1 < 1 /\ forall l, starts x l -> l = [] \/ exists l', l = Uncover :: l' /\ starts (/ x - 1) l').
Proof.
  intro H. destruct (Rtotal_order x (1 / 2)) as [L|[E|L]].
  - right. left. split; auto. split; [lra|]. intros l [z E]. inversion E; subst; auto; [|lra].
    right. eexists. split; eauto. now exists z.
  - left. split; auto. intros l [z F]. inversion F; subst; auto; lra.
  - right. right. split; auto. split; [now apply uncover_range|]. intros l [z E]. inversion E; subst; auto; [lra|].
    right. eexists. split; eauto. now exists z.
Qed.
