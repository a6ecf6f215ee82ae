(** * CombValue: what the coefficient operations of Combine do to the value. *)

From Coq Require Import ZArith QArith Qfield List Lia Lqa Psatz Bool.
From Verif Require Import Machine Protocol Support Types Ratio Homographic Combine Lib Spec
  SeqProofs Good SupportProofs HomProofs HomValue CombProofs.
Open Scope Q_scope.

Definition cN (m : ccoef) (x y : Q) : Q := comb_num (c_a m) (c_b m) (c_c m) (c_d m) x y.
Definition cD (m : ccoef) (x y : Q) : Q := comb_num (c_e m) (c_f m) (c_g m) (c_h m) x y.

(** With coefficients [m] and operands of values [x] and [y], the value is [z]. *)
Definition cv (m : ccoef) (x y z : Q) : Prop := cN m x y == z * cD m x y /\ ~ cD m x y == 0.

Lemma cN_compat m x x' y y' : x == x' -> y == y' -> cN m x y == cN m x' y'.
Proof. intros E F. unfold cN, comb_num. now rewrite E, F. Qed.
Lemma cD_compat m x x' y y' : x == x' -> y == y' -> cD m x y == cD m x' y'.
Proof. intros E F. unfold cD, comb_num. now rewrite E, F. Qed.

Lemma cv_compat m x x' y y' z z' : cv m x y z -> x == x' -> y == y' -> z == z' -> cv m x' y' z'.
Proof.
  intros [A B] E F G. split.
  - now rewrite <- (cN_compat m x x' y y' E F), <- (cD_compat m x x' y y' E F), <- G.
  - now rewrite <- (cD_compat m x x' y y' E F).
Qed.

Lemma cv_scale m m' x y x' y' z t : cv m x y z -> ~ t == 0 ->
  cN m' x' y' == t * cN m x y -> cD m' x' y' == t * cD m x y -> cv m' x' y' z.
Proof.
  intros [A B] T N D. split.
  - rewrite N, D, A. ring.
  - rewrite D. now apply mul_neq.
Qed.

Lemma cv_unique m x y z z' : cv m x y z -> cv m x y z' -> z == z'.
Proof. intros [A B] [C _]. rewrite A in C. apply Qmult_inj_r in C; auto. Qed.

Lemma cv_swap m x y z : cv m x y z -> cv (cswap m) y x z.
Proof.
  intro H. apply (cv_scale m _ x y y x z 1 H); [lra| |]; unfold cN, cD, comb_num, cswap; cc; ring.
Qed.

(** ** Ingestion *)

Lemma cv_amplify m m' x y z : cing_amplify m m' -> cv m x y z -> cv m' (2 * x) y z.
Proof.
  intros [(A & B & C & D & E & F & G & H)|(A & B & C & D & E & F & G & H)] V.
  - apply (cv_scale m m' x y (2 * x) y z 2 V); [lra| |]; unfold cN, cD, comb_num;
      rewrite ?A, ?B, ?C, ?D, ?E, ?F, ?G, ?H, ?zq_mul, ?zq_2; ring.
  - apply zeq_Q in A, B, E, F. rewrite zq_mul, zq_2 in A, B, E, F.
    apply (cv_scale m m' x y (2 * x) y z 1 V); [lra| |]; unfold cN, cD, comb_num;
      rewrite ?C, ?D, ?G, ?H, <- ?A, <- ?B, <- ?E, <- ?F; ring.
Qed.

Lemma cv_uncover m x y z : 0 < x -> cv m x y z -> cv (cing_uncover m) (/ x - 1) y z.
Proof.
  intros P H. assert (NV : ~ x == 0) by now apply Qlt_neq.
  apply (cv_scale m _ x y (/ x - 1) y z (/ x) H).
  - apply Qlt_neq, inv_pos, P.
  - unfold cN, comb_num, cing_uncover; cc. rewrite !zq_add. field. auto.
  - unfold cD, comb_num, cing_uncover; cc. rewrite !zq_add. field. auto.
Qed.

Lemma cv_absorbed p m x y z : 0 < x -> cv m (primed p x) y z -> cv (cabsorbed p m) x y z.
Proof.
  intros P H. assert (NV : ~ x == 0) by now apply Qlt_neq.
  destruct p as [[]|]; cbn [cabsorbed primed] in *.
  - apply (cv_scale _ _ _ _ x y z x H); auto; unfold cN, cD, comb_num; cc; field; auto.
  - apply (cv_scale _ _ _ _ x y z 1 H); [lra| |]; unfold cN, cD, comb_num; cc; rewrite !zq_opp; ring.
  - assert (~ - x == 0) by lra.
    apply (cv_scale _ _ _ _ x y z (- x) H); auto; unfold cN, cD, comb_num; cc; rewrite !zq_opp; field; auto.
  - auto.
Qed.

(** The end of an operand. *)
Lemma cv_end m q x y z : x == 1#2 -> cend m q -> cv m x y z -> hv q y z.
Proof.
  intros X E H. apply (cv_compat _ _ (1#2) _ y _ z) in H; auto; try reflexivity.
  destruct H as [H1 H2].
  assert (S : exists t, ~ t == 0 /\ hom_num (h_nx q) (h_n q) y == t * cN m (1#2) y /\
                        hom_num (h_dx q) (h_d q) y == t * cD m (1#2) y).
  { destruct E as [(A & B & C & D)|(A & B & C & D)]; apply zeq_Q in A, B, C, D;
      rewrite ?zq_add, ?zq_mul, ?zq_2 in A, B, C, D; unfold hom_num, cN, cD, comb_num.
    - exists 2. split; [lra|]. rewrite A, B, C, D. split; ring.
    - exists 1. split; [lra|].
      assert (A' : zq (h_nx q) == (1#2) * (zq (c_a m) + 2 * zq (c_c m))) by lra.
      assert (B' : zq (h_n q) == (1#2) * (zq (c_b m) + 2 * zq (c_d m))) by lra.
      assert (C' : zq (h_dx q) == (1#2) * (zq (c_e m) + 2 * zq (c_g m))) by lra.
      assert (D' : zq (h_d q) == (1#2) * (zq (c_f m) + 2 * zq (c_h m))) by lra.
      rewrite A', B', C', D'. split; ring. }
  destruct S as (t & T & SN & SD). split.
  - rewrite SN, SD, H1. ring.
  - rewrite SD. now apply mul_neq.
Qed.

(** ** Interpolation between the corners *)

Lemma cN_interp m x y : cN m x y ==
  (1 - x) * ((1 - y) * zq (cn m false false) + y * zq (cn m false true)) +
  x * ((1 - y) * zq (cn m true false) + y * zq (cn m true true)).
Proof. unfold cN, comb_num, cn. rewrite !zq_add. ring. Qed.
Lemma cD_interp m x y : cD m x y ==
  (1 - x) * ((1 - y) * zq (cd m false false) + y * zq (cd m false true)) +
  x * ((1 - y) * zq (cd m true false) + y * zq (cd m true true)).
Proof. unfold cD, comb_num, cd. rewrite !zq_add. ring. Qed.

Lemma interp4_pos x y (f : bool -> bool -> Q) : 0 < x -> x < 1 -> 0 < y -> y < 1 ->
  (forall i j, 0 < f i j) ->
  0 < (1 - x) * ((1 - y) * f false false + y * f false true)
      + x * ((1 - y) * f true false + y * f true true).
Proof.
  intros X0 X1 Y0 Y1 H.
  assert (I : forall u v, 0 < u -> 0 < v -> 0 < (1 - y) * u + y * v).
  { intros u v U V. assert (0 < (1 - y) * u) by (apply Qmult_lt_0_compat; lra).
    assert (0 < y * v) by (apply Qmult_lt_0_compat; lra). lra. }
  assert (0 < (1 - x) * ((1 - y) * f false false + y * f false true))
    by (apply Qmult_lt_0_compat; [lra | now apply I]).
  assert (0 < x * ((1 - y) * f true false + y * f true true))
    by (apply Qmult_lt_0_compat; [lra | now apply I]).
  lra.
Qed.

Lemma JC_value m x y : JC m -> 0 < x -> x < 1 -> 0 < y -> y < 1 ->
  (0 < cN m x y /\ cN m x y < cD m x y) \/ (cN m x y < 0 /\ cD m x y < cN m x y).
Proof.
  intros HJ X0 X1 Y0 Y1. rewrite cN_interp, cD_interp. destruct HJ as [H|H]; [left|right].
  - assert (A := interp4_pos x y (fun i j => zq (cn m i j)) X0 X1 Y0 Y1).
    assert (B := interp4_pos x y (fun i j => zq (cd m i j) - zq (cn m i j)) X0 X1 Y0 Y1).
    cbv beta in A, B. split.
    + apply A. intros i j. apply zq_pos, H.
    + assert (X : 0 < (1 - x) * ((1 - y) * (zq (cd m false false) - zq (cn m false false)) +
        y * (zq (cd m false true) - zq (cn m false true))) +
        x * ((1 - y) * (zq (cd m true false) - zq (cn m true false)) +
        y * (zq (cd m true true) - zq (cn m true true)))).
      { apply B. intros i j. rewrite <- zq_sub. apply zq_pos. specialize (H i j). lia. }
      lra.
  - assert (A := interp4_pos x y (fun i j => - zq (cn m i j)) X0 X1 Y0 Y1).
    assert (B := interp4_pos x y (fun i j => zq (cn m i j) - zq (cd m i j)) X0 X1 Y0 Y1).
    cbv beta in A, B. split.
    + assert (X : 0 < (1 - x) * ((1 - y) * - zq (cn m false false) + y * - zq (cn m false true)) +
         x * ((1 - y) * - zq (cn m true false) + y * - zq (cn m true true))).
      { apply A. intros i j. rewrite <- zq_opp. apply zq_pos. specialize (H i j). lia. }
      lra.
    + assert (X : 0 < (1 - x) * ((1 - y) * (zq (cn m false false) - zq (cd m false false)) +
        y * (zq (cn m false true) - zq (cd m false true))) +
        x * ((1 - y) * (zq (cn m true false) - zq (cd m true false)) +
        y * (zq (cn m true true) - zq (cd m true true)))).
      { apply B. intros i j. rewrite <- zq_sub. apply zq_pos. specialize (H i j). lia. }
      lra.
Qed.

Lemma JC_unit m x y z : JC m -> 0 < x -> x < 1 -> 0 < y -> y < 1 -> cv m x y z -> 0 < z /\ z < 1.
Proof.
  intros HJ X0 X1 Y0 Y1 [E _].
  destruct (JC_value m x y HJ X0 X1 Y0 Y1) as [[A B]|[A B]].
  - assert (D : 0 < cD m x y) by lra. split.
    + apply (mul_pos_cancel _ _ D). lra.
    + assert (0 < (1 - z) * cD m x y) by lra. apply (mul_pos_cancel _ _ D) in H. lra.
  - assert (D : 0 < - cD m x y) by lra. split.
    + apply (mul_pos_cancel _ _ D). lra.
    + assert (0 < (1 - z) * - cD m x y) by lra. apply (mul_pos_cancel _ _ D) in H. lra.
Qed.

Lemma JC_den m x y : JC m -> 0 < x -> x < 1 -> 0 < y -> y < 1 -> ~ cD m x y == 0.
Proof.
  intros HJ X0 X1 Y0 Y1 E. destruct (JC_value m x y HJ X0 X1 Y0 Y1) as [[A B]|[A B]]; lra.
Qed.

(** ** Emission *)

Lemma cv_doubled m m' x y z : cdoubled m m' -> cv m x y z -> cv m' x y (2 * z).
Proof.
  intros [(A & B & C & D & E & F & G & H)|(A & B & C & D & E & F & G & H)] [H1 H2].
  - assert (N : cN m' x y == 2 * cN m x y)
      by (unfold cN, comb_num; rewrite A, B, C, D, !zq_mul, !zq_2; ring).
    assert (D' : cD m' x y == cD m x y)
      by (unfold cD, comb_num; rewrite E, F, G, H; ring).
    split; [rewrite N, D', H1; ring | now rewrite D'].
  - apply zeq_Q in E, F, G, H. rewrite zq_mul, zq_2 in E, F, G, H.
    assert (N : cN m' x y == cN m x y)
      by (unfold cN, comb_num; rewrite A, B, C, D; ring).
    assert (D' : cD m x y == 2 * cD m' x y)
      by (unfold cD, comb_num; rewrite <- E, <- F, <- G, <- H; ring).
    split.
    + rewrite N, H1, D'. ring.
    + intro X. apply H2. rewrite D', X. ring.
Qed.

Lemma cv_uncovered m x y z : ~ z == 0 -> cv m x y z -> cv (cuncovered m) x y (/ z - 1).
Proof.
  intros NZ [H1 H2].
  assert (N : cN (cuncovered m) x y == cD m x y - cN m x y)
    by (unfold cN, cD, comb_num, cuncovered; cc; rewrite !zq_sub; ring).
  assert (D : cD (cuncovered m) x y == cN m x y) by (unfold cN, cD, comb_num, cuncovered; cc; reflexivity).
  split.
  - rewrite N, D, H1. field. auto.
  - rewrite D, H1. now apply mul_neq.
Qed.

Lemma cre_amplify m m' x y z : JC m' -> cdoubled m m' -> cv m x y z ->
  0 < x -> x < 1 -> 0 < y -> y < 1 -> z < 1#2 /\ cv m' x y (2 * z).
Proof.
  intros HJ D H X0 X1 Y0 Y1. pose proof (cv_doubled _ _ _ _ _ D H) as H'. split; auto.
  destruct (JC_unit _ _ _ _ HJ X0 X1 Y0 Y1 H'). lra.
Qed.

Lemma cre_uncover m x y z : JC (cuncovered m) -> cv m x y z -> 0 < z ->
  0 < x -> x < 1 -> 0 < y -> y < 1 -> 1#2 < z /\ cv (cuncovered m) x y (/ z - 1).
Proof.
  intros HJ H Z X0 X1 Y0 Y1.
  assert (H' : cv (cuncovered m) x y (/ z - 1)) by (apply cv_uncovered; auto; now apply Qlt_neq).
  split; auto. destruct (JC_unit _ _ _ _ HJ X0 X1 Y0 Y1 H') as [_ X].
  assert (Y : / z < 2) by lra. apply inv_lt in Y; [|now apply inv_pos].
  rewrite Qinv_involutive in Y. exact Y.
Qed.

Lemma cv_pe m p x y z : cv m x y z -> 0 < x -> x < 1 -> 0 < y -> y < 1 -> JC (cpe_rel m p) ->
  exists z', cv (cpe_rel m p) x y z' /\ 0 < z' /\ z' < 1 /\ z == primed p z'.
Proof.
  intros H X0 X1 Y0 Y1 HJ. pose proof (JC_den _ _ _ HJ X0 X1 Y0 Y1) as ND.
  set (m' := cpe_rel m p) in *.
  assert (H' : cv m' x y (cN m' x y / cD m' x y)) by (split; auto; field; auto).
  set (z' := cN m' x y / cD m' x y) in *.
  destruct (JC_unit _ _ _ _ HJ X0 X1 Y0 Y1 H') as [Z0 Z1].
  exists z'. split; auto. split; auto. split; auto.
  assert (NZ' : ~ z' == 0) by now apply Qlt_neq.
  destruct H as [H1 H2]. destruct H' as [H1' _].
  apply (cv_unique m x y); [split; auto|]. split; auto.
  assert (RN : cN m' x y == match p with None => cN m x y | Some Turn => cD m x y
      | Some Reflect => - cN m x y | Some Ground => - cD m x y end).
  { unfold m', cN, cD, comb_num. destruct p as [[]|]; cbn [cpe_rel]; unfold c_turn; cc;
      rewrite ?zq_opp; ring. }
  assert (RD : cD m' x y == match p with None => cD m x y | Some Turn => cN m x y
      | Some Reflect => cD m x y | Some Ground => cN m x y end).
  { unfold m', cN, cD, comb_num. destruct p as [[]|]; cbn [cpe_rel]; unfold c_turn; cc;
      rewrite ?zq_opp; ring. }
  rewrite RN, RD in H1'. destruct p as [[]|]; cbn [primed].
  - rewrite H1'. field. auto.
  - lra.
  - assert (Y : cD m x y == - (z' * cN m x y)) by lra. rewrite Y. field. auto.
  - auto.
Qed.
