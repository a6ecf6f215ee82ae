(** * HomValue: what the coefficient operations do to the value. *)

From Coq Require Import ZArith QArith Qfield List Lia Lqa Psatz Bool.
From Verif Require Import Machine Protocol Support Types Ratio Homographic Lib Spec
  SeqProofs Good RatioProofs SupportProofs HomProofs.
Open Scope Q_scope.

(** With coefficients [m] and an operand of value [v], the value is [z]. *)
Definition hv (m : hcoef) (v z : Q) : Prop :=
  hom_num (h_nx m) (h_n m) v == z * hom_num (h_dx m) (h_d m) v
  /\ ~ hom_num (h_dx m) (h_d m) v == 0.

Lemma mul_neq a b : ~ a == 0 -> ~ b == 0 -> ~ a * b == 0.
Proof. intros A B E. apply Qmult_integral in E. tauto. Qed.

(** Common scaling of numerator and denominator. *)
Lemma hv_scale m m' v v' z t : hv m v z -> ~ t == 0 ->
  hom_num (h_nx m') (h_n m') v' == t * hom_num (h_nx m) (h_n m) v ->
  hom_num (h_dx m') (h_d m') v' == t * hom_num (h_dx m) (h_d m) v ->
  hv m' v' z.
Proof.
  intros [A B] T N D. split.
  - rewrite N, D, A. ring.
  - rewrite D. now apply mul_neq.
Qed.

Lemma hv_compat m v v' z z' : hv m v z -> v == v' -> z == z' -> hv m v' z'.
Proof.
  unfold hv, hom_num. intros [A B] E F. rewrite E, F in *. auto.
Qed.

Lemma zeq_Q a b : a = b -> zq a == zq b.
Proof. now intros ->. Qed.

Lemma hv_amplify m m' v z : ingested_amplify m m' -> hv m v z -> hv m' (2 * v) z.
Proof.
  intros [(A & B & C & D)|(A & B & C & D)] H.
  - apply (hv_scale m m' v (2 * v) z 2 H); [lra| |]; unfold hom_num;
      rewrite ?A, ?B, ?C, ?D, ?zq_mul, ?zq_2; ring.
  - apply zeq_Q in A, C. rewrite zq_mul, zq_2 in A, C.
    apply (hv_scale m m' v (2 * v) z 1 H); [lra| |]; unfold hom_num;
      rewrite ?B, ?D, <- ?A, <- ?C; ring.
Qed.

Lemma hv_uncover m m' v z : 0 < v -> ingested_uncover m m' -> hv m v z -> hv m' (/ v - 1) z.
Proof.
  intros P -> H. assert (NV : ~ v == 0) by now apply Qlt_neq.
  apply (hv_scale m _ v (/ v - 1) z (/ v) H).
  - apply Qlt_neq, inv_pos, P.
  - unfold hom_num; cbn. rewrite zq_add. field. auto.
  - unfold hom_num; cbn. rewrite zq_add. field. auto.
Qed.

Lemma hv_absorbed p m v z : 0 < v -> hv m (primed p v) z -> hv (absorbed p m) v z.
Proof.
  intros P H. assert (NV : ~ v == 0) by now apply Qlt_neq.
  destruct p as [[]|]; cbn [absorbed primed] in *.
  - apply (hv_scale _ _ _ v z v H); auto; unfold hom_num; cbn; field; auto.
  - apply (hv_scale _ _ _ v z 1 H); [lra| |]; unfold hom_num; cbn; rewrite zq_opp; ring.
  - apply (hv_scale _ _ _ v z v H); auto; unfold hom_num; cbn; rewrite zq_opp; field; auto.
  - auto.
Qed.

(** ** Interpolation between the ends *)

Lemma hom_interp a b v : hom_num a b v == (1 - v) * zq b + v * zq (b + a).
Proof. unfold hom_num. rewrite zq_add. ring. Qed.

Lemma interp_nonneg a b v : (0 <= a)%Z -> (0 <= b)%Z -> 0 < v -> v < 1 ->
  0 <= (1 - v) * zq a + v * zq b.
Proof.
  intros A B P Q. apply (proj1 (zq_le _ _)) in A, B. change (zq 0) with 0 in A, B.
  assert (0 <= (1 - v) * zq a) by (apply Qmult_le_0_compat; lra).
  assert (0 <= v * zq b) by (apply Qmult_le_0_compat; lra). lra.
Qed.

Lemma interp_pos a b v : (0 <= a)%Z -> (0 <= b)%Z -> ~ (a = 0 /\ b = 0)%Z -> 0 < v -> v < 1 ->
  0 < (1 - v) * zq a + v * zq b.
Proof.
  intros A B N P Q.
  assert (C : (0 < a \/ 0 < b)%Z) by lia.
  apply (proj1 (zq_le _ _)) in A, B. change (zq 0) with 0 in A, B.
  assert (0 <= (1 - v) * zq a) by (apply Qmult_le_0_compat; lra).
  assert (0 <= v * zq b) by (apply Qmult_le_0_compat; lra).
  destruct C as [C|C]; apply zq_pos in C.
  - assert (0 < (1 - v) * zq a) by (apply Qmult_lt_0_compat; lra). lra.
  - assert (0 < v * zq b) by (apply Qmult_lt_0_compat; lra). lra.
Qed.

(** An integer combination p N + q D, between its values at the ends. *)
Definition lin (p q : Z) (m : hcoef) (v : Q) : Q :=
  zq p * hom_num (h_nx m) (h_n m) v + zq q * hom_num (h_dx m) (h_d m) v.

Lemma lin_interp p q m v : lin p q m v ==
  (1 - v) * zq (p * h_n m + q * h_d m) + v * zq (p * (h_n m + h_nx m) + q * (h_d m + h_dx m)).
Proof. unfold lin. rewrite !hom_interp, !zq_add, !zq_mul, !zq_add. ring. Qed.

Lemma lin_nonneg p q m v : 0 < v -> v < 1 ->
  (0 <= p * h_n m + q * h_d m)%Z -> (0 <= p * (h_n m + h_nx m) + q * (h_d m + h_dx m))%Z ->
  0 <= lin p q m v.
Proof. intros. rewrite lin_interp. now apply interp_nonneg. Qed.

Lemma lin_pos p q m v : 0 < v -> v < 1 ->
  (0 <= p * h_n m + q * h_d m)%Z -> (0 <= p * (h_n m + h_nx m) + q * (h_d m + h_dx m))%Z ->
  ~ (p * h_n m + q * h_d m = 0 /\ p * (h_n m + h_nx m) + q * (h_d m + h_dx m) = 0)%Z ->
  0 < lin p q m v.
Proof. intros. rewrite lin_interp. now apply interp_pos. Qed.

Lemma lin_hv p q m v z : hv m v z ->
  lin p q m v == (zq p * z + zq q) * hom_num (h_dx m) (h_d m) v.
Proof. intros [A _]. unfold lin. rewrite A. ring. Qed.

Lemma mul_pos_cancel a D : 0 < D -> 0 < a * D -> 0 < a.
Proof.
  intros P H. rewrite <- (Qmult_0_l D) in H. now apply Qmult_lt_r in H.
Qed.
Lemma mul_nonneg_cancel a D : 0 < D -> 0 <= a * D -> 0 <= a.
Proof.
  intros P H. rewrite <- (Qmult_0_l D) in H. now apply Qmult_le_r in H.
Qed.

(** Sign of p z + q, from the ends, for positive denominators. *)
Lemma pos_nonneg p q m v z : hv m v z -> 0 < v -> v < 1 ->
  (0 < h_d m)%Z -> (0 < h_d m + h_dx m)%Z ->
  (0 <= p * h_n m + q * h_d m)%Z -> (0 <= p * (h_n m + h_nx m) + q * (h_d m + h_dx m))%Z ->
  0 <= zq p * z + zq q.
Proof.
  intros H P Q D0 D1 A B.
  assert (D : 0 < hom_num (h_dx m) (h_d m) v).
  { rewrite hom_interp. apply interp_pos; auto; lia. }
  apply (mul_nonneg_cancel _ _ D). rewrite <- (lin_hv _ _ _ _ _ H). now apply lin_nonneg.
Qed.
Lemma pos_pos p q m v z : hv m v z -> 0 < v -> v < 1 ->
  (0 < h_d m)%Z -> (0 < h_d m + h_dx m)%Z ->
  (0 <= p * h_n m + q * h_d m)%Z -> (0 <= p * (h_n m + h_nx m) + q * (h_d m + h_dx m))%Z ->
  ~ (p * h_n m + q * h_d m = 0 /\ p * (h_n m + h_nx m) + q * (h_d m + h_dx m) = 0)%Z ->
  0 < zq p * z + zq q.
Proof.
  intros H P Q D0 D1 A B N.
  assert (D : 0 < hom_num (h_dx m) (h_d m) v).
  { rewrite hom_interp. apply interp_pos; auto; lia. }
  apply (mul_pos_cancel _ _ D). rewrite <- (lin_hv _ _ _ _ _ H). now apply lin_pos.
Qed.

Definition hneg (m : hcoef) : hcoef := HC (- h_nx m) (- h_n m) (- h_dx m) (- h_d m).
Lemma hv_neg m v z : hv m v z -> hv (hneg m) v z.
Proof.
  intro H. apply (hv_scale m _ v v z (-1) H); [lra| |]; unfold hom_num, hneg; cbn;
    rewrite !zq_opp; ring.
Qed.

Lemma J_pos m : J m -> exists m', (forall v z, hv m v z -> hv m' v z) /\
  (m' = m \/ m' = hneg m) /\
  (0 < h_d m' /\ 0 < h_d m' + h_dx m' /\ 0 <= h_n m' <= h_d m' /\
     0 <= h_n m' + h_nx m' <= h_d m' + h_dx m')%Z.
Proof.
  intros [H|H].
  - exists m. split; [auto|]. split; [now left|]. exact H.
  - exists (hneg m). split; [apply hv_neg|]. split; [now right|]. cbn. lia.
Qed.

Lemma J_ge0 m v z : J m -> hv m v z -> 0 < v -> v < 1 -> 0 <= z.
Proof.
  intros HJ H P Q. destruct (J_pos _ HJ) as (m' & T & _ & K). apply T in H.
  assert (X : 0 <= zq 1 * z + zq 0) by (apply (pos_nonneg 1 0 m' v z H P Q); lia).
  change (zq 1) with 1 in X. change (zq 0) with 0 in X. lra.
Qed.
Lemma J_le1 m v z : J m -> hv m v z -> 0 < v -> v < 1 -> z <= 1.
Proof.
  intros HJ H P Q. destruct (J_pos _ HJ) as (m' & T & _ & K). apply T in H.
  assert (X : 0 <= zq (-1) * z + zq 1) by (apply (pos_nonneg (-1) 1 m' v z H P Q); lia).
  change (zq (-1)) with (-1) in X. change (zq 1) with 1 in X. lra.
Qed.
Lemma J_gt0 m v z : J m -> hv m v z -> 0 < v -> v < 1 ->
  ~ (h_n m = 0 /\ h_n m + h_nx m = 0)%Z -> 0 < z.
Proof.
  intros HJ H P Q N. destruct (J_pos _ HJ) as (m' & T & S & K). apply T in H.
  assert (X : 0 < zq 1 * z + zq 0).
  { apply (pos_pos 1 0 m' v z H P Q); try lia. destruct S; subst m'; unfold hneg in *; hc; lia. }
  change (zq 1) with 1 in X. change (zq 0) with 0 in X. lra.
Qed.
Lemma J_lt1 m v z : J m -> hv m v z -> 0 < v -> v < 1 ->
  ~ (h_n m = h_d m /\ h_n m + h_nx m = h_d m + h_dx m)%Z -> z < 1.
Proof.
  intros HJ H P Q N. destruct (J_pos _ HJ) as (m' & T & S & K). apply T in H.
  assert (X : 0 < zq (-1) * z + zq 1).
  { apply (pos_pos (-1) 1 m' v z H P Q); try lia. destruct S; subst m'; unfold hneg in *; hc; lia. }
  change (zq (-1)) with (-1) in X. change (zq 1) with 1 in X. lra.
Qed.

(** ** Emission *)

Lemma hv_doubled m m' v z : doubled m m' -> hv m v z -> hv m' v (2 * z).
Proof.
  intros [(A & B & C & D)|(A & B & C & D)] [H1 H2]; unfold hv, hom_num in *.
  - rewrite A, B, C, D, !zq_mul, !zq_2. split; auto.
    transitivity (2 * (z * (zq (h_dx m) * v + zq (h_d m)))); [rewrite <- H1; ring | ring].
  - apply zeq_Q in C, D. rewrite zq_mul, zq_2 in C, D. rewrite A, B. split.
    + rewrite H1, <- C, <- D. ring.
    + intro E. apply H2. rewrite <- C, <- D.
      transitivity (2 * (zq (h_dx m') * v + zq (h_d m'))); [ring|]. rewrite E. reflexivity.
Qed.

Lemma hv_uncovered m v z : ~ z == 0 -> hv m v z ->
  hv (HC (h_dx m - h_nx m) (h_d m - h_n m) (h_nx m) (h_n m)) v (/ z - 1).
Proof.
  intros NZ [H1 H2]. split; cbn.
  - rewrite H1. unfold hom_num in *. rewrite !zq_sub.
    set (D := zq (h_dx m) * v + zq (h_d m)) in *.
    transitivity (D - (zq (h_nx m) * v + zq (h_n m))); [unfold D; ring|].
    rewrite H1. field. auto.
  - rewrite H1. now apply mul_neq.
Qed.

Lemma hv_unique m v z z' : hv m v z -> hv m v z' -> z == z'.
Proof.
  intros [A B] [C _]. rewrite A in C. apply Qmult_inj_r in C; auto.
Qed.

Lemma half_ends_value m v z : half_ends m -> hv m v z -> z == 1#2.
Proof.
  intros [A B] H. pose proof H as [H1 H2].
  apply (hv_unique m v); auto. split; auto.
  rewrite !hom_interp.
  apply zeq_Q in A, B. rewrite zq_mul, zq_2 in A, B. rewrite <- A, <- B. ring.
Qed.

Lemma re_amplify m m' v z : J m' -> doubled m m' -> ~ half_ends m -> hv m v z ->
  0 < v -> v < 1 -> z < 1#2 /\ hv m' v (2 * z).
Proof.
  intros HJ D N H P Q. pose proof (hv_doubled _ _ _ _ D H) as H'. split; auto.
  assert (X : 2 * z < 1).
  { apply (J_lt1 m' v); auto. unfold half_ends in N. unfold doubled in D. lia. }
  lra.
Qed.

Lemma re_uncover m v z :
  let m' := HC (h_dx m - h_nx m) (h_d m - h_n m) (h_nx m) (h_n m) in
  J m' -> ~ half_ends m -> hv m v z -> 0 < z ->
  0 < v -> v < 1 -> 1#2 < z /\ hv m' v (/ z - 1).
Proof.
  intros m' HJ N H Z P Q.
  assert (H' : hv m' v (/ z - 1)) by (apply hv_uncovered; auto; now apply Qlt_neq).
  split; auto.
  assert (X : / z - 1 < 1).
  { apply (J_lt1 m' v); auto. unfold half_ends in N. unfold m'. cbn. lia. }
  assert (Y : / z < 2) by lra. apply inv_lt in Y; [|now apply inv_pos].
  rewrite Qinv_involutive in Y. exact Y.
Qed.

(** Emission of a primer. *)
Lemma hv_pe m p v z : hv m v z -> 0 < v -> v < 1 ->
  J (pe_rel m p) ->
  let m' := pe_rel m p in
  ~ (h_n m' = 0 /\ h_n m' + h_nx m' = 0)%Z ->
  ~ (h_n m' = h_d m' /\ h_n m' + h_nx m' = h_d m' + h_dx m')%Z ->
  exists z', hv m' v z' /\ 0 < z' /\ z' < 1 /\ z == primed p z'.
Proof.
  intros H P Q HJ m' N0 N1.
  assert (D' : 0 < hom_num (h_dx m') (h_d m') v \/ hom_num (h_dx m') (h_d m') v < 0).
  { rewrite hom_interp. destruct HJ as [K|K].
    - left. apply interp_pos; auto; unfold m'; lia.
    - right. assert (X : 0 < (1 - v) * zq (- h_d m') + v * zq (- (h_d m' + h_dx m')))
        by (apply interp_pos; auto; unfold m'; lia).
      rewrite !zq_opp in X. lra. }
  assert (X : ~ hom_num (h_dx m') (h_d m') v == 0) by (intro E; rewrite E in D'; lra).
  set (z' := hom_num (h_nx m') (h_n m') v / hom_num (h_dx m') (h_d m') v).
  assert (H' : hv m' v z').
  { split; auto. unfold z'. field. auto. }
  exists z'. split; auto.
  assert (Z0 : 0 < z') by (eapply J_gt0; eauto).
  assert (Z1 : z' < 1) by (eapply J_lt1; eauto).
  split; auto. split; auto.
  destruct H as [H1 H2]. destruct H' as [H1' _].
  assert (NZ' : ~ z' == 0) by now apply Qlt_neq.
  apply (hv_unique m v); [split; auto|]. split; auto.
  unfold m' in *. clear m'. destruct p as [[]|]; cbn [pe_rel h_nx h_n h_dx h_d primed] in *.
  - rewrite H1'. field. auto.
  - unfold hom_num in *. rewrite !zq_opp in H1'. lra.
  - unfold hom_num in *. rewrite !zq_opp in H1'.
    assert (Y : zq (h_dx m) * v + zq (h_d m) == - (z' * (zq (h_nx m) * v + zq (h_n m)))) by lra.
    rewrite Y. field. auto.
  - auto.
Qed.

Lemma hv_den m v z : hv m v z -> ~ (h_d m = 0 /\ h_d m + h_dx m = 0)%Z.
Proof.
  intros [_ H] [A B]. apply H. rewrite hom_interp, B, A. change (zq 0) with 0. ring.
Qed.

(** The end of the operand. *)
Lemma hv_half m v z num den : v == 1#2 -> hv m v z ->
  (num = h_nx m + 2 * h_n m /\ den = h_dx m + 2 * h_d m)%Z \/
  (2 * num = h_nx m + 2 * h_n m /\ 2 * den = h_dx m + 2 * h_d m)%Z ->
  den <> 0%Z /\ z == zq num / zq den.
Proof.
  intros V H X. apply (hv_compat _ _ (1#2) _ z) in H; auto; [|reflexivity].
  destruct H as [H1 H2]. unfold hom_num in *.
  assert (E : exists t, ~ t == 0 /\ zq num == t * (zq (h_nx m) * (1#2) + zq (h_n m)) /\
                        zq den == t * (zq (h_dx m) * (1#2) + zq (h_d m))).
  { destruct X as [[A B]|[A B]]; apply zeq_Q in A, B; rewrite ?zq_add, ?zq_mul, ?zq_2 in A, B.
    - exists 2. split; [lra|]. rewrite A, B. split; ring.
    - exists 1. split; [lra|]. split; lra. }
  destruct E as (t & T & A & B).
  assert (ND : ~ zq den == 0) by (rewrite B; now apply mul_neq).
  split.
  - intros ->. now apply ND.
  - symmetry. apply div_eq_iff; auto. rewrite A, B, H1. ring.
Qed.
