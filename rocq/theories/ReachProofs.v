(** * ReachProofs: how many symbols two ratios have in common. *)

From Coq Require Import ZArith QArith Qfield Qreals Reals List Lia Lra.
From Coq Require Lqa.
From Verif Require Import Machine Protocol Types Ratio Lib Spec SpecReal Good RatioProofs.
From Verif Require Import SpecRate.
From Verif Require RateProofs PropWorth.
Import ListNotations.
Open Scope R_scope.

Lemma rat_starts k l : forall r v c', rat_ok k r v -> egests k (CRatio r) l c' -> starts (Q2R v) l.
Proof.
  assert (H2 : Q2R (1 # 2) = 1 / 2) by (unfold Q2R; cbn; lra).
  induction l as [|s l IH]; intros r v c' H E; [exists (Q2R v); constructor|].
  inversion E as [|? ? c1 ? ? R E']; subst.
  destruct (ratio_settles k r v H) as (r' & T & H' & _).
  assert (S : returns (fun f => clog_egest k f (CRatio r)) (spec_symbol v, CRatio r')) by (now apply settles_S).
  pose proof (settles_det _ _ _ R S) as X. injection X as W ->.
  destruct (IH r' _ c' H' E') as [x' Ex]. clear - W Ex H2.
  unfold spec_symbol in W. unfold spec_rest in *. destruct (v ?= 1 # 2)%Q eqn:C; try discriminate; injection W as ->; exists x'.
  - apply Qlt_alt, Qlt_Rlt in C. rewrite H2 in C. constructor; [exact C|].
    rewrite Q2R_mult in Ex. replace (Q2R 2) with 2 in Ex by (unfold Q2R; cbn; lra). exact Ex.
  - apply Qgt_alt in C. pose proof (Qlt_Rlt _ _ C) as C'. rewrite H2 in C'. constructor; [exact C'|].
    rewrite Q2R_minus, Q2R_inv in Ex.
    + replace (Q2R 1) with 1 in Ex by (unfold Q2R; cbn; lra). exact Ex.
    + intro Z. rewrite Z in C. discriminate.
Qed.

Lemma frac_real a b : (0 < b)%Z -> Q2R (zq a / zq b) = IZR a / IZR b.
Proof.
  intro B. rewrite Q2R_div.
  - unfold Q2R, zq, inject_Z; cbn. field. apply not_0_IZR. lia.
  - intro Z. unfold zq, inject_Z, Qeq in Z. cbn in Z. lia.
Qed.

(** Different fractions with denominators up to 2^m are 2^(-2m) apart. *)
Lemma fracs_apart m a b c d : (0 < b <= 2 ^ Z.of_nat m)%Z -> (0 < d <= 2 ^ Z.of_nat m)%Z -> (a * d <> c * b)%Z ->
  (1 / 2) ^ (2 * m) <= Rabs (IZR a / IZR b - IZR c / IZR d).
Proof.
  intros B D N.
  assert (B0 : 0 < IZR b) by (apply IZR_lt; lia). assert (D0 : 0 < IZR d) by (apply IZR_lt; lia).
  assert (P : 0 < IZR b * IZR d) by (now apply Rmult_lt_0_compat).
  replace (IZR a / IZR b - IZR c / IZR d) with (IZR (a * d - c * b) * / (IZR b * IZR d)).
  2:{ rewrite minus_IZR, !mult_IZR. field. lra. }
  rewrite Rabs_mult, (Rabs_pos_eq (/ _)) by (left; now apply Rinv_0_lt_compat).
  rewrite <- abs_IZR.
  assert (X : 1 <= IZR (Z.abs (a * d - c * b))) by (apply IZR_le; lia).
  assert (I : 0 < / (IZR b * IZR d)) by (now apply Rinv_0_lt_compat).
  apply Rle_trans with (1 * / (IZR b * IZR d)); [|apply Rmult_le_compat_r; lra].
  rewrite Rmult_1_l. replace (1 / 2) with (/ 2) by lra. rewrite pow_inv.
  apply Rinv_le_contravar; [exact P|].
  replace (2 * m)%nat with (m + m)%nat by lia. rewrite pow_add.
  assert (T : forall z, (0 < z <= 2 ^ Z.of_nat m)%Z -> 0 <= IZR z <= 2 ^ m).
  { intros z [L U]. split; [apply IZR_le; lia|]. rewrite pow_IZR. now apply IZR_le. }
  destruct (T b B), (T d D). apply Rmult_le_compat; lra.
Qed.

(** 23 symbols are worth 19 bits. *)
Lemma rate_bits : rate ^ 23 <= (1 / 2) ^ 19.
Proof.
  pose proof RateProofs.rate_bounds as B. pose proof RateProofs.rate_four as F. destruct RateProofs.six as [Sx _].
  assert (P : 0 <= rate ^ 23) by (apply pow_le; lra).
  assert (Q : 0 <= (1 / 2) ^ 19) by (apply pow_le; lra).
  assert (X : (rate ^ 23) ^ 4 <= ((1 / 2) ^ 19) ^ 4).
  { rewrite <- !pow_mult. replace (23 * 4)%nat with (4 * 23)%nat by lia. rewrite pow_mult, F.
    apply Rle_trans with (0.10104 ^ 23); [apply pow_incr; lra|]. cbn. lra. }
  apply Rnot_lt_le. intro L.
  assert (G : forall x y j, 0 <= x < y -> x ^ S j < y ^ S j).
  { intros x y j [U V]. induction j as [|j IH]; [cbn; lra|].
    apply Rle_lt_trans with (x * y ^ S j).
    - change (x ^ S (S j)) with (x * x ^ S j). apply Rmult_le_compat_l; lra.
    - change (y ^ S (S j)) with (y * y ^ S j). apply Rmult_lt_compat_r; [apply pow_lt; lra|exact V]. }
  pose proof (G _ _ 3%nat (conj Q L)). lra.
Qed.

Lemma symbols_halvings n j : (1 / 2) ^ j < 4 / 3 * rate ^ n -> (19 * n < 23 * j + 10)%nat.
Proof.
  pose proof RateProofs.rate_bounds as B.
  intro H. destruct (Nat.lt_ge_cases (19 * n) (23 * j + 10)) as [L|L]; [exact L|exfalso].
  assert (PM : 0 < (1 / 2) ^ j) by (apply pow_lt; lra).
  assert (C : ((1 / 2) ^ j) ^ 19 < (4 / 3 * rate ^ n) ^ 19).
  { assert (G : forall x y e, 0 < x < y -> x ^ S e < y ^ S e).
    { intros x y e [X Y]. induction e as [|e IH]; [cbn; lra|].
      cbn [pow] in IH |- *. apply Rmult_gt_0_lt_compat; auto; [|lra].
      apply Rmult_lt_0_compat; [lra|]. apply pow_lt. lra. }
    apply G. lra. }
  rewrite Rpow_mult_distr, <- !pow_mult in C.
  replace (j * 19)%nat with (19 * j)%nat in C by lia.
  replace (n * 19)%nat with (23 * j + (10 + (19 * n - (23 * j + 10))))%nat in C by lia.
  rewrite !pow_add, (pow_mult rate 23), (pow_mult (1 / 2) 19) in C.
  assert (D : (rate ^ 23) ^ j <= ((1 / 2) ^ 19) ^ j) by (apply pow_incr; split; [apply pow_le; lra|exact rate_bits]).
  assert (D0 : 0 <= (rate ^ 23) ^ j) by (apply pow_le, pow_le; lra).
  set (e := (19 * n - (23 * j + 10))%nat) in *.
  assert (E1 : rate ^ e <= 1) by (rewrite <- (pow1 e); apply pow_incr; lra).
  assert (E0 : 0 <= rate ^ e) by (apply pow_le; lra).
  assert (T1 : rate ^ 10 <= 0.5639 ^ 10) by (apply pow_incr; lra).
  assert (T0 : 0 <= rate ^ 10) by (apply pow_le; lra).
  assert (K : (4 / 3) ^ 19 * (0.5639 ^ 10 * 1) <= 1) by (cbn; lra).
  assert (K0 : 0 <= (4 / 3) ^ 19) by (apply pow_le; lra).
  assert (M : rate ^ 10 * rate ^ e <= 0.5639 ^ 10 * 1) by (apply Rmult_le_compat; lra).
  assert (M0 : 0 <= rate ^ 10 * rate ^ e) by (now apply Rmult_le_pos).
  set (z := (rate ^ 23) ^ j) in *. set (h := ((1 / 2) ^ 19) ^ j) in *.
  assert (N : (4 / 3) ^ 19 * (rate ^ 10 * rate ^ e) <= 1).
  { apply Rle_trans with ((4 / 3) ^ 19 * (0.5639 ^ 10 * 1)); [|exact K]. apply Rmult_le_compat_l; [exact K0|exact M]. }
  assert (V : z * ((4 / 3) ^ 19 * (rate ^ 10 * rate ^ e)) <= h * 1).
  { apply Rmult_le_compat; auto. now apply Rmult_le_pos. }
  replace ((4 / 3) ^ 19 * (z * (rate ^ 10 * rate ^ e))) with (z * ((4 / 3) ^ 19 * (rate ^ 10 * rate ^ e))) in C by ring.
  lra.
Qed.

Lemma symbols_bits n m : (1 / 2) ^ (2 * m) < 4 / 3 * rate ^ n -> (19 * n < 46 * m + 10)%nat.
Proof. intro H. apply symbols_halvings in H. lia. Qed.

Lemma ratios_common k m a b c d l c1 c2 : (0 < a < b)%Z -> (0 < c < d)%Z -> (b <= 2 ^ Z.of_nat m)%Z -> (d <= 2 ^ Z.of_nat m)%Z ->
  (b <= umax k)%Z -> (d <= umax k)%Z -> (a * d <> c * b)%Z ->
  egests k (CRatio (MkRatio a b)) l c1 -> egests k (CRatio (MkRatio c d)) l c2 -> (19 * length l < 46 * m + 10)%nat.
Proof.
  intros A C B D UB UD N E1 E2. apply symbols_bits.
  assert (R1 : rat_ok k (MkRatio a b) (zq a / zq b)) by (repeat split; cbn [r_num r_den]; try lia; reflexivity).
  assert (R2 : rat_ok k (MkRatio c d) (zq c / zq d)) by (repeat split; cbn [r_num r_den]; try lia; reflexivity).
  pose proof (rat_starts k l _ _ _ R1 E1) as S1. pose proof (rat_starts k l _ _ _ R2 E2) as S2.
  rewrite frac_real in S1, S2 by lia.
  assert (V : forall x y, (0 < x < y)%Z -> 0 < IZR x / IZR y < 1).
  { intros x y [X Y]. apply IZR_lt in X, Y. split; [apply Rdiv_lt_0_compat; lra|].
    apply Rmult_lt_reg_r with (IZR y); [lra|]. unfold Rdiv. rewrite Rmult_assoc, Rinv_l; lra. }
  pose proof (PropWorth.c75_rate l _ _ (V _ _ A) (V _ _ C) S1 S2) as P.
  pose proof (fracs_apart m a b c d ltac:(lia) ltac:(lia) N). lra.
Qed.

Lemma ratio_u_inv (pos : bool) num den p c : (0 <= num)%Z -> (0 <= den)%Z ->
  number_ratio_u pos num den = Ok (NOther p c) ->
  exists a b, c = CRatio (MkRatio a b) /\ (0 < a < b)%Z /\
    ((p = None \/ p = Some Reflect) /\ a = num /\ b = den \/ (p = Some Turn \/ p = Some Ground) /\ a = den /\ b = num).
Proof.
  intros X Y. unfold number_ratio_u, ratio_new.
  destruct (Z.eqb_spec den 0); [discriminate|]. destruct (Z.eqb_spec num 0); [discriminate|].
  destruct (Z.eqb_spec num den); [destruct pos; discriminate|].
  destruct (Z.ltb_spec den num); cbn [bind]; intro E; injection E as <- <-; eexists; eexists; (split; [reflexivity|]); (split; [lia|]).
  - right. destruct pos; auto.
  - left. destruct pos; auto.
Qed.

Lemma common_u k m (pos pos' : bool) num den num' den' p c c' l c1 c2 :
  usize k num -> usize k den -> usize k num' -> usize k den' ->
  (num <= 2 ^ Z.of_nat m)%Z -> (den <= 2 ^ Z.of_nat m)%Z -> (num' <= 2 ^ Z.of_nat m)%Z -> (den' <= 2 ^ Z.of_nat m)%Z ->
  number_ratio_u pos num den = Ok (NOther p c) -> number_ratio_u pos' num' den' = Ok (NOther p c') ->
  (num * den' <> num' * den)%Z -> egests k c l c1 -> egests k c' l c2 -> (19 * length l < 46 * m + 10)%nat.
Proof.
  unfold usize. intros U1 U2 U3 U4 M1 M2 M3 M4 H H' N E1 E2.
  destruct (ratio_u_inv pos num den p c ltac:(lia) ltac:(lia) H) as (a & b & -> & Hab & X).
  destruct (ratio_u_inv pos' num' den' p c' ltac:(lia) ltac:(lia) H') as (a' & b' & -> & Hab' & X').
  apply (ratios_common k m a b a' b' l c1 c2); auto;
    destruct X as [([P|P] & -> & ->)|([P|P] & -> & ->)], X' as [([P'|P'] & -> & ->)|([P'|P'] & -> & ->)]; subst p; try discriminate; lia.
Qed.

(** ** Ratios with many symbols in common *)

Definition block : list reduction := [Uncover; Amplify; Amplify; Amplify; Uncover; Amplify; Amplify; Amplify].

Lemma app_egests k l1 : forall c l2 c' c'', egests k c l1 c' -> egests k c' l2 c'' -> egests k c (l1 ++ l2) c''.
Proof.
  induction l1 as [|s l1 IH]; intros c l2 c' c'' A B; inversion A; subst; cbn [app]; [exact B|].
  econstructor; eauto.
Qed.

Lemma rat_compat k r v w : rat_ok k r v -> (v == w)%Q -> rat_ok k r w.
Proof. intros (A & B & C) E. split; [exact A|]. split; [exact B|]. now rewrite <- E. Qed.

Lemma step_amplify k r v w : rat_ok k r v -> (v < 1 # 2)%Q -> (2 * v == w)%Q ->
  exists r', returns (fun f => clog_egest k f (CRatio r)) (Some Amplify, CRatio r') /\ rat_ok k r' w.
Proof.
  intros H L E. destruct (ratio_settles k r v H) as (r' & T & H' & _).
  unfold spec_symbol in T. unfold spec_rest in H'. rewrite (proj1 (Qlt_alt _ _) L) in T, H'.
  exists r'. split; [apply settles_S; exact T|]. eapply rat_compat; eauto.
Qed.

Lemma step_uncover k r v w : rat_ok k r v -> (1 # 2 < v)%Q -> (/ v - 1 == w)%Q ->
  exists r', returns (fun f => clog_egest k f (CRatio r)) (Some Uncover, CRatio r') /\ rat_ok k r' w.
Proof.
  intros H L E. destruct (ratio_settles k r v H) as (r' & T & H' & _).
  unfold spec_symbol in T. unfold spec_rest in H'. rewrite (proj1 (Qgt_alt _ _) L) in T, H'.
  exists r'. split; [apply settles_S; exact T|]. eapply rat_compat; eauto.
Qed.

Lemma below_half a b : (0 < b)%Q -> (2 * a < b)%Q -> (a / b < 1 # 2)%Q.
Proof. intros B A. apply Qlt_shift_div_r; [exact B|]. Lqa.lra. Qed.
Lemma above_half a b : (0 < b)%Q -> (b < 2 * a)%Q -> (1 # 2 < a / b)%Q.
Proof. intros B A. apply Qlt_shift_div_l; [exact B|]. Lqa.lra. Qed.

(** The eight symbols of the block lead from (8 + t) / (9 + t) to t. *)
Lemma block_step k r t : (0 < t)%Q -> (t < 1)%Q -> rat_ok k r ((8 + t) / (9 + t)) ->
  exists r', egests k (CRatio r) block (CRatio r') /\ rat_ok k r' t.
Proof.
  intros T0 T1 H.
  assert (P8 : (0 < 8 + t)%Q) by Lqa.lra. assert (P9 : (0 < 9 + t)%Q) by Lqa.lra.
  assert (N8 : ~ (8 + t == 0)%Q) by Lqa.lra. assert (N9 : ~ (9 + t == 0)%Q) by Lqa.lra.
  destruct (step_uncover k r _ (1 / (8 + t)) H) as (r1 & R1 & H1);
    [apply above_half; Lqa.lra|field; auto|].
  destruct (step_amplify k r1 _ (2 / (8 + t)) H1) as (r2 & R2 & H2); [apply below_half; Lqa.lra|field; auto|].
  destruct (step_amplify k r2 _ (4 / (8 + t)) H2) as (r3 & R3 & H3); [apply below_half; Lqa.lra|field; auto|].
  destruct (step_amplify k r3 _ (8 / (8 + t)) H3) as (r4 & R4 & H4); [apply below_half; Lqa.lra|field; auto|].
  destruct (step_uncover k r4 _ (t / 8) H4) as (r5 & R5 & H5); [apply above_half; Lqa.lra|field; auto|].
  destruct (step_amplify k r5 _ (t / 4) H5) as (r6 & R6 & H6); [apply below_half; Lqa.lra|field; auto|].
  destruct (step_amplify k r6 _ (t / 2) H6) as (r7 & R7 & H7); [apply below_half; Lqa.lra|field; auto|].
  destruct (step_amplify k r7 _ t H7) as (r8 & R8 & H8); [apply below_half; Lqa.lra|field; auto|].
  exists r8. split; [|exact H8]. unfold block. repeat (econstructor; [eassumption|]). constructor.
Qed.

Fixpoint deep (j : nat) (a b : Z) : Z * Z :=
  match j with O => (a, b) | S j => let (x, y) := deep j a b in (8 * y + x, 9 * y + x)%Z end.

Lemma deep_bound a b j : (0 < a < b)%Z -> (0 < fst (deep j a b) < snd (deep j a b))%Z /\ (snd (deep j a b) <= b * 10 ^ Z.of_nat j)%Z.
Proof.
  intro H. induction j as [|j IH]; [cbn; lia|]. rewrite Nat2Z.inj_succ, Z.pow_succ_r by lia.
  cbn [deep]. destruct (deep j a b) as [x y]. cbn [fst snd] in *. lia.
Qed.

Lemma deep_apart a b c d j : (fst (deep j a b) * snd (deep j c d) - fst (deep j c d) * snd (deep j a b) = a * d - c * b)%Z.
Proof.
  induction j as [|j IH]; [reflexivity|]. cbn [deep]. destruct (deep j a b) as [x y], (deep j c d) as [z w].
  cbn [fst snd] in *. rewrite <- IH. ring.
Qed.

Lemma deep_egests k a b j : (0 < a < b)%Z -> (b * 10 ^ Z.of_nat j <= umax k)%Z ->
  forall r, rat_ok k r (zq (fst (deep j a b)) / zq (snd (deep j a b))) ->
  exists r', egests k (CRatio r) (concat (repeat block j)) (CRatio r').
Proof.
  intros H. induction j as [|j IH]; intros U r R; [exists r; constructor|].
  destruct (deep_bound a b j H) as [B1 B2]. cbn [deep] in R. destruct (deep j a b) as [x y] eqn:E. cbn [fst snd] in *.
  assert (PY : (0 < zq y)%Q) by (unfold zq, inject_Z, Qlt; cbn; lia).
  assert (PX : (0 < zq x)%Q) by (unfold zq, inject_Z, Qlt; cbn; lia).
  assert (XY : (zq x < zq y)%Q) by (unfold zq, inject_Z, Qlt; cbn; lia).
  destruct (block_step k r (zq x / zq y)) as (r1 & E1 & R1).
  - apply Qlt_shift_div_l; [exact PY|]. Lqa.lra.
  - apply Qlt_shift_div_r; [exact PY|]. Lqa.lra.
  - eapply rat_compat; [exact R|]. unfold zq. rewrite !inject_Z_plus, !inject_Z_mult. fold (zq x) (zq y).
    change (inject_Z 8) with 8%Q. change (inject_Z 9) with 9%Q. field. repeat split; Lqa.lra.
  - rewrite Nat2Z.inj_succ, Z.pow_succ_r in U by lia.
    destruct (IH ltac:(lia) r1 R1) as (r2 & E2). exists r2. cbn [repeat concat]. eapply app_egests; eauto.
Qed.
