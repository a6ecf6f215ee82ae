(** * LongProofs: how many symbols a homographic state gives.

    Exact arithmetic and the size of the machine integers alone: any build. *)

From Coq Require Import ZArith QArith List Lia Bool Psatz.
From Verif Require Import Machine Protocol Support Types Ratio Homographic Combine Lib Spec SpecEnd
  Upto Good HomProofs LibProofs ArithProofs BuildProofs EndProofs.
From Verif Require FinalProofs ReleaseProofs.
Import ListNotations.
Open Scope Z_scope.

Definition hsize (k : cfg) (m : hcoef) : Prop :=
  isize k (h_nx m) /\ isize k (h_n m) /\ isize k (h_dx m) /\ isize k (h_d m).

(** ** The effect of one symbol on the coefficients *)

Definition given (s : reduction) (m m' : hcoef) : Prop :=
  match s with
  | Amplify => (h_nx m' = 2 * h_nx m /\ h_n m' = 2 * h_n m /\ h_dx m' = h_dx m /\ h_d m' = h_d m) \/
               (h_nx m' = h_nx m /\ h_n m' = h_n m /\ 2 * h_dx m' = h_dx m /\ 2 * h_d m' = h_d m)
  | Uncover => m' = HC (h_dx m - h_nx m) (h_d m - h_n m) (h_nx m) (h_n m)
  end.

Lemma checked_inv k z y : checked k z = Ok y -> y = z /\ isize k z.
Proof. unfold checked. destruct (in_i k z) eqn:E; [|discriminate]. intro H. injection H as <-. now apply in_i_spec in E. Qed.

Lemma half_size_ok k z : isize k z -> isize k (half z).
Proof.
  unfold isize, half. pose proof (imin_imax k). pose proof (imax_ge k). intro I.
  destruct (Z_le_gt_dec 0 z).
  - pose proof (Z.quot_pos z 2 ltac:(lia) ltac:(lia)). pose proof (Z.quot_le_upper_bound z 2 z ltac:(lia) ltac:(lia)). lia.
  - replace z with (- - z) by lia. rewrite Z.quot_opp_l by lia.
    pose proof (Z.quot_pos (-z) 2 ltac:(lia) ltac:(lia)). pose proof (Z.quot_le_upper_bound (-z) 2 (-z) ltac:(lia) ltac:(lia)). lia.
Qed.

Lemma amplify_given k m m' : hsize k m -> h_amplify k m = Ok m' -> given Amplify m m' /\ hsize k m'.
Proof.
  unfold h_amplify, checked_mul. intros (A & B & C & D) H.
  destruct (is_odd (h_dx m) || is_odd (h_d m)) eqn:E.
  - destruct (checked k (h_nx m * 2)) eqn:E1; [|discriminate..]. destruct (checked k (h_n m * 2)) eqn:E2; [|discriminate..].
    apply checked_inv in E1 as [-> I1]. apply checked_inv in E2 as [-> I2].
    cbn [bind] in H. injection H as <-. cbn [given hsize h_nx h_n h_dx h_d]. split; [left; lia|].
    unfold hsize. cbn [h_nx h_n h_dx h_d]. auto.
  - injection H as <-. apply orb_false_iff in E as [E1 E2]. apply odd_even in E1, E2.
    cbn [given h_nx h_n h_dx h_d]. split; [right; lia|].
    unfold hsize. cbn [h_nx h_n h_dx h_d]. auto using half_size_ok.
Qed.

Lemma uncover_given k m m' : hsize k m -> h_uncover k m = Ok m' -> given Uncover m m' /\ hsize k m'.
Proof.
  unfold h_uncover, checked_sub. intros (A & B & C & D) H.
  destruct (checked k (h_dx m - h_nx m)) eqn:E1; [|discriminate..]. destruct (checked k (h_d m - h_n m)) eqn:E2; [|discriminate..].
  apply checked_inv in E1 as [-> I1]. apply checked_inv in E2 as [-> I2].
  cbn [bind] in H. injection H as <-. split; [reflexivity|]. unfold hsize. cbn [h_nx h_n h_dx h_d]. auto.
Qed.

Lemma reduction_given k m s m' : hsize k m -> h_reduction_egest k m = Ok (Some (Some s, m')) -> given s m m' /\ hsize k m'.
Proof.
  intros Z0. unfold h_reduction_egest. destruct h_image_extremes as [[[[a b] c] d]| |]; try discriminate. cbn [bind].
  destruct less_than_zero; [discriminate|]. destruct greater_than_one; [discriminate|].
  destruct andm as [[]| |]; try discriminate; cbn [bind].
  destruct (notm (greater_than_one_half k c d)) as [[]| |]; try discriminate; cbn [bind].
  - destruct (h_amplify k m) eqn:E; try discriminate. cbn [bind]. intro H. injection H as <- <-. now apply amplify_given.
  - destruct (notm (less_than_one_half k a b)) as [[]| |]; try discriminate; cbn [bind].
    destruct (h_uncover k m) eqn:E; try discriminate. cbn [bind]. intro H. injection H as <- <-. now apply uncover_given.
Qed.

Lemma ingest_amplify_given k m m' : hsize k m -> h_ingest_amplify k m = Ok m' -> ingested Amplify m m' /\ hsize k m'.
Proof.
  unfold h_ingest_amplify, checked_mul. intros (A & B & C & D) H.
  destruct (is_odd (h_nx m) || is_odd (h_dx m)) eqn:E.
  - destruct (checked k (h_n m * 2)) eqn:E1; [|discriminate..]. destruct (checked k (h_d m * 2)) eqn:E2; [|discriminate..].
    apply checked_inv in E1 as [-> I1]. apply checked_inv in E2 as [-> I2].
    cbn [bind] in H. injection H as <-. cbn [ingested]. unfold ingested_amplify, hsize. cbn [h_nx h_n h_dx h_d].
    split; [left; lia|]. auto.
  - injection H as <-. apply orb_false_iff in E as [E1 E2]. apply odd_even in E1, E2.
    cbn [ingested]. unfold ingested_amplify, hsize. cbn [h_nx h_n h_dx h_d]. split; [right; lia|]. auto using half_size_ok.
Qed.

Lemma ingest_uncover_given k m m' : hsize k m -> h_ingest_uncover k m = Ok m' -> ingested Uncover m m' /\ hsize k m'.
Proof.
  unfold h_ingest_uncover, checked_add. intros (A & B & C & D) H.
  destruct (checked k (h_nx m + h_n m)) eqn:E1; [|discriminate..]. destruct (checked k (h_dx m + h_d m)) eqn:E2; [|discriminate..].
  apply checked_inv in E1 as [-> I1]. apply checked_inv in E2 as [-> I2].
  cbn [bind] in H. injection H as <-. split; [reflexivity|]. unfold hsize. cbn [h_nx h_n h_dx h_d]. auto.
Qed.

Lemma det_ingested s m m' : ingested s m m' -> hdet m <> 0 -> hdet m' <> 0.
Proof.
  unfold hdet. destruct s; cbn [ingested].
  - intros [(A & B & C & D)|(A & B & C & D)] H; [rewrite A, B, C, D|rewrite B, D; rewrite <- A, <- C in H]; clear - H; nia.
  - unfold ingested_uncover. intros -> H. cbn [h_nx h_n h_dx h_d]. clear - H. nia.
Qed.

(** ** Symbols without ingestion *)

Inductive run : list reduction -> hcoef -> hcoef -> Prop :=
| run_nil m : run [] m m
| run_snoc l m m' s m'' : run l m m' -> given s m' m'' -> run (l ++ [s]) m m''.

(** The matrix that leads back, by its last row at 0 and at 1 ([widen]), and the scale. *)
Definition back (l : list reduction) (m m' : hcoef) : Prop :=
  exists s, 0 < s /\ let (a, b) := widen l 1 1 in
    s * h_dx m = (b - a) * h_nx m' + a * h_dx m' /\
    s * h_d m = (b - a) * h_n m' + a * h_d m' /\
    s * s * Z.abs (hdet m) = pw l * Z.abs (hdet m').

Lemma run_back l m m' : run l m m' -> back l m m'.
Proof.
  induction 1 as [m|l m m' s m'' R (t & P & IH) G].
  - exists 1. cbn. lia.
  - destruct (widen l 1 1) as [a b] eqn:W. destruct IH as (I1 & I2 & I3). unfold back. rewrite widen_app, W, pw_app.
    cbn [fst snd]. destruct s; cbn [given widen pw] in *.
    + destruct G as [(A & B & C & D)|(A & B & C & D)].
      * exists (2 * t). split; [lia|]. rewrite A, B, C, D. split; [|split].
        -- replace (2 * t * h_dx m) with (2 * (t * h_dx m)) by ring. rewrite I1. ring.
        -- replace (2 * t * h_d m) with (2 * (t * h_d m)) by ring. rewrite I2. ring.
        -- replace (2 * t * (2 * t) * Z.abs (hdet m)) with (4 * (t * t * Z.abs (hdet m))) by ring. rewrite I3.
           unfold hdet. rewrite A, B, C, D.
           replace (2 * h_nx m' * h_d m' - 2 * h_n m' * h_dx m') with (2 * (h_nx m' * h_d m' - h_n m' * h_dx m')) by ring.
           rewrite Z.abs_mul. change (Z.abs 2) with 2. ring.
      * exists t. split; [lia|]. rewrite A, B. split; [|split].
        -- rewrite I1, <- C. ring.
        -- rewrite I2, <- D. ring.
        -- rewrite I3. unfold hdet. rewrite <- C, <- D, A, B.
           replace (h_nx m' * (2 * h_d m'') - h_n m' * (2 * h_dx m'')) with (2 * (h_nx m' * h_d m'' - h_n m' * h_dx m'')) by ring.
           rewrite Z.abs_mul. change (Z.abs 2) with 2. ring.
    + subst m''. cbn [h_nx h_n h_dx h_d]. exists t. split; [lia|]. split; [|split].
      * rewrite I1. ring.
      * rewrite I2. ring.
      * rewrite I3. unfold hdet. cbn [h_nx h_n h_dx h_d].
        replace ((h_dx m' - h_nx m') * h_n m' - (h_d m' - h_n m') * h_nx m') with (- (h_nx m' * h_d m' - h_n m' * h_dx m')) by ring.
        rewrite Z.abs_opp. ring.
Qed.

Lemma prod_bound B x y : Z.abs x <= B -> Z.abs y <= B -> Z.abs (x * y) <= B * B.
Proof. intros. rewrite Z.abs_mul. nia. Qed.

Lemma isize_abs k z : isize k z -> Z.abs z <= 2 ^ (bits (wd k) - 1).
Proof. unfold isize, imin, imax. lia. Qed.

(** Between two ingestions there are few symbols. *)
Lemma run_bound k l m m' : run l m m' -> hsize k m -> hsize k m' -> hdet m <> 0 ->
  3 * Z.of_nat (length l) <= 16 * bits (wd k) + 5.
Proof.
  intros R (A1 & A2 & A3 & A4) (B1 & B2 & B3 & B4) D.
  apply isize_abs in A1, A2, A3, A4, B1, B2, B3, B4.
  destruct (run_back _ _ _ R) as (s & P & H). destruct (widen l 1 1) as [a b] eqn:W. destruct H as (H1 & H2 & H3).
  set (n := (length l / 4)%nat).
  assert (L : (4 * n <= length l < 4 * n + 4)%nat).
  { unfold n. pose proof (Nat.div_mod (length l) 4 ltac:(lia)). pose proof (Nat.mod_upper_bound (length l) 4 ltac:(lia)). lia. }
  pose proof (wid_four n l 1 1 (proj1 L) ltac:(lia) ltac:(lia)) as F. unfold wid in F. rewrite W in F. cbn [fst snd] in F.
  destruct (widen_order l 1 1 ltac:(lia) ltac:(lia)) as [O1 O2]. rewrite W in O1, O2. cbn [fst snd] in O1, O2.
  pose proof (pw_pos l) as Pp. set (B := 2 ^ (bits (wd k) - 1)) in *.
  assert (D' : hdet m' <> 0).
  { intro Z0. rewrite Z0 in H3. cbn in H3. rewrite Z.mul_0_r in H3. clear - H3 P D. nia. }
  (* Cramer *)
  assert (Ca : a * Z.abs (hdet m') <= s * (2 * (B * B))).
  { replace (a * Z.abs (hdet m')) with (Z.abs (a * hdet m')) by (rewrite Z.abs_mul, (Z.abs_eq a) by lia; reflexivity).
    replace (a * hdet m') with (s * (h_d m * h_nx m' - h_dx m * h_n m')).
    - rewrite Z.abs_mul, (Z.abs_eq s) by lia. apply Z.mul_le_mono_nonneg_l; [lia|].
      pose proof (prod_bound B _ _ A4 B1) as X1. pose proof (prod_bound B _ _ A3 B2) as X2. clear - X1 X2. lia.
    - unfold hdet. replace (s * (h_d m * h_nx m' - h_dx m * h_n m')) with (s * h_d m * h_nx m' - s * h_dx m * h_n m') by ring.
      rewrite H1, H2. ring. }
  assert (Cc : (b - a) * Z.abs (hdet m') <= s * (2 * (B * B))).
  { replace ((b - a) * Z.abs (hdet m')) with (Z.abs ((b - a) * hdet m')) by (rewrite Z.abs_mul, (Z.abs_eq (b - a)) by lia; reflexivity).
    replace ((b - a) * hdet m') with (s * (h_dx m * h_d m' - h_d m * h_dx m')).
    - rewrite Z.abs_mul, (Z.abs_eq s) by lia. apply Z.mul_le_mono_nonneg_l; [lia|].
      pose proof (prod_bound B _ _ A3 B4) as X1. pose proof (prod_bound B _ _ A4 B3) as X2. clear - X1 X2. lia.
    - unfold hdet. replace (s * (h_dx m * h_d m' - h_d m * h_dx m')) with (s * h_dx m * h_d m' - s * h_d m * h_dx m') by ring.
      rewrite H1, H2. ring. }
  assert (Cb : b * Z.abs (hdet m') <= s * (4 * (B * B))) by (clear - Ca Cc; lia).
  assert (E8 : 0 < 8 ^ Z.of_nat n) by (apply Z.pow_pos_nonneg; lia).
  set (d := Z.abs (hdet m)) in *. set (d' := Z.abs (hdet m')) in *.
  assert (Dp : 1 <= d) by (unfold d; lia). assert (Dp' : 1 <= d') by (unfold d'; lia).
  assert (K : 8 ^ Z.of_nat n * (pw l * d') * d' <= s * s * (8 * (B * B * (B * B)))).
  { etransitivity; [|etransitivity; [apply (Z.mul_le_mono_nonneg _ _ _ _ (ltac:(clear - O1 Dp'; nia) : 0 <= a * d') Ca (ltac:(clear - O1 O2 Dp'; nia) : 0 <= b * d') Cb)|]].
    - replace (8 ^ Z.of_nat n * (pw l * d') * d') with (8 ^ Z.of_nat n * (pw l * (1 * 1)) * (d' * d')) by ring.
      replace (a * d' * (b * d')) with (a * b * (d' * d')) by ring.
      apply Z.mul_le_mono_nonneg_r; [clear - Dp'; nia|exact F].
    - apply Z.eq_le_incl. ring. }
  rewrite <- H3 in K.
  assert (K1 : 8 ^ Z.of_nat n * (d * d') <= 8 * (B * B * (B * B))).
  { apply (Z.mul_le_mono_pos_l _ _ (s * s)); [clear - P; nia|].
    replace (s * s * (8 ^ Z.of_nat n * (d * d'))) with (8 ^ Z.of_nat n * (s * s * d) * d') by ring. exact K. }
  assert (K2 : 8 ^ Z.of_nat n <= 8 * (B * B * (B * B))).
  { etransitivity; [|exact K1]. assert (1 <= d * d') by (clear - Dp Dp'; nia). clear - H E8. nia. }
  clear K K1 Ca Cb Cc F H1 H2 H3.
  assert (Bw : 16 <= bits (wd k)) by (destruct (wd k); cbn; lia).
  unfold B in K2. rewrite <- !Z.pow_add_r in K2 by lia.
  change 8 with (2 ^ 3) in K2. rewrite <- Z.pow_mul_r, <- Z.pow_add_r in K2 by lia.
  apply Z.pow_le_mono_r_iff in K2; lia.
Qed.

Lemma run_nonzero l m m' : run l m m' -> hdet m <> 0 -> hdet m' <> 0.
Proof.
  intros R D. destruct (run_back _ _ _ R) as (s & P & H). destruct (widen l 1 1) as [a b]. destruct H as (_ & _ & H).
  intro Z0. rewrite Z0 in H. cbn in H. rewrite Z.mul_0_r in H. clear - H P D. nia.
Qed.

(** ** One call of egest on a homographic clog *)

Inductive ingests : list reduction -> hcoef -> hcoef -> Prop :=
| ingests_nil m : ingests [] m m
| ingests_cons s l m m' m'' : ingested s m m' -> ingests l m' m'' -> ingests (s :: l) m m''.

Definition h_gave (k : cfg) (x : clog) (m : hcoef) (v : egested) : Prop :=
  exists l x1 m1, egests k x l x1 /\ ingests l m m1 /\ hsize k m1 /\
  match v with
  | Emit (Some s) c' => exists m', c' = CHomographic x1 m' /\ given s m1 m' /\ hsize k m'
  | Emit None c' => True
  | Become c' => exists r num den, c' = CRatio r /\ isize k num /\ isize k den /\
      ratio_new_i k num den = Ok (None, None, Some r)
  end.

Lemma half_isize k m num den : h_value_at_one_half k m = Ok (num, den) -> isize k num /\ isize k den.
Proof.
  unfold h_value_at_one_half, checked_add, checked_mul. intro H.
  destruct (is_odd (h_nx m) || is_odd (h_dx m)).
  - destruct (checked k (h_n m * 2)); try discriminate; cbn [bind] in H.
    destruct (checked k (h_nx m + _)) eqn:E1; try discriminate; cbn [bind] in H.
    destruct (checked k (h_d m * 2)); try discriminate; cbn [bind] in H.
    destruct (checked k (h_dx m + _)) eqn:E2; try discriminate; cbn [bind] in H.
    injection H as <- <-. apply checked_inv in E1 as [-> I1]. apply checked_inv in E2 as [-> I2]. auto.
  - destruct (checked k (h_n m + _)) eqn:E1; try discriminate; cbn [bind] in H.
    destruct (checked k (h_d m + _)) eqn:E2; try discriminate; cbn [bind] in H.
    injection H as <- <-. apply checked_inv in E1 as [-> I1]. apply checked_inv in E2 as [-> I2]. auto.
Qed.

Lemma h_egest_gave k e n : forall x m v, hsize k m -> h_egest k (clog_egest k e) n x m = Ok v -> h_gave k x m v.
Proof.
  induction n as [|n IH]; intros x m v Z0 H; [discriminate|]. cbn [h_egest] in H.
  destruct (h_are_singularities_outside_domain k m) as [out| |]; try discriminate; cbn [bind] in H.
  destruct (if out then h_reduction_egest k m else Ok None) as [[[o m']|]| |] eqn:E; try discriminate; cbn [bind] in H.
  - injection H as <-. exists [], x, m. split; [constructor|]. split; [constructor|]. split; [exact Z0|].
    destruct o as [s|]; [|exact I]. exists m'. split; [reflexivity|].
    destruct out; [|discriminate]. now apply reduction_given.
  - clear E. unfold h_reduction_ingest in H.
    destruct (clog_egest k e x) as [[o x']|p|] eqn:E; try discriminate; cbn [bind] in H.
    assert (R : returns (fun f => clog_egest k f x) (o, x')).
    { unfold returns. rewrite <- E. apply egest_settles. rewrite E. discriminate. }
    destruct o as [[]|].
    + destruct (h_ingest_amplify k m) as [m'| |] eqn:G; try discriminate; cbn [bind] in H.
      apply ingest_amplify_given in G as [G Z1]; [|exact Z0].
      destruct (IH x' m' v Z1 H) as (l & x1 & m1 & X & Y & Z2 & W).
      exists (Amplify :: l), x1, m1. split; [econstructor; eauto|]. split; [econstructor; eauto|]. auto.
    + destruct (h_ingest_uncover k m) as [m'| |] eqn:G; try discriminate; cbn [bind] in H.
      apply ingest_uncover_given in G as [G Z1]; [|exact Z0].
      destruct (IH x' m' v Z1 H) as (l & x1 & m1 & X & Y & Z2 & W).
      exists (Uncover :: l), x1, m1. split; [econstructor; eauto|]. split; [econstructor; eauto|]. auto.
    + destruct (h_value_at_one_half k m) as [[num den]| |] eqn:G; try discriminate; cbn [bind] in H.
      apply half_isize in G as [I1 I2].
      destruct (ratio_new_i k num den) as [[[[sp|] [p|]] [r|]]| |] eqn:Q; try discriminate; cbn [bind] in H.
      injection H as <-. exists [], x, m. split; [constructor|]. split; [constructor|]. split; [exact Z0|].
      exists r, num, den. auto.
Qed.

Lemma det_ingests l m m' : ingests l m m' -> hdet m <> 0 -> hdet m' <> 0.
Proof. induction 1; auto. intro D. apply IHingests. eapply det_ingested; eauto. Qed.

(** ** Ratios *)

Lemma egests_prefix k c l1 c1 c1' : egests k c l1 c1 -> returns (fun f => clog_egest k f c1) (None, c1') ->
  forall l2 c2, egests k c l2 c2 -> (length l2 <= length l1)%nat.
Proof.
  induction 1 as [c|c s c' l1 c1 R E IH]; intros N l2 c2 H2.
  - inversion H2 as [|? s c' l ? R' E']; subst; [cbn; lia|]. pose proof (settles_det _ _ _ N R'). discriminate.
  - inversion H2 as [|? s' c'' l ? R' E']; subst; [cbn; lia|].
    pose proof (settles_det _ _ _ R R') as Q. injection Q as <- <-. cbn [length]. specialize (IH N _ _ E'). lia.
Qed.

Lemma ratio_i_number k num den p r : ratio_new_i k num den = Ok (None, p, Some r) -> number_ratio k num den = Ok (NOther p (CRatio r)).
Proof.
  unfold ratio_new_i, number_ratio, number_ratio_u. intro H.
  destruct (magnitude k num); try discriminate. destruct (magnitude k den); try discriminate. cbn [bind] in *.
  now rewrite H.
Qed.

Lemma ratio_long k num den r l c : isize k num -> isize k den -> ratio_new_i k num den = Ok (None, None, Some r) ->
  egests k (CRatio r) l c -> 2 * Z.of_nat (length l) <= bits (wd k) * bits (wd k) + 3 * bits (wd k) - 4.
Proof.
  intros I1 I2 H E. apply ratio_i_number in H.
  destruct (FinalProofs.ratio_drain k num den None (CRatio r) I1 I2 H) as (l1 & c1 & c2 & E1 & N & _ & B).
  pose proof (egests_prefix k _ _ _ _ E1 N _ _ E). lia.
Qed.

(** ** All symbols of a homographic clog *)

(** At most [n] symbols come out. *)
Definition at_most (k : cfg) (c : clog) (n : nat) : Prop := forall l c', egests k c l c' -> (length l <= n)%nat.

Lemma at_most_after k c n l c' : at_most k c n -> egests k c l c' -> at_most k c' (n - length l).
Proof.
  intros H E l' c'' E'. assert (X : egests k c (l ++ l') c'').
  { clear H. induction E as [c|c s c1 l c2 R E IH]; [exact E'|]. cbn [app]. econstructor; eauto. }
  apply H in X. rewrite app_length in X. lia.
Qed.

Lemma homographic_long k l : forall x m m0 l0 c' n, egests k (CHomographic x m) l c' ->
  run l0 m0 m -> hsize k m0 -> hdet m0 <> 0 -> hsize k m -> at_most k x n ->
  6 * (Z.of_nat (length l) + Z.of_nat (length l0)) <=
  2 * (Z.of_nat n + 1) * (16 * bits (wd k) + 5) + 3 * (bits (wd k) * bits (wd k) + 3 * bits (wd k) - 4).
Proof.
  assert (Bw : 16 <= bits (wd k)) by (destruct (wd k); cbn; lia).
  assert (Rb : 0 <= bits (wd k) * bits (wd k) + 3 * bits (wd k) - 4) by nia.
  induction l as [|s l IH]; intros x m m0 l0 c' n E R Z1 D Z2 B.
  - pose proof (run_bound k l0 m0 m R Z1 Z2 D). cbn [length]. nia.
  - pose proof (run_bound k l0 m0 m R Z1 Z2 D) as Rn.
    inversion E as [|? ? c1 ? ? (F & H) E']; subst.
    specialize (H (S F) ltac:(lia)). cbn [clog_egest strategy_egest] in H.
    destruct (h_egest k (clog_egest k F) F x m) as [v| |] eqn:G; try discriminate; cbn [bind] in H.
    destruct (h_egest_gave k F F x m v Z2 G) as (lx & x1 & m1 & X & Y & Z3 & W).
    destruct v as [o c2|c2].
    + injection H as -> <-. destruct W as (m' & -> & Gv & Z4).
      pose proof (at_most_after k x n lx x1 B X) as B'.
      inversion Y as [m2|s' lx' m2 m3 m4 I1 I2]; subst.
      * specialize (IH x1 m' m0 (l0 ++ [s]) c' n E' (run_snoc _ _ _ _ _ R Gv) Z1 D Z4).
        cbn [length] in B'. rewrite Nat.sub_0_r in B'. specialize (IH B'). rewrite app_length in IH. cbn [length] in *. lia.
      * pose proof (run_nonzero _ _ _ R D) as Dm.
        pose proof (det_ingests _ _ _ Y Dm) as D1.
        pose proof (B _ _ X) as Bx. cbn [length] in Bx, B'.
        specialize (IH x1 m' m1 [s] c' _ E' (run_snoc [] _ _ _ _ (run_nil m1) Gv) Z3 D1 Z4 B').
        cbn [length] in *. nia.
    + destruct W as (r & num & den & -> & I1 & I2 & Q).
      assert (E2 : egests k (CRatio r) (s :: l) c').
      { econstructor; [|exact E']. eapply settles_fuel; [|exact H|discriminate]. intros. now apply upto_egest. }
      pose proof (ratio_long k num den r _ _ I1 I2 Q E2). nia.
Qed.

(** ** Reading to an end *)

Lemma ends_at_most k c : ends k c -> exists n, at_most k c n.
Proof.
  induction 1 as [c c' H|c p H|c s c' H E (n & IH)].
  - exists 0%nat. intros l c'' G. inversion G as [|? s c1 l1 ? R]; subst; [auto|].
    pose proof (settles_det _ _ _ H R). discriminate.
  - exists 0%nat. intros l c'' G. inversion G as [|? s c1 l1 ? R]; subst; [auto|].
    pose proof (settles_det _ _ _ H R). discriminate.
  - exists (S n). intros l c'' G. inversion G as [|? s' c1 l1 ? R G']; subst; [cbn; lia|].
    pose proof (settles_det _ _ _ H R) as Q. injection Q as <- <-. apply IH in G'. cbn [length]. lia.
Qed.

Lemma at_most_ends k n : forall c, at_most k c n -> steady_clog k c -> ends k c.
Proof.
  induction n as [|n IH]; intros c B T; destruct (steady_now k c T) as (r & N & R).
  - destruct r as [[[s|] c']|p|]; [|now apply ends_none with c'|now apply ends_panic with p|now destruct N].
    exfalso. assert (G : egests k c [s] c') by (econstructor; [exact R|constructor]). apply B in G. cbn in G. lia.
  - destruct r as [[[s|] c']|p|]; [|now apply ends_none with c'|now apply ends_panic with p|now destruct N].
    apply ends_some with s c'; [exact R|]. apply IH; [|eapply steady_next; eauto].
    pose proof (at_most_after k c (S n) [s] c' B) as A. cbn [length] in A. rewrite Nat.sub_succ, Nat.sub_0_r in A.
    apply A. econstructor; [exact R|constructor].
Qed.

(** ** The numbers that homographic builds *)

Lemma debug_bits k : bits (wd (debug k)) = bits (wd k). Proof. reflexivity. Qed.
Lemma debug_isize k z : isize (debug k) z <-> isize k z. Proof. destruct k as [[] []]; reflexivity. Qed.
Lemma debug_hsize k m : hsize (debug k) m <-> hsize k m.
Proof. unfold hsize. now rewrite !debug_isize. Qed.

Lemma neg_debug k z y : neg (debug k) z = Ok y -> y = - z /\ isize k y.
Proof.
  unfold neg, plain. destruct (in_i (debug k) (- z)) eqn:E; [|discriminate]. intro H. injection H as <-.
  apply in_i_spec in E. split; [reflexivity|]. now apply debug_isize.
Qed.

Lemma absorb_debug k p m m' : hsize k m -> h_absorb_primer (debug k) p m = Ok m' ->
  hsize k m' /\ Z.abs (hdet m') = Z.abs (hdet m).
Proof.
  intros (A & B & C & D) H. unfold h_absorb_primer in H. destruct p as [[]|].
  - injection H as <-. unfold hsize, hdet. cbn [h_nx h_n h_dx h_d]. split; [auto|]. rewrite <- Z.abs_opp. f_equal. ring.
  - destruct (neg (debug k) (h_nx m)) eqn:E1; try discriminate. destruct (neg (debug k) (h_dx m)) eqn:E2; try discriminate.
    cbn [bind] in H. injection H as <-. apply neg_debug in E1 as [-> E1], E2 as [-> E2].
    unfold hsize, hdet. cbn [h_nx h_n h_dx h_d]. split; [auto|]. rewrite <- Z.abs_opp. f_equal. ring.
  - destruct (neg (debug k) (h_nx m)) eqn:E1; try discriminate. destruct (neg (debug k) (h_dx m)) eqn:E2; try discriminate.
    cbn [bind] in H. injection H as <-. apply neg_debug in E1 as [-> E1], E2 as [-> E2].
    unfold hsize, hdet. cbn [h_nx h_n h_dx h_d]. split; [auto|]. f_equal. ring.
  - injection H as <-. unfold hsize. auto.
Qed.

Lemma primer_debug k p m m' : hsize k m -> h_primer_egest (debug k) m = Ok (Some (p, m')) ->
  hsize k m' /\ Z.abs (hdet m') = Z.abs (hdet m).
Proof.
  intros (A & B & C & D). unfold h_primer_egest, h_ground, h_reflect, h_turn.
  destruct h_image_extremes as [[[[a b] c] d]| |]; try discriminate; cbn [bind].
  destruct ((a =? 0) && (b =? 0)); [discriminate|].
  destruct (andm (Ok (are_same a b c d)) (is_special (debug k) a b)) as [[]| |]; try discriminate; cbn [bind].
  destruct (notm (greater_than_minus_one (debug k) c d)) as [[]| |]; try discriminate; cbn [bind].
  { destruct (neg (debug k) (h_dx m)) eqn:E1; try discriminate. destruct (neg (debug k) (h_d m)) eqn:E2; try discriminate.
    cbn [bind]. intro H. injection H as <- <-. apply neg_debug in E1 as [-> E1], E2 as [-> E2].
    unfold hsize, hdet. cbn [h_nx h_n h_dx h_d]. split; [auto|]. f_equal. ring. }
  destruct (negb (less_than_one a b)).
  { intro H. injection H as <- <-. unfold hsize, hdet. cbn [h_nx h_n h_dx h_d]. split; [auto|].
    rewrite <- Z.abs_opp. f_equal. ring. }
  destruct (andm (notm (less_than_minus_one (debug k) a b)) (Ok (negb (greater_than_zero c d)))) as [[]| |];
    try discriminate; cbn [bind].
  { destruct (neg (debug k) (h_nx m)) eqn:E1; try discriminate. destruct (neg (debug k) (h_n m)) eqn:E2; try discriminate.
    cbn [bind]. intro H. injection H as <- <-. apply neg_debug in E1 as [-> E1], E2 as [-> E2].
    unfold hsize, hdet. cbn [h_nx h_n h_dx h_d]. split; [auto|]. rewrite <- Z.abs_opp. f_equal. ring. }
  destruct (negb (less_than_zero a b) && negb (greater_than_one c d)); [|discriminate].
  intro H. injection H as <- <-. unfold hsize. auto.
Qed.

Definition h_got (k : cfg) (c : clog) (v : h_made) : Prop :=
  match v with
  | (None, p, None, Some (x, m)) => exists l, egests (debug k) c l x /\ hsize k m /\ hdet m <> 0
  | (None, p, Some r, None) => exists num den, isize k num /\ isize k den /\
      ratio_new_i (debug k) num den = Ok (None, p, Some r)
  | (Some _, _, _, _) => True
  | _ => False
  end.

Lemma ratio_i_shape k num den v : ratio_new_i k num den = Ok v ->
  match v with (Some _, _, _) => True | (None, p, Some r) => True | _ => False end.
Proof.
  unfold ratio_new_i, ratio_new. destruct (magnitude k num); try discriminate. destruct (magnitude k den); try discriminate.
  cbn [bind]. repeat match goal with |- context [if ?b then _ else _] => destruct b end;
    try discriminate; intro H; injection H as <-; exact I.
Qed.

Lemma as_ratio_got k c num den v : isize k num -> isize k den -> h_as_ratio (debug k) num den = Ok v -> h_got k c v.
Proof.
  intros I1 I2. unfold h_as_ratio. destruct (ratio_new_i (debug k) num den) as [[[s p] r]| |] eqn:Q; try discriminate.
  cbn [bind]. intro H. injection H as <-. pose proof (ratio_i_shape _ _ _ _ Q) as Sh. cbn in Sh.
  destruct s; [exact I|]. destruct r; [|contradiction]. exists num, den. auto.
Qed.

Lemma egests_snoc k c l c1 s c2 : egests k c l c1 -> returns (fun f => clog_egest k f c1) (Some s, c2) -> egests k c (l ++ [s]) c2.
Proof. induction 1 as [c|c s' c1 l c' R E IH]; intro H; cbn [app]; econstructor; eauto. constructor. Qed.

Lemma h_prime_got k e c0 n : forall l c m v, egests (debug k) c0 l c -> hsize k m -> hdet m <> 0 ->
  h_prime (debug k) (clog_egest (debug k) e) n c m = Ok v -> h_got k c0 v.
Proof.
  induction n as [|n IH]; intros l c m v X Z0 D H; [discriminate|]. cbn [h_prime] in H.
  destruct (h_are_singularities_outside_domain (debug k) m) as [out| |]; try discriminate; cbn [bind] in H.
  destruct (if out then h_primer_egest (debug k) m else Ok None) as [[[p m']|]| |] eqn:E; try discriminate; cbn [bind] in H.
  - injection H as <-. destruct out; [|discriminate]. apply primer_debug in E as [Z1 D1]; [|exact Z0].
    exists l. split; [exact X|]. split; [exact Z1|]. lia.
  - clear E. unfold h_prime_ingest in H.
    destruct (clog_egest (debug k) e c) as [[o c']|p|] eqn:E; try discriminate; cbn [bind] in H.
    assert (R : returns (fun f => clog_egest (debug k) f c) (o, c')).
    { unfold returns. rewrite <- E. apply egest_settles. rewrite E. discriminate. }
    destruct o as [[]|].
    + destruct (h_ingest_amplify (debug k) m) as [m'| |] eqn:G; try discriminate; cbn [bind] in H.
      apply ingest_amplify_given in G as [G Z1]; [|now apply debug_hsize]. apply debug_hsize in Z1.
      apply (IH _ _ _ _ (egests_snoc _ _ _ _ _ _ X R) Z1); [|exact H]. eapply det_ingested; eauto.
    + destruct (h_ingest_uncover (debug k) m) as [m'| |] eqn:G; try discriminate; cbn [bind] in H.
      apply ingest_uncover_given in G as [G Z1]; [|now apply debug_hsize]. apply debug_hsize in Z1.
      apply (IH _ _ _ _ (egests_snoc _ _ _ _ _ _ X R) Z1); [|exact H]. eapply det_ingested; eauto.
    + destruct (h_value_at_one_half (debug k) m) as [[num den]| |] eqn:G; try discriminate; cbn [bind] in H.
      apply half_isize in G as [I1 I2].
      destruct (ratio_new_i (debug k) num den) as [[[s p] r]| |] eqn:Q; try discriminate; cbn [bind] in H.
      injection H as <-. pose proof (ratio_i_shape _ _ _ _ Q) as Sh. cbn in Sh.
      destruct s; [exact I|]. destruct r; [|contradiction]. exists num, den.
      split; [now apply debug_isize|]. split; [now apply debug_isize|]. exact Q.
Qed.

Lemma checked_debug k z y : checked (debug k) z = Ok y -> isize k y.
Proof. intro H. apply checked_inv in H as [-> H]. now apply debug_isize. Qed.

(** What homographic returns: [Special], a ratio, or a state that has read some of its operand. *)
Lemma homographic_got k f x nx n dx d p' c' : isize k nx -> isize k n -> isize k dx -> isize k d -> nx * d <> n * dx ->
  number_homographic (debug k) f x nx n dx d = Ok (NOther p' c') ->
  (exists num den r, c' = CRatio r /\ isize k num /\ isize k den /\ ratio_new_i (debug k) num den = Ok (None, p', Some r)) \/
  (exists p c l x1 m, x = NOther p c /\ c' = CHomographic x1 m /\ egests (debug k) c l x1 /\ hsize k m /\ hdet m <> 0).
Proof.
  intros I1 I2 I3 I4 D H. unfold number_homographic in H.
  destruct (h_new (debug k) (clog_egest (debug k) f) f x nx n dx d) as [v| |] eqn:E; try discriminate. cbn [bind] in H.
  assert (Rt : forall c, h_got k c v -> (forall x, snd v <> Some x) ->
    exists num den r, c' = CRatio r /\ isize k num /\ isize k den /\ ratio_new_i (debug k) num den = Ok (None, p', Some r)).
  { intros c G Nx. destruct v as [[[s p] r] h]. cbn [h_got snd] in *. destruct s; [discriminate|].
    destruct r as [r|]; destruct h as [[x1 m1]|]; try contradiction; [|now destruct (Nx (x1, m1))].
    injection H as <- <-. destruct G as (num & den & G). exists num, den, r. tauto. }
  assert (As : forall num den, isize k num -> isize k den -> h_as_ratio (debug k) num den = Ok v -> forall x, snd v <> Some x).
  { intros num den _ _. unfold h_as_ratio. destruct ratio_new_i as [[[s p] r]| |]; try discriminate. cbn [bind].
    intro Q. injection Q as <-. discriminate. }
  unfold h_new in E. destruct ((nx =? 0) && (dx =? 0)) eqn:Z0.
  { exfalso. apply andb_true_iff in Z0 as [Z1 Z2]. apply Z.eqb_eq in Z1, Z2. subst. apply D. ring. }
  destruct x as [[]|p c].
  - destruct (checked_sub (debug k) n nx) as [n'| |] eqn:E1; try discriminate.
    destruct (checked_sub (debug k) d dx) as [d'| |] eqn:E2; try discriminate. cbn [bind] in E.
    apply checked_debug in E1, E2. left. apply (Rt (CRatio (MkRatio 1 2))); eauto using as_ratio_got.
  - left. apply (Rt (CRatio (MkRatio 1 2))); eauto using as_ratio_got.
  - destruct (checked_add (debug k) n nx) as [n'| |] eqn:E1; try discriminate.
    destruct (checked_add (debug k) d dx) as [d'| |] eqn:E2; try discriminate. cbn [bind] in E.
    apply checked_debug in E1, E2. left. apply (Rt (CRatio (MkRatio 1 2))); eauto using as_ratio_got.
  - cbn [unwrap_other bind] in E.
    destruct (h_absorb_primer (debug k) p (HC nx n dx d)) as [m| |] eqn:E1; try discriminate. cbn [bind] in E.
    apply absorb_debug in E1 as [Z1 D1]; [|unfold hsize; cbn; auto].
    assert (G : h_got k c v).
    { eapply (h_prime_got k f c f [] c m v); eauto; [constructor|]. unfold hdet at 2 in D1. cbn [h_nx h_n h_dx h_d] in D1. lia. }
    destruct v as [[[s p0] r] [[x1 m1]|]]; [|left; apply (Rt c); [exact G|discriminate]].
    cbn [h_got] in G. destruct s; [discriminate|]. destruct r; [contradiction|].
    injection H as <- <-. right. destruct G as (l & G). exists p, c, l, x1, m1. tauto.
Qed.

Lemma egests_any k c l c' : egests (debug k) c l c' -> egests k c l c'.
Proof.
  induction 1 as [c|c s c1 l c' R E IH]; econstructor; eauto.
  destruct (either_build k) as [-> | ->]; [exact R|]. eapply builds_returns; eauto. intro. apply builds_egest.
Qed.

Lemma egests_app k c l c1 l' c2 : egests k c l c1 -> egests k c1 l' c2 -> egests k c (l ++ l') c2.
Proof. induction 1 as [c|c s c1 l c' R E IH]; intro H; cbn [app]; [exact H|]. econstructor; eauto. Qed.

Lemma ends_after k c l c1 : egests k c l c1 -> ends k c -> ends k c1.
Proof.
  induction 1 as [c|c s c1 l c' R E IH]; [auto|]. intro H. apply IH.
  destruct H as [c c2 H|c p H|c s' c2 H G].
  - pose proof (settles_det _ _ _ H R). discriminate.
  - pose proof (settles_det _ _ _ H R). discriminate.
  - pose proof (settles_det _ _ _ H R) as Q. injection Q as _ <-. exact G.
Qed.

Lemma ratio_i_any k num den p r : ratio_new_i (debug k) num den = Ok (None, p, Some r) -> number_ratio k num den = Ok (NOther p (CRatio r)).
Proof.
  intro H. apply ratio_i_number in H. destruct (either_build k) as [-> | ->]; [exact H|].
  destruct (builds_ratio k num den) as [Q|Q]; [rewrite Q in H; discriminate|]. now rewrite Q.
Qed.

Definition symbols_bound (k : cfg) (n : Z) : Z :=
  2 * (n + 1) * (16 * bits (wd k) + 5) + 3 * (bits (wd k) * bits (wd k) + 3 * bits (wd k) - 4).

Lemma symbols_bound_mono k n m : 0 <= n <= m -> symbols_bound k n <= symbols_bound k m.
Proof. unfold symbols_bound. assert (16 <= bits (wd k)) by (destruct (wd k); cbn; lia). nia. Qed.

(** The number read has at most [n] symbols ahead: the result has at most [symbols_bound k n / 6]. *)
Theorem homographic_few k f x nx n dx d p' c' N l c'' : isize k nx -> isize k n -> isize k dx -> isize k d -> nx * d <> n * dx ->
  match x with NSpecial _ => True | NOther _ c => at_most k c N end ->
  number_homographic (debug k) f x nx n dx d = Ok (NOther p' c') -> egests k c' l c'' ->
  6 * Z.of_nat (length l) <= symbols_bound k (Z.of_nat N).
Proof.
  intros I1 I2 I3 I4 D B H G. assert (Bw : 16 <= bits (wd k)) by (destruct (wd k); cbn; lia).
  destruct (homographic_got k f x nx n dx d p' c' I1 I2 I3 I4 D H) as
    [(num & den & r & -> & A1 & A2 & Q)|(p & c & lx & x1 & m & -> & -> & X & Z0 & Dm)].
  - destruct (FinalProofs.ratio_drain k num den p' (CRatio r) A1 A2 (ratio_i_any k num den p' r Q)) as (l1 & c1 & c2 & E1 & Nn & _ & Bd).
    pose proof (egests_prefix k _ _ _ _ E1 Nn _ _ G). unfold symbols_bound. nia.
  - pose proof (at_most_after k c N lx x1 B (egests_any k c lx x1 X)) as B1.
    pose proof (homographic_long k l x1 m m [] c'' _ G (run_nil m) Z0 Dm Z0 B1) as L. cbn [length] in L.
    fold (symbols_bound k (Z.of_nat (N - length lx))) in L.
    pose proof (symbols_bound_mono k (Z.of_nat (N - length lx)) (Z.of_nat N) ltac:(lia)). lia.
Qed.

(** A result over a readable operand is readable, in either build. *)
Theorem homographic_readable k f x nx n dx d y : isize k nx -> isize k n -> isize k dx -> isize k d -> nx * d <> n * dx ->
  readable k x -> number_homographic (debug k) f x nx n dx d = Ok y -> readable k y.
Proof.
  intros I1 I2 I3 I4 D B H. destruct y as [s|p' c']; [exact I|]. apply readable_ends. cbn [num_ends].
  destruct (homographic_got k f x nx n dx d p' c' I1 I2 I3 I4 D H) as
    [(num & den & r & -> & A1 & A2 & Q)|(p & c & lx & x1 & m & -> & -> & X & Z0 & Dm)].
  - apply (readable_ends k (NOther p' (CRatio r))). eapply ratio_readable; [exact A1|exact A2|]. now apply ratio_i_any.
  - apply (readable_ends k (NOther p c)) in B. cbn [num_ends] in B.
    pose proof (ends_after k c lx x1 (egests_any k c lx x1 X) B) as Ex.
    destruct (ends_at_most k x1 Ex) as (N & Bn).
    assert (Bw : 16 <= bits (wd k)) by (destruct (wd k); cbn; lia).
    assert (At : at_most k (CHomographic x1 m) (Z.to_nat (symbols_bound k (Z.of_nat N)))).
    { intros l c'' G. pose proof (homographic_long k l x1 m m [] c'' _ G (run_nil m) Z0 Dm Z0 Bn) as L. cbn [length] in L.
      fold (symbols_bound k (Z.of_nat N)) in L. lia. }
    eapply at_most_ends; [exact At|]. apply (tame_steady k (NOther None (CHomographic x1 m))). exact Ex.
Qed.

(** ** An endless number from a wrap-around *)

Definition wrapped_clog : clog := CHomographic (CRatio (MkRatio 1 3)) (HC 0 0 1 1).

Lemma wrapped_step k : returns (fun f => clog_egest k f wrapped_clog) (Some Amplify, wrapped_clog).
Proof.
  assert (E : clog_egest k 5 wrapped_clog = Ok (Some Amplify, wrapped_clog)) by (destruct k as [[] []]; vm_compute; reflexivity).
  unfold returns. rewrite <- E. apply egest_settles. rewrite E. discriminate.
Qed.

Lemma wrapped_drain k : diverges (fun f => drain k f wrapped_clog).
Proof.
  intro f. induction f as [|f IH]; [reflexivity|]. cbn [drain].
  destruct (clog_egest k f wrapped_clog) as [[o c']|p|] eqn:E; [| |reflexivity];
    (assert (S : settles (fun f => clog_egest k f wrapped_clog) (clog_egest k f wrapped_clog))
      by (apply egest_settles; rewrite E; discriminate));
    rewrite E in S; pose proof (settles_det _ _ _ S (wrapped_step k)) as Q; [|discriminate].
  injection Q as -> ->. cbn [bind]. now rewrite IH.
Qed.

Lemma drain_ends_release k c v : clog_has (debug k) c v ->
  terminates (fun f => drain (release k) f c) \/ settles (fun f => drain (debug k) f c) (Panic PArith).
Proof.
  intro H. destruct (ReleaseProofs.drain_release k c v H) as [(l & _ & [(a & R & _)|[R|R]])|P]; [left..|right; exact P].
  - exists (Ok a). split; [discriminate|exact R].
  - exists (Panic PChecked). split; [discriminate|exact R].
  - exists (Panic PArith). split; [discriminate|exact R].
Qed.
