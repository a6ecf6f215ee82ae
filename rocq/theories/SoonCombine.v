(** * SoonCombine: how many symbols a combine reads before it gives the next. *)

From Coq Require Import ZArith QArith Qabs Qfield List Lia Lqa Bool.
From Verif Require Import Machine Protocol Support Types Ratio Homographic Combine Lib Spec
  SeqProofs Upto Good RatioProofs SupportProofs HomProofs HomValue HomGood CombProofs CombValue CombGood LibProofs ApiProofs
  ArithProofs LongProofs SpecLazy LazyProofs SpecTell TellProofs SoonProofs.
Import ListNotations.
Open Scope Q_scope.

(** ** Values that begin alike are close, the ends of the range included *)

Definition cl (u : Q) : Prop := 0 <= u /\ u <= 1.

Lemma inv_cl v : 0 <= v -> 0 < / (1 + v) /\ / (1 + v) <= 1.
Proof.
  intro P. assert (X : 0 < / (1 + v)) by (apply Qinv_lt_0_compat; lra). split; [exact X|].
  assert (E : / (1 + v) * (1 + v) == 1) by (field; lra).
  assert (Y : 0 <= / (1 + v) * v) by (apply Qmult_le_0_compat; lra). lra.
Qed.

Lemma unread1_cl s u : cl u -> cl (unread1 s u).
Proof.
  intros [A B]. destruct s; cbn [unread1].
  - unfold cl, Qdiv. change (/ 2) with (1#2). lra.
  - destruct (inv_cl u A). split; lra.
Qed.
Lemma unread_cl l u : cl u -> cl (unread l u).
Proof. intro C. induction l as [|s l IH]; cbn [unread fold_right]; auto. now apply unread1_cl. Qed.
Lemma in_cl u : 0 < u -> u < 1 -> cl u.
Proof. intros. split; lra. Qed.

Lemma shrinks s v v' : cl v -> cl v' -> Qabs (unread1 s v - unread1 s v') <= Qabs (v - v').
Proof.
  intros [A B] [A' B']. destruct s; cbn [unread1].
  - rewrite half_close. apply Qle_trans with (Qabs (v - v') * 1); [apply abs_less; lra|lra].
  - assert (E : / (1 + v) - / (1 + v') == (v' - v) * (/ (1 + v) * / (1 + v'))) by (field; split; lra).
    rewrite E. destruct (inv_cl v A), (inv_cl v' A').
    rewrite <- (Qabs_opp (v - v')). setoid_replace (- (v - v')) with (v' - v) by ring.
    apply Qle_trans with (Qabs (v' - v) * 1); [|lra]. apply abs_less; [now apply Qmult_lt_0_compat|].
    set (i := / (1 + v)) in *. set (j := / (1 + v')) in *. clearbody i j.
    assert (0 <= (1 - i) * j) by (apply Qmult_le_0_compat; lra). lra.
Qed.

Lemma halves s t v v' : cl v -> cl v' ->
  Qabs (unread1 s (unread1 t v) - unread1 s (unread1 t v')) <= Qabs (v - v') * (1#2).
Proof.
  intros C C'. destruct s.
  - change (Qabs (unread1 t v / 2 - unread1 t v' / 2) <= Qabs (v - v') * (1#2)).
    rewrite half_close. rewrite abs_scale by lra. apply Qmult_le_compat_r; [|lra]. now apply shrinks.
  - destruct t.
    + eapply Qle_trans; [apply shrinks; now apply unread1_cl|]. cbn [unread1]. rewrite half_close. rewrite abs_scale by lra. lra.
    + destruct C as [A B], C' as [A' B']. cbn [unread1]. set (r := / (2 + v) * / (2 + v')).
      assert (E : / (1 + / (1 + v)) - / (1 + / (1 + v')) == (v - v') * r) by (unfold r; field; repeat split; lra).
      rewrite E.
      assert (X : forall w, 0 <= w -> 0 < / (2 + w) /\ / (2 + w) <= 1#2).
      { intros w W. assert (I : 0 < / (2 + w)) by (apply Qinv_lt_0_compat; lra). split; [exact I|].
        assert (F : / (2 + w) * (2 + w) == 1) by (field; lra).
        assert (0 <= / (2 + w) * w) by (apply Qmult_le_0_compat; lra). lra. }
      destruct (X v A) as [I1 I2], (X v' A') as [J1 J2]. unfold r. set (i := / (2 + v)) in *. set (j := / (2 + v')) in *. clearbody i j.
      apply abs_less; [now apply Qmult_lt_0_compat|].
      assert (0 <= ((1#2) - i) * j) by (apply Qmult_le_0_compat; lra). lra.
Qed.

Lemma unread_near a u u' : cl u -> cl u' -> Qabs (unread a u - unread a u') <= Qabs (u - u').
Proof.
  intros C C'. induction a as [|s a IH]; cbn [unread fold_right]; [apply Qle_refl|]. fold (unread a u). fold (unread a u').
  eapply Qle_trans; [apply shrinks; now apply unread_cl|exact IH].
Qed.

Lemma closer n : forall a u u', (2 * n <= length a)%nat -> cl u -> cl u' -> Qabs (u - u') < 1 ->
  Qabs (unread a u - unread a u') * pow2 n < 1.
Proof.
  induction n as [|n IH]; intros a u u' L C C' D.
  - rewrite pow2_0, Qmult_1_r. pose proof (unread_near a u u' C C'). lra.
  - destruct a as [|s [|t a]]; cbn [length] in L; try lia. cbn [unread fold_right]. fold (unread a u). fold (unread a u').
    pose proof (halves s t _ _ (unread_cl a u C) (unread_cl a u' C')) as T. pose proof (IH a u u' ltac:(lia) C C' D) as I.
    rewrite pow2_S.
    set (D' := Qabs (unread1 s (unread1 t (unread a u)) - unread1 s (unread1 t (unread a u')))) in *.
    set (E := Qabs (unread a u - unread a u')) in *. pose proof (pow2_pos n) as W. set (w := pow2 n) in *. clearbody D' E w.
    assert (D' * w <= E * (1#2) * w) by (apply Qmult_le_compat_r; lra). lra.
Qed.

(** ** A bilinear quotient does not spread values far *)

Definition mix (y a b : Q) : Q := (1 - y) * a + y * b.
Lemma mix_ge y a b c : cl y -> c <= a -> c <= b -> c <= mix y a b.
Proof.
  intros [Y0 Y1] A B. unfold mix. assert (0 <= (1 - y) * (a - c)) by (apply Qmult_le_0_compat; lra).
  assert (0 <= y * (b - c)) by (apply Qmult_le_0_compat; lra). lra.
Qed.
Lemma mix_le y a b c : cl y -> a <= c -> b <= c -> mix y a b <= c.
Proof.
  intros [Y0 Y1] A B. unfold mix. assert (0 <= (1 - y) * (c - a)) by (apply Qmult_le_0_compat; lra).
  assert (0 <= y * (c - b)) by (apply Qmult_le_0_compat; lra). lra.
Qed.
Lemma mix_mono y a b c d : cl y -> a <= c -> b <= d -> mix y a b <= mix y c d.
Proof.
  intros [Y0 Y1] A B. unfold mix. assert (0 <= (1 - y) * (c - a)) by (apply Qmult_le_0_compat; lra).
  assert (0 <= y * (d - b)) by (apply Qmult_le_0_compat; lra). lra.
Qed.

Lemma cD_mix m x y : cD m x y == mix x (mix y (zq (cd m false false)) (zq (cd m false true))) (mix y (zq (cd m true false)) (zq (cd m true true))).
Proof. apply cD_interp. Qed.
Lemma cN_mix m x y : cN m x y == mix x (mix y (zq (cn m false false)) (zq (cn m false true))) (mix y (zq (cn m true false)) (zq (cn m true true))).
Proof. apply cN_interp. Qed.

(** All the denominators at the corners are at least [L] and at most [H] in size. *)
Definition spans (m : ccoef) (L H : Z) : Prop := forall i j, (L <= Z.abs (cd m i j) <= H)%Z.

(** With positive denominators. *)
Definition plus (m : ccoef) : Prop := forall i j, (0 < cn m i j < cd m i j)%Z.

Lemma plus_den m L H x y : plus m -> spans m L H -> cl x -> cl y -> zq L <= cD m x y /\ cD m x y <= zq H.
Proof.
  intros P S X Y. rewrite cD_mix.
  assert (A : forall i j, zq L <= zq (cd m i j) /\ zq (cd m i j) <= zq H).
  { intros i j. specialize (P i j). specialize (S i j). split; apply (proj1 (zq_le _ _)); lia. }
  split; [apply mix_ge; auto; apply mix_ge; auto; apply A|apply mix_le; auto; apply mix_le; auto; apply A].
Qed.
Lemma plus_num m x y : plus m -> cl x -> cl y -> 0 <= cN m x y /\ cN m x y <= cD m x y.
Proof.
  intros P X Y. rewrite cD_mix, cN_mix.
  assert (A : forall i j, 0 <= zq (cn m i j) /\ zq (cn m i j) <= zq (cd m i j)).
  { intros i j. specialize (P i j). change 0 with (zq 0). split; apply (proj1 (zq_le _ _)); lia. }
  split; [apply mix_ge; auto; apply mix_ge; auto; apply A|apply mix_mono; auto; apply mix_mono; auto; apply A].
Qed.

Lemma zero_cl : cl 0. Proof. split; lra. Qed.
Lemma one_cl : cl 1. Proof. split; lra. Qed.

(** Along [x]: the difference as a quotient. *)
Lemma along_x m L H x x' y z z' : plus m -> (0 < L)%Z -> spans m L H -> cl x -> cl x' -> cl y -> cv m x y z -> cv m x' y z' ->
  Qabs (z - z') * zq (L * L) <= zq (H * H) * Qabs (x - x').
Proof.
  intros P LP S X X' Y [E N] [E' N'].
  destruct (plus_den m L H x y P S X Y) as [D1 D2]. destruct (plus_den m L H x' y P S X' Y) as [D1' D2'].
  destruct (plus_den m L H 0 y P S zero_cl Y) as [A1 A2]. destruct (plus_den m L H 1 y P S one_cl Y) as [B1 B2].
  destruct (plus_num m 0 y P zero_cl Y) as [C1 C2]. destruct (plus_num m 1 y P one_cl Y) as [G1 G2].
  assert (L0 : 0 < zq L) by now apply zq_pos.
  assert (K : (z - z') * (cD m x y * cD m x' y) == (cN m 1 y * cD m 0 y - cN m 0 y * cD m 1 y) * (x - x')).
  { transitivity ((z * cD m x y) * cD m x' y - (z' * cD m x' y) * cD m x y); [ring|]. rewrite <- E, <- E'.
    unfold cN, cD, comb_num. ring. }
  set (d := cD m x y) in *. set (d' := cD m x' y) in *. set (n0 := cN m 0 y) in *. set (n1 := cN m 1 y) in *.
  set (d0 := cD m 0 y) in *. set (d1 := cD m 1 y) in *. rewrite !zq_mul. set (l := zq L) in *. set (h := zq H) in *.
  clearbody d d' n0 n1 d0 d1 l h. clear E E' N N' S P LP.
  assert (Dt : Qabs (n1 * d0 - n0 * d1) <= h * h).
  { assert (0 <= n1 * d0) by (apply Qmult_le_0_compat; lra). assert (0 <= n0 * d1) by (apply Qmult_le_0_compat; lra).
    assert (U : forall a b, 0 <= a -> a <= h -> 0 <= b -> b <= h -> a * b <= h * h).
    { intros a b ? ? ? ?. assert (0 <= (h - a) * b) by (apply Qmult_le_0_compat; lra).
      assert (0 <= h * (h - b)) by (apply Qmult_le_0_compat; lra). lra. }
    assert (n1 * d0 <= h * h) by (apply U; lra). assert (n0 * d1 <= h * h) by (apply U; lra).
    apply Qabs_Qle_condition. lra. }
  assert (Dd : l * l <= d * d').
  { assert (0 <= (d - l) * d') by (apply Qmult_le_0_compat; lra).
    assert (0 <= l * (d' - l)) by (apply Qmult_le_0_compat; lra). lra. }
  assert (Z : Qabs (z - z') * (d * d') == Qabs (n1 * d0 - n0 * d1) * Qabs (x - x')).
  { rewrite <- Qabs_Qmult, <- K, Qabs_Qmult. rewrite (Qabs_pos (d * d')); [reflexivity|].
    apply Qmult_le_0_compat; lra. }
  pose proof (Qabs_nonneg (z - z')) as Q1. pose proof (Qabs_nonneg (x - x')) as Q2.
  apply Qle_trans with (Qabs (z - z') * (d * d')).
  - rewrite !(Qmult_comm (Qabs (z - z'))). now apply Qmult_le_compat_r.
  - rewrite Z. now apply Qmult_le_compat_r.
Qed.

Lemma plus_swap m : plus m -> plus (cswap m).
Proof. intros P i j. rewrite cn_swap, cd_swap. apply P. Qed.
Lemma spans_swap m L H : spans m L H -> spans (cswap m) L H.
Proof. intros P i j. rewrite cd_swap. apply P. Qed.

Lemma spread m L H x y z x' y' z' : plus m -> (0 < L)%Z -> spans m L H -> cl x -> cl y -> cl x' -> cl y' ->
  cv m x y z -> cv m x' y' z' ->
  Qabs (z - z') * zq (L * L) <= zq (H * H) * (Qabs (x - x') + Qabs (y - y')).
Proof.
  intros P LP S X Y X' Y' V V'.
  assert (ND : ~ cD m x' y == 0).
  { destruct (plus_den m L H x' y P S X' Y). apply zq_pos in LP. intro E. lra. }
  assert (V1 : cv m x' y (cN m x' y / cD m x' y)) by (split; auto; field; auto).
  set (w := cN m x' y / cD m x' y) in *.
  pose proof (along_x m L H x x' y z w P LP S X X' Y V V1) as A.
  pose proof (along_x (cswap m) L H y y' x' w z' (plus_swap _ P) LP (spans_swap _ _ _ S) Y Y' X' (cv_swap _ _ _ _ V1) (cv_swap _ _ _ _ V')) as B.
  assert (T : Qabs (z - z') <= Qabs (z - w) + Qabs (w - z')).
  { setoid_replace (z - z') with ((z - w) + (w - z')) by ring. apply Qabs_triangle. }
  assert (LL : 0 <= zq (L * L)) by (change 0 with (zq 0); apply (proj1 (zq_le _ _)); lia).
  set (l := zq (L * L)) in *. set (h := zq (H * H)) in *.
  set (a := Qabs (z - z')) in *. set (b := Qabs (z - w)) in *. set (c := Qabs (w - z')) in *.
  set (d := Qabs (x - x')) in *. set (e := Qabs (y - y')) in *. clearbody l h a b c d e.
  assert (0 <= l * (b + c - a)) by (apply Qmult_le_0_compat; lra). lra.
Qed.

(** The other sign. *)
Definition opp (m : ccoef) : ccoef :=
  CC (- c_a m) (- c_b m) (- c_c m) (- c_d m) (- c_e m) (- c_f m) (- c_g m) (- c_h m).
Lemma cv_opp m x y z : cv m x y z -> cv (opp m) x y z.
Proof.
  intros [A B].
  assert (N : cN (opp m) x y == - cN m x y) by (unfold cN, comb_num, opp; cbn; rewrite !zq_opp; ring).
  assert (D : cD (opp m) x y == - cD m x y) by (unfold cD, comb_num, opp; cbn; rewrite !zq_opp; ring).
  split; rewrite ?N, ?D; [rewrite A; ring|lra].
Qed.

Lemma JC_spread m L H x y z x' y' z' : JC m -> (0 < L)%Z -> spans m L H -> cl x -> cl y -> cl x' -> cl y' ->
  cv m x y z -> cv m x' y' z' ->
  Qabs (z - z') * zq (L * L) <= zq (H * H) * (Qabs (x - x') + Qabs (y - y')).
Proof.
  intros [P|P] LP S X Y X' Y' V V'; [eapply spread; eauto|].
  assert (N : forall i j, cn (opp m) i j = (- cn m i j)%Z /\ cd (opp m) i j = (- cd m i j)%Z).
  { intros [] []; unfold opp; cbn; lia. }
  apply (spread (opp m) L H x y z x' y' z'); auto using cv_opp.
  - intros i j. destruct (N i j) as [-> ->]. specialize (P i j). lia.
  - intros i j. destruct (N i j) as [_ ->]. specialize (S i j). lia.
Qed.

(** ** The range of the operands after reading *)

Lemma ingested_back s m m' u y z : 0 <= u -> cingested s m m' -> cv m' u y z -> cv m (unread1 s u) y z.
Proof.
  intros P I V. destruct s; cbn [cingested unread1] in *.
  - destruct I as [(A & B & C & D & E & F & G & H)|(A & B & C & D & E & F & G & H)].
    + apply (cv_scale m' m u y (u / 2) y z (1#2) V); [lra| |]; unfold cN, cD, comb_num;
        rewrite ?A, ?B, ?C, ?D, ?E, ?F, ?G, ?H, ?zq_mul, ?zq_2; field.
    + apply zeq_Q in A, B, E, F. rewrite zq_mul, zq_2 in A, B, E, F.
      apply (cv_scale m' m u y (u / 2) y z 1 V); [lra| |]; unfold cN, cD, comb_num;
        rewrite ?C, ?D, ?G, ?H, <- ?A, <- ?B, <- ?E, <- ?F; field.
  - subst m'. assert (NV : ~ 1 + u == 0) by lra.
    apply (cv_scale _ m u y (/ (1 + u)) y z (/ (1 + u)) V).
    + apply Qlt_neq, inv_pos. lra.
    + unfold cN, comb_num, cing_uncover; cbn. rewrite !zq_add. field. auto.
    + unfold cD, comb_num, cing_uncover; cbn. rewrite !zq_add. field. auto.
Qed.
Lemma ingested_y_back s m m' w x z : 0 <= w -> cingested s (cswap m) (cswap m') -> cv m' x w z -> cv m x (unread1 s w) z.
Proof. intros P I V. apply cv_swap_back. eapply ingested_back; eauto. now apply cv_swap. Qed.

(** [m'] is [m] after reading [a] and [b]. *)
Definition box (m : ccoef) (a b : list reduction) (m' : ccoef) : Prop :=
  JC m' /\ forall u w z, cl u -> cl w -> cv m' u w z -> cv m (unread a u) (unread b w) z.

Lemma box_start m : JC m -> box m [] [] m.
Proof. intro J. split; auto. Qed.
Lemma box_round m a b m1 s m2 t m3 : box m a b m1 -> cingested s m1 m2 -> cingested t (cswap m2) (cswap m3) ->
  box m (a ++ [s]) (b ++ [t]) m3.
Proof.
  intros (HJ & F) I1 I2. split; [exact (JC_ingested_y t m2 m3 (JC_ingested s m1 m2 HJ I1) I2)|].
  intros u w z U W H. rewrite !unread_snoc. apply F; [now apply unread1_cl|now apply unread1_cl|].
  apply (ingested_back s m1 m2); [apply U|exact I1|]. apply (ingested_y_back t m2 m3); [apply W|exact I2|exact H].
Qed.

(** ** When no symbol is given, one half is between the values at the corners *)

Definition straddles (m : ccoef) : Prop :=
  (exists i j a b, fr (cn m i j) (cd m i j) a b /\ (0 < b)%Z /\ (2 * a <= b)%Z) /\
  (exists i j a b, fr (cn m i j) (cd m i j) a b /\ (0 < b)%Z /\ (b <= 2 * a)%Z).

Lemma reduction_none_wp k m : ovf k = true -> JC m ->
  wp (fun o => o = None -> straddles m) (fun _ => True) (c_reduction_egest k m).
Proof.
  intros O HJ. destruct (JC_amen m HJ) as [AN AD].
  unfold c_reduction_egest. apply wp_bind.
  eapply wp_mono; [apply (cimage_wp k 1 m O (amen4_neq _ AN) (amen4_neq _ AD)) | | auto].
  intros [[[n1 d1] n2] d2] [H _]. cbn beta iota.
  pose proof H as ((D1 & i1 & j1 & F1) & (D2 & i2 & j2 & F2) & _).
  pose proof (fr_JC _ _ _ _ _ HJ F1) as G1. pose proof (fr_JC _ _ _ _ _ HJ F2) as G2.
  unfold not_greater_than_zero, not_less_than_one.
  rewrite (proj2 (Z.ltb_lt 0 d1)), (proj2 (Z.ltb_lt 0 d2)) by lia.
  rewrite (proj2 (Z.leb_gt n1 0)), (proj2 (Z.leb_gt d2 n2)) by lia.
  apply wp_bind. eapply wp_mono; [apply (less_than_one_half_wp k n2 d2); lia | | auto].
  intros low ->. destruct (Z.ltb_spec (2 * n2) d2) as [L|L].
  { apply wp_bind. eapply wp_mono; [apply (c_amplify_wp k 1 m)| |auto]. intros m1 _ Z. discriminate. }
  apply wp_bind. eapply wp_mono; [apply (greater_than_one_half_wp k n1 d1); lia | | auto].
  intros high ->. destruct (Z.ltb_spec d1 (2 * n1)) as [G|G].
  { apply wp_bind. eapply wp_mono; [apply (c_uncover_wp k 1 m)| |auto]. intros m1 _ Z. discriminate. }
  intros _. split; [exists i1, j1, n1, d1|exists i2, j2, n2, d2]; auto.
Qed.

Lemma no_symbol k m out : ovf k = true -> JC m -> c_are_singularities_outside_domain k m = Ok out ->
  (if out then c_reduction_egest k m else Ok None) = Ok None -> straddles m.
Proof.
  intros O HJ Sing E. destruct out.
  - exact (wp_ok _ _ _ _ (reduction_none_wp k m O HJ) E eq_refl).
  - exfalso. pose proof (wp_ok _ _ _ _ (sing4_wp k 1 m) Sing) as A. cbv beta in A.
    apply proj2 in A. specialize (A (JC_amen m HJ)). discriminate.
Qed.

Definition bq (i : bool) : Q := if i then 1 else 0.
Lemma bq_cl i : cl (bq i). Proof. destruct i; [apply one_cl|apply zero_cl]. Qed.
Lemma bq_away i u : 0 < u -> u < 1 -> Qabs (u - bq i) < 1.
Proof. intros. apply Qabs_Qlt_condition. destruct i; cbn [bq]; lra. Qed.

Lemma corner_value m i j a b : fr (cn m i j) (cd m i j) a b -> (0 < b)%Z -> cv m (bq i) (bq j) (zq a / zq b).
Proof.
  intros F P. assert (N : cN m (bq i) (bq j) == zq (cn m i j)) by (rewrite cN_mix; unfold mix; destruct i, j; cbn [bq]; ring).
  assert (D : cD m (bq i) (bq j) == zq (cd m i j)) by (rewrite cD_mix; unfold mix; destruct i, j; cbn [bq]; ring).
  assert (Nb : ~ zq b == 0) by (apply zq_neq; lia).
  split; rewrite ?N, ?D; destruct F as [(X & -> & ->)|(X & -> & ->)].
  - field. exact Nb.
  - rewrite !zq_opp. rewrite zq_opp in Nb. field. lra.
  - exact Nb.
  - rewrite zq_opp in Nb. lra.
Qed.

Lemma straddle_close m a b m' n L H u w z : JC m -> (0 < L)%Z -> spans m L H -> box m a b m' -> straddles m' ->
  (2 * n <= length a)%nat -> (2 * n <= length b)%nat -> 0 < u -> u < 1 -> 0 < w -> w < 1 ->
  cv m (unread a u) (unread b w) z -> pow2 n * Qabs (z - (1#2)) * zq (L * L) < 2 * zq (H * H).
Proof.
  intros HJ LP S (_ & B) [(i1 & j1 & a1 & b1 & F1 & P1 & S1) (i2 & j2 & a2 & b2 & F2 & P2 & S2)] La Lb U0 U1 W0 W1 V.
  assert (H0 : 0 < zq (H * H)).
  { specialize (S true true). apply zq_pos. nia. }
  assert (L0 : 0 < zq (L * L)) by (apply zq_pos; nia).
  assert (K : forall i j c, cv m' (bq i) (bq j) c -> pow2 n * Qabs (z - c) * zq (L * L) < 2 * zq (H * H)).
  { intros i j c C. apply B in C; [|apply bq_cl|apply bq_cl].
    pose proof (JC_spread m L H _ _ _ _ _ _ HJ LP S (unread_cl a u (in_cl u U0 U1)) (unread_cl b w (in_cl w W0 W1))
      (unread_cl a _ (bq_cl i)) (unread_cl b _ (bq_cl j)) V C) as G.
    pose proof (closer n a u (bq i) La (in_cl u U0 U1) (bq_cl i) (bq_away i u U0 U1)) as X.
    pose proof (closer n b w (bq j) Lb (in_cl w W0 W1) (bq_cl j) (bq_away j w W0 W1)) as Y.
    pose proof (pow2_pos n) as PP. set (x := Qabs (unread a u - unread a (bq i))) in *.
    set (y := Qabs (unread b w - unread b (bq j))) in *. set (d := Qabs (z - c)) in *. set (p := pow2 n) in *.
    set (l := zq (L * L)) in *. set (h := zq (H * H)) in *. clearbody x y d p l h.
    assert (X1 : p * (d * l) <= p * (h * (x + y))) by (rewrite !(Qmult_comm p); apply Qmult_le_compat_r; lra).
    assert (X2 : 0 < h * (2 - (x + y) * p)) by (apply Qmult_lt_0_compat; lra). lra. }
  pose proof (K i1 j1 _ (corner_value m' i1 j1 a1 b1 F1 P1)) as K1. pose proof (K i2 j2 _ (corner_value m' i2 j2 a2 b2 F2 P2)) as K2.
  assert (C1 : zq a1 / zq b1 <= 1#2).
  { apply zq_le in S1. rewrite zq_mul, zq_2 in S1. apply zq_pos in P1. apply Qle_shift_div_r; [exact P1|lra]. }
  assert (C2 : 1#2 <= zq a2 / zq b2).
  { apply zq_le in S2. rewrite zq_mul, zq_2 in S2. apply zq_pos in P2. apply Qle_shift_div_l; [exact P2|lra]. }
  set (c1 := zq a1 / zq b1) in *. set (c2 := zq a2 / zq b2) in *. clearbody c1 c2.
  pose proof (pow2_pos n) as PP. set (p := pow2 n) in *. set (l := zq (L * L)) in *. set (h := zq (H * H)) in *. clearbody p l h.
  assert (PL : 0 < p * l) by now apply Qmult_lt_0_compat.
  destruct (Qlt_le_dec z (1#2)) as [Y|Y].
  - rewrite Qabs_neg in K2 by lra. rewrite Qabs_neg by lra.
    assert (0 <= p * l * (c2 - (1#2))) by (apply Qmult_le_0_compat; lra). lra.
  - rewrite Qabs_pos in K1 by lra. rewrite Qabs_pos by lra.
    assert (0 <= p * l * ((1#2) - c1)) by (apply Qmult_le_0_compat; lra). lra.
Qed.

(** ** Reading on *)

Definition late (m : ccoef) (a b : list reduction) : Prop :=
  length a = length b /\ exists m', box m a b m' /\ straddles m'.

Definition waited (k : cfg) (x y : clog) (m : ccoef) (v : egested) : Prop :=
  match v with
  | Emit o c => exists x' y' m' s ex ey, o = Some s /\ c = CCombine x' y' m' /\ egests k x ex x' /\ egests k y ey y' /\
      ((ex = [] /\ ey = []) \/ exists a b s t, ex = a ++ [s] /\ ey = b ++ [t] /\ late m a b)
  | Become c => not_combine c /\ exists a b, late m a b /\
      ((ran_out k x a /\ exists y', egests k y b y') \/ ((exists x', egests k x a x') /\ ran_out k y b))
  end.

Lemma c_egest_waited k e x0 y0 m0 (O : ovf k = true) n : forall a b x y m v,
  egests k x0 a x -> egests k y0 b y -> length a = length b -> box m0 a b m ->
  ((a = [] /\ b = []) \/ exists a' b' s t, a = a' ++ [s] /\ b = b' ++ [t] /\ late m0 a' b') ->
  c_egest k (clog_egest k e) n x y m = Ok v -> waited k x0 y0 m0 v.
Proof.
  induction n as [|n IH]; intros a b x y m v X Y Len Bx Lt H; [discriminate|]. cbn [c_egest] in H.
  pose proof (proj1 Bx) as HJ.
  destruct (c_are_singularities_outside_domain k m) as [out| |] eqn:Sing; try discriminate; cbn [bind] in H.
  destruct (if out then c_reduction_egest k m else Ok None) as [[[o m']|]| |] eqn:E; try discriminate; cbn [bind] in H.
  - injection H as <-. destruct out; [|discriminate].
    pose proof (wp_ok _ _ _ _ (c_reduction_egest_wp k 1 m O HJ) E) as R. cbn [cre_post] in R.
    destruct o as [s|]; [|contradiction]. cbn [waited]. exists x, y, m', s, a, b. auto 10.
  - pose proof (no_symbol k m out O HJ Sing E) as Str. assert (La : late m0 a b) by (split; [exact Len|exists m; auto]). clear E.
    destruct (c_reduction_ingest k (clog_egest k e) n x y m) as [g| |] eqn:G; try discriminate; cbn [bind] in H.
    unfold c_reduction_ingest in G.
    destruct (clog_egest k e x) as [[o x1]|?|] eqn:E; try discriminate; cbn [bind] in G.
    assert (R : returns (fun f => clog_egest k f x) (o, x1)).
    { eapply egest_settles; [exact E|discriminate]. }
    destruct o as [s|].
    + destruct (match s with Amplify => c_amplify_x k m | Uncover => c_uncover_x k m end) as [m1| |] eqn:G1;
        try discriminate; cbn [bind] in G. apply ingest_x_ok in G1.
      destruct (clog_egest k e y) as [[o y1]|?|] eqn:E2; try discriminate; cbn [bind] in G.
      assert (R2 : returns (fun f => clog_egest k f y) (o, y1)).
      { eapply egest_settles; [exact E2|discriminate]. }
      destruct o as [t|].
      * destruct (match t with Amplify => c_amplify_y k m1 | Uncover => c_uncover_y k m1 end) as [m2| |] eqn:G2;
          try discriminate; cbn [bind] in G. apply ingest_y_ok in G2. injection G as <-.
        apply (IH (a ++ [s]) (b ++ [t]) x1 y1 m2 v); auto.
        -- eapply egests_snoc; eauto.
        -- eapply egests_snoc; eauto.
        -- rewrite !app_length. cbn. lia.
        -- eapply box_round; eauto.
        -- right. exists a, b, s, t. auto.
      * assert (V : match g with inl _ => True | inr _ => False end).
        { destruct (c_value_at_end_of_y k m1) as [q| |]; try discriminate; cbn [bind] in G.
          destruct (c_shutdown k x1) as [nx'| |]; try discriminate; cbn [bind] in G.
          destruct (h_new k (clog_egest k e) n nx' _ _ _ _) as [[[[[sp|] [p1|]] r] h]| |]; try discriminate. inversion G. exact I. }
        destruct g as [[r h]|?]; [|contradiction].
        assert (W : exists c, v = Become c /\ not_combine c).
        { destruct r as [r|], h as [[z q]|]; try discriminate; injection H as <-; eexists; (split; [reflexivity|]);
            intros ? ? ? Z; discriminate. }
        destruct W as (c & -> & NC). split; [exact NC|]. exists a, b. split; [exact La|]. right. split; [eauto|exists y, y1; auto].
    + assert (V : match g with inl _ => True | inr _ => False end).
      { destruct (c_value_at_end_of_x k m) as [q| |]; try discriminate; cbn [bind] in G.
        destruct (c_shutdown k y) as [nx'| |]; try discriminate; cbn [bind] in G.
        destruct (h_new k (clog_egest k e) n nx' _ _ _ _) as [[[[[sp|] [p1|]] r] h]| |]; try discriminate. inversion G. exact I. }
      destruct g as [[r h]|?]; [|contradiction].
      assert (W : exists c, v = Become c /\ not_combine c).
      { destruct r as [r|], h as [[z q]|]; try discriminate; injection H as <-; eexists; (split; [reflexivity|]);
          intros ? ? ? Z; discriminate. }
      destruct W as (c & -> & NC). split; [exact NC|]. exists a, b. split; [exact La|]. left. split; [exists x, x1; auto|eauto].
Qed.

Theorem combine_soon k f f' px cx qx py cy qy nxy nx ny n dxy dx dy d p c l x y m o c' : ovf k = true ->
  num_has k (NOther px cx) qx -> num_has k (NOther py cy) qy ->
  number_combine k f (NOther px cx) (NOther py cy) nxy nx ny n dxy dx dy d = Ok (NOther p c) ->
  egests k c l (CCombine x y m) -> clog_egest k f' (CCombine x y m) = Ok (o, c') ->
  exists ex ey z, 0 < z /\ z < 1 /\ comb nxy nx ny n dxy dx dy d qx qy == primed p (followed l z) /\ length ex = length ey /\
    ((exists x' y' m' s, c' = CCombine x' y' m' /\ o = Some s /\ egests k x ex x' /\ egests k y ey y') \/
     (not_combine c' /\ (ran_out k x ex \/ ran_out k y ey))) /\
    forall j L H, (0 < L)%Z -> Forall (fun t => (L <= Z.abs t <= H)%Z)
      [c_h m; (c_f m + c_h m)%Z; (c_g m + c_h m)%Z; (c_e m + c_f m + c_g m + c_h m)%Z] ->
      2 * zq (H * H) <= zq (2 ^ Z.of_nat j) * Qabs (z - (1#2)) * zq (L * L) -> (length ex <= 2 * j)%nat.
Proof.
  intros O Hx Hy Hc Hl E.
  assert (Hd : exists lx ly, egests k cx lx x /\ egests k cy ly y /\ cheld (CC nxy nx ny n dxy dx dy d) px lx py ly p l m).
  { apply combine_made in Hc; auto. destruct Hc as [N|(x0 & y0 & m0 & lx & ly & -> & Xx & Xy & Hd)].
    - exfalso. apply (not_combine_egests _ _ _ _ Hl) in N. now apply (N x y m).
    - exact (egests_cheld k cx cy _ px py p _ _ _ O Hl x0 y0 m0 lx ly [] x y m eq_refl eq_refl Xx Xy Hd). }
  destruct Hd as (lx & ly & Xx & Xy & HJ & B).
  assert (BOUND : forall ex x' ey y', egests k x ex x' -> egests k y ey y' ->
    exists z u w, 0 < z /\ z < 1 /\ comb nxy nx ny n dxy dx dy d qx qy == primed p (followed l z) /\
      0 < u /\ u < 1 /\ 0 < w /\ w < 1 /\ cv m (unread ex u) (unread ey w) z).
  { intros ex x' ey y' Ex Ey.
    pose proof (has_begins k px cx qx (lx ++ ex) x' O Hx (egests_app _ _ _ _ _ _ Xx Ex)) as Bx.
    pose proof (has_begins k py cy qy (ly ++ ey) y' O Hy (egests_app _ _ _ _ _ _ Xy Ey)) as By.
    apply begins_inv in Bx as (u & U0 & U1 & Eu). apply begins_inv in By as (w & W0 & W1 & Ew).
    rewrite unread_app in Eu, Ew. destruct (unread_range ex u U0 U1) as [V0 V1]. destruct (unread_range ey w W0 W1) as [T0 T1].
    pose proof (JC_den m _ _ HJ V0 V1 T0 T1) as ND.
    assert (H : cv m (unread ex u) (unread ey w) (cN m (unread ex u) (unread ey w) / cD m (unread ex u) (unread ey w))) by (split; auto; field; auto).
    set (z := cN m (unread ex u) (unread ey w) / cD m (unread ex u) (unread ey w)) in *.
    destruct (JC_unit m _ _ _ HJ V0 V1 T0 T1 H) as [Z0 Z1]. exists z, u, w.
    split; [exact Z0|]. split; [exact Z1|]. split; [|auto 10]. rewrite primed_followed.
    pose proof (B _ _ z V0 V1 T0 T1 Z0 Z1 H) as [B1 B2].
    unfold cN, cD in B1, B2. cbn [c_a c_b c_c c_d c_e c_f c_g c_h] in B1, B2.
    assert (X1 : forall a b c d, comb_num a b c d (primed px (unread lx (unread ex u))) (primed py (unread ly (unread ey w))) ==
      comb_num a b c d qx qy) by (intros; unfold comb_num; now rewrite Eu, Ew).
    rewrite !X1 in B1. rewrite X1 in B2. unfold comb. rewrite B1. field. exact B2. }
  assert (LATE : forall a b u w z, late m a b -> 0 < u -> u < 1 -> 0 < w -> w < 1 -> cv m (unread a u) (unread b w) z ->
    forall j L H, (0 < L)%Z -> Forall (fun t => (L <= Z.abs t <= H)%Z)
      [c_h m; (c_f m + c_h m)%Z; (c_g m + c_h m)%Z; (c_e m + c_f m + c_g m + c_h m)%Z] ->
      2 * zq (H * H) <= zq (2 ^ Z.of_nat j) * Qabs (z - (1#2)) * zq (L * L) -> (length a < 2 * j)%nat).
  { intros a b u w z (Ln & m' & Bx & St) U0 U1 W0 W1 V j L H LP Fa Le.
    destruct (le_lt_dec (2 * j) (length a)) as [Gt|?]; [exfalso|assumption].
    assert (Sp : spans m L H).
    { repeat match goal with H : Forall _ (_ :: _) |- _ => apply Forall_cons_iff in H; destruct H end.
      intros [] []; cbn [cd]; lia. }
    pose proof (straddle_close m a b m' j L H u w z HJ LP Sp Bx St Gt ltac:(lia) U0 U1 W0 W1 V) as C.
    unfold pow2 in C. lra. }
  destruct f' as [|f']; [discriminate|]. cbn [clog_egest strategy_egest] in E.
  destruct (c_egest k (clog_egest k f') f' x y m) as [v| |] eqn:Ev; try discriminate. cbn [bind] in E.
  pose proof (c_egest_waited k f' x y m O f' [] [] x y m v (egests_nil _ _) (egests_nil _ _) eq_refl (box_start m HJ)
    (or_introl (conj eq_refl eq_refl)) Ev) as W.
  destruct v as [o1 c1|c1]; cbn [waited] in W.
  - injection E as -> ->. destruct W as (x' & y' & m' & s & ex & ey & -> & -> & Ex & Ey & Sh).
    destruct (BOUND ex x' ey y' Ex Ey) as (z & u & w & Z0 & Z1 & Ez & U0 & U1 & W0 & W1 & V).
    exists ex, ey, z. split; [exact Z0|]. split; [exact Z1|]. split; [exact Ez|].
    destruct Sh as [[-> ->]|(a & b & s1 & t1 & -> & -> & Lt)].
    + split; [reflexivity|]. split; [left; eauto 10|]. intros; cbn; lia.
    + split; [rewrite !app_length; destruct Lt as [-> _]; reflexivity|]. split; [left; eauto 10|]. intros j L H LP Fa Le.
      rewrite !unread_snoc in V. destruct (unread1_range s1 u U0 U1) as [A0 A1]. destruct (unread1_range t1 w W0 W1) as [C0 C1].
      pose proof (LATE a b _ _ z Lt A0 A1 C0 C1 V j L H LP Fa Le). rewrite app_length. cbn. lia.
  - destruct W as (NC & a & b & Lt & Rn).
    assert (XY : exists x' y', egests k x a x' /\ egests k y b y').
    { destruct Rn as [((x1 & x2 & R & _) & y1 & Y)|((x1 & X) & (y1 & y2 & R & _))]; eauto. }
    destruct XY as (x' & y' & Ex & Ey).
    destruct (BOUND a x' b y' Ex Ey) as (z & u & w & Z0 & Z1 & Ez & U0 & U1 & W0 & W1 & V).
    exists a, b, z. split; [exact Z0|]. split; [exact Z1|]. split; [exact Ez|]. split; [exact (proj1 Lt)|].
    split; [right; split; [eapply not_combine_egest; eauto|tauto]|]. intros j L H LP Fa Le.
    pose proof (LATE a b u w z Lt U0 U1 W0 W1 V j L H LP Fa Le). lia.
Qed.
