(** * Property C77: how far a comparison reads its operands. *)

From Coq Require Import ZArith QArith Qreals Reals List Lia Lra.
From Verif Require Import Machine Protocol Types Ratio Lib Spec Good ExampleTools.
From Verif Require MirrorProofs PropWorth LibProofs RatioProofs ReachProofs.
Import ListNotations.
Open Scope R_scope.

(** Both are read one symbol beyond what they have in common, and no further,
    whatever the numbers and the build; a panic comes from one of these reads. *)
Theorem c77_reads k f p1 c1 p2 c2 :
  match number_compare k f (NOther p1 c1) (NOther p2 c2) with
  | NoFuel => True
  | Ok _ => exists l c1' c2' e1 d1 e2 d2, egests k c1 l c1' /\ egests k c2 l c2' /\
      returns (fun f => clog_egest k f c1') (e1, d1) /\ returns (fun f => clog_egest k f c2') (e2, d2) /\
      (e1 <> e2 \/ e1 = None /\ e2 = None)
  | Panic q => exists l c1' c2', egests k c1 l c1' /\ egests k c2 l c2' /\
      (settles (fun f => clog_egest k f c1') (Panic q) \/
       exists r, returns (fun f => clog_egest k f c1') r /\ settles (fun f => clog_egest k f c2') (Panic q))
  end.
Proof.
  cbn [number_compare]. unfold compare_others.
  pose proof (MirrorProofs.clogs_read k f c1 c2
    (negb (option_eqb primer_eqb p1 (Some Reflect)) && negb (option_eqb primer_eqb p1 (Some Turn)))%bool) as H.
  destruct (compare_clogs k f c1 c2 _) as [o|q|]; cbn [bind]; exact H.
Qed.
Print Assumptions c77_reads.

(** Nothing is read if one of the numbers is special. *)
Theorem c77_special k f f' s p c c' :
  number_compare k f (NSpecial s) (NOther p c) = number_compare k f' (NSpecial s) (NOther p c') /\
  number_compare k f (NOther p c) (NSpecial s) = number_compare k f' (NOther p c') (NSpecial s) /\
  (exists o, number_compare k f (NSpecial s) (NOther p c) = Ok o) /\
  (exists o, number_compare k f (NOther p c) (NSpecial s) = Ok o).
Proof. split; [reflexivity|]. split; [reflexivity|]. split; eexists; reflexivity. Qed.
Print Assumptions c77_special.

(** Values at least (3/5)^n apart have fewer than n symbols in common: no more
    than n symbols of each are read. *)
Theorem c77_apart k n c d v w : ovf k = true -> clog_has k c v -> clog_has k d w ->
  (3 / 5) ^ n <= Rabs (Q2R v - Q2R w) ->
  forall l c' d', egests k c l c' -> egests k d l d' -> (length l < n)%nat.
Proof.
  intros O V W A l c' d' E1 E2. pose proof (PropWorth.c75_read k k l c d v w c' d' O O V W E1 E2) as B.
  destruct (Nat.lt_ge_cases (length l) n) as [L|L]; [exact L|exfalso].
  assert (P : (3 / 5) ^ length l <= (3 / 5) ^ n).
  { replace (length l) with (n + (length l - n))%nat by lia. rewrite pow_add.
    assert (0 < (3 / 5) ^ n) by (apply pow_lt; lra).
    assert (X : (3 / 5) ^ (length l - n) <= 1).
    { rewrite <- (pow1 (length l - n)). apply pow_incr. lra. }
    assert (Y : 0 <= (3 / 5) ^ n * (1 - (3 / 5) ^ (length l - n))) by (apply Rmult_le_pos; lra).
    lra. }
  lra.
Qed.
Print Assumptions c77_apart.

(** Comparing different ratios with the same primer reads hardly more than 46/19 = 2.42... symbols for each
    bit of the width, in all builds, although their sequences may be as long as half the square of the width
    (C74). *)
Theorem c77_ratio_u k (pos pos' : bool) num den num' den' p c c' l c1 c2 :
  usize k num -> usize k den -> usize k num' -> usize k den' ->
  number_ratio_u pos num den = Ok (NOther p c) -> number_ratio_u pos' num' den' = Ok (NOther p c') ->
  (num * den' <> num' * den)%Z -> egests k c l c1 -> egests k c' l c2 ->
  (19 * Z.of_nat (length l) < 46 * bits (wd k) + 10)%Z.
Proof.
  intros U1 U2 U3 U4 H H' N E1 E2.
  assert (W : (0 <= bits (wd k))%Z) by (destruct (wd k); cbn; lia).
  assert (B : forall z, usize k z -> (z <= 2 ^ Z.of_nat (Z.to_nat (bits (wd k))))%Z).
  { intros z Z. rewrite Z2Nat.id by exact W. unfold usize, umax in Z. lia. }
  pose proof (ReachProofs.common_u k _ pos pos' num den num' den' p c c' l c1 c2 U1 U2 U3 U4
    (B _ U1) (B _ U2) (B _ U3) (B _ U4) H H' N E1 E2). lia.
Qed.
Print Assumptions c77_ratio_u.

Theorem c77_ratio k num den num' den' p c c' l c1 c2 :
  isize k num -> isize k den -> isize k num' -> isize k den' ->
  number_ratio k num den = Ok (NOther p c) -> number_ratio k num' den' = Ok (NOther p c') ->
  (num * den' <> num' * den)%Z -> egests k c l c1 -> egests k c' l c2 ->
  (19 * Z.of_nat (length l) < 46 * (bits (wd k) - 1) + 10)%Z.
Proof.
  intros I1 I2 I3 I4 H H' N E1 E2.
  destruct (LibProofs.ratio_den num den k _ H I1 I2) as [D M]. destruct (LibProofs.ratio_den num' den' k _ H' I3 I4) as [D' M'].
  unfold number_ratio in H, H'.
  rewrite (RatioProofs.magnitude_ok k num), (RatioProofs.magnitude_ok k den) in H by (auto; intro; now apply M).
  rewrite (RatioProofs.magnitude_ok k num'), (RatioProofs.magnitude_ok k den') in H' by (auto; intro; now apply M').
  cbn [bind] in H, H'.
  pose proof (imin_imax k). pose proof (umax_imax k). pose proof (imax_ge k).
  assert (W : (0 <= bits (wd k) - 1)%Z) by (destruct (wd k); cbn; lia).
  assert (U : forall z, isize k z -> usize k (Z.abs z)) by (unfold isize, usize; intros; lia).
  assert (B : forall z, isize k z -> (Z.abs z <= 2 ^ Z.of_nat (Z.to_nat (bits (wd k) - 1)))%Z).
  { intros z Z. rewrite Z2Nat.id by exact W. unfold isize, imin, imax in *. lia. }
  assert (X : (Z.abs num * Z.abs den' <> Z.abs num' * Z.abs den)%Z).
  { intro Q. apply N. clear - Q H H' D D'.
    assert (S : same_sign num den = same_sign num' den').
    { clear - H H'. unfold number_ratio_u, ratio_new in *.
      repeat match goal with X : context [if ?b then _ else _] |- _ => destruct b end; cbn [bind] in *; congruence. }
    unfold same_sign in S.
    destruct (Z.leb_spec 0 num), (Z.leb_spec 0 den), (Z.leb_spec 0 num'), (Z.leb_spec 0 den'),
      (Z.ltb_spec num 0), (Z.ltb_spec den 0), (Z.ltb_spec num' 0), (Z.ltb_spec den' 0); try lia; cbn in S; try discriminate; nia. }
  pose proof (ReachProofs.common_u k _ _ _ _ _ _ _ p c c' l c1 c2 (U _ I1) (U _ I2) (U _ I3) (U _ I4)
    (B _ I1) (B _ I2) (B _ I3) (B _ I4) H H' X E1 E2). lia.
Qed.
Print Assumptions c77_ratio.

(** The same for numbers with any history: different fractions a/b and a'/b' with b b' <= 2^j
    have fewer than (23 j + 10) / 19 symbols in common. *)
Theorem c77_values k c d a b a' b' j : ovf k = true -> (0 < b)%Z -> (0 < b')%Z -> (b * b' <= 2 ^ Z.of_nat j)%Z ->
  clog_has k c (zq a / zq b) -> clog_has k d (zq a' / zq b') -> (a * b' <> a' * b)%Z ->
  forall l c' d', egests k c l c' -> egests k d l d' -> (19 * length l < 23 * j + 10)%nat.
Proof.
  intros O B B' M V W N l c' d' E1 E2. apply ReachProofs.symbols_halvings.
  eapply Rle_lt_trans; [|exact (PropWorth.c75_read_rate k k l c d _ _ c' d' O O V W E1 E2)].
  rewrite !ReachProofs.frac_real by assumption.
  assert (P : 0 < IZR b) by (now apply (IZR_lt 0)). assert (P' : 0 < IZR b') by (now apply (IZR_lt 0)).
  replace (IZR a / IZR b - IZR a' / IZR b') with (IZR (a * b' - a' * b) / IZR (b * b')).
  2: { rewrite minus_IZR, !mult_IZR. field. lra. }
  assert (Q : 0 < IZR (b * b')) by (apply (IZR_lt 0); lia).
  unfold Rdiv at 2. rewrite Rabs_mult, (Rabs_right (/ _)) by (apply Rle_ge, Rlt_le, Rinv_0_lt_compat, Q).
  apply Rle_trans with (1 * / IZR (b * b')).
  - rewrite Rmult_1_l. unfold Rdiv. rewrite Rmult_1_l, pow_inv. apply Rinv_le_contravar; [exact Q|].
    rewrite pow_IZR. apply IZR_le. exact M.
  - apply Rmult_le_compat_r; [apply Rlt_le, Rinv_0_lt_compat, Q|].
    rewrite <- abs_IZR. apply IZR_le. lia.
Qed.
Print Assumptions c77_values.

(** These bounds cannot be lowered much: there are different ratios with parts up to 10^(j+1) and
    8 j symbols in common, that is 8 log 2 / log 10 = 2.408... symbols for each bit. *)
Theorem c77_ratio_u_reached k j : (10 ^ (Z.of_nat j + 1) <= umax k)%Z ->
  exists num den num' den' c c' l c1 c2,
  usize k num /\ usize k den /\ usize k num' /\ usize k den' /\
  number_ratio_u true num den = Ok (NOther None c) /\ number_ratio_u true num' den' = Ok (NOther None c') /\
  (num * den' <> num' * den)%Z /\ egests k c l c1 /\ egests k c' l c2 /\ length l = (8 * j)%nat.
Proof.
  intro U. rewrite Z.pow_add_r in U by lia.
  destruct (ReachProofs.deep_bound 1 2 j ltac:(lia)) as [A1 A2]. destruct (ReachProofs.deep_bound 1 3 j ltac:(lia)) as [B1 B2].
  pose proof (ReachProofs.deep_apart 1 2 1 3 j) as D.
  pose proof (ReachProofs.deep_egests k 1 2 j ltac:(lia) ltac:(lia)) as E1.
  pose proof (ReachProofs.deep_egests k 1 3 j ltac:(lia) ltac:(lia)) as E2.
  destruct (ReachProofs.deep j 1 2) as [a b], (ReachProofs.deep j 1 3) as [c d]. cbn [fst snd] in *.
  assert (R1 : RatioProofs.rat_ok k (MkRatio a b) (zq a / zq b)) by (repeat split; cbn [r_num r_den]; try lia; reflexivity).
  assert (R2 : RatioProofs.rat_ok k (MkRatio c d) (zq c / zq d)) by (repeat split; cbn [r_num r_den]; try lia; reflexivity).
  destruct (E1 _ R1) as (r1 & X1), (E2 _ R2) as (r2 & X2).
  assert (M : forall x y, (0 < x < y)%Z -> number_ratio_u true x y = Ok (NOther None (CRatio (MkRatio x y)))).
  { intros x y H. unfold number_ratio_u, ratio_new. destruct (Z.eqb_spec y 0); [lia|]. destruct (Z.eqb_spec x 0); [lia|].
    destruct (Z.eqb_spec x y); [lia|]. destruct (Z.ltb_spec y x); [lia|]. reflexivity. }
  exists a, b, c, d, (CRatio (MkRatio a b)), (CRatio (MkRatio c d)), (concat (repeat ReachProofs.block j)), (CRatio r1), (CRatio r2).
  split; [unfold usize; lia|]. split; [unfold usize; lia|]. split; [unfold usize; lia|]. split; [unfold usize; lia|].
  split; [now apply M|]. split; [now apply M|]. split; [lia|]. split; [exact X1|]. split; [exact X2|].
  clear. induction j as [|j IH]; [reflexivity|]. cbn [repeat concat]. rewrite app_length, IH. unfold ReachProofs.block. cbn [length]. lia.
Qed.
Print Assumptions c77_ratio_u_reached.

(** Not so with different primers: 1 / isize::MAX and its negative have all their symbols in common,
    (w^2 + w - 8) / 2 of them, and comparing them reads them all. *)
Theorem c77_opposite k : exists c l, number_ratio k 1 (imax k) = Ok (NOther None c) /\
  number_ratio k (-1) (imax k) = Ok (NOther (Some Reflect) c) /\
  read k (NOther None c) (inr (None, l)) /\ (2 * Z.of_nat (length l) = bits (wd k) * bits (wd k) + bits (wd k) - 8)%Z /\
  returns (fun f => number_compare k f (NOther None c) (NOther (Some Reflect) c)) Gt.
Proof.
  destruct k as [[] []].
  1, 2: exists (CRatio (MkRatio 1 32767)).
  3, 4: exists (CRatio (MkRatio 1 2147483647)).
  5, 6: exists (CRatio (MkRatio 1 9223372036854775807)).
  all: eexists; split; [vm_compute; reflexivity|]; split; [vm_compute; reflexivity|];
    split; [split; [reflexivity|apply ran_drain with (f := 2200%nat); vm_compute; reflexivity]|];
    split; [vm_compute; reflexivity|]; apply ran_compare with (f := 2200%nat); [vm_compute; reflexivity|discriminate].
Qed.
Print Assumptions c77_opposite.

(** 1/3 and 2/5 are 1/15 apart, more than (3/5)^6; they have two symbols in common. *)
Example c77_ex : let c := CRatio (MkRatio 1 3) in let d := CRatio (MkRatio 2 5) in
  (3 / 5) ^ 6 <= Rabs (Q2R (1 # 3) - Q2R (2 # 5)) /\
  number_compare k64 10 (NOther None c) (NOther None d) = Ok Lt /\
  exists c' d' c'', egests k64 c [Amplify; Uncover] c' /\ egests k64 d [Amplify; Uncover] d' /\
    clog_egest k64 5 c' = Ok (None, c'') /\ clog_egest k64 5 d' = Ok (Some Amplify, CRatio (MkRatio 1 2)).
Proof.
  cbv zeta. split.
  { unfold Q2R. cbn. rewrite Rabs_left; lra. }
  split; [vm_compute; reflexivity|].
  exists (CRatio (MkRatio 1 2)), (CRatio (MkRatio 1 4)). eexists. split; [|split; [|split]].
  1, 2: repeat (eapply egests_cons; [apply ran_egest with (f := 5%nat); vm_compute; reflexivity|]); apply egests_nil.
  1, 2: vm_compute; reflexivity.
Qed.

(** So by their denominators: 3 * 5 <= 2^4, and 2 is less than (23 * 4 + 10) / 19 = 5.3...  The first clog
    here is that of (2 x + 1) / (2 x + 5) at x = 1/2, which is 1/3. *)
Example c77_values_ex : exists c c' d', number_ratio k64 1 2 = Ok (NOther None (CRatio (MkRatio 1 2))) /\
  number_homographic k64 20 (NOther None (CRatio (MkRatio 1 2))) 2 1 2 5 = Ok (NOther None c) /\
  clog_has k64 c (zq 1 / zq 3) /\ clog_has k64 (CRatio (MkRatio 2 5)) (zq 2 / zq 5) /\
  (3 * 5 <= 2 ^ Z.of_nat 4)%Z /\ egests k64 c [Amplify; Uncover] c' /\ egests k64 (CRatio (MkRatio 2 5)) [Amplify; Uncover] d' /\
  (19 * 2 < 23 * 4 + 10)%nat.
Proof.
  assert (H2 : number_ratio k64 1 2 = Ok (NOther None (CRatio (MkRatio 1 2)))) by reflexivity.
  assert (H5 : number_ratio k64 2 5 = Ok (NOther None (CRatio (MkRatio 2 5)))) by reflexivity.
  assert (H3 : number_homographic k64 20 (NOther None (CRatio (MkRatio 1 2))) 2 1 2 5 =
    Ok (NOther None (CHomographic (CRatio (MkRatio 1 2)) (HC 2 1 2 5)))) by (vm_compute; reflexivity).
  do 3 eexists. split; [exact H2|]. split; [exact H3|]. split; [|split; [|split; [|split; [|split]]]].
  - eapply has_unwrap; [eapply has_homographic; [eapply has_ratio; [| |exact H2]| | | | | |exact H3]|reflexivity|..].
    all: try (unfold isize; vm_compute; split; discriminate). 1: intro E; discriminate E. all: reflexivity.
  - eapply has_unwrap; [eapply has_ratio; [| |exact H5]|reflexivity|..].
    all: try (unfold isize; vm_compute; split; discriminate). all: reflexivity.
  - vm_compute. discriminate.
  - repeat (eapply egests_cons; [apply ran_egest with (f := 20%nat); vm_compute; reflexivity|]); apply egests_nil.
  - repeat (eapply egests_cons; [apply ran_egest with (f := 20%nat); vm_compute; reflexivity|]); apply egests_nil.
  - lia.
Qed.
