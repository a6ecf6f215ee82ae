(** * TestProofs: the integration tests pass. *)

From Coq Require Import ZArith QArith Bool List Lia Lqa.
From Verif Require Import Machine Protocol Types Ratio Lib Spec SpecSmall Good LibProofs ApiProofs BuildProofs SmallProofs
  FormulaProofs TestSuite.
Import ListNotations.
Open Scope Z_scope.

(** ** Loops *)

Lemma ret_returns {A} (a : A) : returns (fun _ => Ok a) a.
Proof. exists 0%nat. reflexivity. Qed.

Lemma each_returns {A} (l : list A) (body : nat -> A -> res bool) :
  (forall x, In x l -> returns (fun f => body f x) true) -> returns (fun f => each l (body f)) true.
Proof.
  induction l as [|x l IH]; intro H; cbn [each]; [apply ret_returns|]. unfold andm.
  apply (returns_bind (fun f => body f x) (fun f b => if b then each l (body f) else Ok false) true).
  - apply H. now left.
  - apply IH. intros z I. apply H. now right.
Qed.

Lemma in_range z lo hi : In z (range lo hi) -> lo <= z < hi.
Proof. unfold range. rewrite in_map_iff. intros (i & <- & I). apply in_seq in I. lia. Qed.

(** ** The reference arithmetic *)

Lemma plain_in k z : Z.abs z <= imax k -> plain k z = Ok z.
Proof.
  intro B. unfold plain. replace (in_i k z) with true; [reflexivity|]. symmetry. unfold in_i.
  assert (imin k = - imax k - 1) by (unfold imin, imax; lia).
  apply andb_true_iff. split; apply Z.leb_le; lia.
Qed.

Lemma quot_in k a b : Z.abs a <= imax k -> in_i k (Z.quot a b) = true.
Proof.
  intro B. unfold in_i. assert (imin k = - imax k - 1) by (unfold imin, imax; lia).
  assert (Z.abs (Z.quot a b) <= Z.abs a).
  { destruct (Z.eq_dec b 0) as [->|N]; [rewrite Z.quot_0_r_ext by reflexivity; lia|].
    rewrite <- Z.quot_abs by exact N. apply Z.quot_le_upper_bound; [lia|]. nia. }
  apply andb_true_iff. split; apply Z.leb_le; lia.
Qed.

Lemma divide_in k a b : b <> 0 -> Z.abs a <= imax k -> divide k a b = Ok (Z.quot a b).
Proof.
  intros N B. unfold divide. rewrite quot_in by exact B. destruct (b =? 0) eqn:E; [apply Z.eqb_eq in E; contradiction|reflexivity].
Qed.

Lemma remainder_in k a b : b <> 0 -> Z.abs a <= imax k -> remainder k a b = Ok (Z.rem a b).
Proof.
  intros N B. unfold remainder. rewrite quot_in by exact B. destruct (b =? 0) eqn:E; [apply Z.eqb_eq in E; contradiction|reflexivity].
Qed.

Lemma gcd_divides k : forall n a b, Z.abs b <= Z.of_nat n -> a <> 0 \/ b <> 0 -> Z.abs a <= imax k -> Z.abs b <= imax k ->
  exists g, returns (fun f => gcd k f a b) g /\ g <> 0 /\ (g | a) /\ (g | b).
Proof.
  induction n as [|n IH]; intros a b L N A B.
  - assert (b = 0) as -> by lia. exists a. split; [|split; [lia|split; [exists 1; ring|exists 0; ring]]].
    exists 1%nat. intros [|f] ?; [lia|reflexivity].
  - destruct (Z.eq_dec b 0) as [->|N'].
    + exists a. split; [|split; [lia|split; [exists 1; ring|exists 0; ring]]].
      exists 1%nat. intros [|f] ?; [lia|reflexivity].
    + assert (R : Z.abs (Z.rem a b) < Z.abs b) by now apply Z.rem_bound_abs.
      destruct (IH b (Z.rem a b)) as (g & [F G] & G0 & D1 & D2); [lia|now left|exact B|lia|].
      exists g. split.
      { exists (S F). intros [|f] ?; [lia|]. cbn [gcd]. destruct (b =? 0) eqn:E; [apply Z.eqb_eq in E; contradiction|].
        rewrite remainder_in by assumption. cbn [bind]. apply G. lia. }
      split; [exact G0|]. split; [|exact D1].
      rewrite (Z.quot_rem' a b). apply Z.divide_add_r; [|exact D2]. now apply Z.divide_mul_l.
Qed.

(** [f] is a fraction of value [q], with a numerator up to [N] and a denominator up to [D]. *)
Definition is_frac (q : Q) (N D : Z) (f : fraction) : Prop :=
  snd f <> 0 /\ Z.abs (fst f) <= N /\ Z.abs (snd f) <= D /\ (zq (fst f) / zq (snd f) == q)%Q.

Lemma zq_nz z : z <> 0 -> ~ (zq z == 0)%Q.
Proof. intros N E. apply N. unfold zq, Qeq, inject_Z in E. cbn in E. lia. Qed.

Lemma is_frac_pos q N D f : is_frac q N D f -> 0 <= N /\ 1 <= D.
Proof. intros (A & B & C & _). lia. Qed.

Lemma fix_ok k q N D f : is_frac q N D f -> N <= imax k -> D <= imax k ->
  exists g, returns (fun n => fix_ k n f) g /\ is_frac q N D g /\ 0 < snd g.
Proof.
  destruct f as [n d]. intros (A & B & C & V) HN HD. cbn [fst snd] in *. unfold fix_.
  destruct (d =? 0) eqn:E0; [apply Z.eqb_eq in E0; contradiction|].
  destruct (n =? 0) eqn:E1.
  { apply Z.eqb_eq in E1. subst n. exists (0, 1). split; [apply ret_returns|]. split; [|cbn; lia].
    split; [cbn; lia|]. cbn [fst snd]. split; [cbn; lia|]. split; [cbn; lia|]. rewrite <- V. unfold zq at 1 3.
    setoid_replace (inject_Z 0) with 0%Q by reflexivity. unfold Qdiv. ring. }
  apply Z.eqb_neq in E1.
  destruct (gcd_divides k (Z.to_nat (Z.abs d)) n d) as (g & G & G0 & (a & Ea) & (b & Eb)); [lia|now left|lia|lia|].
  assert (Qn : Z.quot n g = a) by (rewrite Ea; now apply Z.quot_mul).
  assert (Qd : Z.quot d g = b) by (rewrite Eb; now apply Z.quot_mul).
  assert (Na : Z.abs a <= Z.abs n) by (rewrite Ea, Z.abs_mul; nia).
  assert (Nb : Z.abs b <= Z.abs d) by (rewrite Eb, Z.abs_mul; nia).
  assert (b <> 0) by (intros ->; lia).
  assert (S1 : Z.sgn b * Z.sgn b = 1) by (destruct (Z.sgn_spec b) as [[? ->]|[[? ->]|[? ->]]]; lia).
  assert (Sa : Z.abs (Z.sgn b) = 1) by (destruct (Z.sgn_spec b) as [[? ->]|[[? ->]|[? ->]]]; lia).
  exists (a * Z.sgn b, b * Z.sgn b). split.
  { apply (returns_bind _ (fun _ g => let! ng := divide k n g in let! dg := divide k d g in
      let! a := plain k (ng * Z.sgn dg) in let! b := plain k (dg * Z.sgn dg) in Ok (a, b)) g); [exact G|].
    exists 0%nat. intros ? _. rewrite !divide_in by lia. cbn [bind]. rewrite Qn, Qd.
    rewrite !plain_in by (rewrite Z.abs_mul, Sa; lia). reflexivity. }
  unfold is_frac. cbn [fst snd]. rewrite !Z.abs_mul, Sa, !Z.mul_1_r.
  assert (P : 0 < b * Z.sgn b) by (destruct (Z.sgn_spec b) as [[? ->]|[[? ->]|[? ->]]]; lia).
  split; [|exact P]. split; [lia|]. split; [lia|]. split; [lia|].
  rewrite <- V. pose proof (zq_nz _ A). pose proof (zq_nz (b * Z.sgn b) ltac:(lia)).
  assert (E : (zq (a * Z.sgn b) * zq d == zq n * zq (b * Z.sgn b))%Q).
  { unfold zq. rewrite <- !inject_Z_mult. rewrite Ea, Eb. rewrite (Z.mul_comm (a * Z.sgn b)).
    setoid_replace (inject_Z (b * g * (a * Z.sgn b))) with (inject_Z (a * g * (b * Z.sgn b))); [reflexivity|].
    replace (b * g * (a * Z.sgn b)) with (a * g * (b * Z.sgn b)) by ring. reflexivity. }
  transitivity ((zq (a * Z.sgn b) * zq d) / (zq (b * Z.sgn b) * zq d))%Q; [field; auto|]. rewrite E. field. auto.
Qed.

Lemma mul_ok k q1 N1 D1 f1 q2 N2 D2 f2 : is_frac q1 N1 D1 f1 -> is_frac q2 N2 D2 f2 ->
  N1 <= imax k -> D1 <= imax k -> N2 <= imax k -> D2 <= imax k -> N1 * N2 <= imax k -> D1 * D2 <= imax k ->
  exists g, returns (fun n => mul k n f1 f2) g /\ is_frac (q1 * q2) (N1 * N2) (D1 * D2) g.
Proof.
  intros F1 F2 L1 L2 L3 L4 L5 L6. pose proof (is_frac_pos _ _ _ _ F1). pose proof (is_frac_pos _ _ _ _ F2).
  destruct (fix_ok k _ _ _ _ F1 L1 L2) as ([n1 d1] & R1 & (A1 & A2 & A3 & A4) & P1).
  destruct (fix_ok k _ _ _ _ F2 L3 L4) as ([n2 d2] & R2 & (B1 & B2 & B3 & B4) & P2). cbn [fst snd] in *.
  assert (Bn : Z.abs (n1 * n2) <= N1 * N2) by (rewrite Z.abs_mul; nia).
  assert (Bd : Z.abs (d1 * d2) <= D1 * D2) by (rewrite Z.abs_mul; nia).
  destruct (fix_ok k (q1 * q2) (N1 * N2) (D1 * D2) (n1 * n2, d1 * d2)) as (g & R & G & _); [|assumption|assumption|].
  { split; [cbn; nia|]. cbn [fst snd]. split; [exact Bn|]. split; [exact Bd|]. rewrite <- A4, <- B4. unfold zq. rewrite !inject_Z_mult.
    field. split; apply zq_nz; assumption. }
  exists g. split; [|exact G]. unfold mul. eapply returns_bind; [exact R1|]. cbv beta iota.
  eapply returns_bind; [exact R2|]. cbv beta iota. rewrite !plain_in by lia. cbn [bind]. exact R.
Qed.

Lemma add_ok k q1 N1 D1 f1 q2 N2 D2 f2 : is_frac q1 N1 D1 f1 -> is_frac q2 N2 D2 f2 ->
  N1 <= imax k -> D1 <= imax k -> N2 <= imax k -> D2 <= imax k -> N1 * D2 + N2 * D1 <= imax k -> D1 * D2 <= imax k ->
  exists g, returns (fun n => add k n f1 f2) g /\ is_frac (q1 + q2) (N1 * D2 + N2 * D1) (D1 * D2) g.
Proof.
  intros F1 F2 L1 L2 L3 L4 L5 L6. pose proof (is_frac_pos _ _ _ _ F1). pose proof (is_frac_pos _ _ _ _ F2).
  destruct (fix_ok k _ _ _ _ F1 L1 L2) as ([n1 d1] & R1 & (A1 & A2 & A3 & A4) & P1).
  destruct (fix_ok k _ _ _ _ F2 L3 L4) as ([n2 d2] & R2 & (B1 & B2 & B3 & B4) & P2). cbn [fst snd] in *.
  assert (Ba : Z.abs (n1 * d2) <= N1 * D2) by (rewrite Z.abs_mul; nia).
  assert (Bb : Z.abs (n2 * d1) <= N2 * D1) by (rewrite Z.abs_mul; nia).
  assert (Bd : Z.abs (d1 * d2) <= D1 * D2) by (rewrite Z.abs_mul; nia).
  destruct (fix_ok k (q1 + q2) (N1 * D2 + N2 * D1) (D1 * D2) (n1 * d2 + n2 * d1, d1 * d2)) as (g & R & G & _); [|assumption|assumption|].
  { split; [cbn; nia|]. cbn [fst snd]. split; [lia|]. split; [exact Bd|]. rewrite <- A4, <- B4. unfold zq.
    rewrite inject_Z_plus, !inject_Z_mult. field. split; apply zq_nz; assumption. }
  assert (0 <= N1 * D2 /\ 0 <= N2 * D1) by nia.
  exists g. split; [|exact G]. unfold add. eapply returns_bind; [exact R1|]. cbv beta iota.
  eapply returns_bind; [exact R2|]. cbv beta iota. rewrite (plain_in k (n1 * d2)), (plain_in k (n2 * d1)) by lia. cbn [bind].
  rewrite !plain_in by lia. cbn [bind]. exact R.
Qed.

(** A quotient is [(1, 0)] when the divisor is zero. *)
Lemma div_ok k q1 N1 D1 f1 q2 N2 D2 f2 : is_frac q1 N1 D1 f1 -> is_frac q2 N2 D2 f2 ->
  N1 <= imax k -> D1 <= imax k -> N2 <= imax k -> D2 <= imax k -> N1 * D2 <= imax k -> D1 * N2 <= imax k ->
  exists g, returns (fun n => div k n f1 f2) g /\
    ((q2 == 0)%Q /\ g = (1, 0) \/ ~ (q2 == 0)%Q /\ is_frac (q1 / q2) (N1 * D2) (D1 * N2) g).
Proof.
  intros F1 F2 L1 L2 L3 L4 L5 L6. pose proof (is_frac_pos _ _ _ _ F1). pose proof (is_frac_pos _ _ _ _ F2).
  destruct (fix_ok k _ _ _ _ F1 L1 L2) as ([n1 d1] & R1 & (A1 & A2 & A3 & A4) & P1).
  destruct (fix_ok k _ _ _ _ F2 L3 L4) as ([n2 d2] & R2 & (B1 & B2 & B3 & B4) & P2). cbn [fst snd] in *.
  assert (Bn : Z.abs (n1 * d2) <= N1 * D2) by (rewrite Z.abs_mul; nia).
  assert (Bd : Z.abs (d1 * n2) <= D1 * N2) by (rewrite Z.abs_mul; nia).
  assert (K : forall g, returns (fun n => fix_ k n (n1 * d2, d1 * n2)) g -> returns (fun n => div k n f1 f2) g).
  { intros g R. unfold div. eapply returns_bind; [exact R1|]. cbv beta iota.
    eapply returns_bind; [exact R2|]. cbv beta iota. rewrite !plain_in by lia. cbn [bind]. exact R. }
  destruct (Z.eq_dec n2 0) as [->|N0].
  - exists (1, 0). split; [apply K; rewrite Z.mul_0_r; apply ret_returns|]. left. split; [|reflexivity].
    rewrite <- B4. unfold zq at 1. setoid_replace (inject_Z 0) with 0%Q by reflexivity. unfold Qdiv. ring.
  - pose proof (zq_nz _ N0). pose proof (zq_nz _ B1). pose proof (zq_nz _ A1).
    assert (Z2 : ~ (q2 == 0)%Q).
    { rewrite <- B4. intro E. apply (zq_nz _ N0). setoid_replace (zq n2) with (zq n2 / zq d2 * zq d2)%Q by (field; assumption).
      rewrite E. ring. }
    destruct (fix_ok k (q1 / q2) (N1 * D2) (D1 * N2) (n1 * d2, d1 * n2)) as (g & R & G & _); [|assumption|assumption|].
    { split; [cbn; nia|]. cbn [fst snd]. split; [exact Bn|]. split; [exact Bd|]. rewrite <- A4, <- B4. unfold zq. rewrite !inject_Z_mult.
      field. repeat split; assumption. }
    exists g. split; [apply K; exact R|]. right. auto.
Qed.

(** ** The numbers under test *)

(** [e] returns, in both builds, a number of value [q] that can be read to the end. *)
Definition sound (k : cfg) (e : cfg -> nat -> res number) (q : Q) (x : number) : Prop :=
  returns (e k) x /\ num_has (debug k) x q /\ exists r, represents q r /\ read (debug k) x r.

Lemma ratio_sound k num den : den <> 0 -> Z.abs num <= imax k -> Z.abs den <= imax k ->
  exists x, sound k (fun k _ => number_ratio k num den) (zq num / zq den) x.
Proof.
  intros D A B. assert (I : imin k = - imax k - 1) by (unfold imin, imax; lia).
  assert (Sn : isize (debug k) num) by (unfold isize; cbn [debug]; change (imin (debug k)) with (imin k); change (imax (debug k)) with (imax k); lia).
  assert (Sd : isize (debug k) den) by (unfold isize; cbn [debug]; change (imin (debug k)) with (imin k); change (imax (debug k)) with (imax k); lia).
  destruct (ratio_value (debug k) num den Sn Sd D) as [_ V].
  destruct V as (x & r & X & R & Rx).
  { change (imin (debug k)) with (imin k). intros [_ [->| ->]]; lia. }
  exists x. split.
  { apply (both_returns (fun k (_ : nat) => number_ratio k num den)); [intros _; apply builds_ratio|exists 0%nat; intros; exact X]. }
  split; [|exists r; auto]. eapply has_ratio; eauto.
Qed.

Lemma compare_sound k e1 q1 x1 e2 q2 x2 : sound k e1 q1 x1 -> sound k e2 q2 x2 ->
  returns (fun f => number_compare k f x1 x2) (q1 ?= q2)%Q.
Proof.
  intros (_ & H1 & r1 & _ & R1) (_ & H2 & r2 & _ & R2).
  destruct (has_read_good (debug k) x1 _ r1 eq_refl H1 R1) as [G1 _].
  destruct (has_read_good (debug k) x2 _ r2 eq_refl H2 R2) as [G2 _].
  apply (both_returns (fun k f => number_compare k f x1 x2)); [intro; apply builds_compare|].
  destruct (ev_returns _ _ (compare_ev (debug k) (fun _ => False) x1 x2 _ _ G1 G2)) as (o & R & ->). exact R.
Qed.

Lemma abs_isize k z : Z.abs z <= imax k -> isize (debug k) z.
Proof.
  intro B. unfold isize. change (imin (debug k)) with (imin k). change (imax (debug k)) with (imax k).
  assert (imin k = - imax k - 1) by (unfold imin, imax; lia). lia.
Qed.

Lemma room_pos k M m e : 0 <= e -> 0 <= m <= e -> 1 <= M -> 16 * M ^ 2 * 2 ^ e <= imax k -> M <= imax k /\ 2 ^ m <= imax k.
Proof.
  intros E Hm P R. assert (2 ^ m <= 2 ^ e) by (apply Z.pow_le_mono_r; lia).
  assert (0 < 2 ^ m) by (apply Z.pow_pos_nonneg; lia). nia.
Qed.

Lemma room_hom k M m : 1 <= m -> 1 <= M -> 16 * M ^ 2 * 2 ^ (2 * (m + 1) + m * (m - 1)) <= imax k ->
  M <= imax k /\ 2 ^ m <= imax k.
Proof. intros Hm M1. apply room_pos; [nia|nia|exact M1]. Qed.

Lemma room_comb k M m : 1 <= m -> 1 <= M -> 16 * M ^ 2 * 2 ^ (4 * (m + 1) + 2 * (m * (m - 1))) <= imax k ->
  M <= imax k /\ 2 ^ m <= imax k.
Proof. intros Hm M1. apply room_pos; [nia|nia|exact M1]. Qed.

Lemma abs_parts m num den : den <> 0 -> Z.abs num <= 2 ^ m -> Z.abs den <= 2 ^ m -> SpecFormula.parts (2 ^ m) (zq num / zq den).
Proof.
  intros D A B. exists (num * Z.sgn den), (Z.abs den). split; [lia|].
  split; [rewrite Z.abs_mul; destruct (Z.sgn_spec den) as [[? ->]|[[? ->]|[? ->]]]; lia|].
  split; [lia|]. pose proof (zq_nz _ D). unfold zq. destruct (Z.sgn_spec den) as [[? ->]|[[? ->]|[? ->]]].
  - rewrite Z.mul_1_r, Z.abs_eq by lia. reflexivity.
  - lia.
  - rewrite Z.abs_neq by lia. rewrite inject_Z_mult, !inject_Z_opp. unfold zq in *. change (inject_Z (-1)) with (-(1))%Q.
    field. assumption.
Qed.

Lemma homographic_sound k num den nx n dx d m M x : 1 <= m -> 1 <= M -> den <> 0 ->
  Z.abs num <= 2 ^ m -> Z.abs den <= 2 ^ m ->
  Z.abs nx <= M -> Z.abs n <= M -> Z.abs dx <= M -> Z.abs d <= M -> ~ (hom_num dx d (zq num / zq den) == 0)%Q ->
  16 * M ^ 2 * 2 ^ (2 * (m + 1) + m * (m - 1)) <= imax k ->
  sound k (fun k _ => number_ratio k num den) (zq num / zq den) x ->
  exists y, sound k (fun k f => number_homographic k f x nx n dx d) (hom nx n dx d (zq num / zq den)) y.
Proof.
  intros Hm M1 D A B B1 B2 B3 B4 ND R (X & Hx & rx & Rep & Rx).
  pose proof (abs_parts m num den D A B) as Pa.
  destruct (parts_room m _ rx Hm Pa Rep) as (n' & d' & D' & Q & Sz & Am).
  destruct (represents_ex (hom nx n dx d (zq num / zq den))) as [r Hr].
  destruct (fraction_homographic (debug k) x _ rx n' d' nx n dx d r M Hx Rx D' Q B1 B2 B3 B4 ND Hr) as (y & Ry & Y).
  { apply (pow_room (debug k) M _ m); auto. lia. }
  destruct (room_hom k M m Hm M1 R) as [LM _].
  exists y. split.
  { apply (both_returns (fun k f => number_homographic k f x nx n dx d)); [|exact Ry]. intro. apply builds_homographic. }
  split; [|exists r; auto]. destruct Ry as [f0 Ry]. specialize (Ry f0 (le_n _)). cbn in Ry.
  eapply has_homographic; [exact Hx| | | | |exact ND|exact Ry]; apply abs_isize; eapply Z.le_trans; eassumption.
Qed.

Lemma combine_sound k n1 d1 n2 d2 a b c d e f g h m M x y : 1 <= m -> 1 <= M -> d1 <> 0 -> d2 <> 0 ->
  SpecFormula.parts (2 ^ m) (zq n1 / zq d1) -> SpecFormula.parts (2 ^ m) (zq n2 / zq d2) ->
  Z.abs a <= M -> Z.abs b <= M -> Z.abs c <= M -> Z.abs d <= M ->
  Z.abs e <= M -> Z.abs f <= M -> Z.abs g <= M -> Z.abs h <= M ->
  ~ (comb_num e f g h (zq n1 / zq d1) (zq n2 / zq d2) == 0)%Q ->
  16 * M ^ 2 * 2 ^ (4 * (m + 1) + 2 * (m * (m - 1))) <= imax k ->
  sound k (fun k _ => number_ratio k n1 d1) (zq n1 / zq d1) x ->
  sound k (fun k _ => number_ratio k n2 d2) (zq n2 / zq d2) y ->
  exists z, sound k (fun k n => number_combine k n x y a b c d e f g h)
              (comb a b c d e f g h (zq n1 / zq d1) (zq n2 / zq d2)) z.
Proof.
  intros Hm M1 D1 D2 P1 P2 B1 B2 B3 B4 B5 B6 B7 B8 ND R (X & Hx & rx & Rep & Rx) (Y & Hy & ry & Rep' & Ry).
  destruct (parts_room m _ rx Hm P1 Rep) as (n1' & d1' & D1' & Q1 & Sz1 & Am1).
  destruct (parts_room m _ ry Hm P2 Rep') as (n2' & d2' & D2' & Q2 & Sz2 & Am2).
  destruct (represents_ex (comb a b c d e f g h (zq n1 / zq d1) (zq n2 / zq d2))) as [r Hr].
  destruct (fraction_combine (debug k) x _ rx n1' d1' y _ ry n2' d2' a b c d e f g h r M Hx Rx D1' Q1 Hy Ry D2' Q2
      B1 B2 B3 B4 B5 B6 B7 B8 ND Hr) as (z & Rz & Zr).
  { apply (pow_room2 (debug k) M _ _ m); auto; clear - Hm Am1 Am2; lia. }
  destruct (room_comb k M m Hm M1 R) as [LM _].
  exists z. split.
  { apply (both_returns (fun k n => number_combine k n x y a b c d e f g h)); [|exact Rz]. intro. apply builds_combine. }
  split; [|exists r; auto]. destruct Rz as [f0 Rz]. specialize (Rz f0 (le_n _)). cbn in Rz.
  eapply has_combine; [exact Hx|exact Hy| | | | | | | | |exact ND|exact Rz]; apply abs_isize; eapply Z.le_trans; eassumption.
Qed.

(** ** The tests *)

Lemma reference_ok k n1 d1 n2 d2 B : d1 <> 0 -> d2 <> 0 -> Z.abs n1 <= B -> Z.abs d1 <= B -> Z.abs n2 <= B -> Z.abs d2 <= B ->
  2 * B ^ 2 <= imax k -> reference_compare k n1 d1 n2 d2 = Ok (zq n1 / zq d1 ?= zq n2 / zq d2)%Q.
Proof.
  intros D1 D2 B1 B2 B3 B4 L. unfold reference_compare.
  rewrite (proj2 (Z.eqb_neq d1 0) D1), (proj2 (Z.eqb_neq d2 0) D2). cbn [orb].
  assert (T : forall n d, d <> 0 -> Z.abs n <= B -> Z.abs d <= B -> exists n' d',
    turned k n d = Ok (n', d') /\
    0 < d' /\ Z.abs n' <= B /\ d' <= B /\ (zq n' / zq d' == zq n / zq d)%Q).
  { intros n d D A C. unfold turned. destruct (d <? 0) eqn:E.
    - apply Z.ltb_lt in E. exists (n * -1), (d * -1). assert (B <= imax k) by (clear - L A; nia). rewrite !plain_in by lia. cbn [bind]. split; [reflexivity|].
      split; [lia|]. split; [lia|]. split; [lia|]. unfold zq. rewrite !inject_Z_mult. change (inject_Z (-1)) with (-(1))%Q.
      field. apply (zq_nz _ D).
    - apply Z.ltb_ge in E. exists n, d. split; [reflexivity|]. split; [lia|]. split; [lia|]. split; [lia|]. reflexivity. }
  destruct (T n1 d1 D1 B1 B2) as (n1' & d1' & -> & P1 & C1 & C2 & <-).
  destruct (T n2 d2 D2 B3 B4) as (n2' & d2' & -> & P2 & C3 & C4 & <-). cbn [bind].
  clear T D1 D2 B1 B2 B3 B4.
  assert (I1 : Z.abs (n1' * d2') <= B * B) by (clear - P2 C1 C4; rewrite Z.abs_mul; nia).
  assert (I2 : Z.abs (n2' * d1') <= B * B) by (clear - P1 C3 C2; rewrite Z.abs_mul; nia).
  rewrite Z.pow_2_r in L. set (BB := B * B) in *. clearbody BB.
  rewrite (plain_in k (n1' * d2')), (plain_in k (n2' * d1')) by lia. cbn [bind]. rewrite plain_in by lia. cbn [bind]. f_equal.
  assert (E : (zq n1' / zq d1' ?= zq n2' / zq d2')%Q = (n1' * d2' ?= n2' * d1')).
  { destruct d1' as [|d1'|]; try lia. destruct d2' as [|d2'|]; try lia.
    assert (Q1 : (zq n1' / zq (Z.pos d1') == n1' # d1')%Q) by (unfold zq, Qdiv, Qinv, Qmult, Qeq; cbn; lia).
    assert (Q2 : (zq n2' / zq (Z.pos d2') == n2' # d2')%Q) by (unfold zq, Qdiv, Qinv, Qmult, Qeq; cbn; lia).
    rewrite Q1, Q2. reflexivity. }
  rewrite E. clear E. set (u := n1' * d2') in *. set (v := n2' * d1') in *. clearbody u v. destruct (Z.compare_spec u v).
  - replace (u - v) with 0 by lia. reflexivity.
  - rewrite (proj2 (Z.ltb_ge 0 _)) by lia. rewrite (proj2 (Z.ltb_lt _ 0)) by lia. reflexivity.
  - rewrite (proj2 (Z.ltb_lt 0 _)) by lia. reflexivity.
Qed.

Lemma ordering_eqb_refl o : ordering_eqb o o = true.
Proof. destruct o; reflexivity. Qed.

Theorem test_compare_passes k r : 2 * r ^ 2 <= imax k -> returns (fun f => test_compare k f r) true.
Proof.
  intro L. unfold test_compare.
  apply each_returns. intros n1 I1. apply in_range in I1.
  apply each_returns. intros d1 I2. apply in_range in I2.
  destruct (d1 =? 0) eqn:E1; [apply ret_returns|]. apply Z.eqb_neq in E1.
  apply each_returns. intros n2 I3. apply in_range in I3.
  apply each_returns. intros d2 I4. apply in_range in I4.
  destruct (d2 =? 0) eqn:E2; [apply ret_returns|]. apply Z.eqb_neq in E2.
  assert (r <= imax k) by nia.
  destruct (ratio_sound k n1 d1 E1) as [x X]; [lia|lia|]. destruct (ratio_sound k n2 d2 E2) as [y Y]; [lia|lia|].
  eapply returns_bind; [exact (proj1 X)|]. eapply returns_bind; [exact (proj1 Y)|].
  eapply returns_bind; [exact (compare_sound _ _ _ _ _ _ _ X Y)|].
  rewrite (reference_ok k n1 d1 n2 d2 r) by (assumption || lia). cbn [bind]. rewrite ordering_eqb_refl. apply ret_returns.
Qed.

(** An integer, and a fraction, as operands of the reference arithmetic. *)
Lemma int_frac z N : Z.abs z <= N -> is_frac (zq z) N 1 (z, 1).
Proof. intro B. split; [cbn; lia|]. cbn [fst snd]. split; [exact B|]. split; [cbn; lia|]. unfold zq. field. Qed.
Lemma any_frac n d N : d <> 0 -> Z.abs n <= N -> Z.abs d <= N -> is_frac (zq n / zq d) N N (n, d).
Proof. intros D A B. split; [exact D|]. split; [exact A|]. split; [exact B|]. reflexivity. Qed.

Lemma is_frac_eq q q' N N' D D' f : is_frac q N D f -> (q == q')%Q -> N <= N' -> D <= D' -> is_frac q' N' D' f.
Proof. intros (A & B & C & V) E LN LD. split; [exact A|]. split; [lia|]. split; [lia|]. now rewrite V. Qed.

Lemma expected_homographic_ok k nx n dx d xn xd r : 1 <= r -> xd <> 0 ->
  Z.abs nx <= r -> Z.abs n <= r -> Z.abs dx <= r -> Z.abs d <= r -> Z.abs xn <= r -> Z.abs xd <= r -> 2 * r ^ 3 <= imax k ->
  let q := (zq xn / zq xd)%Q in
  exists g, returns (fun f => expected_homographic k f nx n dx d xn xd) g /\
    ((hom_num dx d q == 0)%Q /\ g = (1, 0) \/
     ~ (hom_num dx d q == 0)%Q /\ is_frac (hom nx n dx d q) (imax k) (imax k) g).
Proof.
  intros R1 D B1 B2 B3 B4 B5 B6 L. cbv zeta. unfold expected_homographic. cbv zeta.
  assert (L1 : r <= imax k) by (clear - L R1; nia). assert (L2 : 2 * (r * r) <= imax k) by (clear - L R1; nia).
  assert (L3 : 2 * (r * r) * r <= imax k) by (clear - L; lia).
  assert (L0 : 1 <= imax k) by lia. clear L.
  assert (P : forall a b, Z.abs a <= r -> Z.abs b <= r ->
    exists g g', returns (fun f => mul k f (a, 1) (xn, xd)) g /\ returns (fun f => add k f g (b, 1)) g' /\
      is_frac (hom_num a b (zq xn / zq xd)) (2 * (r * r)) r g').
  { intros a b Ba Bb.
    destruct (mul_ok k _ _ _ _ _ _ _ _ (int_frac a r Ba) (any_frac xn xd r D B5 B6)) as (g & G & Fg); try (clear - R1 L0 L1 L2 L3; lia).
    destruct (add_ok k _ _ _ _ _ _ _ _ Fg (int_frac b r Bb)) as (g' & G' & Fg'); try (clear - R1 L0 L1 L2 L3; lia).
    exists g, g'. split; [exact G|]. split; [exact G'|]. eapply is_frac_eq; [exact Fg'|reflexivity|clear - R1 L0 L1 L2 L3; lia|clear - R1 L0 L1 L2 L3; lia]. }
  destruct (P nx n B1 B2) as (g1 & g2 & G1 & G2 & Fn). destruct (P dx d B3 B4) as (g3 & g4 & G3 & G4 & Fd). clear P.
  destruct (div_ok k _ _ _ _ _ _ _ _ Fn Fd) as (g & G & C); try (clear - R1 L0 L1 L2 L3; lia).
  exists g. split.
  - eapply returns_bind; [exact G1|]. eapply returns_bind; [exact G2|]. eapply returns_bind; [exact G3|].
    eapply returns_bind; [exact G4|]. exact G.
  - destruct C as [C|[C F]]; [left; exact C|]. right. split; [exact C|].
    eapply is_frac_eq; [exact F|reflexivity|clear - R1 L0 L1 L2 L3; lia|clear - R1 L0 L1 L2 L3; lia].
Qed.

(** The comparison of a result with the expected fraction. *)
Lemma equal_returns k e q x rn rd : sound k e q x -> is_frac q (imax k) (imax k) (rn, rd) ->
  returns (fun f => let! y := number_ratio k rn rd in let! o := number_compare k f x y in Ok (ordering_eqb o Eq)) true.
Proof.
  intros X (D & A & B & V). cbn [fst snd] in *. destruct (ratio_sound k rn rd D A B) as [y Y].
  eapply returns_bind; [exact (proj1 Y)|]. eapply returns_bind; [exact (compare_sound _ _ _ _ _ _ _ X Y)|].
  replace (q ?= zq rn / zq rd)%Q with Eq; [apply ret_returns|]. symmetry. apply Qeq_alt. now rewrite V.
Qed.

Theorem compare_homographics_passes k r m : 1 <= m -> r <= 2 ^ m ->
  16 * r ^ 2 * 2 ^ (2 * (m + 1) + m * (m - 1)) <= imax k -> returns (fun f => compare_homographics k f r) true.
Proof.
  intros Hm Hr L. unfold compare_homographics. cbv zeta.
  apply each_returns. intros nx I1. apply in_range in I1. apply each_returns. intros n I2. apply in_range in I2.
  apply each_returns. intros dx I3. apply in_range in I3. apply each_returns. intros d I4. apply in_range in I4.
  destruct ((nx =? 0) && (n =? 0) && (dx =? 0) && (d =? 0)); [apply ret_returns|].
  apply each_returns. intros xn I5. apply in_range in I5. apply each_returns. intros xd I6. apply in_range in I6.
  destruct (xd =? 0) eqn:E; [apply ret_returns|]. apply Z.eqb_neq in E.
  assert (R1 : 1 <= r) by lia.
  assert (L3 : 2 * r ^ 3 <= imax k).
  { eapply Z.le_trans; [|exact L]. assert (2 ^ m <= 2 ^ (2 * (m + 1) + m * (m - 1))) by (apply Z.pow_le_mono_r; nia).
    clear - R1 Hr H. set (u := 2 ^ (2 * (m + 1) + m * (m - 1))) in *. clearbody u. assert (r <= u) by lia. nia. }
  destruct (room_hom k r m Hm R1 L) as [Lr Lm].
  destruct (expected_homographic_ok k nx n dx d xn xd r R1 E) as ([rn rd] & G & C); try lia.
  eapply returns_bind; [exact G|]. cbv beta iota. destruct C as [[_ W]|[ND F]].
  - injection W as -> ->. cbn [Z.eqb]. apply ret_returns.
  - destruct (rd =? 0) eqn:E'; [apply ret_returns|].
    destruct (ratio_sound k xn xd E) as [x X]; [lia|lia|].
    destruct (homographic_sound k xn xd nx n dx d m r x) as [y Y]; try assumption; try lia.
    eapply returns_bind; [exact (proj1 X)|]. eapply returns_bind; [exact (proj1 Y)|].
    exact (equal_returns k _ _ y rn rd Y F).
Qed.

Lemma expected_combine_ok k nxy nx ny n dxy dx dy d xn xd yn yd r : 1 <= r -> xd <> 0 -> yd <> 0 ->
  Z.abs nxy <= r -> Z.abs nx <= r -> Z.abs ny <= r -> Z.abs n <= r ->
  Z.abs dxy <= r -> Z.abs dx <= r -> Z.abs dy <= r -> Z.abs d <= r ->
  Z.abs xn <= 4 -> Z.abs xd <= 4 -> Z.abs yn <= 4 -> Z.abs yd <= 4 -> 262144 * r <= imax k ->
  let p := (zq xn / zq xd)%Q in let q := (zq yn / zq yd)%Q in
  exists g, returns (fun f => expected_combine k f nxy nx ny n dxy dx dy d xn xd yn yd) g /\
    ((comb_num dxy dx dy d p q == 0)%Q /\ g = (1, 0) \/
     ~ (comb_num dxy dx dy d p q == 0)%Q /\ is_frac (comb nxy nx ny n dxy dx dy d p q) (imax k) (imax k) g).
Proof.
  intros R1 D D' B1 B2 B3 B4 B5 B6 B7 B8 B9 B10 B11 B12 L. cbv zeta. unfold expected_combine. cbv zeta.
  assert (P : forall a b c e, Z.abs a <= r -> Z.abs b <= r -> Z.abs c <= r -> Z.abs e <= r ->
    exists g, returns (fun f => expected_half k f a b c e (xn, xd) (yn, yd)) g /\
      is_frac (comb_num a b c e (zq xn / zq xd) (zq yn / zq yd)) (1024 * r) 256 g).
  { intros a b c e Ba Bb Bc Be. pose proof (any_frac xn xd 4 D B9 B10) as X. pose proof (any_frac yn yd 4 D' B11 B12) as Y.
    destruct (mul_ok k _ _ _ _ _ _ _ _ X Y) as (g1 & G1 & F1); try (clear - R1 L; lia).
    destruct (mul_ok k _ _ _ _ _ _ _ _ (int_frac a r Ba) F1) as (g2 & G2 & F2); try (clear - R1 L; lia).
    destruct (mul_ok k _ _ _ _ _ _ _ _ (int_frac b r Bb) X) as (g3 & G3 & F3); try (clear - R1 L; lia).
    destruct (add_ok k _ _ _ _ _ _ _ _ F2 F3) as (g4 & G4 & F4); try (clear - R1 L; lia).
    destruct (mul_ok k _ _ _ _ _ _ _ _ (int_frac c r Bc) Y) as (g5 & G5 & F5); try (clear - R1 L; lia).
    destruct (add_ok k _ _ _ _ _ _ _ _ F4 F5) as (g6 & G6 & F6); try (clear - R1 L; lia).
    destruct (add_ok k _ _ _ _ _ _ _ _ F6 (int_frac e r Be)) as (g7 & G7 & F7); try (clear - R1 L; lia).
    exists g7. split.
    - unfold expected_half. eapply returns_bind; [exact G1|]. eapply returns_bind; [exact G2|].
      eapply returns_bind; [exact G3|]. eapply returns_bind; [exact G4|]. eapply returns_bind; [exact G5|].
      eapply returns_bind; [exact G6|]. exact G7.
    - eapply is_frac_eq; [exact F7|unfold comb_num; ring|clear - R1 L; lia|clear - R1 L; lia]. }
  destruct (P nxy nx ny n B1 B2 B3 B4) as (g1 & G1 & Fn). destruct (P dxy dx dy d B5 B6 B7 B8) as (g2 & G2 & Fd). clear P.
  destruct (div_ok k _ _ _ _ _ _ _ _ Fn Fd) as (g & G & C); try (clear - R1 L; lia).
  exists g. split; [eapply returns_bind; [exact G1|]; eapply returns_bind; [exact G2|]; exact G|].
  destruct C as [C|[C F]]; [left; exact C|]. right. split; [exact C|].
  eapply is_frac_eq; [exact F|reflexivity|clear - R1 L; lia|clear - R1 L; lia].
Qed.

Lemma in_inputs n d : In (n, d) inputs -> d <> 0 /\ Z.abs n <= 4 /\ Z.abs d <= 4.
Proof.
  unfold inputs. cbn [In]. intro I. repeat (destruct I as [I|I]; [injection I as <- <-; cbn; lia|]). contradiction.
Qed.

Lemma combine_case k nxy nx ny n dxy dx dy d xn xd yn yd r : 1 <= r -> xd <> 0 -> yd <> 0 ->
  Z.abs nxy <= r -> Z.abs nx <= r -> Z.abs ny <= r -> Z.abs n <= r ->
  Z.abs dxy <= r -> Z.abs dx <= r -> Z.abs dy <= r -> Z.abs d <= r ->
  Z.abs xn <= 4 -> Z.abs xd <= 4 -> Z.abs yn <= 4 -> Z.abs yd <= 4 -> 1048576 * r ^ 2 <= imax k ->
  returns (fun f => let! (rn, rd) := expected_combine k f nxy nx ny n dxy dx dy d xn xd yn yd in
    if rd =? 0 then Ok true
    else
      let! x := number_ratio k xn xd in
      let! y := number_ratio k yn yd in
      let! x := number_combine k f x y nxy nx ny n dxy dx dy d in
      let! y := number_ratio k rn rd in
      let! o := number_compare k f x y in
      Ok (ordering_eqb o Eq)) true.
Proof.
  intros R1 D1 D2 B1 B2 B3 B4 B5 B6 B7 B8 J1 J2 J3 J4 L.
  assert (L' : 262144 * r <= imax k) by (clear - R1 L; nia). assert (L4 : 4 <= imax k) by (clear - R1 L'; lia).
  destruct (expected_combine_ok k nxy nx ny n dxy dx dy d xn xd yn yd r R1 D1 D2 B1 B2 B3 B4 B5 B6 B7 B8 J1 J2 J3 J4 L')
    as ([rn rd] & G & C).
  eapply returns_bind; [exact G|]. cbv beta iota. destruct C as [[_ W]|[ND F]].
  - injection W as -> ->. cbn [Z.eqb]. apply ret_returns.
  - destruct (rd =? 0) eqn:E'; [apply ret_returns|].
    destruct (ratio_sound k xn xd D1) as [x X]; [eapply Z.le_trans; eassumption..|].
    destruct (ratio_sound k yn yd D2) as [y Y]; [eapply Z.le_trans; eassumption..|].
    destruct (combine_sound k xn xd yn yd nxy nx ny n dxy dx dy d 2 r x y) as [z Z];
      try assumption; try (apply (abs_parts 2); assumption).
    { lia. }
    { clear - L. change (2 ^ (4 * (2 + 1) + 2 * (2 * (2 - 1)))) with 65536. lia. }
    eapply returns_bind; [exact (proj1 X)|]. eapply returns_bind; [exact (proj1 Y)|].
    eapply returns_bind; [exact (proj1 Z)|]. exact (equal_returns k _ _ z rn rd Z F).
Qed.

Theorem compare_combines_passes k r : 1 <= r -> 1048576 * r ^ 2 <= imax k -> returns (fun f => compare_combines k f r) true.
Proof.
  intros R1 L. unfold compare_combines. cbv zeta.
  apply each_returns. intros nxy I1. apply in_range in I1. apply each_returns. intros dxy I2. apply in_range in I2.
  apply each_returns. intros nx I3. apply in_range in I3. apply each_returns. intros dx I4. apply in_range in I4.
  apply each_returns. intros ny I5. apply in_range in I5. apply each_returns. intros dy I6. apply in_range in I6.
  apply each_returns. intros n I7. apply in_range in I7. apply each_returns. intros d I8. apply in_range in I8.
  unfold compare_combine. apply each_returns. intros [xn xd] J1. apply in_inputs in J1. destruct J1 as (D1 & J1 & J2).
  apply each_returns. intros [yn yd] J3. apply in_inputs in J3. destruct J3 as (D2 & J3 & J4).
  exact (combine_case k nxy nx ny n dxy dx dy d xn xd yn yd r R1 D1 D2 ltac:(lia) ltac:(lia) ltac:(lia) ltac:(lia)
    ltac:(lia) ltac:(lia) ltac:(lia) ltac:(lia) J1 J2 J3 J4 L).
Qed.

(** ** What a test that passes has seen *)

Lemma each_inv {A} (l : list A) (body : A -> res bool) : each l body = Ok true -> forall x, In x l -> body x = Ok true.
Proof.
  induction l as [|y l IH]; cbn [each]; intros E x I; [contradiction|]. unfold andm in E.
  destruct (body y) as [[|]|p|] eqn:B; cbn [bind] in E; try discriminate. destruct I as [<-|I]; [exact B|]. now apply IH.
Qed.

Lemma range_in z lo hi : lo <= z < hi -> In z (range lo hi).
Proof.
  intro B. unfold range. apply in_map_iff. exists (Z.to_nat (z - lo)). split; [lia|]. apply in_seq. lia.
Qed.

Lemma each_range lo hi (body : Z -> res bool) z : each (range lo hi) body = Ok true -> lo <= z < hi -> body z = Ok true.
Proof. intros E B. exact (each_inv _ _ E z (range_in _ _ _ B)). Qed.

Lemma bind_inv {A B} (e : res A) (f : A -> res B) b : bind e f = Ok b -> exists a, e = Ok a /\ f a = Ok b.
Proof. destruct e as [a|p|]; cbn [bind]; intro E; try discriminate. eauto. Qed.

Lemma ordering_eqb_true a b : ordering_eqb a b = true -> a = b.
Proof. destruct a, b; cbn; congruence. Qed.

Theorem test_compare_covers k f r n1 d1 n2 d2 : test_compare k f r = Ok true ->
  - r <= n1 < r -> - r <= d1 < r -> - r <= n2 < r -> - r <= d2 < r -> d1 <> 0 -> d2 <> 0 ->
  exists x y o, number_ratio k n1 d1 = Ok x /\ number_ratio k n2 d2 = Ok y /\
    number_compare k f x y = Ok o /\ reference_compare k n1 d1 n2 d2 = Ok o.
Proof.
  intros E B1 B2 B3 B4 D1 D2. unfold test_compare in E.
  pose proof (each_range _ _ _ _ E B1) as E1. cbv beta in E1. pose proof (each_range _ _ _ _ E1 B2) as E2. cbv beta in E2.
  rewrite (proj2 (Z.eqb_neq d1 0) D1) in E2.
  pose proof (each_range _ _ _ _ E2 B3) as E3. cbv beta in E3. pose proof (each_range _ _ _ _ E3 B4) as E4. cbv beta in E4.
  rewrite (proj2 (Z.eqb_neq d2 0) D2) in E4. clear - E4.
  apply bind_inv in E4. destruct E4 as (x & X & E4). apply bind_inv in E4. destruct E4 as (y & Y & E4).
  apply bind_inv in E4. destruct E4 as (o & O & E4). apply bind_inv in E4. destruct E4 as (o' & O' & E4).
  injection E4 as E4. apply ordering_eqb_true in E4. subst o'. exists x, y, o. auto.
Qed.

Theorem compare_homographics_covers k f r nx n dx d xn xd : compare_homographics k f r = Ok true ->
  - r <= nx < r -> - r <= n < r -> - r <= dx < r -> - r <= d < r -> ~ (nx = 0 /\ n = 0 /\ dx = 0 /\ d = 0) ->
  - r <= xn < r -> - r <= xd < r -> xd <> 0 ->
  exists rn rd, expected_homographic k f nx n dx d xn xd = Ok (rn, rd) /\
    (rd <> 0 -> exists x y z, number_ratio k xn xd = Ok x /\ number_homographic k f x nx n dx d = Ok y /\
       number_ratio k rn rd = Ok z /\ number_compare k f y z = Ok Eq).
Proof.
  intros E B1 B2 B3 B4 N B5 B6 D. unfold compare_homographics in E. cbv zeta in E.
  pose proof (each_range _ _ _ _ E B1) as E1. cbv beta in E1. pose proof (each_range _ _ _ _ E1 B2) as E2. cbv beta in E2.
  pose proof (each_range _ _ _ _ E2 B3) as E3. cbv beta in E3. pose proof (each_range _ _ _ _ E3 B4) as E4. cbv beta in E4.
  replace ((nx =? 0) && (n =? 0) && (dx =? 0) && (d =? 0)) with false in E4.
  2:{ symmetry. destruct (Z.eqb_spec nx 0), (Z.eqb_spec n 0), (Z.eqb_spec dx 0), (Z.eqb_spec d 0); cbn; auto. tauto. }
  pose proof (each_range _ _ _ _ E4 B5) as E5. cbv beta in E5. pose proof (each_range _ _ _ _ E5 B6) as E6. cbv beta in E6.
  rewrite (proj2 (Z.eqb_neq xd 0) D) in E6. clear - E6.
  apply bind_inv in E6. destruct E6 as ([rn rd] & G & E6). exists rn, rd. split; [exact G|]. intro R.
  rewrite (proj2 (Z.eqb_neq rd 0) R) in E6.
  apply bind_inv in E6. destruct E6 as (x & X & E6). apply bind_inv in E6. destruct E6 as (y & Y & E6).
  apply bind_inv in E6. destruct E6 as (z & Z & E6). apply bind_inv in E6. destruct E6 as (o & O & E6).
  injection E6 as E6. apply ordering_eqb_true in E6. subst o. exists x, y, z. auto.
Qed.

Theorem compare_combines_covers k f r nxy nx ny n dxy dx dy d xn xd yn yd : compare_combines k f r = Ok true ->
  -1 <= nxy <= r -> -1 <= nx <= r -> -1 <= ny <= r -> -1 <= n <= r ->
  -1 <= dxy <= r -> -1 <= dx <= r -> -1 <= dy <= r -> -1 <= d <= r ->
  In (xn, xd) inputs -> In (yn, yd) inputs ->
  exists rn rd, expected_combine k f nxy nx ny n dxy dx dy d xn xd yn yd = Ok (rn, rd) /\
    (rd <> 0 -> exists x y z w, number_ratio k xn xd = Ok x /\ number_ratio k yn yd = Ok y /\
       number_combine k f x y nxy nx ny n dxy dx dy d = Ok z /\ number_ratio k rn rd = Ok w /\ number_compare k f z w = Ok Eq).
Proof.
  intros E B1 B2 B3 B4 B5 B6 B7 B8 I J. unfold compare_combines in E. cbv zeta in E.
  pose proof (each_range _ _ _ nxy E ltac:(lia)) as E1. cbv beta in E1. pose proof (each_range _ _ _ dxy E1 ltac:(lia)) as E2. cbv beta in E2.
  pose proof (each_range _ _ _ nx E2 ltac:(lia)) as E3. cbv beta in E3. pose proof (each_range _ _ _ dx E3 ltac:(lia)) as E4. cbv beta in E4.
  pose proof (each_range _ _ _ ny E4 ltac:(lia)) as E5. cbv beta in E5. pose proof (each_range _ _ _ dy E5 ltac:(lia)) as E6. cbv beta in E6.
  pose proof (each_range _ _ _ n E6 ltac:(lia)) as E7. cbv beta in E7. pose proof (each_range _ _ _ d E7 ltac:(lia)) as E8. cbv beta in E8.
  unfold compare_combine in E8. pose proof (each_inv _ _ E8 _ I) as E9. cbv beta iota in E9. pose proof (each_inv _ _ E9 _ J) as E10.
  cbv beta iota in E10. clear - E10.
  apply bind_inv in E10. destruct E10 as ([rn rd] & G & E6). exists rn, rd. split; [exact G|]. intro R.
  rewrite (proj2 (Z.eqb_neq rd 0) R) in E6.
  apply bind_inv in E6. destruct E6 as (x & X & E6). apply bind_inv in E6. destruct E6 as (y & Y & E6).
  apply bind_inv in E6. destruct E6 as (z & Z & E6). apply bind_inv in E6. destruct E6 as (w & W & E6).
  apply bind_inv in E6. destruct E6 as (o & O & E6).
  injection E6 as E6. apply ordering_eqb_true in E6. subst o. exists x, y, z, w. auto.
Qed.
