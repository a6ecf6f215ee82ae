(** * EffortProofs: the work of formulas, by the sizes of the fractions they are worth. *)

From Coq Require Import ZArith QArith Qfield List Lia.
From Verif Require Import Machine Protocol Types Ratio Lib Nesting Spec SpecNest SpecWork SpecFormula SpecEffort.
From Verif Require Import SeqProofs ApiProofs NestProofs WorkProofs LengthProofs SmallProofs.
Import ListNotations.
Open Scope Z_scope.

Lemma symbols_bound m q r : 1 <= m -> parts (2 ^ m) q -> represents q r ->
  2 * Z.of_nat (symbols r) <= m * m + 3 * m - 4.
Proof.
  intros M (num & den & D & A & B & E) R. destruct r as [s|[p l]]; cbn [symbols].
  - nia.
  - destruct R as (v & S & X). destruct (clog_seq_range _ _ S) as [V0 V1].
    destruct (frac_primed q num den p v D E X V0 V1) as (a & b & P & Ev & _ & Hab).
    apply (length_bound m a b); [lia|exact P| |].
    + destruct p as [[]|]; injection Hab as -> ->; lia.
    + eapply clog_seq_compat; eauto.
Qed.

Lemma gives_up k x n n' : (n <= n')%nat -> gives k x n -> gives k x n'.
Proof. destruct x; [auto|]. intros L H l c1 E. exact (Nat.le_trans _ _ _ (H l c1 E) L). Qed.

Theorem parts_gives k m N x q : ovf k = true -> 1 <= m -> num_has k x q -> parts (2 ^ m) q ->
  m * m + 3 * m - 4 <= 2 * Z.of_nat N -> gives k x N.
Proof.
  intros O M H P L. destruct (represents_ex q) as [r R]. pose proof (symbols_bound m q r M P R) as B.
  apply (gives_up k x (symbols r)); [set (m * m) in *; clearbody z; clear - B L; lia|]. exact (value_gives k x q r O H R).
Qed.

Section Formulas.
  Variables (k : cfg) (m : Z) (N : nat).
  Hypothesis O : ovf k = true.
  Hypothesis M : 1 <= m.
  Hypothesis L : m * m + 3 * m - 4 <= 2 * Z.of_nat N.

  Lemma effort_spent f e : contained k (2 ^ m) e ->
    forall x, evaluate k f e = Ok x -> num_has k x (worth e) /\ spent k N (calls e) (effort k f e) x.
  Proof.
    induction e as [s|num den|e IH nx n dx d|e1 IH1 e2 IH2 a b c d e f' g h]; cbn [contained evaluate worth calls effort]; intros [P H] x E.
    - injection E as <-. split; constructor.
    - destruct H as (I1 & I2 & D). assert (Hx : num_has k x (zq num / zq den)) by (constructor; auto).
      split; [exact Hx|]. econstructor; [exact E|]. exact (parts_gives k m N x _ O M Hx P L).
    - destruct H as (W & (I1 & I2 & I3 & I4) & ND). destruct (evaluate k f e) as [y|p|] eqn:Ey; cbn [bind] in E; try discriminate.
      destruct (IH W y eq_refl) as [Hy Sy].
      assert (Hx : num_has k x (hom nx n dx d (worth e))) by (eapply has_homographic; eauto).
      split; [exact Hx|]. econstructor; [exact Sy|exact E|]. exact (parts_gives k m N x _ O M Hx P L).
    - destruct H as (W1 & W2 & (I1 & I2 & I3 & I4) & (I5 & I6 & I7 & I8) & ND).
      destruct (evaluate k f e1) as [y|p|] eqn:Ey; cbn [bind] in E; try discriminate.
      destruct (evaluate k f e2) as [z|p|] eqn:Ez; cbn [bind] in E; try discriminate.
      destruct (IH1 W1 y eq_refl) as [Hy Sy]. destruct (IH2 W2 z eq_refl) as [Hz Sz].
      assert (Hx : num_has k x (comb a b c d e f' g h (worth e1) (worth e2))) by (eapply has_combine; eauto).
      split; [exact Hx|]. rewrite Nat.add_assoc. econstructor; [exact Sy|exact Sz|exact E|].
      exact (parts_gives k m N x _ O M Hx P L).
  Qed.

  Lemma effort_read f e : contained k (2 ^ m) e -> forall x, evaluate k f e = Ok x ->
    gives k x N /\ exists W, costs k x W /\ (effort k f e + W <= calls e * (4 * N + 8))%nat.
  Proof. intros H x E. destruct (effort_spent f e H x E) as [_ S]. exact (spent_work k N _ _ x S). Qed.

  Lemma effort_bound f e : contained k (2 ^ m) e -> (effort k f e <= calls e * (4 * N + 8))%nat.
  Proof.
    induction e as [s|num den|e IH nx n dx d|e1 IH1 e2 IH2 a b c d e f' g h]; cbn [contained calls effort]; intros [P H]; [lia|lia| |].
    - destruct H as (W & _). specialize (IH W). destruct (evaluate k f e) as [y|p|] eqn:Ey; try lia.
      destruct (effort_read f e W y Ey) as (G & V & C & Le).
      destruct (homographic_work k f y nx n dx d N V G C) as [B _]. lia.
    - destruct H as (W1 & W2 & _). specialize (IH1 W1). specialize (IH2 W2).
      destruct (evaluate k f e1) as [y|p|] eqn:Ey; try lia.
      destruct (evaluate k f e2) as [z|p|] eqn:Ez; try lia.
      destruct (effort_read f e1 W1 y Ey) as (G1 & V1 & C1 & L1).
      destruct (effort_read f e2 W2 z Ez) as (G2 & V2 & C2 & L2).
      destruct (combine_work k f y z a b c d e f' g h N V1 N V2 G1 C1 G2 C2) as [B _]. lia.
  Qed.

  Lemma effort_compare f e1 e2 x y : contained k (2 ^ m) e1 -> contained k (2 ^ m) e2 ->
    evaluate k f e1 = Ok x -> evaluate k f e2 = Ok y ->
    (effort k f e1 + effort k f e2 + work (number_compare_nests k f x y) <= (calls e1 + calls e2) * (4 * N + 8))%nat.
  Proof.
    intros H1 H2 E1 E2. destruct (effort_read f e1 H1 x E1) as (_ & V1 & C1 & L1).
    destruct (effort_read f e2 H2 y E2) as (_ & V2 & C2 & L2).
    pose proof (compare_work k f x y V1 V2 C1 C2). lia.
  Qed.
End Formulas.

(** ** Machine fractions as operands. *)

Lemma isize_abs k z : isize k z -> Z.abs z <= 2 ^ (bits (wd k) - 1).
Proof. destruct k as [[] o]; unfold isize, imin, imax; cbn; lia. Qed.

Lemma sgn_frac num den : den <> 0 -> (zq num / zq den == zq (num * Z.sgn den) / zq (Z.abs den))%Q.
Proof.
  intro D. destruct den as [|p|p]; [easy| |]; cbn [Z.sgn Z.abs].
  - now rewrite Z.mul_1_r.
  - change (Z.neg p) with (- Z.pos p). rewrite zq_opp. replace (num * -1) with (- num) by lia. rewrite zq_opp.
    field. intro E. unfold zq, Qeq in E. cbn in E. lia.
Qed.

(** The numerator and denominator of any quotient, as long as the latter is not 0. *)
Lemma quotient_parts b num den : den <> 0 -> Z.abs num <= b -> Z.abs den <= b -> parts b (zq num / zq den).
Proof.
  intros D A B. exists (num * Z.sgn den), (Z.abs den). split; [lia|]. split.
  - rewrite Z.abs_mul. destruct den; [easy| |]; cbn; lia.
  - split; [exact B|]. now apply sgn_frac.
Qed.

Lemma zq_nz z : z <> 0 -> ~ (zq z == 0)%Q.
Proof. intros N E. apply N. unfold zq, Qeq, inject_Z in E. cbn in E. lia. Qed.

Lemma hom_parts M b nx n dx d q : 0 <= M -> 0 <= b -> parts b q ->
  Z.abs nx <= M -> Z.abs n <= M -> Z.abs dx <= M -> Z.abs d <= M -> ~ (hom_num dx d q == 0)%Q ->
  parts (2 * M * b) (hom nx n dx d q).
Proof.
  intros M0 B0 (u & v & V & A & B & E) I1 I2 I3 I4 ND.
  assert (NV : ~ (zq v == 0)%Q) by (apply zq_nz; lia).
  assert (F : forall s t, (hom_num s t q == zq (s * u + t * v) / zq v)%Q).
  { intros s t. unfold hom_num, zq in *. rewrite E, inject_Z_plus, !inject_Z_mult. field. exact NV. }
  assert (ND' : dx * u + d * v <> 0).
  { intro X. apply ND. rewrite F, X. unfold Qdiv. now rewrite zq_0, Qmult_0_l. }
  assert (Q : (hom nx n dx d q == zq (nx * u + n * v) / zq (dx * u + d * v))%Q).
  { unfold hom. rewrite !F. field. split; [now apply zq_nz|exact NV]. }
  assert (S : forall s t, Z.abs s <= M -> Z.abs t <= M -> Z.abs (s * u + t * v) <= 2 * M * b).
  { clear - M0 B0 V A B. intros s t Hs Ht.
    assert (X : Z.abs (s * u) <= M * b) by (rewrite Z.abs_mul; apply Z.mul_le_mono_nonneg; lia).
    assert (Y : Z.abs (t * v) <= M * b) by (rewrite Z.abs_mul; apply Z.mul_le_mono_nonneg; lia).
    pose proof (Z.abs_triangle (s * u) (t * v)). lia. }
  destruct (quotient_parts (2 * M * b) _ _ ND' (S nx n I1 I2) (S dx d I3 I4)) as (u' & v' & A' & B' & C' & E').
  exists u', v'. rewrite Q. auto.
Qed.

Lemma comb_parts M b p q nxy nx ny n dxy dx dy d : 0 <= M -> 0 <= b -> parts b p -> parts b q ->
  Z.abs nxy <= M -> Z.abs nx <= M -> Z.abs ny <= M -> Z.abs n <= M ->
  Z.abs dxy <= M -> Z.abs dx <= M -> Z.abs dy <= M -> Z.abs d <= M -> ~ (comb_num dxy dx dy d p q == 0)%Q ->
  parts (4 * M * (b * b)) (comb nxy nx ny n dxy dx dy d p q).
Proof.
  intros M0 B0 (u & v & V & A & B & E) (u' & v' & V' & A' & B' & E') I1 I2 I3 I4 I5 I6 I7 I8 ND.
  assert (NV : ~ (zq v == 0)%Q) by (apply zq_nz; lia). assert (NV' : ~ (zq v' == 0)%Q) by (apply zq_nz; lia).
  assert (F : forall r s t w, (comb_num r s t w p q == zq (r * (u * u') + s * (u * v') + t * (v * u') + w * (v * v')) / (zq v * zq v'))%Q).
  { intros r s t w. unfold comb_num, zq in *. rewrite E, E', !inject_Z_plus, !inject_Z_mult. field. auto. }
  assert (NN : ~ (zq v * zq v' == 0)%Q) by (intro X; apply Qmult_integral in X; tauto).
  set (den := dxy * (u * u') + dx * (u * v') + dy * (v * u') + d * (v * v')) in *.
  assert (ND' : den <> 0).
  { intro X. apply ND. rewrite F. fold den. rewrite X. unfold Qdiv. now rewrite zq_0, Qmult_0_l. }
  assert (Q : (comb nxy nx ny n dxy dx dy d p q ==
    zq (nxy * (u * u') + nx * (u * v') + ny * (v * u') + n * (v * v')) / zq den)%Q).
  { unfold comb. rewrite !F. fold den. field. split; [now apply zq_nz|]. split; auto. }
  assert (S : forall r s t w, Z.abs r <= M -> Z.abs s <= M -> Z.abs t <= M -> Z.abs w <= M ->
    Z.abs (r * (u * u') + s * (u * v') + t * (v * u') + w * (v * v')) <= 4 * M * (b * b)).
  { clear - M0 B0 V A B V' A' B'. intros r s t w Hr Hs Ht Hw.
    assert (P : forall z x y, Z.abs z <= M -> Z.abs x <= b -> Z.abs y <= b -> Z.abs (z * (x * y)) <= M * (b * b)).
    { intros z x y Z1 Z2 Z3. rewrite !Z.abs_mul. apply Z.mul_le_mono_nonneg; try lia. apply Z.mul_le_mono_nonneg; lia. }
    pose proof (P r u u' Hr A A') as X1. pose proof (P s u v' Hs A ltac:(lia)) as X2.
    pose proof (P t v u' Ht ltac:(lia) A') as X3. pose proof (P w v v' Hw ltac:(lia) ltac:(lia)) as X4.
    clear P. set (r * (u * u')) in *. set (s * (u * v')) in *. set (t * (v * u')) in *. set (w * (v * v')) in *.
    clear - X1 X2 X3 X4. clearbody z z0 z1 z2. replace (4 * M * (b * b)) with (4 * (M * (b * b))) by ring. set (M * (b * b)) in *. clearbody z3. lia. }
  destruct (quotient_parts _ _ _ ND' (S nxy nx ny n I1 I2 I3 I4) (S dxy dx dy d I5 I6 I7 I8)) as (s & t & X & Y & Z & T).
  exists s, t. rewrite Q. auto.
Qed.

Definition longest (m : Z) : Z := (m * m + 3 * m - 4) / 2.

Lemma longest_spec m : 1 <= m -> m * m + 3 * m - 4 <= 2 * Z.of_nat (Z.to_nat (longest m)).
Proof.
  intro M. unfold longest. assert (E : Z.even (m * m + 3 * m - 4) = true).
  { rewrite Z.even_sub, Z.even_add, !Z.even_mul. now destruct (Z.even m). }
  apply Z.even_spec in E. destruct E as [h E]. rewrite E, Z.mul_comm, Z.div_mul by lia. nia.
Qed.

Section Machine.
  Variables (k : cfg) (b c : Z).
  Hypothesis O : ovf k = true.

  Let w := bits (wd k) - 1.

  Lemma w_pos : 1 <= w.
  Proof. unfold w. destruct k as [[] o]; cbn; lia. Qed.

  Lemma ratio_in num den x : isize k num -> isize k den -> den <> 0 -> number_ratio k num den = Ok x ->
    let N := Z.to_nat (longest w) in
    num_has k x (zq num / zq den) /\ parts (2 ^ w) (zq num / zq den) /\ gives k x N /\ costs k x (2 * N + 2).
  Proof.
    intros I1 I2 D E N. assert (H : num_has k x (zq num / zq den)) by (constructor; auto).
    assert (P : parts (2 ^ w) (zq num / zq den)) by (apply quotient_parts; auto; now apply isize_abs).
    assert (G : gives k x N) by (apply (parts_gives k w N x _ O w_pos H P), longest_spec, w_pos).
    split; [exact H|]. split; [exact P|]. split; [exact G|]. exact (ratio_work k num den x N E G).
  Qed.

  Lemma machine_homographic num den x nx n dx d f : isize k num -> isize k den -> den <> 0 ->
    number_ratio k num den = Ok x -> isize k nx -> isize k n -> isize k dx -> isize k d ->
    ~ (hom_num dx d (zq num / zq den) == 0)%Q ->
    let m := number_homographic_nests k f x nx n dx d in
    let N := Z.to_nat (longest w) in let L := Z.to_nat (longest (2 * w + 1)) in
    (work m <= 3 * N + 3)%nat /\
    forall y, number_homographic k f x nx n dx d = Ok y -> exists V, costs k y V /\ (work m + V <= 3 * N + 2 * L + 7)%nat.
  Proof.
    intros I1 I2 D E J1 J2 J3 J4 ND m N L. destruct (ratio_in num den x I1 I2 D E) as (H & P & G & C).
    destruct (homographic_work k f x nx n dx d N (2 * N + 2) G C) as [B R]. fold m in B, R. split; [lia|].
    intros y Ey. assert (Hy : num_has k y (hom nx n dx d (zq num / zq den))) by (eapply has_homographic; eauto).
    assert (Py : parts (2 ^ (2 * w + 1)) (hom nx n dx d (zq num / zq den))).
    { replace (2 ^ (2 * w + 1)) with (2 * 2 ^ w * 2 ^ w).
      - apply hom_parts; auto; try (apply Z.pow_nonneg; lia); now apply isize_abs.
      - pose proof w_pos. replace (2 * w + 1) with (1 + (w + w)) by ring. rewrite !Z.pow_add_r by lia. ring. }
    assert (Gy : gives k y L) by (pose proof w_pos; apply (parts_gives k (2 * w + 1) L y _ O ltac:(lia) Hy Py), longest_spec; lia).
    destruct (R y L Ey Gy) as (V & CV & LV). exists V. split; [exact CV|lia].
  Qed.

  Lemma machine_combine num den x num' den' y nxy nx ny n dxy dx dy d f : isize k num -> isize k den -> den <> 0 ->
    isize k num' -> isize k den' -> den' <> 0 ->
    number_ratio k num den = Ok x -> number_ratio k num' den' = Ok y ->
    isize k nxy -> isize k nx -> isize k ny -> isize k n ->
    isize k dxy -> isize k dx -> isize k dy -> isize k d ->
    ~ (comb_num dxy dx dy d (zq num / zq den) (zq num' / zq den') == 0)%Q ->
    let m := number_combine_nests k f x y nxy nx ny n dxy dx dy d in
    let N := Z.to_nat (longest w) in let L := Z.to_nat (longest (3 * w + 2)) in
    (work m <= 6 * N + 6)%nat /\
    forall z, number_combine k f x y nxy nx ny n dxy dx dy d = Ok z -> exists V, costs k z V /\ (work m + V <= 6 * N + 2 * L + 12)%nat.
  Proof.
    intros I1 I2 D I1' I2' D' E E' J1 J2 J3 J4 J5 J6 J7 J8 ND m N L.
    destruct (ratio_in num den x I1 I2 D E) as (H & P & G & C).
    destruct (ratio_in num' den' y I1' I2' D' E') as (H' & P' & G' & C').
    destruct (combine_work k f x y nxy nx ny n dxy dx dy d N (2 * N + 2) N (2 * N + 2) G C G' C') as [B R].
    fold m in B, R. split; [lia|]. intros z Ez.
    set (q := comb nxy nx ny n dxy dx dy d (zq num / zq den) (zq num' / zq den')).
    assert (Hz : num_has k z q) by (eapply has_combine; eauto).
    assert (Pz : parts (2 ^ (3 * w + 2)) q).
    { replace (2 ^ (3 * w + 2)) with (4 * 2 ^ w * (2 ^ w * 2 ^ w)).
      - apply comb_parts; auto; try (apply Z.pow_nonneg; lia); now apply isize_abs.
      - pose proof w_pos. replace (3 * w + 2) with (2 + (w + (w + w))) by ring. rewrite !Z.pow_add_r by lia. ring. }
    assert (Gz : gives k z L) by (pose proof w_pos; apply (parts_gives k (3 * w + 2) L z q O ltac:(lia) Hz Pz), longest_spec; lia).
    destruct (R z L Ez Gz) as (V & CV & LV). exists V. split; [exact CV|lia].
  Qed.

  Lemma machine_compare num den x num' den' y f : isize k num -> isize k den -> den <> 0 ->
    isize k num' -> isize k den' -> den' <> 0 ->
    number_ratio k num den = Ok x -> number_ratio k num' den' = Ok y ->
    (work (number_compare_nests k f x y) <= 4 * Z.to_nat (longest w) + 4)%nat.
  Proof.
    intros I1 I2 D I1' I2' D' E E'. destruct (ratio_in num den x I1 I2 D E) as (_ & _ & _ & C).
    destruct (ratio_in num' den' y I1' I2' D' E') as (_ & _ & _ & C').
    pose proof (compare_work k f x y _ _ C C'). lia.
  Qed.
End Machine.
