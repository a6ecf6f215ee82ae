(** * SoonProofs: how many symbols a homographic reads before it gives the next. *)

From Coq Require Import ZArith QArith Qabs Qfield List Lia Lqa Bool.
From Verif Require Import Machine Protocol Support Types Ratio Homographic Combine Lib Spec
  SeqProofs Upto Good RatioProofs SupportProofs HomProofs HomValue HomGood LibProofs ApiProofs ArithProofs LongProofs
  SpecLazy LazyProofs SpecTell TellProofs.
Import ListNotations.
Open Scope Q_scope.

(** ** Values that begin alike are close *)

Lemma half_close u u' : (u / 2 - u' / 2) == (u - u') * (1#2).
Proof. field. Qed.

Lemma inv_close u u' : 0 < u -> 0 < u' -> / (1 + u) - / (1 + u') == (u' - u) * (/ (1 + u) * / (1 + u')).
Proof. intros. field. split; lra. Qed.

Lemma inv_below u : 0 < u -> 0 < / (1 + u) /\ / (1 + u) < 1.
Proof.
  intro P. assert (X : 0 < / (1 + u)) by (apply Qinv_lt_0_compat; lra). split; [exact X|].
  assert (E : / (1 + u) * (1 + u) == 1) by (field; lra).
  assert (Y : 0 < / (1 + u) * u) by now apply Qmult_lt_0_compat. lra.
Qed.

Lemma abs_scale a b : 0 < b -> Qabs (a * b) == Qabs a * b.
Proof. intro P. rewrite Qabs_Qmult. rewrite (Qabs_pos b) by lra. reflexivity. Qed.

Lemma abs_less a b c : 0 < b -> b <= c -> Qabs (a * b) <= Qabs a * c.
Proof.
  intros P L. rewrite abs_scale by exact P. rewrite !(Qmult_comm (Qabs a)). apply Qmult_le_compat_r; [exact L|apply Qabs_nonneg].
Qed.

Definition pow2 (n : nat) : Q := zq (2 ^ Z.of_nat n).
Lemma pow2_0 : pow2 0 == 1. Proof. reflexivity. Qed.
Lemma pow2_S n : pow2 (S n) == 2 * pow2 n.
Proof. unfold pow2. rewrite Nat2Z.inj_succ, Z.pow_succ_r by lia. now rewrite zq_mul. Qed.
Lemma pow2_pos n : 0 < pow2 n.
Proof. unfold pow2. change 0 with (zq 0). apply (proj1 (zq_lt _ _)). apply Z.pow_pos_nonneg; lia. Qed.

Lemma unread_shrinks s a u u' : 0 < u -> u < 1 -> 0 < u' -> u' < 1 ->
  Qabs (unread1 s (unread a u) - unread1 s (unread a u')) <= Qabs (unread a u - unread a u').
Proof.
  intros P Q0 P' Q0'. destruct (unread_range a u P Q0) as [A B], (unread_range a u' P' Q0') as [A' B'].
  set (v := unread a u) in *. set (v' := unread a u') in *. destruct s; cbn [unread1].
  - rewrite half_close. apply Qle_trans with (Qabs (v - v') * 1); [apply abs_less; lra|lra].
  - rewrite inv_close by auto. destruct (inv_below v A), (inv_below v' A').
    rewrite <- (Qabs_opp (v - v')). setoid_replace (- (v - v')) with (v' - v) by ring.
    apply Qle_trans with (Qabs (v' - v) * 1); [|lra]. apply abs_less; [now apply Qmult_lt_0_compat|].
    set (i := / (1 + v)) in *. set (j := / (1 + v')) in *. clearbody i j.
    assert (0 < (1 - i) * j) by (apply Qmult_lt_0_compat; lra). lra.
Qed.

Lemma two_halve s t v v' : 0 < v -> v < 1 -> 0 < v' -> v' < 1 ->
  Qabs (unread1 s (unread1 t v) - unread1 s (unread1 t v')) <= Qabs (v - v') * (1#2).
Proof.
  intros P Q0 P' Q0'.
  assert (H : forall x y, 0 < x -> x < 1 -> 0 < y -> y < 1 -> Qabs (unread1 Uncover x - unread1 Uncover y) <= Qabs (x - y)).
  { intros x y X0 X1 Y0 Y1. exact (unread_shrinks Uncover [] x y X0 X1 Y0 Y1). }
  destruct s.
  - change (Qabs (unread1 t v / 2 - unread1 t v' / 2) <= Qabs (v - v') * (1#2)).
    rewrite half_close. rewrite abs_scale by lra. apply Qmult_le_compat_r; [|lra]. exact (unread_shrinks t [] v v' P Q0 P' Q0').
  - destruct t.
    + cbn [unread1]. change (/ (1 + v / 2)) with (unread1 Uncover (v / 2)). change (/ (1 + v' / 2)) with (unread1 Uncover (v' / 2)).
      assert (E : forall w, w / 2 == w * (1#2)) by (intro; field).
      eapply Qle_trans; [apply H; rewrite E; lra|]. rewrite half_close. rewrite abs_scale by lra. lra.
    + cbn [unread1]. set (r := / (2 + v) * / (2 + v')).
      assert (E : / (1 + / (1 + v)) - / (1 + / (1 + v')) == (v - v') * r) by (unfold r; field; repeat split; lra).
      rewrite E. destruct (inv_below (1 + v) ltac:(lra)) as [A B]. destruct (inv_below (1 + v') ltac:(lra)) as [A' B'].
      assert (X : forall w, 0 < w -> 0 < / (2 + w) /\ / (2 + w) < 1#2).
      { intros w W. assert (I : 0 < / (2 + w)) by (apply Qinv_lt_0_compat; lra). split; [exact I|].
        assert (F : / (2 + w) * (2 + w) == 1) by (field; lra).
        assert (0 < / (2 + w) * w) by now apply Qmult_lt_0_compat. lra. }
      destruct (X v P) as [I1 I2], (X v' P') as [J1 J2]. unfold r. set (i := / (2 + v)) in *. set (j := / (2 + v')) in *. clearbody i j.
      apply abs_less; [now apply Qmult_lt_0_compat|].
      assert (0 < ((1#2) - i) * j) by (apply Qmult_lt_0_compat; lra). lra.
Qed.

Lemma unread_close n : forall a u u', (2 * n <= length a)%nat -> 0 < u -> u < 1 -> 0 < u' -> u' < 1 ->
  Qabs (unread a u - unread a u') * pow2 n < 1.
Proof.
  induction n as [|n IH]; intros a u u' L P Q0 P' Q0'.
  - rewrite pow2_0, Qmult_1_r. destruct (unread_range a u P Q0), (unread_range a u' P' Q0').
    apply Qabs_Qlt_condition. lra.
  - destruct a as [|s [|t a]]; cbn [length] in L; try lia. cbn [unread fold_right]. fold (unread a u). fold (unread a u').
    destruct (unread_range a u P Q0) as [A B], (unread_range a u' P' Q0') as [A' B'].
    pose proof (two_halve s t _ _ A B A' B') as T. pose proof (IH a u u' ltac:(lia) P Q0 P' Q0') as I. rewrite pow2_S.
    set (D := Qabs (unread1 s (unread1 t (unread a u)) - unread1 s (unread1 t (unread a u')))) in *.
    set (E := Qabs (unread a u - unread a u')) in *. pose proof (pow2_pos n) as W. set (w := pow2 n) in *. clearbody D E w.
    assert (D * w <= E * (1#2) * w) by (apply Qmult_le_compat_r; lra). lra.
Qed.

(** ** A homographic function does not spread values far *)

Definition low (m : hcoef) : Z := Z.min (Z.abs (h_d m)) (Z.abs (h_d m + h_dx m)).
Lemma low_pos m : J m -> 1 <= zq (low m).
Proof. intro HJ. change 1 with (zq 1). apply (proj1 (zq_le _ _)). unfold low, J in *. lia. Qed.

Lemma low_den m u : J m -> 0 < u -> u < 1 ->
  zq (low m) <= hom_num (h_dx m) (h_d m) u \/ hom_num (h_dx m) (h_d m) u <= - zq (low m).
Proof.
  intros HJ P Q0. rewrite hom_interp. set (b := (h_d m + h_dx m)%Z). set (a := h_d m).
  assert (X : ((low m <= a /\ low m <= b) \/ (a <= - low m /\ b <= - low m))%Z) by (unfold low, J in *; fold b in HJ; lia).
  clearbody a b. destruct X as [[A B]|[A B]]; [left|right]; apply (proj1 (zq_le _ _)) in A, B; rewrite ?zq_opp in A, B;
    set (a' := zq a) in *; set (b' := zq b) in *; set (w := zq (low m)) in *; clearbody a' b' w.
  - assert (0 <= (1 - u) * (a' - w)) by (apply Qmult_le_0_compat; lra).
    assert (0 <= u * (b' - w)) by (apply Qmult_le_0_compat; lra). lra.
  - assert (0 <= (1 - u) * (- w - a')) by (apply Qmult_le_0_compat; lra).
    assert (0 <= u * (- w - b')) by (apply Qmult_le_0_compat; lra). lra.
Qed.

Lemma hv_spread m u z u' z' : J m -> 0 < u -> u < 1 -> 0 < u' -> u' < 1 -> hv m u z -> hv m u' z' ->
  Qabs (z - z') * zq (low m * low m) <= zq (Z.abs (hdet m)) * Qabs (u - u').
Proof.
  intros HJ P Q0 P' Q0' [E N] [E' N']. pose proof (low_den m u HJ P Q0) as U. pose proof (low_den m u' HJ P' Q0') as U'.
  pose proof (low_pos m HJ) as LP.
  set (t := hom_num (h_dx m) (h_d m) u) in *. set (t' := hom_num (h_dx m) (h_d m) u') in *.
  assert (X : (z - z') * (t * t') == zq (hdet m) * (u - u')).
  { transitivity ((z * t) * t' - (z' * t') * t); [ring|]. rewrite <- E, <- E'. unfold t, t', hom_num, hdet.
    rewrite zq_sub, !zq_mul. ring. }
  rewrite zq_mul. set (w := zq (low m)) in *. clearbody w.
  assert (Y : w * w <= Qabs (t * t')).
  { rewrite Qabs_Qmult. assert (A : forall x, w <= x \/ x <= - w -> w <= Qabs x).
    { intros x [H|H]; [rewrite Qabs_pos by lra; lra|rewrite Qabs_neg by lra; lra]. }
    apply A in U, U'. set (p := Qabs t) in *. set (p' := Qabs t') in *. clearbody p p'.
    assert (0 <= (p - w) * p') by (apply Qmult_le_0_compat; lra).
    assert (0 <= w * (p' - w)) by (apply Qmult_le_0_compat; lra). lra. }
  assert (Z : Qabs (z - z') * Qabs (t * t') == zq (Z.abs (hdet m)) * Qabs (u - u')).
  { rewrite <- Qabs_Qmult, X, Qabs_Qmult. apply Qmult_comp; [|reflexivity]. unfold zq, inject_Z, Qabs. reflexivity. }
  rewrite <- Z. pose proof (Qabs_nonneg (z - z')) as G. set (p := Qabs (z - z')) in *. set (p' := Qabs (t * t')) in *. clearbody p p'.
  rewrite !(Qmult_comm p). now apply Qmult_le_compat_r.
Qed.

(** ** Reading on *)

Lemma begins_det q p l s s' : begins q p (l ++ [s]) -> begins q p (l ++ [s']) -> s = s'.
Proof.
  intros [r R] [r' R']. pose proof (proj1 (represents_inj q q _ _ R R') (Qeq_refl q)) as X.
  injection X as X. rewrite <- !app_assoc in X. apply app_inv_head in X. now injection X.
Qed.

(** The value of what comes next, from the result. *)
Lemma next_side p l z s y : 0 < z -> z < 1 -> y == primed p (unread l z) -> begins y p (l ++ [s]) ->
  match s with Amplify => z < 1#2 | Uncover => 1#2 < z end.
Proof.
  intros P Q0 E B. destruct (Q_dec z (1#2)) as [[L|L]|L].
  - assert (X : begins y p (l ++ [Amplify])).
    { eapply begins_same; [|symmetry; exact E]. apply begins_next; auto. unfold spec_symbol. now rewrite (proj1 (Qlt_alt _ _) L). }
    now rewrite (begins_det _ _ _ _ _ B X).
  - assert (X : begins y p (l ++ [Uncover])).
    { eapply begins_same; [|symmetry; exact E]. apply begins_next; auto. unfold spec_symbol. now rewrite (proj1 (Qgt_alt _ _) L). }
    now rewrite (begins_det _ _ _ _ _ B X).
  - exfalso. destruct B as [r R].
    assert (X : represents y (inr (p, l))).
    { exists (unread l z). split; [|exact E]. pose proof (unread_seq l z [] (seq_end _ L)) as U. now rewrite app_nil_r in U. }
    pose proof (proj1 (represents_inj y y _ _ R X) (Qeq_refl y)) as Y. injection Y as Y.
    apply (f_equal (@length _)) in Y. rewrite !app_length in Y. cbn in Y. lia.
Qed.

Lemma unread_app a b u : unread (a ++ b) u = unread a (unread b u).
Proof. unfold unread. apply fold_right_app. Qed.

(** As long as the next symbol is open, the value is close to one half. *)
Lemma undecided_close m0 px lx p l m a n u z : held m0 px lx p l m ->
  undecided (h_nx m0) (h_n m0) (h_dx m0) (h_d m0) px (lx ++ a) p l -> (2 * n <= length a)%nat ->
  0 < u -> u < 1 -> hv m (unread a u) z -> 0 < z -> z < 1 ->
  pow2 n * Qabs (z - (1#2)) * zq (low m * low m) < zq (Z.abs (hdet m)).
Proof.
  intros (HJ & D & B) [(q1 & B1 & N1 & R1) (q2 & B2 & N2 & R2)] L P Q0 H Z0 Z1.
  assert (W : forall q s, begins q px (lx ++ a) -> begins (hom (h_nx m0) (h_n m0) (h_dx m0) (h_d m0) q) p (l ++ [s]) ->
    exists u' z', 0 < u' /\ u' < 1 /\ hv m (unread a u') z' /\ match s with Amplify => z' < 1#2 | Uncover => 1#2 < z' end).
  { intros q s Bq Rq. apply begins_inv in Bq as (u' & U0 & U1 & E). destruct (unread_range a u' U0 U1) as [A0 A1].
    destruct (held_value m _ HJ D A0 A1) as (z' & Hz & Y0 & Y1). exists u', z'. repeat (split; [assumption|]).
    pose proof (B _ _ A0 A1 Y0 Y1 Hz) as G. apply hv_hom in G as [_ G].
    apply (next_side p l z' s (hom (h_nx m0) (h_n m0) (h_dx m0) (h_d m0) q)); auto.
    rewrite <- G. apply hom_same. now rewrite E, unread_app. }
  destruct (W q1 Amplify B1 R1) as (u1 & z1 & U10 & U11 & H1 & S1). destruct (W q2 Uncover B2 R2) as (u2 & z2 & U20 & U21 & H2 & S2).
  assert (V : forall u' z', 0 < u' -> u' < 1 -> hv m (unread a u') z' -> pow2 n * Qabs (z - z') * zq (low m * low m) < zq (Z.abs (hdet m))).
  { intros u' z' U0 U1 Hz. destruct (unread_range a u P Q0) as [A0 A1], (unread_range a u' U0 U1) as [A2 A3].
    pose proof (hv_spread m _ _ _ _ HJ A0 A1 A2 A3 H Hz) as G.
    pose proof (unread_close n a u u' L P Q0 U0 U1) as C. pose proof (pow2_pos n) as PP.
    assert (K : 1 <= zq (Z.abs (hdet m))) by (change 1 with (zq 1); apply (proj1 (zq_le _ _)); lia).
    set (x := Qabs (z - z')) in *. set (y := Qabs (unread a u - unread a u')) in *. set (w := pow2 n) in *.
    set (k := zq (Z.abs (hdet m))) in *. set (b := zq (low m * low m)) in *. clearbody x y w k b.
    assert (X1 : w * (x * b) <= w * (k * y)) by (rewrite !(Qmult_comm w); apply Qmult_le_compat_r; lra).
    assert (X2 : 0 < k * (1 - y * w)) by (apply Qmult_lt_0_compat; lra). lra. }
  pose proof (V u1 z1 U10 U11 H1) as V1. pose proof (V u2 z2 U20 U21 H2) as V2. pose proof (pow2_pos n) as PP.
  assert (LL : 0 < zq (low m * low m)).
  { pose proof (low_pos m HJ). rewrite zq_mul. apply Qmult_lt_0_compat; lra. }
  set (b := zq (low m * low m)) in *. clearbody b.
  destruct (Qlt_le_dec z (1#2)) as [Y|Y].
  - rewrite Qabs_neg in V2 by lra. rewrite Qabs_neg by lra. set (w := pow2 n) in *. clearbody w.
    assert (0 < w * b) by now apply Qmult_lt_0_compat.
    assert (0 < w * b * (z2 - (1#2))) by (apply Qmult_lt_0_compat; lra). lra.
  - rewrite Qabs_pos in V1 by lra. rewrite Qabs_pos by lra. set (w := pow2 n) in *. clearbody w.
    assert (0 < w * b) by now apply Qmult_lt_0_compat.
    assert (0 < w * b * ((1#2) - z1)) by (apply Qmult_lt_0_compat; lra). lra.
Qed.

Theorem symbol_soon k f f' px cx q nx n dx d p c l x m o c' : ovf k = true -> (nx * d <> n * dx)%Z ->
  num_has k (NOther px cx) q -> number_homographic k f (NOther px cx) nx n dx d = Ok (NOther p c) ->
  egests k c l (CHomographic x m) -> clog_egest k f' (CHomographic x m) = Ok (o, c') ->
  exists e z, 0 < z /\ z < 1 /\ hom nx n dx d q == primed p (followed l z) /\
    ((exists x' m' s, c' = CHomographic x' m' /\ o = Some s /\ egests k x e x') \/ ((exists r, c' = CRatio r) /\ ran_out k x e)) /\
    forall j, zq (Z.abs (h_nx m * h_d m - h_n m * h_dx m)) <=
      zq (2 ^ Z.of_nat j) * Qabs (z - (1#2)) * zq (Z.min (Z.abs (h_d m)) (Z.abs (h_d m + h_dx m)) ^ 2) -> (length e <= 2 * j)%nat.
Proof.
  intros O D Hq H X E. destruct (homographic_held _ _ _ _ _ _ _ _ _ _ _ _ _ O D H X) as (lx & Xx & Hd).
  apply (clog_lazy _ _ _ (HC nx n dx d) _ px lx p l) in E; auto. cbv zeta in E. pose proof Hd as (HJ & Dm & B).
  assert (BOUND : forall e x', egests k x e x' -> exists z, 0 < z /\ z < 1 /\ hom nx n dx d q == primed p (followed l z) /\
    ((forall a s b, e = a ++ s :: b -> undecided nx n dx d px (lx ++ a) p l) ->
     forall j, zq (Z.abs (h_nx m * h_d m - h_n m * h_dx m)) <=
       zq (2 ^ Z.of_nat j) * Qabs (z - (1#2)) * zq (low m ^ 2) -> (length e <= 2 * j)%nat)).
  { intros e x' Xe. pose proof (has_begins k px cx q (lx ++ e) x' O Hq (egests_app _ _ _ _ _ _ Xx Xe)) as Bq.
    apply begins_inv in Bq as (u & U0 & U1 & Eq). rewrite unread_app in Eq. destruct (unread_range e u U0 U1) as [V0 V1].
    destruct (held_value m _ HJ Dm V0 V1) as (z & Hz & Z0 & Z1). exists z. split; [exact Z0|]. split; [exact Z1|]. split.
    - rewrite primed_followed. pose proof (B _ _ V0 V1 Z0 Z1 Hz) as G. apply hv_hom in G as [_ G]. cbn [h_nx h_n h_dx h_d] in G.
      rewrite <- G. now apply hom_same.
    - intros Und j Le. destruct (le_lt_dec (length e) (2 * j)) as [?|Gt]; [assumption|exfalso].
      destruct (exists_last (l := e)) as (a & s & Ea); [intros ->; cbn in Gt; lia|].
      assert (La : (2 * j <= length a)%nat) by (rewrite Ea, app_length in Gt; cbn in Gt; lia).
      pose proof (Und a s [] Ea) as Ua. rewrite Ea, unread_app in Hz.
      assert (Su : 0 < unread [s] u /\ unread [s] u < 1) by now apply unread_range.
      pose proof (undecided_close (HC nx n dx d) px lx p l m a j (unread [s] u) z Hd Ua La (proj1 Su) (proj2 Su) Hz Z0 Z1) as C.
      unfold pow2, hdet in C. rewrite Z.pow_2_r in Le. lra. }
  cbn [h_nx h_n h_dx h_d] in E.
  destruct E as [(s & x' & m' & e & -> & -> & Xe & _ & P)|(r & e & -> & (c1 & c2 & Xe & R) & P)].
  - destruct (BOUND e x' Xe) as (z & Z0 & Z1 & Ez & Bz). exists e, z. repeat (split; [assumption|]).
    split; [left; eauto 10|]. now apply Bz.
  - destruct (BOUND e c1 Xe) as (z & Z0 & Z1 & Ez & Bz). exists e, z. repeat (split; [assumption|]).
    split; [right; split; [eauto|exists c1, c2; auto]|]. apply Bz. intros a s b Y. eapply P; eauto.
Qed.
