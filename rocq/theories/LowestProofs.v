(** * LowestProofs: the common factors of what consume returns. *)

From Coq Require Import ZArith Znumtheory Zpow_facts QArith Qfield List Lia Lqa Psatz Bool.
From Verif Require Import Machine Protocol Types Homographic Lib Spec SpecSmall SpecFormula SpecLowest Upto SeqProofs Good
  RatioProofs HomProofs HomValue HomGood CombGood LibProofs ApiProofs ArithProofs BuildProofs SmallProofs PreciseProofs
  ExactProofs FormulaProofs.
Import ListNotations.
Open Scope Z_scope.

(** The determinant divides a power of two. *)
Definition two_det (m : hcoef) : Prop := hdet m <> 0 /\ exists t, 0 <= t /\ (hdet m | 2 ^ t).

Lemma two_det_ingested s m m' : two_det m -> ingested s m m' -> two_det m'.
Proof.
  intros (N & t & T & D) I. split; [exact (det_ingested s m m' I N)|]. unfold hdet in *. destruct s; cbn [ingested] in I.
  - destruct I as [(-> & -> & -> & ->)|(A & B & C & E)].
    + exists (t + 1). split; [lia|]. destruct D as [z D]. exists z. rewrite Z.pow_add_r, Z.pow_1_r by lia. rewrite D. ring.
    + exists t. split; [exact T|]. destruct D as [z D]. exists (2 * z). rewrite D, B, E, <- A, <- C. ring.
  - exists t. split; [exact T|]. destruct D as [z D]. exists (- z). rewrite I. hc. rewrite D. ring.
Qed.

(** What consume goes through. *)
Record fine (p : option primer) (m : hcoef) : Prop := {
  fine_det : two_det m;
  fine_tidy : tidy (unprime p m) }.

Lemma fine_ingested p s m m' : fine p m -> ingested s m m' -> fine p m'.
Proof.
  intros [D T] I. split; [eapply two_det_ingested; eauto|].
  exact (tidy_ingested s _ _ T (unprime_ingested p s m m' I)).
Qed.

Lemma fine_start p : fine p (absorbed p (HC 1 0 0 1)).
Proof.
  split.
  - split; [destruct p as [[]|]; discriminate|]. exists 0. split; [lia|].
    destruct p as [[]|]; cbn; ((now exists 1) || (now exists (-1))).
  - destruct p as [[]|]; cbn [absorbed unprime]; unfold tidy, hdet; hc; lia.
Qed.

Lemma k_consume_fine k p f : forall c m o m', fine p m -> k_small k m -> k_consume k f c m = Ok (o, m') ->
  fine p m' /\ hbound (2 * k_lim k) m' /\ (o = None -> k_small k m').
Proof.
  assert (Sm : forall m, k_small k m -> hbound (2 * k_lim k) m) by (unfold k_small, hbound; intros; lia).
  induction f as [|f IH]; intros c m o m' F K E; cbn [k_consume] in E; [discriminate E|].
  destruct (clog_egest k f c) as [[s c']| |]; cbn [bind] in E; try discriminate E.
  destruct s as [s|]; [|injection E as <- <-; auto].
  destruct (k_ingest_ok k m s K) as (m1 & Em & I & Bm). rewrite Em in E. cbn [bind] in E.
  assert (Bm' : hbound (2 * k_lim k) m1) by (unfold hbound in *; lia).
  destruct (k_unsafe_ok k m1 Bm') as (b & Eb & Hb). rewrite Eb in E. cbn [bind] in E.
  pose proof (fine_ingested p s m m1 F I) as F1. destruct b.
  - injection E as <- <-. split; [exact F1|]. split; [exact Bm'|discriminate].
  - apply (IH c' m1); auto. now apply Hb.
Qed.

Lemma start_small k p : k_small k (absorbed p (HC 1 0 0 1)).
Proof. pose proof (k_lim_ok k). destruct p as [[]|]; unfold k_small; cbn; lia. Qed.

Lemma consume_fine k f p c o m : number_consume k f (NOther p c) = Ok (o, m) ->
  fine p m /\ hbound (2 * k_lim k) m /\ (o = None -> k_small k m).
Proof.
  rewrite consume_cases. intro E. destruct (k_consume k f c (absorbed p (HC 1 0 0 1))) as [[co m']| |] eqn:K; try discriminate E.
  cbn [bind] in E. injection E as <- <-.
  destruct (k_consume_fine k p f c _ co m' (fine_start p) (start_small k p) K) as (A & B & C).
  split; [exact A|]. split; [exact B|]. destruct co; [discriminate|auto].
Qed.

Lemma power_divides g t : 0 <= t -> 0 <= g -> (g | 2 ^ t) -> power_of_two g.
Proof.
  intros T G D. destruct (Zdivide_power_2 g 2 t T G prime_2 D) as [j E].
  destruct (Z.neg_nonneg_cases j) as [N|N]; [|exists j; auto].
  rewrite E, Z.pow_neg_r in D by exact N. destruct D as [z D]. rewrite Z.mul_0_r in D.
  pose proof (Z.pow_pos_nonneg 2 t ltac:(lia) T). lia.
Qed.

Lemma det_gcd m a b u v : two_det m -> u * a - v * b = hdet m \/ u * a - v * b = - hdet m -> power_of_two (Z.gcd a b).
Proof.
  intros (N & t & T & D) E. apply (power_divides _ t T (Z.gcd_nonneg _ _)). eapply Z.divide_trans; [|exact D].
  assert (X : (Z.gcd a b | u * a - v * b)).
  { apply Z.divide_sub_r; apply Z.divide_mul_r; [apply Z.gcd_divide_l|apply Z.gcd_divide_r]. }
  destruct E as [E|E]; rewrite E in X; [exact X|]. apply Z.divide_opp_r. exact X.
Qed.

Theorem consume_powers k f x o m : number_consume k f x = Ok (o, m) ->
  power_of_two (Z.gcd (h_nx m + 2 * h_n m) (h_dx m + 2 * h_d m)) /\
  power_of_two (Z.gcd (h_n m) (h_d m)) /\ power_of_two (Z.gcd (h_nx m + h_n m) (h_dx m + h_d m)).
Proof.
  destruct x as [s|p c].
  - intro E. assert (P : power_of_two 1) by (now exists 0). assert (P2 : power_of_two 2) by (now exists 1).
    destruct s; injection E as <- <-; cbn; auto.
  - intro E. destruct (consume_fine k f p c o m E) as ([D _] & _). split; [|split].
    + apply (det_gcd m _ _ (h_d m) (h_n m) D). left. unfold hdet. ring.
    + apply (det_gcd m _ _ (- h_dx m) (- h_nx m) D). left. unfold hdet. ring.
    + apply (det_gcd m _ _ (h_d m) (h_n m) D). left. unfold hdet. ring.
Qed.

(** The denominator is positive, and both parts are machine integers. *)
Lemma consume_parts k f x m : number_consume k f x = Ok (None, m) ->
  0 < h_dx m + 2 * h_d m /\ isize k (h_nx m + 2 * h_n m) /\ isize k (h_dx m + 2 * h_d m).
Proof.
  destruct x as [s|p c].
  - intro E. pose proof (k_lim_ok k). pose proof (imin_imax k). destruct s; injection E as <-; unfold isize; cbn; lia.
  - intro E. destruct (consume_fine k f p c None m E) as ([[N _] T] & _ & K). specialize (K eq_refl).
    split.
    + unfold tidy in T. destruct T as (A & B & C & D & _). revert A B C D N. unfold hdet. clear.
      destruct p as [[]|]; cbn [unprime]; hc; intros; try lia; nia.
    + pose proof (k_lim_ok k). pose proof (imin_imax k). unfold k_small in K. unfold isize. lia.
Qed.

Lemma lowest_multiple num den a b : 0 < den -> Z.gcd num den = 1 -> 0 < b -> a * den = b * num ->
  exists g, 0 < g /\ a = g * num /\ b = g * den /\ Z.gcd a b = g.
Proof.
  intros D G B E.
  assert (X : (den | b)).
  { apply (Z.gauss den num b); [|rewrite Z.gcd_comm; exact G]. exists a. lia. }
  destruct X as [g X]. exists g. assert (g > 0) by nia. split; [lia|].
  assert (a = g * num) by nia. split; [exact H0|]. split; [exact X|].
  rewrite H0, X, Z.gcd_mul_mono_l, G. lia.
Qed.

Lemma zq_pos z : 0 < z -> ~ (zq z == 0)%Q.
Proof. unfold zq, Qeq. cbn [Qnum Qden inject_Z]. lia. Qed.

Lemma cross a b num den : 0 < b -> 0 < den -> (zq a / zq b == zq num / zq den)%Q -> a * den = b * num.
Proof.
  intros B D E. apply inject_Z_injective. rewrite !inject_Z_mult. fold (zq a) (zq b) (zq num) (zq den).
  pose proof (zq_pos b B) as NB. pose proof (zq_pos den D) as ND.
  assert (X : (zq a == zq num / zq den * zq b)%Q) by (rewrite <- E; field; exact NB).
  rewrite X. field. exact ND.
Qed.

Lemma half_value m : 0 < h_dx m + 2 * h_d m ->
  (hom (h_nx m) (h_n m) (h_dx m) (h_d m) (1#2) == zq (h_nx m + 2 * h_n m) / zq (h_dx m + 2 * h_d m))%Q.
Proof.
  intro P. pose proof (zq_pos _ P) as N.
  unfold hom, hom_num, zq in *. rewrite !inject_Z_plus, !inject_Z_mult in *. change (inject_Z 2) with (2#1) in *.
  field. split; [exact N|]. intro E. apply N. rewrite <- (Qmult_0_r (2#1)), <- E. ring.
Qed.

Theorem consume_lowest k f x q m num den : ovf k = true -> num_has k x q -> number_consume k f x = Ok (None, m) ->
  lowest q num den -> exists j, 0 <= j /\ h_nx m + 2 * h_n m = 2 ^ j * num /\ h_dx m + 2 * h_d m = 2 ^ j * den.
Proof.
  intros O X E (D & G & Q). destruct (consume_parts k f x m E) as (P & _).
  destruct (consume_powers k f x None m E) as ((j & J & Ej) & _).
  assert (V : (hom (h_nx m) (h_n m) (h_dx m) (h_d m) (1#2) == q)%Q).
  { assert (C : nconsumed k ovfp q (None, m)).
    { apply (ev_returned (fun f => number_consume k f x) _ ovfp f); auto.
      - intros. apply upto_consume; auto.
      - apply consume_ev. exact (proj2 (has_good k O) _ _ X). }
    destruct C as (_ & C). now apply ArithProofs.hv_hom. }
  rewrite half_value, Q in V by exact P. pose proof (cross _ _ _ _ P D V) as C.
  destruct (lowest_multiple num den _ _ D G P C) as (g & G0 & A & B & Gg). exists j. split; [exact J|].
  rewrite Ej in Gg. rewrite Gg. auto.
Qed.

Theorem consume_lowest_release k f x q m num den : num_has (debug k) x q ->
  number_consume (release k) f x = Ok (None, m) -> lowest q num den ->
  (exists j, 0 <= j /\ h_nx m + 2 * h_n m = 2 ^ j * num /\ h_dx m + 2 * h_d m = 2 ^ j * den) \/
  number_consume (debug k) f x = Panic PArith.
Proof.
  intros X E L. destruct (builds_consume k f x) as [B|B]; [now right|left].
  apply (consume_lowest (debug k) f x q m num den eq_refl X); [|exact L]. congruence.
Qed.

Lemma halve_both_power n : forall j num den, (j <= n)%nat -> Z.gcd num den = 1 ->
  halve_both n (2 ^ Z.of_nat j * num) (2 ^ Z.of_nat j * den) = (num, den).
Proof.
  induction n as [|n IH]; intros j num den L G.
  - destruct j; [|lia]. cbn [halve_both]. now rewrite !Z.mul_1_l.
  - destruct j as [|j]; cbn [halve_both].
    + change (2 ^ Z.of_nat 0) with 1. rewrite !Z.mul_1_l. destruct (Z.even num) eqn:A; [|reflexivity].
      destruct (Z.even den) eqn:B; [|reflexivity]. apply Z.even_spec in A, B. destruct A as [a ->]. destruct B as [b ->].
      rewrite Z.gcd_mul_mono_l in G. exfalso. cbn [Z.abs] in G. lia.
    + rewrite Nat2Z.inj_succ, Z.pow_succ_r, <- !Z.mul_assoc, !Z.even_mul by lia. change (Z.even 2) with true. cbn [orb andb].
      rewrite !(Z.mul_comm 2 _), !Z.div_mul by lia. apply IH; [lia|exact G].
Qed.

Lemma worth_consumed k m M e num den : 1 <= m -> 1 <= M -> fits_in k m M -> modest (2 ^ m) M e -> lowest (worth e) num den ->
  Z.abs num <= 2 ^ m -> den <= 2 ^ m ->
  exists x c j, returns (fun f => evaluate k f e) x /\ returns (fun f => number_consume k f x) (None, c) /\
    0 <= j /\ h_nx c + 2 * h_n c = 2 ^ j * num /\ h_dx c + 2 * h_d c = 2 ^ j * den.
Proof.
  intros Hm H1 F Me L A B. destruct (formula_debug k m M e Hm H1 F Me) as (x & r & _ & E & Hx & R & Rx).
  pose proof L as (D & G & Q).
  pose proof (amplifications_bound m (worth e) num den r Hm D Q A B R) as Am.
  assert (W : Z.max (Z.abs num) den * 2 ^ Z.of_nat (amplifications r) < 2 * (imax k / 4)).
  { assert (P : 2 ^ m * 2 ^ Z.of_nat (amplifications r) <= 2 ^ (4 * (m + 1) + 2 * (m * (m - 1)))).
    { rewrite <- Z.pow_add_r by lia. apply Z.pow_le_mono_r; nia. }
    assert (P1 : 0 < 2 ^ Z.of_nat (amplifications r)) by (apply Z.pow_pos_nonneg; lia).
    assert (Z.max (Z.abs num) den * 2 ^ Z.of_nat (amplifications r) <= 2 ^ m * 2 ^ Z.of_nat (amplifications r))
      by (apply Z.mul_le_mono_nonneg_r; lia).
    unfold fits_in in F. set (T := 2 ^ (4 * (m + 1) + 2 * (m * (m - 1)))) in *.
    assert (0 < 2 ^ m) by (apply Z.pow_pos_nonneg; lia).
    assert (16 * T <= imax k) by (assert (0 < T) by nia; clear - F H1 H2; nia).
    pose proof (Z.mul_div_le (imax k) 4 ltac:(lia)). pose proof (Z.mul_succ_div_gt (imax k) 4 ltac:(lia)). nia. }
  destruct (consume_exact k x _ r num den Hx Rx D Q W) as (c & C & _).
  assert (Cd : returns (fun f => number_consume (debug k) f x) (None, c)).
  { destruct (consume_exact (debug k) x _ r num den Hx Rx D Q W) as (c' & C' & _).
    assert (X : returns (fun f => number_consume k f x) (None, c')).
    { apply (both_returns (fun k f => number_consume k f x)); [|exact C']. intro. apply builds_consume. }
    destruct X as [f1 X1]. destruct C as [f2 X2]. specialize (X1 (max f1 f2) ltac:(lia)). specialize (X2 (max f1 f2) ltac:(lia)).
    cbn in X1, X2. congruence. }
  destruct Cd as [f0 Cd]. specialize (Cd f0 (le_n _)). cbn in Cd.
  destruct (consume_lowest (debug k) f0 x (worth e) c num den eq_refl Hx Cd L) as (j & J).
  exists x, c, j. auto.
Qed.

Theorem worth_fraction k m M e num den : 1 <= m -> 1 <= M -> fits_in k m M -> modest (2 ^ m) M e -> lowest (worth e) num den ->
  Z.abs num <= 2 ^ m -> den <= 2 ^ m -> returns (fun f => fraction k f e) (Some (num, den)).
Proof.
  intros Hm H1 F Me L A B. destruct (worth_consumed k m M e num den Hm H1 F Me L A B) as (x & c & j & E & C & J & X & Y).
  unfold fraction. eapply returns_bind; [exact E|].
  assert (V : halve_both 64 (h_nx c + 2 * h_n c) (h_dx c + 2 * h_d c) = (num, den)).
  { rewrite X, Y. rewrite <- (Z2Nat.id j J). apply halve_both_power; [|apply L].
    destruct C as [f0 C]. specialize (C f0 (le_n _)). cbn in C. destruct (consume_parts k f0 x c C) as (P & _ & I).
    rewrite Y in P, I. destruct L as (D & _).
    assert (S64 : 2 ^ j < 2 ^ 64).
    { assert (2 ^ j <= imax k) by (unfold isize in I; nia). destruct k as [[] o]; unfold imax in *; cbn in *; lia. }
    apply Z.pow_lt_mono_r_iff in S64; lia. }
  rewrite <- V. destruct C as [f0 C]. exists f0. intros f Lf. cbn. rewrite (C f Lf). reflexivity.
Qed.
