(** * ExactProofs: small fractions are consumed to the end. *)

From Coq Require Import ZArith QArith Qfield List Lia Lqa Psatz Bool.
From Verif Require Import Machine Protocol Types Homographic Lib Spec SpecSmall Upto SeqProofs Good
  RatioProofs HomProofs HomValue HomGood CombGood LibProofs ApiProofs ArithProofs BuildProofs SmallProofs PreciseProofs.
Import ListNotations.
Open Scope Z_scope.

(** The denominator of the fraction that is still to be read, before cancelling. *)
Definition weight (m : hcoef) (a b : Z) : Z := h_dx m * a + h_d m * b.

Lemma weight_step s m m' a b l : tidy m -> 0 < a < b -> clog_seq (zq a / zq b) (s :: l) -> ingested s m m' ->
  exists a' b', 0 < a' < b' /\ clog_seq (zq a' / zq b') l /\
    weight m' a' b' * 2 ^ Z.of_nat (amps l) <= weight m a b * 2 ^ Z.of_nat (amps (s :: l)).
Proof.
  intros T P S I. unfold weight. unfold tidy in T. pose proof (pow2_pos (amps l)) as P2.
  destruct s; cbn [ingested] in I; rewrite amps_cons.
  - destruct (frac_amplify a b l P S) as [P' S']. exists (2 * a), b. split; [exact P'|]. split; [exact S'|].
    rewrite <- pow_step.
    destruct I as [(_ & _ & -> & ->)|(_ & _ & E & ->)].
    + apply Z.eq_le_incl. ring.
    + assert (X : h_dx m' * (2 * a) = h_dx m * a) by (rewrite <- E; ring). rewrite X.
      apply Z.mul_le_mono_nonneg_r; [lia|]. assert (0 <= h_dx m * a /\ 0 <= h_d m * b) by nia. lia.
  - destruct (frac_uncover a b l P S) as [P' S']. exists (b - a), a. split; [exact P'|]. split; [exact S'|].
    unfold ingested_uncover in I. subst m'. hc. apply Z.eq_le_incl. ring.
Qed.

Lemma tidy_small k p m a b t : tidy (unprime p m) -> 0 < a < b ->
  weight (unprime p m) a b * 2 ^ Z.of_nat t < 2 * k_lim k -> k_small k m.
Proof.
  intros T P W. pose proof (pow2_pos t) as P2. assert (D : h_d (unprime p m) < k_lim k).
  { unfold tidy in T. unfold weight in W. set (d := h_d (unprime p m)) in *. set (dx := h_dx (unprime p m)) in *.
    clearbody d dx. assert (2 * d <= dx * a + d * b) by nia. nia. }
  unfold k_small. unfold tidy in T. revert T D. clear.
  destruct p as [[]|]; cbn [unprime]; hc; set (t := hdet _); clearbody t; lia.
Qed.

Lemma k_consume_exact k p l : forall c m a b, good k No c l -> clog_seq (zq a / zq b) l -> 0 < a < b ->
  tidy (unprime p m) -> weight (unprime p m) a b * 2 ^ Z.of_nat (amps l) < 2 * k_lim k ->
  ev (fun f => k_consume k f c m) (fun r => fst r = None) No.
Proof.
  induction l as [|s l IH]; intros c m a b G S P T W; apply ev_S; cbn [k_consume];
    apply (ev_bind (fun f => clog_egest k f c)); (eapply ev_mono; [apply (good_ev _ _ _ _ G)| |auto]);
    intros [o c'] [Ho G']; cbn [fst snd] in Ho, G'; subst o.
  - apply ev_const. reflexivity.
  - pose proof (tidy_small k p m a b _ T P W) as K.
    destruct (k_ingest_ok k m s K) as (m' & Em & I & Bm). rewrite Em. cbn [bind].
    assert (Bm' : hbound (2 * k_lim k) m') by (unfold hbound in *; lia).
    destruct (k_unsafe_ok k m' Bm') as (b' & Eb & Hb). rewrite Eb. cbn [bind].
    pose proof (unprime_ingested p _ _ _ I) as I'.
    destruct (weight_step s (unprime p m) (unprime p m') a b l T P S I') as (a1 & b1 & P1 & S1 & W1).
    pose proof (tidy_ingested _ _ _ T I') as T1.
    assert (K1 : k_small k m') by (apply (tidy_small k p m' a1 b1 (amps l)); auto; lia).
    destruct b'; [apply Hb in K1; discriminate|].
    apply (IH c' m' a1 b1); auto. lia.
Qed.

Theorem consume_exact k x q rx num den : num_has (debug k) x q -> read (debug k) x rx -> 0 < den ->
  (q == zq num / zq den)%Q -> Z.max (Z.abs num) den * 2 ^ Z.of_nat (amplifications rx) < 2 * (imax k / 4) ->
  exists m, returns (fun f => number_consume k f x) (None, m) /\
    ~ (hom_num (h_dx m) (h_d m) (1#2) == 0)%Q /\ (hom (h_nx m) (h_n m) (h_dx m) (h_d m) (1#2) == q)%Q.
Proof.
  intros X R D E W.
  assert (Lq : imax k / 4 = k_lim (debug k)).
  { unfold k_lim. change (imax (debug k)) with (imax k). pose proof (imax_ge k). rewrite Z.quot_div_nonneg; lia. }
  rewrite Lq in W.
  destruct (has_read_good (debug k) x q rx eq_refl X R) as [G Rq].
  assert (V : ev (fun f => number_consume (debug k) f x) (fun r => fst r = None) No).
  { destruct x as [s|p c].
    - exists (number_consume (debug k) 0 (NSpecial s)). destruct s; (split; [exists 0%nat; intros; reflexivity|reflexivity]).
    - destruct G as (v & l & S & Ev & G). destruct (clog_seq_range _ _ S) as [V0 V1].
      destruct (frac_primed q num den p v D E Ev V0 V1) as (a & b & P & Eab & _ & Mab).
      assert (Hl : rx = inr (p, l)).
      { assert (Y : represents (primed p v) (inr (p, l))) by (exists v; split; [exact S|reflexivity]).
        exact (proj1 (represents_inj _ _ _ _ Rq Y) Ev). }
      subst rx. cbn [amplifications] in W.
      assert (B : b = Z.max (Z.abs num) den).
      { destruct p as [[]|]; injection Mab as -> ->; lia. }
      assert (U : ev (fun f => k_consume (debug k) f c (absorbed p (HC 1 0 0 1))) (fun r => fst r = None) No).
      { apply (k_consume_exact (debug k) p l c _ a b); auto.
        - eapply clog_seq_compat; eauto.
        - destruct p as [[]|]; cbn [absorbed unprime]; unfold tidy, hdet; hc; lia.
        - replace (weight (unprime p (absorbed p (HC 1 0 0 1))) a b) with b
            by (destruct p as [[]|]; cbn [absorbed unprime]; unfold weight; hc; ring).
          rewrite B. exact W. }
      destruct U as (r & St & Wr). exists (let! (co, m) := r in Ok (option_map (NOther None) co, m)).
      split.
      + destruct St as (F & St). exists F. intros f L. rewrite consume_cases. now rewrite (St f L).
      + destruct r as [[co m]| |]; cbn [wp bind fst] in *; auto. now subst co. }
  destruct (ev_returns _ _ V) as ([o m] & Rm & Z). cbn [fst] in Z. subst o. exists m. split.
  - apply (both_returns (fun k f => number_consume k f x)); [|exact Rm]. intro. apply builds_consume.
  - assert (C : nconsumed (debug k) No q (None, m)).
    { destruct Rm as (F & Rm). apply (ev_returned (fun f => number_consume (debug k) f x) _ No F); auto.
      - intros. apply upto_consume; auto.
      - now apply consume_ev. }
    destruct C as (_ & C). now apply ArithProofs.hv_hom.
Qed.

(** Ratios. *)
Theorem consume_ratio_exact k m num den : 1 <= m -> den <> 0 -> Z.abs num <= 2 ^ m -> Z.abs den <= 2 ^ m ->
  2 ^ (m * (m + 1) / 2) < 2 * (imax k / 4) ->
  exists x c, number_ratio k num den = Ok x /\ returns (fun f => number_consume k f x) (None, c) /\
    ~ (hom_num (h_dx c) (h_d c) (1#2) == 0)%Q /\
    (hom (h_nx c) (h_n c) (h_dx c) (h_d c) (1#2) == zq num / zq den)%Q.
Proof.
  intros Hm D A B W.
  assert (Hmm : m <= m * (m + 1) / 2) by (apply Z.div_le_lower_bound; nia).
  assert (PM : 2 ^ m < imax k).
  { assert (2 ^ m <= 2 ^ (m * (m + 1) / 2)) by (apply Z.pow_le_mono_r; lia).
    pose proof (Z.mul_div_le (imax k) 4 ltac:(lia)). pose proof (imax_ge k). lia. }
  destruct (small_ratio_max k m num den Hm D A B PM) as (x & rx & num' & den' & X & Hx & Rx & D' & Q & Sz & Am).
  destruct (consume_exact k x _ rx num' den' Hx Rx D' Q) as (c & C).
  { eapply Z.le_lt_trans; [|exact W]. replace (m * (m + 1) / 2) with (m + m * (m - 1) / 2).
    - rewrite Z.pow_add_r by (try apply Z.div_pos; nia). apply Z.mul_le_mono_nonneg; [lia|exact Sz|apply Z.pow_nonneg; lia|].
      apply Z.pow_le_mono_r; [lia|]. apply Z.div_le_lower_bound; lia.
    - replace (m * (m + 1)) with (m * (m - 1) + m * 2) by ring. rewrite Z.div_add by lia. lia. }
  exists x, c. split; [exact X|]. exact C.
Qed.
