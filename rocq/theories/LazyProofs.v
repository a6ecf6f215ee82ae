(** * LazyProofs: what is read of the operands, and what it is enough for. *)

From Coq Require Import ZArith QArith Qfield List Lia Lqa Psatz Bool.
From Verif Require Import Machine Protocol Support Types Ratio Homographic Combine Lib Spec SpecEnd
  SeqProofs Upto Good RatioProofs SupportProofs HomProofs HomValue CombProofs CombValue LibProofs ArithProofs BuildProofs EndProofs
  LongProofs SpecNest NestProofs SpecLazy.
Import ListNotations.
Open Scope Z_scope.

Lemma wp_ok {A} (P : A -> Prop) E (m : res A) a : wp P E m -> m = Ok a -> P a.
Proof. intros H ->. exact H. Qed.

(** ** When nothing is given *)

Lemma hdet_ends m : hdet m = (h_n m + h_nx m) * h_d m - h_n m * (h_d m + h_dx m).
Proof. unfold hdet. ring. Qed.

(** Different ends have different normal forms. *)
Lemma nz_cross n0 d0 n1 d1 a0 b0 a1 b1 : nz n0 d0 a0 b0 -> nz n1 d1 a1 b1 ->
  ~ (n0 = 0 /\ d0 = 0) -> ~ (n1 = 0 /\ d1 = 0) -> ~ (d0 = 0 /\ d1 = 0) ->
  a0 * b1 = a1 * b0 -> n1 * d0 = n0 * d1.
Proof.
  unfold nz. intros N0 N1 Z0 Z1 D E.
  destruct N0 as [(?&?&->&->)|[(?&?&->&->)|[(?&?&->&->)|(?&->&->)]]];
  destruct N1 as [(?&?&->&->)|[(?&?&->&->)|[(?&?&->&->)|(?&->&->)]]]; subst; try nia; try lia.
Qed.

(** The ends, one on each side of [c]. *)
Definition across (c : Z) (m : hcoef) : Prop :=
  (h_n m - c * h_d m) * (h_n m + h_nx m - c * (h_d m + h_dx m)) < 0.
Definition straddles (m : hcoef) : Prop :=
  (2 * h_n m - h_d m) * (2 * (h_n m + h_nx m) - (h_d m + h_dx m)) < 0.

Lemma nz_sub n d a b c : nz n d a b -> 0 <= d -> ~ (n = 0 /\ d = 0) -> (c = 0 \/ c = 1 \/ c = -1) ->
  (a - c * b < 0 -> n - c * d < 0) /\ (0 < a - c * b -> 0 < n - c * d).
Proof. unfold nz. intros N D Z0 [-> | [-> | ->]]; lia. Qed.

Lemma primer_none k m : ovf k = true -> hdet m <> 0 -> 0 <= h_d m -> 0 <= h_d m + h_dx m ->
  h_primer_egest k m = Ok None -> exists c, (c = 0 \/ c = 1 \/ c = -1) /\ across c m.
Proof.
  intros O D D0 D1 H. rewrite hdet_ends in D. unfold h_primer_egest in H.
  pose proof (image_wp k 1 m O) as IW. destruct (h_image_extremes k m) as [r| |]; try discriminate. cbn [wp] in IW.
  destruct r as [[[amin bmin] amax] bmax]. cbn [bind] in H.
  destruct IW as [[Z0 X]|[NZ X]].
  { exfalso. apply D. destruct Z0 as [[-> ->]|[-> ->]]; ring. }
  destruct X as (a0 & b0 & a1 & b1 & N0 & N1 & X).
  assert (NZ0 : ~ (h_n m = 0 /\ h_d m = 0)) by (intro; apply NZ; now left).
  assert (NZ1 : ~ (h_n m + h_nx m = 0 /\ h_d m + h_dx m = 0)) by (intro; apply NZ; now right).
  assert (ND : ~ (h_d m = 0 /\ h_d m + h_dx m = 0)).
  { intros [E1 E2]. apply D. rewrite E2, E1. ring. }
  assert (X' : (amin, bmin, amax, bmax) = (a1, b1, a0, b0) \/ (amin, bmin, amax, bmax) = (a0, b0, a1, b1)).
  { destruct X as [[_ X]|[[_ X]|[X _]]]; [now left|now right|]. exfalso. apply D.
    rewrite (nz_cross _ _ _ _ _ _ _ _ N0 N1 NZ0 NZ1 ND X). ring. }
  assert (NB : ~ (amin = amax /\ bmin = bmax)).
  { intros [E1 E2]. apply D.
    assert (Y : a0 * b1 = a1 * b0) by (destruct X' as [Y|Y]; inversion Y; subst; subst; ring).
    rewrite (nz_cross _ _ _ _ _ _ _ _ N0 N1 NZ0 NZ1 ND Y). ring. }
  assert (NM : nrm amin bmin /\ nrm amax bmax).
  { apply nz_nrm in N0, N1. destruct X' as [Y|Y]; inversion Y; subst; auto. }
  destruct NM as [[Pmin Qmin] [Pmax Qmax]].
  assert (F : (amin =? 0) && (bmin =? 0) = false).
  { destruct (Z.eqb_spec amin 0), (Z.eqb_spec bmin 0); simpl; auto. clear - Qmin e e0. lia. }
  rewrite F in H; clear F.
  unfold andm, are_same in H. cbn [bind] in H.
  assert (F : (amin =? amax) && (bmin =? bmax) = false).
  { destruct (Z.eqb_spec amin amax), (Z.eqb_spec bmin bmax); simpl; auto. now destruct NB. }
  rewrite F in H; clear F. cbn [bind] in H.
  unfold notm in H.
  pose proof (greater_than_minus_one_wp k amax bmax O Pmax) as W.
  destruct (greater_than_minus_one k amax bmax) as [g1| |]; try discriminate. cbn [wp bind] in *.
  destruct (negb g1) eqn:T1.
  { destruct (h_ground k m); discriminate. }
  apply negb_false_iff in T1. rewrite T1 in W. clear T1 g1.
  assert (A1 : 0 < amax + bmax).
  { destruct (Z.eqb_spec bmax 0); symmetry in W; apply Z.ltb_lt in W; lia. }
  clear W. destruct (negb (less_than_one amin bmin)) eqn:T2; [discriminate|].
  assert (A2 : amin - bmin < 0).
  { apply negb_false_iff in T2. unfold less_than_one in T2. clear - T2 Pmin.
    destruct (Z.ltb_spec 0 bmin); [apply Z.ltb_lt in T2; lia|].
    destruct (Z.ltb_spec bmin 0); [lia|]. apply Z.ltb_lt in T2. lia. }
  clear T2. pose proof (less_than_minus_one_wp k amin bmin O Pmin) as W.
  destruct (less_than_minus_one k amin bmin) as [g1| |]; try discriminate. cbn [wp bind] in *.
  destruct (if negb g1 then Ok (negb (greater_than_zero amax bmax)) else Ok false) as [[]| |] eqn:T3; try discriminate.
  { cbn [bind] in H. destruct (h_reflect k m); discriminate. }
  assert (A3 : amin + bmin < 0 \/ 0 < amax).
  { destruct g1.
    - left. destruct (Z.eqb_spec bmin 0); symmetry in W; apply Z.ltb_lt in W; lia.
    - right. cbn in T3. injection T3 as T3. apply negb_false_iff in T3. unfold greater_than_zero in T3.
      rewrite (proj2 (Z.leb_le 0 bmax)) in T3 by lia. apply Z.ltb_lt in T3. lia. }
  clear T3 W. cbn [bind] in H.
  destruct (negb (less_than_zero amin bmin) && negb (greater_than_one amax bmax)) eqn:T4; [discriminate|].
  assert (A4 : amin < 0 \/ 0 < amax - bmax).
  { apply andb_false_iff in T4 as [T4|T4]; apply negb_false_iff in T4.
    - left. unfold less_than_zero in T4. rewrite (proj2 (Z.leb_le 0 bmin)) in T4 by lia. apply Z.ltb_lt in T4. lia.
    - right. unfold greater_than_one in T4. clear - T4 Pmax.
      destruct (Z.ltb_spec 0 bmax); [apply Z.ltb_lt in T4; lia|].
      destruct (Z.ltb_spec bmax 0); [lia|]. apply Z.ltb_lt in T4. lia. }
  clear T4 H.
  assert (C : exists c, (c = 0 \/ c = 1 \/ c = -1) /\ amin - c * bmin < 0 /\ 0 < amax - c * bmax).
  { destruct (Z_lt_le_dec (amin + bmin) 0) as [L|L]; [exists (-1); lia|].
    destruct (Z_lt_le_dec amin 0) as [L'|L']; [exists 0; lia|exists 1; lia]. }
  destruct C as (c & Hc & C1 & C2). exists c. split; [exact Hc|]. unfold across.
  destruct (nz_sub _ _ _ _ c N0 D0 NZ0 Hc) as [S1 S2]. destruct (nz_sub _ _ _ _ c N1 D1 NZ1 Hc) as [S3 S4].
  destruct X' as [Y|Y]; inversion Y; subst.
  - specialize (S3 C1). specialize (S2 C2). clear - S3 S2. nia.
  - specialize (S1 C1). specialize (S4 C2). clear - S1 S4. nia.
Qed.

Lemma J_half n d a b : nz n d a b -> (0 < d /\ 0 <= n) -> (2 * a < b -> 2 * n - d < 0) /\ (b < 2 * a -> 0 < 2 * n - d).
Proof. unfold nz. lia. Qed.
Lemma J_half' n d a b : nz n d a b -> (d < 0 /\ n <= 0) -> (2 * a < b -> 0 < 2 * n - d) /\ (b < 2 * a -> 2 * n - d < 0).
Proof. unfold nz. lia. Qed.

Lemma reduction_none k m : ovf k = true -> J m -> h_reduction_egest k m = Ok None -> straddles m.
Proof.
  intros O HJ H. unfold h_reduction_egest in H.
  pose proof (image_wp k 1 m O) as IW. destruct (h_image_extremes k m) as [r| |]; try discriminate. cbn [wp] in IW.
  destruct r as [[[amin bmin] amax] bmax]. cbn [bind] in H.
  destruct IW as [[X _]|[_ X]].
  { exfalso. clear - X HJ. unfold J in HJ. lia. }
  destruct X as (a0 & b0 & a1 & b1 & N0 & N1 & X).
  destruct (J_ends_nz m a0 b0 a1 b1 HJ N0 N1) as (P0 & P1 & R0 & R1).
  assert (Pm : 0 < bmin /\ 0 < bmax).
  { destruct X as [[_ X]|[[_ X]|[_ X]]]; inversion X; subst; lia. }
  destruct Pm as [Pmin Pmax].
  destruct (less_than_zero amin bmin); [discriminate|]. destruct (greater_than_one amax bmax); [discriminate|].
  destruct (andm _ _) as [[]| |]; try discriminate. cbn [bind] in H. unfold notm in H.
  pose proof (greater_than_one_half_wp k amax bmax Pmax) as W.
  destruct (greater_than_one_half k amax bmax) as [g| |]; try discriminate. cbn [wp bind] in *.
  destruct g; cbn [negb] in H; [|destruct (h_amplify k m); discriminate].
  symmetry in W. apply Z.ltb_lt in W.
  pose proof (less_than_one_half_wp k amin bmin Pmin) as V.
  destruct (less_than_one_half k amin bmin) as [g| |]; try discriminate. cbn [wp bind] in *.
  destruct g; cbn [negb] in H; [|destruct (h_uncover k m); discriminate].
  symmetry in V. apply Z.ltb_lt in V. clear H.
  assert (E : (2 * a0 < b0 /\ b1 < 2 * a1) \/ (2 * a1 < b1 /\ b0 < 2 * a0)).
  { destruct X as [[_ X]|[[_ X]|[_ X]]]; inversion X; subst; lia. }
  clear X V W. unfold straddles. destruct HJ as [HJ|HJ].
  - destruct (J_half _ _ _ _ N0 ltac:(lia)) as [S1 S2]. destruct (J_half _ _ _ _ N1 ltac:(lia)) as [S3 S4].
    destruct E as [[E1 E2]|[E1 E2]]; [specialize (S1 E1); specialize (S4 E2)|specialize (S3 E1); specialize (S2 E2)];
      match goal with H : ?a < 0, H' : 0 < ?b |- _ => clear - H H' end; nia.
  - destruct (J_half' _ _ _ _ N0 ltac:(lia)) as [S1 S2]. destruct (J_half' _ _ _ _ N1 ltac:(lia)) as [S3 S4].
    destruct E as [[E1 E2]|[E1 E2]]; [specialize (S1 E1); specialize (S4 E2)|specialize (S3 E1); specialize (S2 E2)];
      match goal with H : ?a < 0, H' : 0 < ?b |- _ => clear - H H' end; nia.
Qed.

(** ** Going back from the rest of a sequence to the whole of it *)
Open Scope Q_scope.

Definition unread1 (s : reduction) (u : Q) : Q :=
  match s with Amplify => u / 2 | Uncover => / (1 + u) end.
Definition unread (l : list reduction) (u : Q) : Q := fold_right unread1 u l.

Lemma unread1_range s u : 0 < u -> u < 1 -> 0 < unread1 s u /\ unread1 s u < 1.
Proof.
  intros P Q0. destruct s; cbn [unread1].
  - unfold Qdiv. change (/ 2) with (1#2). lra.
  - split; [apply inv_pos; lra|]. change 1 with (/ 1) at 2. apply inv_lt; lra.
Qed.
Lemma unread_range l : forall u, 0 < u -> u < 1 -> 0 < unread l u /\ unread l u < 1.
Proof.
  induction l as [|s l IH]; intros u P Q0; cbn [unread fold_right]; auto.
  destruct (IH u P Q0). now apply unread1_range.
Qed.
Lemma unread_snoc l s u : unread (l ++ [s]) u = unread l (unread1 s u).
Proof. unfold unread. now rewrite fold_right_app. Qed.

Lemma unread1_seq s u l : clog_seq u l -> clog_seq (unread1 s u) (s :: l).
Proof.
  intro H. pose proof (clog_seq_range _ _ H) as [P Q0]. destruct s; cbn [unread1].
  - unfold Qdiv. change (/ 2) with (1#2). apply seq_amplify; try lra.
    apply (clog_seq_compat _ _ H). ring.
  - apply seq_uncover.
    + change (1#2) with (/ 2). apply inv_lt; lra.
    + change 1 with (/ 1) at 2. apply inv_lt; lra.
    + apply (clog_seq_compat _ _ H). rewrite Qinv_involutive. ring.
Qed.
Lemma unread_seq r : forall u l, clog_seq u l -> clog_seq (unread r u) (r ++ l).
Proof. induction r as [|s r IH]; intros u l H; cbn [unread fold_right app]; auto. apply unread1_seq. now apply IH. Qed.

Lemma begins_unread p l u : 0 < u -> u < 1 -> begins (primed p (unread l u)) p l.
Proof.
  intros P Q0. destruct (clog_seq_ex u P Q0) as [r R]. exists r, (unread l u).
  split; [now apply unread_seq|reflexivity].
Qed.

Lemma seq_unread l : forall v r, clog_seq v (l ++ r) -> exists u, clog_seq u r /\ v == unread l u.
Proof.
  induction l as [|s l IH]; intros v r H; cbn [app] in H.
  - exists v. split; [exact H|reflexivity].
  - inversion H; subst.
    + destruct (IH _ _ H5) as (u & U & E). exists u. split; [exact U|]. cbn [unread fold_right unread1].
      fold (unread l u). rewrite <- E. field.
    + destruct (IH _ _ H5) as (u & U & E). exists u. split; [exact U|]. cbn [unread fold_right unread1].
      fold (unread l u). rewrite <- E. setoid_replace (1 + (/ v - 1)) with (/ v) by ring.
      now rewrite Qinv_involutive.
Qed.

Lemma begins_inv q p l : begins q p l -> exists u, 0 < u /\ u < 1 /\ q == primed p (unread l u).
Proof.
  intros (r & v & S0 & E). destruct (seq_unread _ _ _ S0) as (u & U & F).
  apply clog_seq_range in U as [U0 U1]. exists u. split; [exact U0|]. split; [exact U1|].
  rewrite E. now apply primed_compat.
Qed.

Lemma begins_same q q' p l : begins q p l -> q == q' -> begins q' p l.
Proof. intros (r & v & S0 & E) F. exists r, v. split; [exact S0|]. now rewrite <- F. Qed.

(** The value [primed p (unread l z)] shows which symbol follows. *)
Lemma begins_next p l z s : 0 < z -> z < 1 -> spec_symbol z = Some s ->
  begins (primed p (unread l z)) p (l ++ [s]).
Proof.
  intros P Q0 E. destruct (clog_seq_ex z P Q0) as [r R]. pose proof (clog_seq_symbol _ _ R) as X.
  destruct r as [|s' r]; cbn in X; rewrite E in X; [discriminate|]. injection X as ->.
  exists r, (unread l z). split; [|reflexivity]. rewrite <- app_assoc. now apply unread_seq.
Qed.

(** ** Going back through the coefficients *)

Lemma hv_ingested_back s m m' u z : 0 < u -> ingested s m m' -> hv m' u z -> hv m (unread1 s u) z.
Proof.
  intros P I H. destruct s; cbn [ingested unread1] in *.
  - destruct I as [(A & B & C & D)|(A & B & C & D)].
    + apply (hv_scale m' m u (u / 2) z (1#2) H); [lra| |]; unfold hom_num;
        rewrite ?A, ?B, ?C, ?D, ?zq_mul, ?zq_2; field.
    + apply zeq_Q in A, C. rewrite zq_mul, zq_2 in A, C.
      apply (hv_scale m' m u (u / 2) z 1 H); [lra| |]; unfold hom_num; rewrite ?B, ?D, <- ?A, <- ?C; field.
  - unfold ingested_uncover in I. subst m'. assert (NV : ~ 1 + u == 0) by lra.
    apply (hv_scale _ m u (/ (1 + u)) z (/ (1 + u)) H).
    + apply Qlt_neq, inv_pos. lra.
    + unfold hom_num; cbn. rewrite zq_add. field. auto.
    + unfold hom_num; cbn. rewrite zq_add. field. auto.
Qed.

Lemma hv_given_back s m m' u z : 0 < z -> given s m m' -> hv m' u z -> hv m u (unread1 s z).
Proof.
  intros P G [H1 H2]. destruct s; cbn [given unread1] in *.
  - destruct G as [(A & B & C & D)|(A & B & C & D)]; unfold hv, hom_num in *.
    + rewrite A, B, C, D, !zq_mul, !zq_2 in *. split; auto.
      transitivity ((1#2) * (2 * zq (h_nx m) * u + 2 * zq (h_n m))); [ring|]. rewrite H1. field.
    + apply zeq_Q in C, D. rewrite zq_mul, zq_2 in C, D. rewrite A, B in *. rewrite <- C, <- D. split.
      * rewrite H1. field.
      * intro E. apply H2. transitivity ((1#2) * (2 * zq (h_dx m') * u + 2 * zq (h_d m'))); [ring|]. rewrite E. reflexivity.
  - subst m'. cbn in *. unfold hv, hom_num in *. cbn in *. rewrite !zq_sub in H1.
    set (N := zq (h_nx m) * u + zq (h_n m)) in *.
    assert (DN : zq (h_dx m) * u + zq (h_d m) == N * (1 + z)).
    { transitivity ((zq (h_dx m) - zq (h_nx m)) * u + (zq (h_d m) - zq (h_n m)) + N); [unfold N; ring|].
      rewrite H1. ring. }
    assert (NV : ~ 1 + z == 0) by lra. rewrite DN. split; [field; auto|]. now apply mul_neq.
Qed.

Lemma hv_pe_back p m u z : 0 < z -> hv (pe_rel m p) u z -> hv m u (primed p z).
Proof.
  intros P [H1 H2]. assert (NZ : ~ z == 0) by now apply Qlt_neq.
  destruct p as [[]|]; cbn [pe_rel primed h_nx h_n h_dx h_d] in *; unfold hv.
  - rewrite H1. split; [field; auto|]. now apply mul_neq.
  - split; auto. unfold hom_num in *. rewrite !zq_opp in H1. lra.
  - unfold hom_num in *. rewrite !zq_opp in H1.
    assert (Y : zq (h_dx m) * u + zq (h_d m) == - z * (zq (h_nx m) * u + zq (h_n m))) by lra.
    rewrite Y. split; [field; auto|]. apply mul_neq; auto. lra.
  - split; auto.
Qed.

(** The coefficients [m], after the operand's primer and symbols, agree with the
    original ones up to a positive factor. *)
Definition follows (m0 : hcoef) (px : option primer) (lx : list reduction) (m : hcoef) : Prop :=
  forall u, 0 < u -> u < 1 -> exists t, 0 < t /\
    hom_num (h_nx m) (h_n m) u == t * hom_num (h_nx m0) (h_n m0) (primed px (unread lx u)) /\
    hom_num (h_dx m) (h_d m) u == t * hom_num (h_dx m0) (h_d m0) (primed px (unread lx u)).

Lemma follows_absorbed m0 px : follows m0 px [] (absorbed px m0).
Proof.
  intros u P Q0. assert (NV : ~ u == 0) by now apply Qlt_neq. cbn [unread fold_right].
  destruct px as [[]|]; cbn [absorbed primed].
  - exists u. split; [exact P|]. unfold hom_num; cbn. split; field; auto.
  - exists 1. split; [lra|]. unfold hom_num; cbn. rewrite !zq_opp. split; ring.
  - exists u. split; [exact P|]. unfold hom_num; cbn. rewrite !zq_opp. split; field; auto.
  - exists 1. split; [lra|]. split; ring.
Qed.

Lemma follows_ingested m0 px lx m s m' : follows m0 px lx m -> ingested s m m' -> follows m0 px (lx ++ [s]) m'.
Proof.
  intros F I u P Q0. rewrite unread_snoc. destruct (unread1_range s u P Q0) as [P1 Q1].
  destruct (F _ P1 Q1) as (t & T & A & B). set (q := primed px (unread lx (unread1 s u))) in *.
  assert (X : exists t', 0 < t' /\
    hom_num (h_nx m') (h_n m') u == t' * hom_num (h_nx m) (h_n m) (unread1 s u) /\
    hom_num (h_dx m') (h_d m') u == t' * hom_num (h_dx m) (h_d m) (unread1 s u)).
  { destruct s; cbn [ingested unread1] in *.
    - destruct I as [(I1 & I2 & I3 & I4)|(I1 & I2 & I3 & I4)].
      + exists 2. split; [lra|]. unfold hom_num. rewrite I1, I2, I3, I4, !zq_mul, !zq_2. split; field.
      + exists 1. apply zeq_Q in I1, I3. rewrite zq_mul, zq_2 in I1, I3. split; [lra|].
        unfold hom_num. rewrite I2, I4, <- I1, <- I3. split; field.
    - unfold ingested_uncover in I. subst m'. assert (NV : ~ 1 + u == 0) by lra. exists (1 + u). split; [lra|].
      unfold hom_num; cbn. rewrite !zq_add. split; field; auto. }
  destruct X as (t' & T' & A' & B'). exists (t' * t). split; [now apply Qmult_lt_0_compat|].
  rewrite A', B', A, B. split; ring.
Qed.

Lemma follows_ingests m0 px l m m' : ingests l m m' -> forall lx, follows m0 px lx m -> follows m0 px (lx ++ l) m'.
Proof.
  induction 1 as [m|s l m m' m'' I _ IH]; intros lx F; [now rewrite app_nil_r|].
  change (s :: l) with ([s] ++ l). rewrite app_assoc. apply IH. eapply follows_ingested; eauto.
Qed.

Lemma follows_hv m0 px lx m u z : follows m0 px lx m -> 0 < u -> u < 1 -> hv m u z -> hv m0 (primed px (unread lx u)) z.
Proof.
  intros F P Q0 H. destruct (F u P Q0) as (t & T & A & B).
  apply (hv_scale m m0 u _ z (/ t) H).
  - now apply Qlt_neq, inv_pos.
  - rewrite A. field. now apply Qlt_neq.
  - rewrite B. field. now apply Qlt_neq.
Qed.

Lemma hv_hom m q z : hv m q z -> ~ hom_num (h_dx m) (h_d m) q == 0 /\ hom (h_nx m) (h_n m) (h_dx m) (h_d m) q == z.
Proof. intros [A B]. split; [exact B|]. unfold hom. rewrite A. field. exact B. Qed.

(** ** Points on both sides *)

Lemma opposite (a b : Z) : (a * b < 0)%Z -> ((0 < a /\ b < 0) \/ (a < 0 /\ 0 < b))%Z.
Proof.
  intro H. destruct (Z.lt_trichotomy a 0) as [A|[A|A]]; [right|subst; lia|left]; split; auto; clear - A H; nia.
Qed.

(** A linear function with opposite signs at the ends. *)
Lemma sides (a b : Z) : (a * b < 0)%Z ->
  exists u0 u1 u2, 0 < u0 /\ u0 < 1 /\ 0 < u1 /\ u1 < 1 /\ 0 < u2 /\ u2 < 1 /\ ~ u0 == u1 /\
    (1 - u0) * zq a + u0 * zq b == 0 /\
    (1 - u1) * zq a + u1 * zq b == zq a / 2 /\ (1 - u2) * zq a + u2 * zq b == zq b / 2.
Proof.
  intro H.
  assert (X : 0 < zq a / (zq a - zq b) /\ zq a / (zq a - zq b) < 1 /\ ~ zq a - zq b == 0).
  { assert (C : ((0 < a /\ b < 0) \/ (a < 0 /\ 0 < b))%Z) by now apply opposite.
    destruct C as [[A B]|[A B]]; apply (proj1 (zq_lt _ _)) in A, B; change (zq 0) with 0 in A, B.
    - assert (D : 0 < zq a - zq b) by lra. split; [|split; [|lra]].
      + apply lt_div_iff; [exact D|lra].
      + apply div_lt_iff; [exact D|lra].
    - assert (D : 0 < zq b - zq a) by lra.
      assert (E : zq a / (zq a - zq b) == - zq a / (zq b - zq a)) by (field; lra).
      rewrite E. split; [|split; [|lra]].
      + apply lt_div_iff; [exact D|lra].
      + apply div_lt_iff; [exact D|lra]. }
  destruct X as (P & Q0 & N). set (u := zq a / (zq a - zq b)) in *.
  exists u, (u * (1#2)), ((1 + u) * (1#2)). repeat (split; [lra|]).
  unfold u. split; [field; auto|]. split; field; auto.
Qed.

Lemma straddle_points m : J m -> hdet m <> 0%Z -> straddles m ->
  exists u1 z1 u2 z2, 0 < u1 /\ u1 < 1 /\ 0 < u2 /\ u2 < 1 /\ hv m u1 z1 /\ hv m u2 z2 /\
    0 < z1 /\ z1 < 1#2 /\ 1#2 < z2 /\ z2 < 1.
Proof.
  intros HJ D S0. rewrite hdet_ends in D.
  assert (DEN : forall u, 0 < u -> u < 1 -> exists z, hv m u z /\ 0 < z /\ z < 1).
  { intros u P Q0.
    assert (D' : ~ hom_num (h_dx m) (h_d m) u == 0).
    { rewrite hom_interp. destruct HJ as [K|K].
      - assert (X : 0 < (1 - u) * zq (h_d m) + u * zq (h_d m + h_dx m)) by (apply interp_pos; auto; lia). lra.
      - assert (X : 0 < (1 - u) * zq (- h_d m) + u * zq (- (h_d m + h_dx m))) by (apply interp_pos; auto; lia).
        rewrite !zq_opp in X. lra. }
    exists (hom_num (h_nx m) (h_n m) u / hom_num (h_dx m) (h_d m) u).
    assert (H : hv m u (hom_num (h_nx m) (h_n m) u / hom_num (h_dx m) (h_d m) u)) by (split; auto; field; auto).
    split; [exact H|]. split.
    - eapply J_gt0; eauto. intros [E1 E2]. apply D. rewrite E2, E1. ring.
    - eapply J_lt1; eauto. intros [E1 E2]. apply D. rewrite E2, E1. ring. }
  assert (HALF : forall u z, 0 < u -> u < 1 -> hv m u z ->
    exists t, ~ t == 0 /\ ((0 < t <-> (0 < h_d m)%Z)) /\
      (2 * z - 1) * t == (1 - u) * zq (2 * h_n m - h_d m) + u * zq (2 * (h_n m + h_nx m) - (h_d m + h_dx m))).
  { intros u z P Q0 [H1 H2]. exists (hom_num (h_dx m) (h_d m) u). split; [exact H2|]. split.
    - rewrite hom_interp. destruct HJ as [K|K].
      + split; [lia|]. intros _. apply interp_pos; auto; lia.
      + assert (X : 0 < (1 - u) * zq (- h_d m) + u * zq (- (h_d m + h_dx m))) by (apply interp_pos; auto; lia).
        rewrite !zq_opp in X. split; [lra|lia].
    - transitivity (2 * (z * hom_num (h_dx m) (h_d m) u) - hom_num (h_dx m) (h_d m) u); [ring|].
      rewrite <- H1, !hom_interp, !zq_sub, !zq_mul, !zq_add, zq_2. ring. }
  unfold straddles in S0. set (a := (2 * h_n m - h_d m)%Z) in *.
  set (b := (2 * (h_n m + h_nx m) - (h_d m + h_dx m))%Z) in *.
  destruct (sides a b S0) as (_ & u1 & u2 & _ & _ & P1 & Q1 & P2 & Q2 & _ & _ & S1 & S2).
  destruct (DEN u1 P1 Q1) as (z1 & H1 & A1 & B1). destruct (DEN u2 P2 Q2) as (z2 & H2 & A2 & B2).
  destruct (HALF u1 z1 P1 Q1 H1) as (t1 & T1 & U1 & E1). destruct (HALF u2 z2 P2 Q2 H2) as (t2 & T2 & U2 & E2).
  rewrite S1 in E1. rewrite S2 in E2.
  assert (C : ((0 < a /\ b < 0) \/ (a < 0 /\ 0 < b))%Z) by now apply opposite.
  assert (SG : forall z t w, ~ t == 0 -> (2 * z - 1) * t == w / 2 ->
     (0 < t /\ 0 < w) \/ (t < 0 /\ w < 0) -> 1#2 < z).
  { intros z t w T E [[X Y]|[X Y]].
    - assert (W : 0 < (2 * z - 1) * t) by (rewrite E; unfold Qdiv; change (/ 2) with (1#2); lra).
      apply mul_pos_cancel in W; [lra|exact X].
    - assert (W : 0 < (2 * z - 1) * (- t)).
      { setoid_replace ((2 * z - 1) * - t) with (- ((2 * z - 1) * t)) by ring. rewrite E.
        unfold Qdiv; change (/ 2) with (1#2); lra. }
      apply mul_pos_cancel in W; [lra|lra]. }
  assert (SL : forall z t w, ~ t == 0 -> (2 * z - 1) * t == w / 2 ->
     (0 < t /\ w < 0) \/ (t < 0 /\ 0 < w) -> z < 1#2).
  { intros z t w T E X.
    assert (W : 1#2 < 1 - z).
    { apply (SG (1 - z) t (- w) T).
      - setoid_replace ((2 * (1 - z) - 1) * t) with (- ((2 * z - 1) * t)) by ring. rewrite E. field.
      - destruct X as [[X Y]|[X Y]]; [left|right]; split; auto; lra. }
    lra. }
  assert (TS : (0 < t1 /\ 0 < t2) \/ (t1 < 0 /\ t2 < 0)).
  { destruct (Z_lt_le_dec 0 (h_d m)) as [L|L].
    - left. split; [now apply U1|now apply U2].
    - right. split; [destruct (Qlt_le_dec t1 0) as [X|X]; auto; exfalso; assert (Y : 0 < t1) by (destruct (Qle_lt_or_eq _ _ X) as [Y|Y]; [exact Y|exfalso; apply T1; now rewrite <- Y]); apply U1 in Y; lia
      |destruct (Qlt_le_dec t2 0) as [X|X]; auto; exfalso; assert (Y : 0 < t2) by (destruct (Qle_lt_or_eq _ _ X) as [Y|Y]; [exact Y|exfalso; apply T2; now rewrite <- Y]); apply U2 in Y; lia]. }
  assert (C' : (0 < zq a /\ zq b < 0) \/ (zq a < 0 /\ 0 < zq b)).
  { destruct C as [[X Y]|[X Y]]; apply (proj1 (zq_lt _ _)) in X, Y; change (zq 0) with 0 in X, Y; [left|right]; auto. }
  destruct C' as [[X Y]|[X Y]]; destruct TS as [[X1 X2]|[X1 X2]].
  - exists u2, z2, u1, z1. repeat (split; [assumption|]). repeat split; auto; [apply (SL z2 t2 (zq b)); auto|apply (SG z1 t1 (zq a)); auto].
  - exists u1, z1, u2, z2. repeat (split; [assumption|]). repeat split; auto; [apply (SL z1 t1 (zq a)); auto|apply (SG z2 t2 (zq b)); auto].
  - exists u1, z1, u2, z2. repeat (split; [assumption|]). repeat split; auto; [apply (SL z1 t1 (zq a)); auto|apply (SG z2 t2 (zq b)); auto].
  - exists u2, z2, u1, z1. repeat (split; [assumption|]). repeat split; auto; [apply (SL z2 t2 (zq b)); auto|apply (SG z1 t1 (zq a)); auto].
Qed.

(** ** Before the primer *)

(** What holds when no primer is given and the operand is read. *)
Definition stuck (m : hcoef) : Prop :=
  across 0 m \/ (amen (h_n m) (h_n m + h_nx m) /\ (h_d m * (h_d m + h_dx m) < 0)%Z) \/
  (amen (h_d m) (h_d m + h_dx m) /\
   ((0 <= h_d m)%Z -> (0 <= h_d m + h_dx m)%Z -> exists c, (c = 0 \/ c = 1 \/ c = -1)%Z /\ across c m)).

Lemma amen_not a b : ~ amen a b -> (a * b < 0)%Z.
Proof.
  unfold amen. intro H. destruct (Z_lt_le_dec a 0) as [A|A]; destruct (Z_lt_le_dec b 0) as [B|B]; try (exfalso; lia).
  - assert (b <> 0)%Z by (intros ->; lia). clear H. nia.
  - assert (a <> 0)%Z by (intros ->; lia). clear H. nia.
Qed.
Lemma amen_dec a b : amen a b \/ ~ amen a b.
Proof. unfold amen. lia. Qed.

Lemma stuck_intro k m out : ovf k = true -> hdet m <> 0%Z -> h_are_singularities_outside_domain k m = Ok out ->
  (if out then h_primer_egest k m else Ok None) = Ok None -> stuck m.
Proof.
  intros O D S0 H. pose proof (wp_ok _ _ _ _ (sing_wp k 1 m) S0) as A. cbv beta in A. destruct out.
  - destruct A as [A _]. specialize (A eq_refl). destruct A as [AN AD]. right. right. split; [exact AD|].
    intros D0 D1. eapply primer_none; eauto.
  - assert (NA : ~ (amen (h_n m) (h_n m + h_nx m) /\ amen (h_d m) (h_d m + h_dx m)))
      by (intro X; apply A in X; discriminate).
    destruct (amen_dec (h_n m) (h_n m + h_nx m)) as [AN|AN].
    + right. left. split; [exact AN|]. apply amen_not. tauto.
    + left. unfold across. rewrite !Z.mul_0_l, !Z.sub_0_r. now apply amen_not.
Qed.

Lemma opens_same q q' h : opens q h -> q == q' -> opens q' h.
Proof.
  destruct h as [s|p]; cbn [opens represents].
  - intros H E. now rewrite <- E.
  - intros H E. eapply begins_same; eauto.
Qed.

Lemma opens_ex q : exists h, opens q h.
Proof.
  destruct (primed_ex q) as [[s E]|(p & v & P & Q0 & E)].
  - exists (inl s). exact E.
  - exists (inr p). destruct (clog_seq_ex v P Q0) as [r R]. exists r, v. split; [exact R|exact E].
Qed.

Lemma opens_sign q h : opens q h -> 0 < q -> forall q', opens q' h -> 0 < q'.
Proof.
  destruct h as [s|p]; cbn [opens represents].
  - intros E P q' E'. rewrite E'. now rewrite <- E.
  - intros (r & v & R & E) P q' (r' & v' & R' & E').
    apply clog_seq_range in R as [R _]. apply clog_seq_range in R' as [R' _].
    pose proof (inv_pos v R). pose proof (inv_pos v' R').
    destruct p as [[]|]; cbn [primed] in *; lra.
Qed.

Lemma opens_special q s h : q == special_val s -> opens q h -> h = inl s.
Proof.
  intros E H. destruct h as [s'|p]; cbn [opens represents] in H.
  - f_equal. apply special_val_inj. now rewrite <- E, <- H.
  - exfalso. destruct H as (r & v & R & F). apply clog_seq_range in R as [P Q0].
    apply (primed_not_special p v s P Q0). now rewrite <- F.
Qed.

Lemma amen_nonzero a b u : amen a b -> ~ (a = 0 /\ b = 0)%Z -> 0 < u -> u < 1 ->
  ~ (1 - u) * zq a + u * zq b == 0.
Proof.
  intros A N P Q0. destruct A as [[A B]|[A B]].
  - pose proof (interp_pos a b u A B N P Q0). lra.
  - assert (X : 0 < (1 - u) * zq (- a) + u * zq (- b)) by (apply interp_pos; auto; lia).
    rewrite !zq_opp in X. lra.
Qed.

Definition two_ways (m : hcoef) : Prop :=
  exists u1 z1 h1 u2 z2 h2, 0 < u1 /\ u1 < 1 /\ 0 < u2 /\ u2 < 1 /\ hv m u1 z1 /\ hv m u2 z2 /\
    opens z1 h1 /\ opens z2 h2 /\ h1 <> h2.

Lemma hdet_value m u : hdet m <> 0%Z -> hom_num (h_nx m) (h_n m) u == 0 -> hom_num (h_dx m) (h_d m) u == 0 -> False.
Proof.
  intros D A B. apply D. apply (proj2 (zq_eq _ _)). unfold hdet. rewrite zq_sub, !zq_mul. change (zq 0) with 0.
  unfold hom_num in *.
  transitivity (zq (h_nx m) * (zq (h_dx m) * u + zq (h_d m)) - zq (h_dx m) * (zq (h_nx m) * u + zq (h_n m))); [ring|].
  rewrite A, B. ring.
Qed.

Lemma across_ways c m : (c = 0 \/ c = 1 \/ c = -1)%Z -> hdet m <> 0%Z -> across c m ->
  two_ways m.
Proof.
  intros C D A. unfold across in A.
  assert (Sp : exists s, special_val s == zq c).
  { destruct C as [-> | [-> | ->]]; [exists Zero|exists PosOne|exists NegOne]; reflexivity. }
  destruct Sp as [sp Sp].
  destruct (sides _ _ A) as (u0 & u1 & u2 & P0 & Q0 & P1 & Q1 & P2 & Q2 & _ & S0 & S1 & S2).
  assert (LC : forall u, hom_num (h_nx m) (h_n m) u - zq c * hom_num (h_dx m) (h_d m) u ==
     (1 - u) * zq (h_n m - c * h_d m) + u * zq (h_n m + h_nx m - c * (h_d m + h_dx m))).
  { intro u. rewrite !hom_interp, !zq_sub, !zq_mul, !zq_add. ring. }
  assert (D0 : ~ hom_num (h_dx m) (h_d m) u0 == 0).
  { intro E. apply (hdet_value m u0 D); [|exact E].
    transitivity (hom_num (h_nx m) (h_n m) u0 - zq c * hom_num (h_dx m) (h_d m) u0); [rewrite E; ring|].
    now rewrite LC. }
  assert (H0 : hv m u0 (zq c)).
  { split; [|exact D0].
    transitivity (hom_num (h_nx m) (h_n m) u0 - zq c * hom_num (h_dx m) (h_d m) u0 + zq c * hom_num (h_dx m) (h_d m) u0); [ring|].
    rewrite LC, S0. ring. }
  assert (NZ : ~ zq (h_n m - c * h_d m) == 0 /\ ~ zq (h_n m + h_nx m - c * (h_d m + h_dx m)) == 0).
  { split; intro E; change 0 with (zq 0) in E; apply (proj2 (zq_eq _ _)) in E; rewrite E in A; lia. }
  assert (OTHER : exists u z, 0 < u /\ u < 1 /\ hv m u z /\ ~ z == zq c).
  { assert (TRY : forall u w, (1 - u) * zq (h_n m - c * h_d m) + u * zq (h_n m + h_nx m - c * (h_d m + h_dx m)) == w / 2 ->
        ~ w == 0 -> ~ hom_num (h_dx m) (h_d m) u == 0 -> exists z, hv m u z /\ ~ z == zq c).
    { intros u w E W DU. exists (hom_num (h_nx m) (h_n m) u / hom_num (h_dx m) (h_d m) u).
      split; [split; [field; auto|exact DU]|]. intro F. apply W. apply div_eq_iff in F; [|exact DU].
      assert (G : w / 2 == 0) by (rewrite <- E, <- LC, F; ring).
      transitivity (2 * (w / 2)); [field|]. rewrite G. ring. }
    destruct (Qeq_dec (hom_num (h_dx m) (h_d m) u1) 0) as [E1|E1].
    - destruct (Qeq_dec (hom_num (h_dx m) (h_d m) u2) 0) as [E2|E2].
      + exfalso. apply D0. assert (U : u0 == u1 \/ ~ u1 == u2).
        { right. intro E. rewrite E in S1. rewrite S1 in S2.
          assert (G : zq (h_n m - c * h_d m) == zq (h_n m + h_nx m - c * (h_d m + h_dx m))) by (unfold Qdiv in S2; change (/2) with (1#2) in S2; lra).
          apply (proj2 (zq_eq _ _)) in G. rewrite G in A. clear - A.
          pose proof (Z.square_nonneg (h_n m + h_nx m - c * (h_d m + h_dx m))). lia. }
        destruct U as [U|U]; [unfold hom_num in *; rewrite U; exact E1|].
        assert (DX : zq (h_dx m) == 0).
        { unfold hom_num in *. assert (G : zq (h_dx m) * (u1 - u2) == 0).
          { transitivity ((zq (h_dx m) * u1 + zq (h_d m)) - (zq (h_dx m) * u2 + zq (h_d m))); [ring|]. rewrite E1, E2. ring. }
         
          apply Qmult_integral in G as [G|G]; [exact G|]. exfalso. apply U. lra. }
        unfold hom_num in *. rewrite DX in *. lra.
      + destruct (TRY u2 _ S2 (proj2 NZ) E2) as (z & Z1 & Z2). exists u2, z. auto.
    - destruct (TRY u1 _ S1 (proj1 NZ) E1) as (z & Z1 & Z2). exists u1, z. auto. }
  destruct OTHER as (u & z & P & Q' & H & N). destruct (opens_ex z) as [h Hh].
  exists u0, (zq c), (inl sp), u, z, h. repeat (split; [assumption|]).
  split; [cbn [opens represents]; now symmetry|]. split; [exact Hh|]. intro E. subst h. cbn in Hh. apply N. now rewrite Hh.
Qed.

Lemma pole_ways m : hdet m <> 0%Z -> amen (h_n m) (h_n m + h_nx m) -> (h_d m * (h_d m + h_dx m) < 0)%Z -> two_ways m.
Proof.
  intros D AN A. destruct (sides _ _ A) as (_ & u1 & u2 & _ & _ & P1 & Q1 & P2 & Q2 & _ & _ & S1 & S2).
  rewrite hdet_ends in D.
  assert (NN : ~ (h_n m = 0 /\ h_n m + h_nx m = 0)%Z) by (intros [E1 E2]; apply D; rewrite E2, E1; ring).
  assert (N1 : 0 < hom_num (h_nx m) (h_n m) u1 /\ 0 < hom_num (h_nx m) (h_n m) u2 \/
               hom_num (h_nx m) (h_n m) u1 < 0 /\ hom_num (h_nx m) (h_n m) u2 < 0).
  { rewrite !hom_interp. destruct AN as [[A0 A1]|[A0 A1]].
    - left. split; apply interp_pos; auto.
    - right. assert (X : 0 < (1 - u1) * zq (- h_n m) + u1 * zq (- (h_n m + h_nx m))) by (apply interp_pos; auto; lia).
      assert (Y : 0 < (1 - u2) * zq (- h_n m) + u2 * zq (- (h_n m + h_nx m))) by (apply interp_pos; auto; lia).
      rewrite !zq_opp in X, Y. lra. }
  rewrite <- hom_interp in S1, S2.
  apply opposite in A.
  assert (D12 : (0 < hom_num (h_dx m) (h_d m) u1 /\ hom_num (h_dx m) (h_d m) u2 < 0) \/
                (hom_num (h_dx m) (h_d m) u1 < 0 /\ 0 < hom_num (h_dx m) (h_d m) u2)).
  { rewrite S1, S2. unfold Qdiv. change (/ 2) with (1#2).
    destruct A as [[X Y]|[X Y]]; apply (proj1 (zq_lt _ _)) in X, Y; change (zq 0) with 0 in X, Y; lra. }
  clear S1 S2 A.
  assert (PN : forall n d, ((0 < n /\ 0 < d) \/ (n < 0 /\ d < 0) -> 0 < n / d) /\
                           ((0 < n /\ d < 0) \/ (n < 0 /\ 0 < d) -> n / d < 0)).
  { intros n d. split; intros [[X Y]|[X Y]].
    - apply lt_div_iff; lra.
    - setoid_replace (n / d) with (- n / - d) by (field; lra). apply lt_div_iff; lra.
    - setoid_replace (n / d) with (- n / - d) by (field; lra). apply div_lt_iff; lra.
    - apply div_lt_iff; lra. }
  set (z1 := hom_num (h_nx m) (h_n m) u1 / hom_num (h_dx m) (h_d m) u1).
  set (z2 := hom_num (h_nx m) (h_n m) u2 / hom_num (h_dx m) (h_d m) u2).
  assert (H1 : hv m u1 z1) by (split; unfold z1; [field|]; lra).
  assert (H2 : hv m u2 z2) by (split; unfold z2; [field|]; lra).
  assert (SG : (0 < z1 /\ z2 < 0) \/ (z1 < 0 /\ 0 < z2)).
  { destruct (PN (hom_num (h_nx m) (h_n m) u1) (hom_num (h_dx m) (h_d m) u1)) as [X1 Y1].
    destruct (PN (hom_num (h_nx m) (h_n m) u2) (hom_num (h_dx m) (h_d m) u2)) as [X2 Y2].
    unfold z1, z2. tauto. }
  destruct (opens_ex z1) as [h1 O1]. destruct (opens_ex z2) as [h2 O2].
  exists u1, z1, h1, u2, z2, h2. repeat (split; [assumption|]). intros <-. destruct SG as [[X Y]|[X Y]].
  - pose proof (opens_sign _ _ O1 X _ O2). lra.
  - pose proof (opens_sign _ _ O2 Y _ O1). lra.
Qed.

Lemma stuck_unopened m0 px lx m : follows m0 px lx m -> hdet m <> 0%Z -> stuck m ->
  (exists q, begins q px lx /\ 0 < hom_num (h_dx m0) (h_d m0) q) ->
  unopened (h_nx m0) (h_n m0) (h_dx m0) (h_d m0) px lx.
Proof.
  intros F D S0 (q & B & Q0).
  assert (W : two_ways m).
  { destruct S0 as [S0|[[S1 S2]|[S1 S2]]].
    - apply (across_ways 0); auto.
    - now apply pole_ways.
    - apply begins_inv in B as (u & U0 & U1 & E). destruct (F u U0 U1) as (t & T & _ & G).
      assert (X : 0 < hom_num (h_dx m) (h_d m) u).
      { rewrite G. apply Qmult_lt_0_compat; [exact T|]. unfold hom_num in *. now rewrite <- E. }
      assert (Y : (0 <= h_d m /\ 0 <= h_d m + h_dx m)%Z).
      { destruct S1 as [S1|[S1 S1']]; [exact S1|]. exfalso. rewrite hom_interp in X.
        assert (Z0 : 0 <= (1 - u) * zq (- h_d m) + u * zq (- (h_d m + h_dx m))) by (apply interp_nonneg; auto; lia).
        rewrite !zq_opp in Z0. lra. }
      destruct (S2 (proj1 Y) (proj2 Y)) as (c & C & A). now apply (across_ways c). }
  destruct W as (u1 & z1 & h1 & u2 & z2 & h2 & P1 & Q1 & P2 & Q2 & H1 & H2 & O1 & O2 & N).
  pose proof (follows_hv _ _ _ _ _ _ F P1 Q1 H1) as G1. pose proof (follows_hv _ _ _ _ _ _ F P2 Q2 H2) as G2.
  apply hv_hom in G1 as [E1 F1]. apply hv_hom in G2 as [E2 F2].
  exists (primed px (unread lx u1)), (primed px (unread lx u2)), h1, h2.
  split; [now apply begins_unread|]. split; [now apply begins_unread|]. split; [exact E1|]. split; [exact E2|].
  split; [eapply opens_same; eauto; now symmetry|]. split; [eapply opens_same; eauto; now symmetry|exact N].
Qed.

(** ** The whole of the first call *)

Lemma good_egests k E c l' c' : egests k c l' c' -> forall l, good k E c l -> exists r, l = l' ++ r.
Proof.
  induction 1 as [c|c s c1 l' c' R X IH]; intros l G; [now exists l|].
  apply good_ev in G. destruct G as (r & S0 & W). pose proof (Good.settles_det _ _ _ S0 R) as Y. subst r.
  cbn [wp fst snd] in W. destruct W as [W G]. destruct l as [|s' l]; [discriminate|]. injection W as ->.
  destruct (IH _ G) as [r ->]. now exists r.
Qed.

Lemma has_begins k px cx q lx x : ovf k = true -> num_has k (NOther px cx) q -> egests k cx lx x -> begins q px lx.
Proof.
  intros O H X. pose proof (proj2 (has_good k O) _ _ H) as G. cbn [numgood] in G.
  destruct G as (v & l & S0 & E & G). destruct (good_egests _ _ _ _ _ X _ G) as [r ->].
  exists r, v. auto.
Qed.

Lemma hdet_absorbed p m : hdet m <> 0%Z -> hdet (absorbed p m) <> 0%Z.
Proof. unfold hdet. destruct p as [[]|]; cbn [absorbed h_nx h_n h_dx h_d]; lia. Qed.
Lemma hdet_pe p m : hdet m <> 0%Z -> hdet (pe_rel m p) <> 0%Z.
Proof. unfold hdet. destruct p as [[]|]; cbn [pe_rel h_nx h_n h_dx h_d]; lia. Qed.
Lemma hdet_given s m m' : given s m m' -> hdet m <> 0%Z -> hdet m' <> 0%Z.
Proof. intros G. apply (run_nonzero [s]). change [s] with ([] ++ [s]). econstructor; [constructor|exact G]. Qed.

Lemma ingest_ok k s m m' : (match s with Amplify => h_ingest_amplify k m | Uncover => h_ingest_uncover k m end) = Ok m' ->
  ingested s m m'.
Proof.
  destruct s; intro H.
  - exact (proj1 (wp_ok _ _ _ _ (ingest_amplify_wp k 1 m) H)).
  - exact (proj1 (wp_ok _ _ _ _ (ingest_uncover_wp k 1 m) H)).
Qed.

Definition step_back (m0 : hcoef) (px : option primer) (lx : list reduction) (p : option primer) (l : list reduction) (m : hcoef) : Prop :=
  forall u z, 0 < u -> u < 1 -> 0 < z -> z < 1 -> hv m u z -> hv m0 (primed px (unread lx u)) (primed p (unread l z)).

(** The invariant of the second phase. *)
Definition held (m0 : hcoef) (px : option primer) (lx : list reduction) (p : option primer) (l : list reduction) (m : hcoef) : Prop :=
  J m /\ hdet m <> 0%Z /\ step_back m0 px lx p l m.

Lemma follows_held m0 px lx p m : follows m0 px lx m -> hdet m <> 0%Z -> J (pe_rel m p) -> held m0 px lx p [] (pe_rel m p).
Proof.
  intros F D HJ. split; [exact HJ|]. split; [now apply hdet_pe|]. intros u z U0 U1 Z0 Z1 H. cbn [unread fold_right].
  eapply follows_hv; eauto. now apply hv_pe_back.
Qed.

Lemma held_ingested m0 px lx p l m s m' : held m0 px lx p l m -> ingested s m m' -> held m0 px (lx ++ [s]) p l m'.
Proof.
  intros (HJ & D & B) I. split; [eapply J_ingested; eauto|]. split; [eapply det_ingested; eauto|].
  intros u z U0 U1 Z0 Z1 H. rewrite unread_snoc. destruct (unread1_range s u U0 U1). apply B; auto.
  eapply hv_ingested_back; eauto.
Qed.

Lemma held_given m0 px lx p l m s m' : held m0 px lx p l m -> given s m m' -> J m' -> held m0 px lx p (l ++ [s]) m'.
Proof.
  intros (_ & D & B) G HJ. split; [exact HJ|]. split; [eapply hdet_given; eauto|].
  intros u z U0 U1 Z0 Z1 H. rewrite unread_snoc. destruct (unread1_range s z Z0 Z1). apply B; auto.
  eapply hv_given_back; eauto.
Qed.

Lemma held_value m u : J m -> hdet m <> 0%Z -> 0 < u -> u < 1 -> exists z, hv m u z /\ 0 < z /\ z < 1.
Proof.
  intros HJ D P Q0. rewrite hdet_ends in D.
  assert (D' : ~ hom_num (h_dx m) (h_d m) u == 0).
  { rewrite hom_interp. destruct HJ as [K|K].
    - assert (X : 0 < (1 - u) * zq (h_d m) + u * zq (h_d m + h_dx m)) by (apply interp_pos; auto; lia). lra.
    - assert (X : 0 < (1 - u) * zq (- h_d m) + u * zq (- (h_d m + h_dx m))) by (apply interp_pos; auto; lia).
      rewrite !zq_opp in X. lra. }
  assert (H : hv m u (hom_num (h_nx m) (h_n m) u / hom_num (h_dx m) (h_d m) u)) by (split; auto; field; auto).
  eexists. split; [exact H|]. split.
  - eapply J_gt0; eauto. intros [E1 E2]. apply D. rewrite E2, E1. ring.
  - eapply J_lt1; eauto. intros [E1 E2]. apply D. rewrite E2, E1. ring.
Qed.

Lemma hom_same nx n dx d q q' : q == q' -> hom nx n dx d q == hom nx n dx d q'.
Proof. intro E. unfold hom, hom_num. now rewrite E. Qed.

(** What has been read is enough for what has been given. *)
Lemma held_enough m0 px lx p l m q : held m0 px lx p l m -> begins q px lx ->
  ~ hom_num (h_dx m0) (h_d m0) q == 0 /\ begins (hom (h_nx m0) (h_n m0) (h_dx m0) (h_d m0) q) p l.
Proof.
  intros (HJ & D & B) H. apply begins_inv in H as (u & U0 & U1 & E).
  destruct (held_value m u HJ D U0 U1) as (z & Hz & Z0 & Z1).
  specialize (B u z U0 U1 Z0 Z1 Hz). apply hv_hom in B as [B1 B2]. split.
  - unfold hom_num in *. now rewrite E.
  - eapply begins_same; [apply begins_unread; eauto|]. rewrite <- B2. symmetry. now apply hom_same.
Qed.

Lemma straddle_undecided m0 px lx p l m : held m0 px lx p l m -> straddles m ->
  undecided (h_nx m0) (h_n m0) (h_dx m0) (h_d m0) px lx p l.
Proof.
  intros (HJ & D & B) S0.
  destruct (straddle_points m HJ D S0) as (u1 & z1 & u2 & z2 & P1 & Q1 & P2 & Q2 & H1 & H2 & A1 & B1 & A2 & B2).
  assert (X1 : hv m0 (primed px (unread lx u1)) (primed p (unread l z1))) by (apply B; auto; lra).
  assert (X2 : hv m0 (primed px (unread lx u2)) (primed p (unread l z2))) by (apply B; auto; lra).
  apply hv_hom in X1 as [D1 E1]. apply hv_hom in X2 as [D2 E2]. split.
  - exists (primed px (unread lx u1)). split; [now apply begins_unread|]. split; [exact D1|].
    eapply begins_same; [|symmetry; exact E1]. apply begins_next; try lra.
    unfold spec_symbol. now rewrite (proj1 (Qlt_alt _ _) B1).
  - exists (primed px (unread lx u2)). split; [now apply begins_unread|]. split; [exact D2|].
    eapply begins_same; [|symmetry; exact E2]. apply begins_next; try lra.
    unfold spec_symbol. now rewrite (proj1 (Qgt_alt _ _) A2).
Qed.

(** *** Giving the primer *)

Definition primed_ok (k : cfg) (P : list reduction -> Prop) (cx : clog) (m0 : hcoef) (px : option primer)
    (v : option special * option primer * option ratio * option (clog * hcoef)) : Prop :=
  match v with
  | (s, p, r, Some (x, m)) => s = None /\ r = None /\ exists lx, egests k cx lx x /\ held m0 px lx p [] m /\
      forall a s b, lx = a ++ s :: b -> P a
  | (_, _, _, None) => exists lx, ran_out k cx lx /\ forall a b, lx = a ++ b -> P a
  end.

Lemma last_split {A} (l : list A) s a s' b : l ++ [s] = a ++ s' :: b -> (exists b', l = a ++ s' :: b') \/ (a = l).
Proof.
  intro E. destruct (exists_last (l := s' :: b) ltac:(discriminate)) as (b' & t & F).
  rewrite F, app_assoc in E. apply app_inj_tail in E as [E _].
  destruct b' as [|s2 b']; [right; now rewrite app_nil_r in E|]. left. cbn in F. injection F as <- _. now exists b'.
Qed.

Lemma h_prime_lazy k e cx m0 px (P : list reduction -> Prop) (O : ovf k = true) n :
  (forall lx x m, egests k cx lx x -> follows m0 px lx m -> hdet m <> 0%Z -> stuck m -> P lx) ->
  forall lx x m v, egests k cx lx x -> follows m0 px lx m -> hdet m <> 0%Z ->
  (forall a s b, lx = a ++ s :: b -> P a) ->
  h_prime k (clog_egest k e) n x m = Ok v -> primed_ok k P cx m0 px v.
Proof.
  intro HP. induction n as [|n IH]; intros lx x m v X F D Pre H; [discriminate|]. cbn [h_prime] in H.
  destruct (h_are_singularities_outside_domain k m) as [out| |] eqn:Sing; try discriminate; cbn [bind] in H.
  destruct (if out then h_primer_egest k m else Ok None) as [[[p m']|]| |] eqn:E; try discriminate; cbn [bind] in H.
  - injection H as <-. destruct out; [|discriminate].
    pose proof (wp_ok _ _ _ _ (sing_wp k 1 m) Sing) as A. cbv beta in A.
    destruct A as [A _]. destruct (A eq_refl) as [AN AD].
    assert (ND : ~ (h_d m = 0 /\ h_d m + h_dx m = 0)%Z).
    { intros [E1 E2]. apply D. rewrite hdet_ends, E2, E1. ring. }
    pose proof (wp_ok _ _ _ _ (primer_egest_wp k 1 m O AN AD ND) E) as R. cbn [pe_post] in R.
    destruct R as (-> & HJ & _). cbn [primed_ok]. repeat split. exists lx. split; [exact X|]. split; [now apply follows_held|exact Pre].
  - pose proof (stuck_intro k m out O D Sing E) as St. pose proof (HP lx x m X F D St) as Plx. clear E Sing.
    unfold h_prime_ingest in H.
    destruct (clog_egest k e x) as [[o x']|?|] eqn:E; try discriminate; cbn [bind] in H.
    assert (R : returns (fun f => clog_egest k f x) (o, x')).
    { unfold returns. rewrite <- E. apply egest_settles. rewrite E. discriminate. }
    assert (NEXT : forall s m', o = Some s -> ingested s m m' -> h_prime k (clog_egest k e) n x' m' = Ok v -> primed_ok k P cx m0 px v).
    { intros s m' -> I Hn. apply (IH (lx ++ [s]) x' m'); auto.
      - eapply egests_snoc; eauto.
      - eapply follows_ingested; eauto.
      - eapply det_ingested; eauto.
      - intros a s' b Y. apply last_split in Y as [[b' Y]| ->]; [eapply Pre; eauto|exact Plx]. }
    destruct o as [[]|].
    + destruct (h_ingest_amplify k m) as [m'| |] eqn:G; try discriminate; cbn [bind] in H.
      apply (NEXT Amplify m'); auto. now apply (ingest_ok k Amplify).
    + destruct (h_ingest_uncover k m) as [m'| |] eqn:G; try discriminate; cbn [bind] in H.
      apply (NEXT Uncover m'); auto. now apply (ingest_ok k Uncover).
    + destruct (h_value_at_one_half k m) as [[num den]| |] eqn:G; try discriminate; cbn [bind] in H.
      destruct (ratio_new_i k num den) as [[[s p] r]| |] eqn:Q0; try discriminate; cbn [bind] in H.
      injection H as <-.
      assert (Out : exists lx, ran_out k cx lx /\ forall a b, lx = a ++ b -> P a).
      { exists lx. split; [exists x, x'; auto|]. intros a b Y. destruct b as [|s' b].
        - rewrite app_nil_r in Y. now subst a.
        - eapply Pre; eauto. }
      exact Out.
Qed.

Lemma homographic_lazy k f px cx nx n dx d y (P : list reduction -> Prop) : ovf k = true -> (nx * d <> n * dx)%Z ->
  (forall lx x m, egests k cx lx x -> follows (HC nx n dx d) px lx m -> hdet m <> 0%Z -> stuck m -> P lx) ->
  number_homographic k f (NOther px cx) nx n dx d = Ok y ->
  (exists p x m lx, y = NOther p (CHomographic x m) /\ egests k cx lx x /\ held (HC nx n dx d) px lx p [] m /\
     forall a s b, lx = a ++ s :: b -> P a) \/
  (((exists s, y = NSpecial s) \/ exists p r, y = NOther p (CRatio r)) /\
   exists lx, ran_out k cx lx /\ forall a b, lx = a ++ b -> P a).
Proof.
  intros O D HP H. unfold number_homographic in H.
  destruct (h_new k (clog_egest k f) f (NOther px cx) nx n dx d) as [v| |] eqn:E; try discriminate. cbn [bind] in H.
  unfold h_new in E. destruct ((nx =? 0) && (dx =? 0))%Z eqn:Z0.
  { exfalso. apply andb_true_iff in Z0 as [Z1 Z2]. apply Z.eqb_eq in Z1, Z2. subst. apply D. ring. }
  cbn [unwrap_other bind] in E.
  destruct (h_absorb_primer k px (HC nx n dx d)) as [m| |] eqn:E1; try discriminate. cbn [bind] in E.
  pose proof (wp_ok _ _ _ _ (absorb_wp k 1 px (HC nx n dx d) O) E1) as A. cbv beta in A. subst m.
  assert (D0 : hdet (HC nx n dx d) <> 0%Z) by (unfold hdet; cbn [h_nx h_n h_dx h_d]; lia).
  pose proof (h_prime_lazy k f cx (HC nx n dx d) px P O f HP [] cx _ v (egests_nil _ _) (follows_absorbed _ _)
    (hdet_absorbed px _ D0) ltac:(intros [|] ? ? Y; discriminate) E) as G.
  destruct v as [[[s p] r] [[x m]|]]; cbn [primed_ok] in G.
  - destruct G as (-> & -> & lx & G). injection H as <-. left. exists p, x, m, lx. tauto.
  - right. split; [|exact G]. destruct s; [left; injection H as <-; eauto|]. right.
    destruct r; [|discriminate]. injection H as <-. eauto.
Qed.

(** *** Giving symbols *)

Lemma half_det m : half_ends m -> hdet m = 0%Z.
Proof. unfold half_ends, hdet. intros [A B]. assert (C : (h_dx m = 2 * h_nx m)%Z) by lia. rewrite C, <- A. ring. Qed.

Definition egested_ok (k : cfg) (x0 : clog) (m0 : hcoef) (px : option primer) (lx : list reduction)
    (p : option primer) (l : list reduction) (v : egested) : Prop :=
  let P a := undecided (h_nx m0) (h_n m0) (h_dx m0) (h_d m0) px (lx ++ a) p l in
  match v with
  | Emit o c => exists s x m e, o = Some s /\ c = CHomographic x m /\ egests k x0 e x /\
      held m0 px (lx ++ e) p (l ++ [s]) m /\ forall a s b, e = a ++ s :: b -> P a
  | Become c => exists r e, c = CRatio r /\ ran_out k x0 e /\ forall a b, e = a ++ b -> P a
  end.

Lemma h_egest_lazy k e0 x0 m0 px lx p l (O : ovf k = true) n :
  forall e x m v, egests k x0 e x -> held m0 px (lx ++ e) p l m ->
  (forall a s b, e = a ++ s :: b -> undecided (h_nx m0) (h_n m0) (h_dx m0) (h_d m0) px (lx ++ a) p l) ->
  h_egest k (clog_egest k e0) n x m = Ok v -> egested_ok k x0 m0 px lx p l v.
Proof.
  induction n as [|n IH]; intros e x m v X Hd Pre H; [discriminate|]. cbn [h_egest] in H.
  pose proof Hd as (HJ & D & _).
  destruct (h_are_singularities_outside_domain k m) as [out| |] eqn:Sing; try discriminate; cbn [bind] in H.
  assert (out = true) as ->.
  { pose proof (wp_ok _ _ _ _ (sing_wp k 1 m) Sing) as A. cbv beta in A. apply A. now apply J_amen. }
  destruct (h_reduction_egest k m) as [[[o m']|]| |] eqn:E; try discriminate; cbn [bind] in H.
  - injection H as <-. pose proof (wp_ok _ _ _ _ (reduction_egest_wp k 1 m O HJ) E) as R. cbn [re_post] in R.
    destruct o as [s|].
    + cbn [egested_ok]. exists s, x, m', e. split; [reflexivity|]. split; [reflexivity|]. split; [exact X|]. split; [|exact Pre].
      destruct s.
      * destruct R as (HJ' & R & _). apply (held_given _ _ _ _ _ m); auto.
      * destruct R as (HJ' & -> & _). apply (held_given _ _ _ _ _ m); auto. reflexivity.
    + exfalso. destruct R as [_ R]. apply D. now apply half_det.
  - pose proof (straddle_undecided _ _ _ _ _ _ Hd (reduction_none k m O HJ E)) as Pe. clear E.
    unfold h_reduction_ingest in H.
    destruct (clog_egest k e0 x) as [[o x']|?|] eqn:E; try discriminate; cbn [bind] in H.
    assert (R : returns (fun f => clog_egest k f x) (o, x')).
    { unfold returns. rewrite <- E. apply egest_settles. rewrite E. discriminate. }
    assert (NEXT : forall s m', o = Some s -> ingested s m m' -> h_egest k (clog_egest k e0) n x' m' = Ok v ->
      egested_ok k x0 m0 px lx p l v).
    { intros s m' -> I Hn. apply (IH (e ++ [s]) x' m'); auto.
      - eapply egests_snoc; eauto.
      - rewrite app_assoc. eapply held_ingested; eauto.
      - intros a s' b Y. apply last_split in Y as [[b' Y]| ->]; [eapply Pre; eauto|exact Pe]. }
    destruct o as [[]|].
    + destruct (h_ingest_amplify k m) as [m'| |] eqn:G; try discriminate; cbn [bind] in H.
      apply (NEXT Amplify m'); auto. now apply (ingest_ok k Amplify).
    + destruct (h_ingest_uncover k m) as [m'| |] eqn:G; try discriminate; cbn [bind] in H.
      apply (NEXT Uncover m'); auto. now apply (ingest_ok k Uncover).
    + destruct (h_value_at_one_half k m) as [[num den]| |] eqn:G; try discriminate; cbn [bind] in H.
      destruct (ratio_new_i k num den) as [[[[sp|] [q|]] [r|]]| |] eqn:Q0; try discriminate; cbn [bind] in H.
      injection H as <-. cbn [egested_ok]. exists r, e. split; [reflexivity|]. split; [exists x, x'; auto|].
      intros a b Y. destruct b as [|s' b].
      * rewrite app_nil_r in Y. now subst a.
      * eapply Pre; eauto.
Qed.

Lemma ratio_egest_stays k f r o c : clog_egest k f (CRatio r) = Ok (o, c) -> exists r', c = CRatio r'.
Proof.
  destruct f as [|f]; [discriminate|]. cbn [clog_egest strategy_egest].
  destruct (ratio_egest k r) as [[o' r']| |]; try discriminate. cbn [bind]. intro H. injection H as <- <-. eauto.
Qed.

Lemma clog_lazy k f x0 m0 m px lx p l o c : ovf k = true -> held m0 px lx p l m ->
  clog_egest k f (CHomographic x0 m) = Ok (o, c) ->
  let P a := undecided (h_nx m0) (h_n m0) (h_dx m0) (h_d m0) px (lx ++ a) p l in
  (exists s x m' e, o = Some s /\ c = CHomographic x m' /\ egests k x0 e x /\
      held m0 px (lx ++ e) p (l ++ [s]) m' /\ forall a s b, e = a ++ s :: b -> P a) \/
  (exists r e, c = CRatio r /\ ran_out k x0 e /\ forall a b, e = a ++ b -> P a).
Proof.
  intros O Hd H. destruct f as [|f]; [discriminate|]. cbn [clog_egest strategy_egest] in H.
  destruct (h_egest k (clog_egest k f) f x0 m) as [v| |] eqn:E; try discriminate. cbn [bind] in H.
  assert (G : egested_ok k x0 m0 px lx p l v).
  { apply (h_egest_lazy k f x0 m0 px lx p l O f [] x0 m v); auto.
    - constructor.
    - now rewrite app_nil_r.
    - intros [|] ? ? Y; discriminate. }
  destruct v as [o' c'|c']; cbn [egested_ok] in G.
  - injection H as -> ->. left. exact G.
  - right. destruct G as (r & e & -> & G). apply ratio_egest_stays in H as [r' ->]. exists r', e. auto.
Qed.

Lemma ratio_egests k c l c' : egests k c l c' -> forall r, c = CRatio r -> exists r', c' = CRatio r'.
Proof.
  induction 1 as [c|c s c1 l c' R X IH]; intros r ->; [eauto|]. destruct R as [F R].
  specialize (R F (le_n F)). cbv beta in R. apply ratio_egest_stays in R as [r' ->]. eapply IH; eauto.
Qed.

Lemma egests_held k cx m0 px p c l c' : ovf k = true -> egests k c l c' -> forall x m lx l0 x' m', c = CHomographic x m ->
  c' = CHomographic x' m' -> egests k cx lx x -> held m0 px lx p l0 m ->
  exists lx', egests k cx lx' x' /\ held m0 px lx' p (l0 ++ l) m'.
Proof.
  intros O. induction 1 as [c|c s c1 l c' R X IH]; intros x m lx l0 x' m' E E' Xx Hd.
  - subst c. injection E' as -> ->. exists lx. rewrite app_nil_r. auto.
  - subst c. destruct R as [F R]. specialize (R F (le_n F)). cbv beta in R.
    apply (clog_lazy _ _ _ m0 _ px lx p l0) in R as [(s' & x1 & m1 & e & S0 & -> & Xe & Hd1 & _)|(r & e & -> & _)]; auto.
    + injection S0 as <-. change (s :: l) with ([s] ++ l). rewrite app_assoc.
      eapply IH; eauto. eapply egests_app; eauto.
    + apply (fun H => ratio_egests _ _ _ _ H r eq_refl) in X as [r' X]. subst c'. discriminate.
Qed.

(** ** In terms of the public functions *)

Theorem opening_lazy k f px cx q nx n dx d y : ovf k = true -> num_has k (NOther px cx) q ->
  (nx * d <> n * dx)%Z -> 0 < hom_num dx d q -> number_homographic k f (NOther px cx) nx n dx d = Ok y ->
  (exists p x m lx, y = NOther p (CHomographic x m) /\ egests k cx lx x /\
     forall a s b, lx = a ++ s :: b -> unopened nx n dx d px a) \/
  (((exists s, y = NSpecial s) \/ exists p r, y = NOther p (CRatio r)) /\
   exists lx, ran_out k cx lx /\ forall a b, lx = a ++ b -> unopened nx n dx d px a).
Proof.
  intros O Hq D Pos H.
  apply (homographic_lazy k f px cx nx n dx d y (unopened nx n dx d px)) in H; auto.
  - destruct H as [(p & x & m & lx & A & B & _ & C)|H]; [left|right]; eauto 10.
  - intros lx x m X F Dm St. apply (stuck_unopened (HC nx n dx d) px lx m F Dm St).
    exists q. split; [eapply has_begins; eauto|exact Pos].
Qed.

Lemma homographic_held k f px cx nx n dx d p c l x m : ovf k = true -> (nx * d <> n * dx)%Z ->
  number_homographic k f (NOther px cx) nx n dx d = Ok (NOther p c) -> egests k c l (CHomographic x m) ->
  exists lx, egests k cx lx x /\ held (HC nx n dx d) px lx p l m.
Proof.
  intros O D H X.
  apply (homographic_lazy k f px cx nx n dx d _ (fun _ => True)) in H; auto.
  destruct H as [(p' & x0 & m0 & lx & A & B & C & _)|[[[s A]|(p' & r & A)] _]]; [|discriminate|].
  - injection A as -> ->. apply (egests_held k cx _ px p' _ _ _ O X x0 m0 lx [] x m); auto.
  - injection A as -> ->. apply (fun H => ratio_egests _ _ _ _ H r eq_refl) in X as [r' X]. discriminate.
Qed.

Theorem symbol_lazy k f f' px cx nx n dx d p c l x m o c' : ovf k = true -> (nx * d <> n * dx)%Z ->
  number_homographic k f (NOther px cx) nx n dx d = Ok (NOther p c) -> egests k c l (CHomographic x m) ->
  clog_egest k f' (CHomographic x m) = Ok (o, c') ->
  exists lx e, egests k cx lx x /\
    ((exists x' m', c' = CHomographic x' m' /\ egests k x e x' /\
        forall a s b, e = a ++ s :: b -> undecided nx n dx d px (lx ++ a) p l) \/
     ((exists r, c' = CRatio r) /\ ran_out k x e /\
        forall a b, e = a ++ b -> undecided nx n dx d px (lx ++ a) p l)).
Proof.
  intros O D H X E. destruct (homographic_held _ _ _ _ _ _ _ _ _ _ _ _ _ O D H X) as (lx & Xx & Hd).
  apply (clog_lazy _ _ _ (HC nx n dx d) _ px lx p l) in E; auto. cbv zeta in E. cbn [h_nx h_n h_dx h_d] in E.
  destruct E as [(s & x' & m' & e & _ & -> & Xe & _ & P)|(r & e & -> & Ro & P)]; exists lx, e; split; auto.
  - left. eauto.
  - right. eauto.
Qed.

Theorem enough_read k f px cx nx n dx d p c l x m : ovf k = true -> (nx * d <> n * dx)%Z ->
  number_homographic k f (NOther px cx) nx n dx d = Ok (NOther p c) -> egests k c l (CHomographic x m) ->
  exists lx, egests k cx lx x /\
    forall q, begins q px lx -> ~ hom_num dx d q == 0 /\ begins (hom nx n dx d q) p l.
Proof.
  intros O D H X. destruct (homographic_held _ _ _ _ _ _ _ _ _ _ _ _ _ O D H X) as (lx & Xx & Hd).
  exists lx. split; [exact Xx|]. intros q B. exact (held_enough _ _ _ _ _ _ q Hd B).
Qed.

(** ** Combine: what has been read is enough *)

Lemma cv_swap_back m x y z : cv (cswap m) y x z -> cv m x y z.
Proof. intro H. rewrite <- (cswap_invol m). now apply cv_swap. Qed.

Lemma cv_ingested_back s m m' u y z : 0 < u -> cingested s m m' -> cv m' u y z -> cv m (unread1 s u) y z.
Proof.
  intros P I V. destruct s; cbn [cingested unread1] in *.
  - destruct I as [(A & B & C & D & E & F & G & H)|(A & B & C & D & E & F & G & H)].
    + apply (cv_scale m' m u y (u / 2) y z (1#2) V); [lra| |]; unfold cN, cD, comb_num;
        rewrite ?A, ?B, ?C, ?D, ?E, ?F, ?G, ?H, ?zq_mul, ?zq_2; field.
    + apply zeq_Q in A, B, E, F. rewrite zq_mul, zq_2 in A, B, E, F.
      apply (cv_scale m' m u y (u / 2) y z 1 V); [lra| |]; unfold cN, cD, comb_num;
        rewrite ?C, ?D, ?G, ?H, <- ?A, <- ?B, <- ?E, <- ?F; field.
  - subst m'. assert (NV : ~ 1 + u == 0) by lra.
    apply (cv_scale _ m u y (/ (1 + u)) y z (/ (1 + u)) V).
    + apply Qlt_neq, inv_pos. lra.
    + unfold cN, comb_num, cing_uncover; cbn. rewrite !zq_add. field. auto.
    + unfold cD, comb_num, cing_uncover; cbn. rewrite !zq_add. field. auto.
Qed.

Lemma cv_ingested_y_back s m m' w x z : 0 < w -> cingested s (cswap m) (cswap m') -> cv m' x w z -> cv m x (unread1 s w) z.
Proof. intros P I V. apply cv_swap_back. eapply cv_ingested_back; eauto. now apply cv_swap. Qed.

Lemma cv_doubled_back m m' x y z : cdoubled m m' -> cv m' x y z -> cv m x y (z / 2).
Proof.
  intros [(A & B & C & D & E & F & G & H)|(A & B & C & D & E & F & G & H)] [H1 H2].
  - assert (N : cN m' x y == 2 * cN m x y) by (unfold cN, comb_num; rewrite A, B, C, D, !zq_mul, !zq_2; ring).
    assert (D' : cD m' x y == cD m x y) by (unfold cD, comb_num; rewrite E, F, G, H; ring).
    rewrite N, D' in H1. rewrite D' in H2. split; [|exact H2].
    transitivity ((1#2) * (2 * cN m x y)); [ring|]. rewrite H1. field.
  - apply zeq_Q in E, F, G, H. rewrite zq_mul, zq_2 in E, F, G, H.
    assert (N : cN m' x y == cN m x y) by (unfold cN, comb_num; rewrite A, B, C, D; ring).
    assert (D' : cD m x y == 2 * cD m' x y) by (unfold cD, comb_num; rewrite <- E, <- F, <- G, <- H; ring).
    rewrite N in H1. split; rewrite D'; [rewrite H1; field|]. apply mul_neq; [lra|exact H2].
Qed.

Lemma cv_uncovered_back m x y z : 0 < z -> cv (cuncovered m) x y z -> cv m x y (/ (1 + z)).
Proof.
  intros P [H1 H2].
  assert (N : cN (cuncovered m) x y == cD m x y - cN m x y)
    by (unfold cN, cD, comb_num, cuncovered; cbn; rewrite !zq_sub; ring).
  assert (D : cD (cuncovered m) x y == cN m x y) by (unfold cN, cD, comb_num, cuncovered; cbn; reflexivity).
  rewrite N, D in H1. rewrite D in H2. assert (NV : ~ 1 + z == 0) by lra.
  assert (E : cD m x y == cN m x y * (1 + z)).
  { transitivity ((cD m x y - cN m x y) + cN m x y); [ring|]. rewrite H1. ring. }
  split; rewrite E; [field; exact NV|now apply mul_neq].
Qed.

Lemma cv_pe_back p m x y z : 0 < z -> cv (cpe_rel m p) x y z -> cv m x y (primed p z).
Proof.
  intros P [H1 H2]. assert (NZ : ~ z == 0) by now apply Qlt_neq.
  assert (RN : cN (cpe_rel m p) x y == match p with None => cN m x y | Some Turn => cD m x y
      | Some Reflect => - cN m x y | Some Ground => - cD m x y end).
  { unfold cN, cD, comb_num. destruct p as [[]|]; cbn [cpe_rel]; unfold c_turn; cbn; rewrite ?zq_opp; ring. }
  assert (RD : cD (cpe_rel m p) x y == match p with None => cD m x y | Some Turn => cN m x y
      | Some Reflect => cD m x y | Some Ground => cN m x y end).
  { unfold cN, cD, comb_num. destruct p as [[]|]; cbn [cpe_rel]; unfold c_turn; cbn; rewrite ?zq_opp; ring. }
  rewrite RN, RD in H1. rewrite RD in H2. destruct p as [[]|]; cbn [primed]; unfold cv.
  - rewrite H1. split; [field; auto|]. now apply mul_neq.
  - split; auto. lra.
  - assert (Y : cD m x y == - z * cN m x y) by lra. rewrite Y. split; [field; auto|]. apply mul_neq; auto. lra.
  - split; auto.
Qed.

Lemma cv_absorbed_back p m x y z : 0 < x -> cv (cabsorbed p m) x y z -> cv m (primed p x) y z.
Proof.
  intros P H. assert (NV : ~ x == 0) by now apply Qlt_neq.
  destruct p as [[]|]; cbn [cabsorbed primed] in *.
  - apply (cv_scale _ _ _ _ (/ x) y z (/ x) H); [now apply Qlt_neq, inv_pos| |];
      unfold cN, cD, comb_num; cbn; field; auto.
  - apply (cv_scale _ _ _ _ (- x) y z 1 H); [lra| |]; unfold cN, cD, comb_num; cbn; rewrite !zq_opp; ring.
  - assert (~ - / x == 0) by (pose proof (inv_pos x P); lra).
    apply (cv_scale _ _ _ _ (- / x) y z (- / x) H); auto; unfold cN, cD, comb_num; cbn; rewrite !zq_opp; field; auto.
  - auto.
Qed.

Definition cback (m0 : ccoef) (px : option primer) (lx : list reduction) (py : option primer) (ly : list reduction)
    (g : Q -> Q) (m : ccoef) : Prop :=
  forall u w z, 0 < u -> u < 1 -> 0 < w -> w < 1 -> 0 < z -> z < 1 -> cv m u w z ->
    cv m0 (primed px (unread lx u)) (primed py (unread ly w)) (g z).

(** Before the primer any value may occur. *)
Definition cfollows (m0 : ccoef) (px : option primer) (lx : list reduction) (py : option primer) (ly : list reduction)
    (m : ccoef) : Prop :=
  forall u w z, 0 < u -> u < 1 -> 0 < w -> w < 1 -> cv m u w z ->
    cv m0 (primed px (unread lx u)) (primed py (unread ly w)) z.

Definition cheld (m0 : ccoef) (px : option primer) (lx : list reduction) (py : option primer) (ly : list reduction)
    (p : option primer) (l : list reduction) (m : ccoef) : Prop :=
  JC m /\ cback m0 px lx py ly (fun z => primed p (unread l z)) m.

Lemma cheld_enough m0 px lx py ly p l m q r : cheld m0 px lx py ly p l m -> begins q px lx -> begins r py ly ->
  ~ cD m0 q r == 0 /\ begins (cN m0 q r / cD m0 q r) p l.
Proof.
  intros (HJ & B) Hq Hr. apply begins_inv in Hq as (u & U0 & U1 & E). apply begins_inv in Hr as (w & W0 & W1 & F).
  pose proof (JC_den m u w HJ U0 U1 W0 W1) as ND.
  assert (H : cv m u w (cN m u w / cD m u w)) by (split; auto; field; auto).
  destruct (JC_unit m u w _ HJ U0 U1 W0 W1 H) as [Z0 Z1].
  specialize (B u w _ U0 U1 W0 W1 Z0 Z1 H). destruct B as [B1 B2].
  assert (ED : cD m0 q r == cD m0 (primed px (unread lx u)) (primed py (unread ly w))) by (unfold cD, comb_num; now rewrite E, F).
  assert (EN : cN m0 q r == cN m0 (primed px (unread lx u)) (primed py (unread ly w))) by (unfold cN, comb_num; now rewrite E, F).
  split; [now rewrite ED|].
  eapply begins_same; [apply begins_unread; eauto|]. rewrite ED, EN, B1. field. exact B2.
Qed.

Lemma ingest_x_ok k s m m' : (match s with Amplify => c_amplify_x k m | Uncover => c_uncover_x k m end) = Ok m' -> cingested s m m'.
Proof. intro H. exact (wp_ok _ _ _ _ (cing_x_wp k 1 m s) H). Qed.
Lemma ingest_y_ok k s m m' : (match s with Amplify => c_amplify_y k m | Uncover => c_uncover_y k m end) = Ok m' ->
  cingested s (cswap m) (cswap m').
Proof. intro H. exact (wp_ok _ _ _ _ (cing_y_wp k 1 m s) H). Qed.

Lemma cfollows_round m0 px lx py ly m s m1 t m2 : cfollows m0 px lx py ly m -> cingested s m m1 ->
  cingested t (cswap m1) (cswap m2) -> cfollows m0 px (lx ++ [s]) py (ly ++ [t]) m2.
Proof.
  intros F I1 I2 u w z U0 U1 W0 W1 H. rewrite !unread_snoc.
  destruct (unread1_range s u U0 U1). destruct (unread1_range t w W0 W1). apply F; auto.
  eapply cv_ingested_back; eauto. eapply cv_ingested_y_back; eauto.
Qed.

Lemma cheld_round m0 px lx py ly p l m s m1 t m2 : cheld m0 px lx py ly p l m -> cingested s m m1 ->
  cingested t (cswap m1) (cswap m2) -> cheld m0 px (lx ++ [s]) py (ly ++ [t]) p l m2.
Proof.
  intros (HJ & F) I1 I2. split; [exact (JC_ingested_y t m1 m2 (JC_ingested s m m1 HJ I1) I2)|].
  intros u w z U0 U1 W0 W1 Z0 Z1 H. rewrite !unread_snoc.
  destruct (unread1_range s u U0 U1). destruct (unread1_range t w W0 W1). apply F; auto.
  eapply cv_ingested_back; eauto. eapply cv_ingested_y_back; eauto.
Qed.

Lemma cheld_given m0 px lx py ly p l m s m' : cheld m0 px lx py ly p l m -> JC m' ->
  match s with Amplify => cdoubled m m' | Uncover => m' = cuncovered m end -> cheld m0 px lx py ly p (l ++ [s]) m'.
Proof.
  intros (_ & F) HJ G. split; [exact HJ|]. intros u w z U0 U1 W0 W1 Z0 Z1 H. rewrite unread_snoc.
  destruct (unread1_range s z Z0 Z1). apply F; auto. destruct s; cbn [unread1].
  - eapply cv_doubled_back; eauto.
  - subst m'. now apply cv_uncovered_back.
Qed.

Definition cmade_ok (k : cfg) (x0 y0 : clog) (m0 : ccoef) (px py : option primer) (v : c_made) : Prop :=
  match v with
  | (_, p, _, _, Some (x, y, m)) => exists lx ly, egests k x0 lx x /\ egests k y0 ly y /\ cheld m0 px lx py ly p [] m
  | _ => True
  end.

Lemma c_prime_enough k e x0 y0 m0 px py (O : ovf k = true) n : forall lx ly x y m v,
  egests k x0 lx x -> egests k y0 ly y -> cfollows m0 px lx py ly m ->
  c_prime k (clog_egest k e) n x y m = Ok v -> cmade_ok k x0 y0 m0 px py v.
Proof.
  induction n as [|n IH]; intros lx ly x y m v X Y F H; [discriminate|]. cbn [c_prime] in H.
  destruct (c_are_singularities_outside_domain k m) as [out| |] eqn:Sing; try discriminate; cbn [bind] in H.
  destruct (if out then c_primer_egest k m else Ok None) as [[[p m']|]| |] eqn:E; try discriminate; cbn [bind] in H.
  - injection H as <-. destruct out; [|discriminate].
    pose proof (wp_ok _ _ _ _ (sing4_wp k 1 m) Sing) as A. cbv beta in A.
    destruct A as [A _]. destruct (A eq_refl) as [AN AD].
    pose proof (wp_ok _ _ _ _ (c_primer_egest_wp k 1 m O AN AD) E) as R. cbn [cpe_post] in R.
    destruct R as [-> HJ]. cbn [cmade_ok]. exists lx, ly. split; [exact X|]. split; [exact Y|].
    split; [exact HJ|]. intros u w z U0 U1 W0 W1 Z0 Z1 H. cbn [unread fold_right].
    apply F; auto. now apply cv_pe_back.
  - clear E. unfold c_prime_ingest in H.
    destruct (clog_egest k e x) as [[o x']|?|] eqn:E; try discriminate; cbn [bind] in H.
    assert (R : returns (fun f => clog_egest k f x) (o, x')).
    { unfold returns. rewrite <- E. apply egest_settles. rewrite E. discriminate. }
    destruct o as [s|].
    + destruct (match s with Amplify => c_amplify_x k m | Uncover => c_uncover_x k m end) as [m1| |] eqn:G1;
        try discriminate; cbn [bind] in H. apply ingest_x_ok in G1.
      destruct (clog_egest k e y) as [[o y']|?|] eqn:E2; try discriminate; cbn [bind] in H.
      assert (R2 : returns (fun f => clog_egest k f y) (o, y')).
      { unfold returns. rewrite <- E2. apply egest_settles. rewrite E2. discriminate. }
      destruct o as [t|].
      * destruct (match t with Amplify => c_amplify_y k m1 | Uncover => c_uncover_y k m1 end) as [m2| |] eqn:G2;
          try discriminate; cbn [bind] in H. apply ingest_y_ok in G2.
        apply (IH (lx ++ [s]) (ly ++ [t]) x' y' m2); auto; [eapply egests_snoc; eauto..|].
        eapply cfollows_round; eauto.
      * destruct (c_value_at_end_of_y k m1) as [q| |]; try discriminate; cbn [bind] in H.
        destruct (h_new k (clog_egest k e) n (NOther None x') _ _ _ _) as [[[[sp p] r] h]| |]; try discriminate; cbn [bind] in H.
        injection H as <-. exact I.
    + destruct (c_value_at_end_of_x k m) as [q| |]; try discriminate; cbn [bind] in H.
      destruct (h_new k (clog_egest k e) n (NOther None y) _ _ _ _) as [[[[sp p] r] h]| |]; try discriminate; cbn [bind] in H.
      injection H as <-. exact I.
Qed.

Definition not_combine (c : clog) : Prop := forall x y m, c <> CCombine x y m.

Lemma combine_made k f px cx py cy nxy nx ny n dxy dx dy d p c : ovf k = true ->
  number_combine k f (NOther px cx) (NOther py cy) nxy nx ny n dxy dx dy d = Ok (NOther p c) ->
  not_combine c \/ exists x y m lx ly, c = CCombine x y m /\ egests k cx lx x /\ egests k cy ly y /\
    cheld (CC nxy nx ny n dxy dx dy d) px lx py ly p [] m.
Proof.
  intros O H. unfold number_combine, c_new in H. cbn [unwrap_other bind] in H.
  destruct (c_absorb_primer_x k px (CC nxy nx ny n dxy dx dy d)) as [m1| |] eqn:E1; try discriminate; cbn [bind] in H.
  destruct (c_absorb_primer_y k py m1) as [m2| |] eqn:E2; try discriminate; cbn [bind] in H.
  pose proof (wp_ok _ _ _ _ (cabsorb_x_wp k 1 px _ O) E1) as A1. cbv beta in A1.
  pose proof (wp_ok _ _ _ _ (cabsorb_y_wp k 1 py _ O) E2) as A2. cbv beta in A2.
  destruct (c_prime k (clog_egest k f) f cx cy m2) as [v| |] eqn:E; try discriminate; cbn [bind] in H.
  assert (F : cfollows (CC nxy nx ny n dxy dx dy d) px [] py [] m2).
  { intros u w z U0 U1 W0 W1 V. cbn [unread fold_right]. apply cv_absorbed_back; auto. rewrite <- A1.
    apply cv_swap_back. apply cv_absorbed_back; auto. rewrite <- A2. now apply cv_swap. }
  pose proof (c_prime_enough k f cx cy _ px py O f [] [] cx cy m2 v (egests_nil _ _) (egests_nil _ _) F E) as G.
  destruct v as [[[[[s|] p'] [r|]] [[xh mh]|]] [[[x y] m]|]]; try discriminate;
    injection H as <- <-; try (left; intros ? ? ? Z; discriminate).
  cbn [cmade_ok] in G. destruct G as (lx & ly & G). right. exists x, y, m, lx, ly. tauto.
Qed.

Lemma not_combine_egest k f : forall c o c', not_combine c -> clog_egest k f c = Ok (o, c') -> not_combine c'.
Proof.
  induction f as [|f IH]; intros c o c' N H; [discriminate|]. cbn [clog_egest] in H.
  destruct c as [r|x m|x y m]; [| |exfalso; now apply (N x y m)]; cbn [strategy_egest] in H.
  - destruct (ratio_egest k r) as [[o' r']| |]; try discriminate. cbn [bind] in H. injection H as <- <-.
    intros ? ? ? Z; discriminate.
  - destruct (h_egest k (clog_egest k f) f x m) as [v| |] eqn:E; try discriminate. cbn [bind] in H.
    assert (V : match v with Emit _ c | Become c => not_combine c end).
    { clear H IH N. revert x m E. generalize f at 2. intro n. induction n as [|n IH]; intros x m E; [discriminate|].
      cbn [h_egest] in E.
      destruct (h_are_singularities_outside_domain k m) as [out| |]; try discriminate; cbn [bind] in E.
      destruct (if out then h_reduction_egest k m else Ok None) as [[[o2 m']|]| |]; try discriminate; cbn [bind] in E.
      - injection E as <-. intros ? ? ? Z; discriminate.
      - destruct (h_reduction_ingest k (clog_egest k f) x m) as [[r|[x' m']]| |]; try discriminate; cbn [bind] in E.
        + injection E as <-. intros ? ? ? Z; discriminate.
        + eapply IH; eauto. }
    destruct v as [o' c1|c1]; [injection H as <- <-; exact V|]. eapply IH; eauto.
Qed.

Lemma not_combine_egests k c l c' : egests k c l c' -> not_combine c -> not_combine c'.
Proof.
  induction 1 as [c|c s c1 l c' R X IH]; intro N; auto. apply IH. destruct R as [F R].
  specialize (R F (le_n F)). cbv beta in R. eapply not_combine_egest; eauto.
Qed.

Definition cegested_ok (k : cfg) (x0 y0 : clog) (m0 : ccoef) (px : option primer) (lx : list reduction)
    (py : option primer) (ly : list reduction) (p : option primer) (l : list reduction) (v : egested) : Prop :=
  match v with
  | Emit o c => exists s x y m ex ey, o = Some s /\ c = CCombine x y m /\ egests k x0 ex x /\ egests k y0 ey y /\
      cheld m0 px (lx ++ ex) py (ly ++ ey) p (l ++ [s]) m
  | Become c => not_combine c
  end.

Lemma c_egest_enough k e x0 y0 m0 px lx py ly p l (O : ovf k = true) n : forall ex ey x y m v,
  egests k x0 ex x -> egests k y0 ey y -> cheld m0 px (lx ++ ex) py (ly ++ ey) p l m ->
  c_egest k (clog_egest k e) n x y m = Ok v -> cegested_ok k x0 y0 m0 px lx py ly p l v.
Proof.
  induction n as [|n IH]; intros ex ey x y m v X Y Hd H; [discriminate|]. cbn [c_egest] in H.
  pose proof (proj1 Hd) as HJ.
  destruct (c_are_singularities_outside_domain k m) as [out| |] eqn:Sing; try discriminate; cbn [bind] in H.
  destruct (if out then c_reduction_egest k m else Ok None) as [[[o m']|]| |] eqn:E; try discriminate; cbn [bind] in H.
  - injection H as <-. destruct out; [|discriminate].
    pose proof (wp_ok _ _ _ _ (c_reduction_egest_wp k 1 m O HJ) E) as R. cbn [cre_post] in R.
    destruct o as [s|]; [|contradiction]. cbn [cegested_ok]. exists s, x, y, m', ex, ey.
    split; [reflexivity|]. split; [reflexivity|]. split; [exact X|]. split; [exact Y|].
    apply (cheld_given _ _ _ _ _ _ _ m); auto; destruct s; tauto.
  - clear E. destruct (c_reduction_ingest k (clog_egest k e) n x y m) as [g| |] eqn:G; try discriminate; cbn [bind] in H.
    destruct g as [[r h]|[[x' y'] m']].
    + destruct r as [r|]; destruct h as [[z q]|]; try discriminate; injection H as <-; intros ? ? ? Z; discriminate.
    + unfold c_reduction_ingest in G.
      destruct (clog_egest k e x) as [[o x1]|?|] eqn:E; try discriminate; cbn [bind] in G.
      assert (R : returns (fun f => clog_egest k f x) (o, x1)).
      { unfold returns. rewrite <- E. apply egest_settles. rewrite E. discriminate. }
      destruct o as [s|].
      * destruct (match s with Amplify => c_amplify_x k m | Uncover => c_uncover_x k m end) as [m1| |] eqn:G1;
          try discriminate; cbn [bind] in G. apply ingest_x_ok in G1.
        destruct (clog_egest k e y) as [[o y1]|?|] eqn:E2; try discriminate; cbn [bind] in G.
        assert (R2 : returns (fun f => clog_egest k f y) (o, y1)).
        { unfold returns. rewrite <- E2. apply egest_settles. rewrite E2. discriminate. }
        destruct o as [t|].
        -- destruct (match t with Amplify => c_amplify_y k m1 | Uncover => c_uncover_y k m1 end) as [m2| |] eqn:G2;
             try discriminate; cbn [bind] in G. apply ingest_y_ok in G2. injection G as <- <- <-.
           apply (IH (ex ++ [s]) (ey ++ [t]) x1 y1 m2); auto; [eapply egests_snoc; eauto..|].
           rewrite !app_assoc. eapply cheld_round; eauto.
        -- exfalso. destruct (c_value_at_end_of_y k m1) as [q| |]; try discriminate; cbn [bind] in G.
           destruct (c_shutdown k x1) as [nx'| |]; try discriminate; cbn [bind] in G.
           destruct (h_new k (clog_egest k e) n nx' _ _ _ _) as [[[[[sp|] [p1|]] r] h]| |]; discriminate.
      * exfalso. destruct (c_value_at_end_of_x k m) as [q| |]; try discriminate; cbn [bind] in G.
        destruct (c_shutdown k y) as [nx'| |]; try discriminate; cbn [bind] in G.
        destruct (h_new k (clog_egest k e) n nx' _ _ _ _) as [[[[[sp|] [p1|]] r] h]| |]; discriminate.
Qed.

Lemma egests_cheld k cx cy m0 px py p c l c' : ovf k = true -> egests k c l c' -> forall x y m lx ly l0 x' y' m',
  c = CCombine x y m -> c' = CCombine x' y' m' -> egests k cx lx x -> egests k cy ly y ->
  cheld m0 px lx py ly p l0 m ->
  exists lx' ly', egests k cx lx' x' /\ egests k cy ly' y' /\ cheld m0 px lx' py ly' p (l0 ++ l) m'.
Proof.
  intros O. induction 1 as [c|c s c1 l c' R X IH]; intros x y m lx ly l0 x' y' m' E E' Xx Xy Hd.
  - subst c. injection E' as -> -> ->. exists lx, ly. rewrite app_nil_r. auto.
  - subst c. destruct R as [[|F] R]; [specialize (R 0%nat (le_n _)); discriminate|].
    specialize (R (S F) (le_n _)). cbv beta in R. cbn [clog_egest strategy_egest] in R.
    destruct (c_egest k (clog_egest k F) F x y m) as [v| |] eqn:E; try discriminate. cbn [bind] in R.
    assert (G : cegested_ok k x y m0 px lx py ly p l0 v).
    { apply (c_egest_enough k F x y m0 px lx py ly p l0 O F [] [] x y m v); auto; [constructor|constructor|].
      now rewrite !app_nil_r. }
    destruct v as [o c2|c2]; cbn [cegested_ok] in G.
    + injection R as -> ->. destruct G as (s' & x1 & y1 & m1 & ex & ey & S0 & -> & X1 & Y1 & Hd1). injection S0 as <-.
      change (s :: l) with ([s] ++ l). rewrite app_assoc.
      eapply IH; eauto; eapply egests_app; eauto.
    + exfalso. apply not_combine_egest in R; auto. apply (not_combine_egests _ _ _ _ X) in R. subst c'.
      now apply (R x' y' m').
Qed.

Theorem enough_read2 k f px cx py cy nxy nx ny n dxy dx dy d p c l x y m : ovf k = true ->
  number_combine k f (NOther px cx) (NOther py cy) nxy nx ny n dxy dx dy d = Ok (NOther p c) ->
  egests k c l (CCombine x y m) ->
  exists lx ly, egests k cx lx x /\ egests k cy ly y /\
    forall q r, begins q px lx -> begins r py ly ->
      ~ comb_num dxy dx dy d q r == 0 /\ begins (comb nxy nx ny n dxy dx dy d q r) p l.
Proof.
  intros O H X. apply combine_made in H; auto. destruct H as [N|(x0 & y0 & m0 & lx & ly & -> & Xx & Xy & Hd)].
  - exfalso. apply (not_combine_egests _ _ _ _ X) in N. now apply (N x y m).
  - destruct (egests_cheld k cx cy _ px py p _ _ _ O X x0 y0 m0 lx ly [] x y m eq_refl eq_refl Xx Xy Hd)
      as (lx' & ly' & Xx' & Xy' & Hd').
    exists lx', ly'. split; [exact Xx'|]. split; [exact Xy'|]. intros q r Hq Hr.
    exact (cheld_enough _ _ _ _ _ _ _ _ q r Hd' Hq Hr).
Qed.
