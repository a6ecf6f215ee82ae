(** * SmallProofs: small fractions do not overflow (debug build). *)

From Coq Require Import ZArith QArith Qfield List Lia Lqa Psatz Bool.
From Verif Require Import Machine Protocol Support Types Ratio Homographic Combine Lib Spec SpecSmall
  SeqProofs Good RatioProofs SupportProofs HomProofs HomValue HomGood CombProofs CombValue CombGood LibProofs
  ApiProofs ArithProofs BuildProofs LengthProofs.
Import ListNotations.
Open Scope Z_scope.

Definition No : panic -> Prop := fun _ => False.

(** ** The operand as a fraction, symbol by symbol *)

Lemma frac_amplify a b l : 0 < a < b -> clog_seq (zq a / zq b) (Amplify :: l) ->
  0 < 2 * a < b /\ clog_seq (zq (2 * a) / zq b) l.
Proof.
  intros P S. inversion S as [|v l' A B S'|]; subst. assert (PB : (0 < zq b)%Q) by (apply zq_pos; lia).
  apply div_lt_iff in B; auto. split.
  - split; [lia|]. apply zq_lt. rewrite zq_mul, zq_2. lra.
  - eapply clog_seq_compat; [exact S'|]. rewrite zq_mul, zq_2. field. now apply Qlt_neq.
Qed.

Lemma frac_uncover a b l : 0 < a < b -> clog_seq (zq a / zq b) (Uncover :: l) ->
  0 < b - a < a /\ clog_seq (zq (b - a) / zq a) l.
Proof.
  intros P S. inversion S as [| |v l' A B S']; subst. assert (PB : (0 < zq b)%Q) by (apply zq_pos; lia).
  assert (PA : (0 < zq a)%Q) by (apply zq_pos; lia). apply lt_div_iff in A; auto. split.
  - split; [lia|]. apply zq_lt. rewrite zq_sub. lra.
  - eapply clog_seq_compat; [exact S'|]. rewrite zq_sub. field. split; now apply Qlt_neq.
Qed.

Lemma frac_end a b : 0 < a < b -> clog_seq (zq a / zq b) [] -> b = 2 * a.
Proof.
  intros P S. inversion S as [v A| |]; subst. assert (PB : (0 < zq b)%Q) by (apply zq_pos; lia).
  apply div_eq_iff in A; [|now apply Qlt_neq]. apply zq_eq. rewrite zq_mul, zq_2. lra.
Qed.

Lemma amps_cons s l : amps (s :: l) = match s with Amplify => S (amps l) | Uncover => amps l end.
Proof. destruct s; reflexivity. Qed.

Lemma hroom_amplified k L l : hroom k (L * 2 ^ Z.of_nat (amps (Amplify :: l))) -> hroom k (2 * L * 2 ^ Z.of_nat (amps l)).
Proof. rewrite amps_cons. now rewrite pow_step. Qed.

(** ** Homographic *)

(** The denominator of the value, with that of the operand. *)
Definition hden (m : hcoef) (a b : Z) : Z := Z.abs (h_dx m * a + h_d m * b).

Definition weighed (k : cfg) (m : hcoef) (lx : list reduction) : Prop :=
  exists a b L, 0 < a < b /\ clog_seq (zq a / zq b) lx /\ hden m a b <= L /\ hroom k (L * 2 ^ Z.of_nat (amps lx)).

(** Before the primer: sizes of the coefficients, and what they come to. *)
Definition sized (m : hcoef) (a b L : Z) : Prop := exists c1 c2,
  (Z.abs (h_nx m) <= c1 /\ Z.abs (h_dx m) <= c1) /\ (Z.abs (h_n m) <= c2 /\ Z.abs (h_d m) <= c2) /\ c1 * a + c2 * b <= L.

Definition pweighed (k : cfg) (m : hcoef) (lx : list reduction) : Prop :=
  exists a b L, 0 < a < b /\ clog_seq (zq a / zq b) lx /\ sized m a b L /\ hroom k (L * 2 ^ Z.of_nat (amps lx)).

(** Strictly inside at both ends. *)
Definition inside (m : hcoef) : Prop :=
  (0 < h_n m < h_d m /\ 0 < h_n m + h_nx m < h_d m + h_dx m) \/
  (h_d m < h_n m < 0 /\ h_d m + h_dx m < h_n m + h_nx m < 0).

Lemma inside_J m : inside m -> J m.
Proof. unfold inside, J. lia. Qed.

(** The value of a linear function, from those at the ends. *)
Lemma ends_le d x a b : 0 < a < b -> 0 <= d -> 0 <= d + x -> d <= x * a + d * b /\ d + x <= x * a + d * b.
Proof. intros. replace (x * a + d * b) with (d * (b - a) + (d + x) * a) by ring. nia. Qed.

Lemma ends_sum d x a b : 0 < a < b -> 0 <= d -> 0 <= d + x -> d + (d + x) <= x * a + d * b.
Proof. intros. replace (x * a + d * b) with (d * (b - a) + (d + x) * a) by ring. nia. Qed.

Lemma J_bound m a b L : J m -> 0 < a < b -> hden m a b <= L -> hbound L m.
Proof.
  unfold J, hden, hbound. intros [H|H] P X.
  - pose proof (ends_sum (h_d m) (h_dx m) a b P ltac:(lia) ltac:(lia)). lia.
  - pose proof (ends_sum (- h_d m) (- h_dx m) a b P ltac:(lia) ltac:(lia)) as Y.
    replace (- h_dx m * a + - h_d m * b) with (- (h_dx m * a + h_d m * b)) in Y by ring. lia.
Qed.

Lemma weighed_fits k m lx : J m -> weighed k m lx -> fits k No m 0.
Proof.
  intros HJ (a & b & L & P & _ & X & R). right. exists L. split; [eapply J_bound; eauto|].
  destruct (hroom_pow _ _ _ R) as [_ R']. now rewrite Z.mul_1_r.
Qed.

Lemma sized_bound m a b L : 0 < a < b -> sized m a b L -> hbound L m.
Proof. intros P (c1 & c2 & [A B] & [C D] & X). unfold hbound. assert (0 <= c1 /\ 0 <= c2) by lia. nia. Qed.

Lemma pweighed_fits k m lx : pweighed k m lx -> fits k No m 0.
Proof.
  intros (a & b & L & P & _ & X & R). right. exists L. split; [eapply sized_bound; eauto|].
  destruct (hroom_pow _ _ _ R) as [_ R']. now rewrite Z.mul_1_r.
Qed.

Lemma weighed_ingested k s m m' l : weighed k m (s :: l) -> ingested s m m' -> weighed k m' l.
Proof.
  intros (a & b & L & P & S & X & R) I. unfold hden in X. destruct s; simpl in I.
  - destruct (frac_amplify a b l P S) as [P' S']. exists (2 * a), b, (2 * L).
    split; [exact P'|]. split; [exact S'|]. split; [|now apply hroom_amplified].
    unfold hden. destruct I as [(_ & _ & -> & ->)|(_ & _ & E & ->)].
    + replace (h_dx m * (2 * a) + 2 * h_d m * b) with (2 * (h_dx m * a + h_d m * b)) by ring. lia.
    + replace (h_dx m' * (2 * a)) with (h_dx m * a) by (rewrite <- E; ring). lia.
  - unfold ingested_uncover in I. subst m'. destruct (frac_uncover a b l P S) as [P' S']. exists (b - a), a, L.
    split; [exact P'|]. split; [exact S'|]. split; [|exact R]. unfold hden; hc.
    replace (h_d m * (b - a) + (h_dx m + h_d m) * a) with (h_dx m * a + h_d m * b) by ring. exact X.
Qed.

Lemma sized_ingested k s m m' l a b L : 0 < a < b -> clog_seq (zq a / zq b) (s :: l) -> sized m a b L ->
  hroom k (L * 2 ^ Z.of_nat (amps (s :: l))) -> ingested s m m' -> pweighed k m' l.
Proof.
  intros P S (c1 & c2 & [A B] & [C D] & X) R I. assert (0 <= c1 /\ 0 <= c2) as [C1 C2] by lia. destruct s; simpl in I.
  - destruct (frac_amplify a b l P S) as [P' S']. exists (2 * a), b, (2 * L).
    split; [exact P'|]. split; [exact S'|]. split; [|now apply hroom_amplified].
    exists c1, (2 * c2). split; [|split].
    + destruct I as [(-> & _ & -> & _)|(E1 & _ & E2 & _)]; lia.
    + destruct I as [(_ & -> & _ & ->)|(_ & -> & _ & ->)]; lia.
    + replace (c1 * (2 * a) + 2 * c2 * b) with (2 * (c1 * a + c2 * b)) by ring. lia.
  - unfold ingested_uncover in I. subst m'. destruct (frac_uncover a b l P S) as [P' S']. exists (b - a), a, L.
    split; [exact P'|]. split; [exact S'|]. split; [|exact R]. exists c2, (c1 + c2); hc.
    split; [lia|]. split; [lia|]. replace (c2 * (b - a) + (c1 + c2) * a) with (c1 * a + c2 * b) by ring. exact X.
Qed.

Lemma pweighed_ingested k s m m' l : pweighed k m (s :: l) -> ingested s m m' -> pweighed k m' l.
Proof. intros (a & b & L & P & S & X & R) I. eapply sized_ingested; eauto. Qed.

Lemma abs_lin x d c1 c2 a b : 0 < a < b -> Z.abs x <= c1 -> Z.abs d <= c2 -> Z.abs (x * a + d * b) <= c1 * a + c2 * b.
Proof. intros P A B. assert (Z.abs (x * a) <= c1 * a /\ Z.abs (d * b) <= c2 * b) by (rewrite !Z.abs_mul; nia). lia. Qed.

Lemma pweighed_pe k m p lx : pweighed k m lx -> weighed k (pe_rel m p) lx.
Proof.
  intros (a & b & L & P & S & (c1 & c2 & [A B] & [C D] & X) & R). exists a, b, L.
  split; [exact P|]. split; [exact S|]. split; [|exact R]. unfold hden.
  destruct p as [[]|]; cbn [pe_rel]; hc; (eapply Z.le_trans; [apply (abs_lin _ _ c1 c2); auto|exact X]).
Qed.

Lemma weighed_doubled k m m' lx : weighed k m lx -> doubled m m' -> weighed k m' lx.
Proof.
  intros (a & b & L & P & S & X & R) D. exists a, b, L. split; [exact P|]. split; [exact S|]. split; [|exact R].
  unfold hden in *. destruct D as [(_ & _ & -> & ->)|(_ & _ & E & F)]; auto.
  assert (2 * (h_dx m' * a + h_d m' * b) = h_dx m * a + h_d m * b) by (rewrite <- E, <- F; ring). lia.
Qed.

(** The numerator is not above the denominator. *)
Lemma J_num m a b : J m -> 0 < a < b -> Z.abs (h_nx m * a + h_n m * b) <= hden m a b.
Proof.
  unfold J, hden. intros H P.
  replace (h_nx m * a + h_n m * b) with (h_n m * (b - a) + (h_n m + h_nx m) * a) by ring.
  replace (h_dx m * a + h_d m * b) with (h_d m * (b - a) + (h_d m + h_dx m) * a) by ring.
  set (e := b - a) in *. set (n1 := h_n m + h_nx m) in *. set (d1 := h_d m + h_dx m) in *.
  assert (0 < e) by (unfold e; lia). clearbody e n1 d1. destruct H as [H|H].
  - rewrite !Z.abs_eq by nia. nia.
  - rewrite !Z.abs_neq by nia. nia.
Qed.

Lemma weighed_uncovered k m lx : J m -> weighed k m lx ->
  weighed k (HC (h_dx m - h_nx m) (h_d m - h_n m) (h_nx m) (h_n m)) lx.
Proof.
  intros HJ (a & b & L & P & S & X & R). exists a, b, L. split; [exact P|]. split; [exact S|]. split; [|exact R].
  pose proof (J_num m a b HJ P). unfold hden in *; hc. lia.
Qed.

(** Strictly inside, the primer is settled. *)
Lemma inside_primer k m : ovf k = true -> inside m -> h_primer_egest k m <> Ok None.
Proof.
  intros O K H. unfold h_primer_egest in H.
  pose proof (image_wp k 1 m O) as IW. destruct (h_image_extremes k m) as [r| |]; try discriminate. cbn [wp] in IW.
  destruct r as [[[amin bmin] amax] bmax]. cbn [bind] in H.
  destruct IW as [[Z0 X]|[NZ X]]; [exfalso; unfold inside in K; lia|].
  destruct X as (a0 & b0 & a1 & b1 & N0 & N1 & X).
  assert (B0 : 0 < a0 < b0) by (clear - K N0; unfold inside, nz in *; lia).
  assert (B1 : 0 < a1 < b1) by (clear - K N1; unfold inside, nz in *; lia).
  assert (M : 0 < amin < bmin /\ 0 < amax < bmax).
  { destruct X as [[_ E]|[[_ E]|[_ E]]]; injection E as -> -> -> ->; auto. }
  clear - O M H. destruct M as [Mi Ma].
  assert (F : (amin =? 0) && (bmin =? 0) = false) by (destruct (Z.eqb_spec amin 0); auto; lia).
  rewrite F in H; clear F. unfold andm at 1 in H. cbn [bind] in H.
  pose proof (is_special_wp k amin bmin O ltac:(lia)) as W.
  destruct (is_special k amin bmin) as [sp|q|] eqn:Sp; cbn [wp] in W.
  2,3: destruct (are_same amin bmin amax bmax); cbn [bind] in H; [discriminate|].
  all: try contradiction.
  1: assert (sp = false) as -> by (destruct sp; auto; destruct W as [W _]; specialize (W eq_refl); lia).
  1: assert (E : (if are_same amin bmin amax bmax then Ok false else Ok false) = Ok false) by (destruct (are_same amin bmin amax bmax); auto).
  1: rewrite E in H; clear E; cbn [bind] in H.
  all: clear W; unfold notm in H;
    pose proof (greater_than_minus_one_wp k amax bmax O ltac:(lia)) as W;
    destruct (greater_than_minus_one k amax bmax) as [g1| |]; try discriminate; cbn [wp bind] in *;
    (assert (g1 = true) as -> by (rewrite W; destruct (Z.eqb_spec bmax 0); apply Z.ltb_lt; lia)); clear W;
    cbn [negb] in H;
    (assert (E : less_than_one amin bmin = true) by
      (unfold less_than_one; destruct (Z.ltb_spec 0 bmin); [apply Z.ltb_lt; lia|lia])); rewrite E in H; clear E;
    cbn [negb] in H;
    pose proof (less_than_minus_one_wp k amin bmin O ltac:(lia)) as W;
    destruct (less_than_minus_one k amin bmin) as [g1| |]; try discriminate; cbn [wp bind] in *;
    (assert (g1 = false) as -> by (rewrite W; destruct (Z.eqb_spec bmin 0); apply Z.ltb_ge; lia)); clear W;
    unfold andm in H; cbn [negb bind] in H;
    (assert (E : greater_than_zero amax bmax = true) by
      (unfold greater_than_zero; rewrite (proj2 (Z.leb_le 0 bmax)) by lia; apply Z.ltb_lt; lia)); rewrite E in H; clear E;
    cbn [negb bind] in H;
    (assert (E : less_than_zero amin bmin = false) by
      (unfold less_than_zero; rewrite (proj2 (Z.leb_le 0 bmin)) by lia; apply Z.ltb_ge; lia)); rewrite E in H; clear E;
    (assert (E : greater_than_one amax bmax = false) by
      (unfold greater_than_one; destruct (Z.ltb_spec 0 bmax); [apply Z.ltb_ge; lia|lia])); rewrite E in H;
    discriminate.
Qed.

Section Hom.
  Variable k : cfg.
  Hypothesis O : ovf k = true.

  Definition hom_safe (x : clog) (m : hcoef) (z : Q) (lz : list reduction) : Prop :=
    exists lx v, good k No x lx /\ clog_seq v lx /\ J m /\ hv m v z /\ clog_seq z lz /\ weighed k m lx.

  Definition hom_then (z : Q) (lz : list reduction) (e : egested) : Prop :=
    match e with
    | Emit o (CHomographic x m) =>
        match lz with
        | [] => o = None /\ h_are_singularities_outside_domain k m = Ok true
                /\ h_reduction_egest k m = Ok (Some (None, m))
        | s :: lz' => o = Some s /\ exists z', hom_safe x m z' lz'
        end
    | Become (CRatio r) => rat_ok k r z
    | _ => False
    end.

  Lemma h_egest_safe lz z : forall lx x m v, good k No x lx -> clog_seq v lx -> J m -> hv m v z ->
    clog_seq z lz -> weighed k m lx ->
    ev2 (fun i j => h_egest k (clog_egest k i) j x m) (hom_then z lz) No.
  Proof.
    induction lx as [|s l IH]; intros x m v G S HJ H Sz Wt;
      destruct (clog_seq_range _ _ S) as [V0 V1]; destruct (clog_seq_range _ _ Sz) as [Z0 Z1].
    all: pose proof (weighed_fits k m _ HJ Wt) as F.
    all: apply ev2_S; cbn [h_egest].
    all: apply ev2_step; destruct (h_are_singularities_outside_domain k m) as [out|p|] eqn:Es;
      [ | apply (fits_tight _ _ _ _ _ F); intros B T; pose proof (sing_wp k B m) as W;
          rewrite Es in W; cbn [wp] in *; auto
        | pose proof (sing_wp k 0 m) as W; rewrite Es in W; exact W ].
    all: cbn [wp]; assert (out = true) as -> by
      (pose proof (sing_wp k 0 m) as W; rewrite Es in W; cbn [wp] in W; apply W, J_amen, HJ).
    all: apply ev2_step; destruct (h_reduction_egest k m) as [eg|p|] eqn:Er;
      [ | apply (fits_tight _ _ _ _ _ F); intros B T;
          pose proof (reduction_egest_wp k B m O HJ) as W; rewrite Er in W; cbn [wp] in *; auto
        | pose proof (reduction_egest_wp k 0 m O HJ) as W; rewrite Er in W; exact W ].
    all: cbn [wp].
    all: destruct eg as [[o m']|].
    1,3: apply ev2_const; cbn [wp].
    1,2: assert (P0 : re_post 0 m (Some (o, m'))) by
      (pose proof (reduction_egest_wp k 0 m O HJ) as W; rewrite Er in W; exact W).
    1,2: destruct o as [[]|]; cbn [re_post] in P0.
    (* amplify *)
    1,4: destruct P0 as (J' & D & NH & _);
         destruct (re_amplify m m' v z J' D NH H V0 V1) as [Hz H'];
         pose proof (seq_cases _ _ Sz) as Cz;
         destruct lz as [|[|] lz]; [exfalso; lra | | exfalso; lra]; destruct Cz as [_ Sz'];
         cbn [hom_then]; split; [reflexivity|];
         exists (2 * z)%Q;
         unfold hom_safe; eexists; exists v; split; [exact G|]; split; [exact S|];
         split; [exact J'|]; split; [exact H'|]; split; [assumption|];
         eapply weighed_doubled; eauto.
    (* uncover *)
    1,3: destruct P0 as (J' & D & NH & _); subst m';
         destruct (re_uncover m v z J' NH H Z0 V0 V1) as [Hz H'];
         pose proof (seq_cases _ _ Sz) as Cz;
         destruct lz as [|[|] lz]; [exfalso; lra | exfalso; lra |]; destruct Cz as [_ Sz'];
         cbn [hom_then]; split; [reflexivity|];
         exists (/ z - 1)%Q;
         unfold hom_safe; eexists; exists v; split; [exact G|]; split; [exact S|];
         split; [exact J'|]; split; [exact H'|]; split; [assumption|];
         now apply weighed_uncovered.
    (* one half *)
    1,2: destruct P0 as [-> He]; pose proof (half_ends_value m v z He H) as Hz;
         pose proof (seq_cases _ _ Sz) as Cz;
         destruct lz as [|[|] lz]; [ | exfalso; lra | exfalso; lra];
         cbn [hom_then]; auto.
    (* ingestion *)
    - eapply (ev2_bind (fun i _ => h_reduction_ingest k (clog_egest k i) x m)
        (fun i j ing => match ing with
                        | inl r => Ok (Become (CRatio r))
                        | inr (x', m') => h_egest k (clog_egest k i) j x' m' end)).
      eapply ev2_mono; [apply (reduction_ingest_ev k O No x [] m v z _ G S H Z0 Z1 F) | | auto].
      intros [r|[x' m']] R.
      + apply ev2_const. exact R.
      + destruct R as (s & l & v' & X & _). discriminate.
    - eapply (ev2_bind (fun i _ => h_reduction_ingest k (clog_egest k i) x m)
        (fun i j ing => match ing with
                        | inl r => Ok (Become (CRatio r))
                        | inr (x', m') => h_egest k (clog_egest k i) j x' m' end)).
      eapply ev2_mono; [apply (reduction_ingest_ev k O No x (s :: l) m v z _ G S H Z0 Z1 F) | | auto].
      intros [r|[x' m']] R.
      + apply ev2_const. exact R.
      + destruct R as (s' & l' & v' & X & G' & S' & H' & I & Gr). inversion X; subst s' l'.
        apply (IH x' m' v' G' S' (J_ingested _ _ _ HJ I) H' Sz).
        eapply weighed_ingested; eauto.
  Qed.

  Lemma hom_safe_good lz : forall x m z, hom_safe x m z lz -> good k No (CHomographic x m) lz.
  Proof.
    induction lz as [|s lz IH]; intros x m z (lx & v & G & S & HJ & H & Sz & F).
    all: assert (W := h_egest_safe _ z lx x m v G S HJ H Sz F); apply ev2_diag in W.
    all: cbn [good]; apply ev_S; cbn [clog_egest strategy_egest].
    all: apply (ev_bind (fun n => h_egest k (clog_egest k n) n x m)
            (fun n r => match r with
                      | Emit o s' => Ok (o, s')
                      | Become s' => clog_egest k n s' end)).
    all: eapply ev_mono; [exact W | | auto].
    all: intros [o c|c] P; cbn [hom_then] in P; destruct c as [r|x' m'|]; try contradiction.
    - destruct P as (-> & Es & Er). apply ev_const. cbn. split; auto.
      exists 2%nat. intros [|[|n]] Hn; try lia. cbn [clog_egest strategy_egest h_egest].
      rewrite Es. cbn [bind]. rewrite Er. reflexivity.
    - pose proof (ratio_good k No [] r z P Sz) as Gr. exact Gr.
    - destruct P as (-> & z' & St). apply ev_const. cbn. split; auto. eapply IH; eauto.
    - pose proof (ratio_good k No (s :: lz) r z P Sz) as Gr. exact Gr.
  Qed.

  (** One round of [prime]: what remains when no primer is settled. *)
  Lemma h_prime_safe z : forall lx x m v, good k No x lx -> clog_seq v lx -> hv m v z -> pweighed k m lx ->
    ev2 (fun i j => h_prime k (clog_egest k i) j x m) (made_ok k No z) No.
  Proof.
    induction lx as [|s l IH]; intros x m v G S H Wt;
      destruct (clog_seq_range _ _ S) as [V0 V1].
    all: pose proof (pweighed_fits k m _ Wt) as F.
    all: apply ev2_S; cbn [h_prime].
    all: apply ev2_step; apply (fits_tight _ _ _ _ _ F); intros B T;
      (eapply wp_mono; [apply (sing_wp k B m) | | exact T]); intros out Hout.
    all: apply ev2_step;
      assert (W : wp (pe_post m) No (if out then h_primer_egest k m else Ok None)) by
       (destruct out; [|exact I]; destruct (proj1 Hout eq_refl) as [AN AD];
        eapply wp_mono; [apply (primer_egest_wp k B m O AN AD (hv_den _ _ _ H)) | auto | exact T]);
      (eapply wp_mono; [exact W | | auto]); intros [[p m']|] Post.
    1,3: apply ev2_const; cbn [wp pe_post] in *; destruct Post as (-> & HJ & N0 & N1);
      destruct (hv_pe m p v z H V0 V1 HJ N0 N1) as (z' & H' & Z0 & Z1 & Hz);
      destruct (clog_seq_ex z' Z0 Z1) as [lz Sz];
      exists z', lz; split; [exact Sz|]; split; [exact Hz|];
      apply (hom_safe_good lz x _ z'); unfold hom_safe; eexists; exists v;
      split; [exact G|]; split; [exact S|]; split; [exact HJ|]; split; [exact H'|];
      split; [exact Sz|]; now apply pweighed_pe.
    - eapply (ev2_bind (fun i _ => h_prime_ingest k (clog_egest k i) x m)
        (fun i j ing => match ing with
                        | inl (special, p, r) => Ok (special, p, r, None)
                        | inr (x', m') => h_prime k (clog_egest k i) j x' m' end)).
      eapply ev2_mono; [apply (prime_ingest_ev k O No x [] m v z _ G S H F) | | auto].
      intros [[[sp p] r]|[x' m']] R.
      + apply ev2_const. destruct R as [_ R]. cbn [wp]. now apply made_of_made3.
      + destruct R as (s & l & v' & X & _). discriminate.
    - eapply (ev2_bind (fun i _ => h_prime_ingest k (clog_egest k i) x m)
        (fun i j ing => match ing with
                        | inl (special, p, r) => Ok (special, p, r, None)
                        | inr (x', m') => h_prime k (clog_egest k i) j x' m' end)).
      eapply ev2_mono; [apply (prime_ingest_ev k O No x (s :: l) m v z _ G S H F) | | auto].
      intros [[[sp p] r]|[x' m']] R.
      + destruct R as [R _]. discriminate.
      + destruct R as (s' & l' & v' & X & G' & S' & H' & I & Gr). inversion X; subst s' l'.
        apply (IH x' m' v' G' S' H'). eapply pweighed_ingested; eauto.
  Qed.

  (** Strictly inside, nothing is read. *)
  Lemma h_prime_inside z lx x m v : good k No x lx -> clog_seq v lx -> hv m v z -> inside m -> weighed k m lx ->
    ev2 (fun i j => h_prime k (clog_egest k i) j x m) (made_ok k No z) No.
  Proof.
    intros G S H K Wt. destruct (clog_seq_range _ _ S) as [V0 V1].
    pose proof (weighed_fits k m _ (inside_J m K) Wt) as F.
    apply ev2_S; cbn [h_prime]. apply ev2_step.
    apply (fits_tight _ _ _ _ _ F); intros B T;
      (eapply wp_mono; [apply (sing_wp k B m) | | exact T]); intros out Hout.
    assert (out = true) as -> by (apply Hout, J_amen, inside_J, K).
    destruct (proj1 Hout eq_refl) as [AN AD].
    apply ev2_step.
    assert (W : wp (fun o => o <> None /\ pe_post m o) No (h_primer_egest k m)).
    { pose proof (primer_egest_wp k B m O AN AD (hv_den _ _ _ H)) as W. pose proof (inside_primer k m O K) as N.
      destruct (h_primer_egest k m) as [o|q|]; cbn [wp] in *; auto. split; [congruence|exact W]. }
    eapply wp_mono; [exact W | | auto]; intros [[p m']|] [N Post]; [|congruence].
    apply ev2_const; cbn [wp pe_post] in *; destruct Post as (-> & HJ & N0 & N1).
    assert (E : pe_rel m p = m \/ p <> None) by (destruct p; [right; discriminate|now left]).
    destruct (hv_pe m p v z H V0 V1 HJ N0 N1) as (z' & H' & Z0 & Z1 & Hz).
    destruct (clog_seq_ex z' Z0 Z1) as [lz Sz].
    exists z', lz; split; [exact Sz|]; split; [exact Hz|];
      apply (hom_safe_good lz x _ z'); unfold hom_safe; eexists; exists v;
      split; [exact G|]; split; [exact S|]; split; [exact HJ|]; split; [exact H'|];
      split; [exact Sz|].
    destruct Wt as (a & b & L & P & Sa & X & R). exists a, b, L. split; [exact P|]. split; [exact Sa|]. split; [|exact R].
    pose proof (J_num m a b (inside_J m K) P) as Y. unfold hden in *.
    destruct p as [[]|]; cbn [pe_rel] in *; hc; auto; lia.
  Qed.

  (** What is known of an operand. *)
  Definition frac (x : number) (q : Q) (num den : Z) (t : nat) : Prop :=
    0 < den /\ (q == zq num / zq den)%Q /\
    match x with NSpecial _ => True | NOther _ _ => forall p v l, (q == primed p v)%Q -> clog_seq v l -> (amps l <= t)%nat end.

  Lemma frac_primed q num den p v : 0 < den -> (q == zq num / zq den)%Q -> (q == primed p v)%Q -> (0 < v)%Q -> (v < 1)%Q ->
    exists a b, 0 < a < b /\ (v == zq a / zq b)%Q /\ a + b = Z.abs num + den /\
      (a, b) = match p with Some Turn | Some Ground => (den, Z.abs num) | _ => (Z.abs num, den) end.
  Proof.
    intros D E1 E2 V0 V1. rewrite E1 in E2. assert (PD : (0 < zq den)%Q) by now apply zq_pos.
    assert (ND := Qlt_neq _ PD). apply div_eq_iff in E2; auto.
    assert (A : (zq (Z.abs num) == match p with Some Turn | Some Ground => / v | _ => v end * zq den)%Q).
    { pose proof (inv_pos v V0) as IV. destruct (Z.abs_spec num) as [[S ->]|[S ->]].
      - destruct p as [[]|]; cbn [primed] in E2; auto; exfalso; apply zq_le in S; rewrite zq_0 in S; nra.
      - apply zq_lt in S. rewrite zq_0 in S. rewrite zq_opp. destruct p as [[]|]; cbn [primed] in E2; try (exfalso; nra); rewrite E2; ring. }
    assert (PN : (0 < zq (Z.abs num))%Q).
    { rewrite A. pose proof (inv_pos v V0) as IV. destruct p as [[]|]; nra. }
    assert (N0 : 0 < Z.abs num) by (apply zq_lt; rewrite zq_0; exact PN).
    destruct p as [[]|].
    1,3: exists den, (Z.abs num); split; [|split; [|split; [lia|reflexivity]]].
    3,4,5,6: idtac.
    - split; [exact D|]. apply zq_lt. rewrite A. apply (inv_lt v 1) in V1; auto. change (/ 1)%Q with 1%Q in V1. nra.
    - symmetry. apply div_eq_iff; [now apply Qlt_neq|]. rewrite A. field. now apply Qlt_neq.
    - split; [exact D|]. apply zq_lt. rewrite A. apply (inv_lt v 1) in V1; auto. change (/ 1)%Q with 1%Q in V1. nra.
    - symmetry. apply div_eq_iff; [now apply Qlt_neq|]. rewrite A. field. now apply Qlt_neq.
    - exists (Z.abs num), den. split; [split; [exact N0|]; apply zq_lt; rewrite A; nra|].
      split; [|split; [lia|reflexivity]]. symmetry. apply div_eq_iff; auto.
    - exists (Z.abs num), den. split; [split; [exact N0|]; apply zq_lt; rewrite A; nra|].
      split; [|split; [lia|reflexivity]]. symmetry. apply div_eq_iff; auto.
  Qed.

  Lemma hroom_mono B C : 1 <= B -> B <= C -> hroom k C -> hroom k B.
  Proof. apply hroom_le. Qed.

  Lemma scale_ge M s e : 1 <= M -> 1 <= s -> 1 <= e -> M <= M * s * e.
  Proof. intros. assert (M <= M * s) by nia. nia. Qed.

  Lemma fits_of m B : hbound B m -> hroom k B -> fits k No m 0.
  Proof. intros X R. right. exists B. split; [exact X|]. now rewrite Z.mul_1_r. Qed.

  (** [homographic::new]: the coefficients are at most [M]. *)
  Lemma h_new_safe x q nx n dx d z num den t M : numgood k No x q ->
    isize k nx -> isize k n -> isize k dx -> isize k d ->
    ~ (hom_num dx d q == 0)%Q -> (z == hom nx n dx d q)%Q -> frac x q num den t -> 1 <= M ->
    Z.abs nx <= M -> Z.abs dx <= M -> Z.abs n <= M -> Z.abs d <= M ->
    hroom k (M * (Z.abs num + den) * 2 ^ Z.of_nat t) ->
    ev2 (fun i j => h_new k (clog_egest k i) j x nx n dx d) (made_ok k No z) No.
  Proof.
    intros G Inx In Idx Id ND Z (D & Eq & Am) P1 B1 B2 B3 B4 R.
    assert (R1 : hroom k M).
    { eapply hroom_mono; [exact P1| |exact R]. pose proof (pow2_pos t). apply scale_ge; lia. }
    assert (F : fits k No (HC nx n dx d) 0) by (apply (fits_of _ M); [unfold hbound; hc; lia|exact R1]).
    unfold h_new. unfold hom, hom_num in *.
    destruct ((nx =? 0) && (dx =? 0)) eqn:C.
    { apply andb_true_iff in C. destruct C as [C1 C2]. apply Z.eqb_eq in C1, C2. subst nx dx.
      change (zq 0) with 0%Q in *.
      apply ev2_const. eapply (as_ratio_ev k O); eauto.
      - intro X. apply ND. rewrite X. ring.
      - rewrite Z. apply div_eq_iff; [exact ND|]. field. intro X. apply ND. rewrite X. ring. }
    destruct x as [s|p c].
    - cbn [numgood] in G.
      assert (R2 : special_val s <> 0%Q -> hroom k (2 * M)).
      { intro N. eapply hroom_mono; [lia| |exact R].
        assert (1 <= Z.abs num).
        { destruct (Z.eq_dec num 0) as [->|]; [|lia]. exfalso. rewrite G in Eq. unfold Qdiv in Eq. rewrite zq_0, Qmult_0_l in Eq.
          destruct s; cbn [special_val] in *; [discriminate Eq|now apply N|discriminate Eq]. }
        pose proof (pow2_pos t). rewrite <- Z.mul_assoc, (Z.mul_comm 2). apply Z.mul_le_mono_nonneg_l; [lia|]. nia. }
      destruct s; cbn [special_val] in G, R2.
      + apply ev2_step. apply (fits_tight _ _ _ _ _ F). intros B T.
        wps; [|apply T; tightly k B]. apply ev2_step.
        wps; [|apply T; tightly k B]. apply ev2_const.
        eapply (as_ratio_ev k O No _ _ _ 0); auto.
        * apply (fits_of _ (2 * M)); [unfold hbound; hc; lia|]. apply R2. discriminate.
        * rewrite zq_sub. intro X. apply ND. rewrite G. lra.
        * rewrite Z, G, !zq_sub. apply div_eq_iff; [intro X; apply ND; rewrite G; lra|].
          field. intro X. apply ND. rewrite G. lra.
      + apply ev2_const.
        eapply (as_ratio_ev k O No _ _ _ 0); auto.
        * eapply fits_same; [exact F|]. intros B0 X. unfold hbound in *; hc. lia.
        * intro X. apply ND. rewrite G, X. ring.
        * rewrite Z, G. apply div_eq_iff; [intro X; apply ND; rewrite G; lra|].
          field. intro X. apply ND. rewrite G. lra.
      + apply ev2_step. apply (fits_tight _ _ _ _ _ F). intros B T.
        wps; [|apply T; tightly k B]. apply ev2_step.
        wps; [|apply T; tightly k B]. apply ev2_const.
        eapply (as_ratio_ev k O No _ _ _ 0); auto.
        * apply (fits_of _ (2 * M)); [unfold hbound; hc; lia|]. apply R2. discriminate.
        * rewrite zq_add. intro X. apply ND. rewrite G. lra.
        * rewrite Z, G, !zq_add. apply div_eq_iff; [intro X; apply ND; rewrite G; lra|].
          field. intro X. apply ND. rewrite G. lra.
    - cbn [numgood] in G. destruct G as (v & l & S & Q & G). cbn [unwrap_other].
      apply ev2_step. cbn [wp]. apply ev2_step.
      apply (fits_tight _ _ _ _ _ F). intros B T.
      eapply wp_mono; [apply (absorb_wp k B p (HC nx n dx d) O) | | exact T].
      intros m ->. destruct (clog_seq_range _ _ S) as [V0 V1].
      apply (h_prime_safe z l c _ v G S).
      + apply hv_absorbed; auto. split; unfold hom_num; hc; rewrite <- Q; auto.
        rewrite Z. field. exact ND.
      + destruct (frac_primed q num den p v D Eq Q V0 V1) as (a & b & Pab & Ev & Sab & _).
        exists a, b, (M * (Z.abs num + den)). split; [exact Pab|].
        split; [eapply clog_seq_compat; eauto|]. split.
        * exists M, M. rewrite <- Sab. rewrite (Z.mul_add_distr_l M a b).
          clear - B1 B2 B3 B4. destruct p as [[]|]; cbn [absorbed]; hc; rewrite ?Z.abs_opp; auto with zarith.
        * pose proof (Am p v l Q S) as L. pose proof (pow2_pos (amps l)).
          eapply hroom_mono; [| |exact R].
          -- pose proof (scale_ge M (Z.abs num + den) (2 ^ Z.of_nat (amps l)) P1). lia.
          -- apply Z.mul_le_mono_nonneg_l; [nia|]. apply Z.pow_le_mono_r; lia.
  Qed.

  Theorem homographic_safe x q nx n dx d num den t M : numgood k No x q ->
    isize k nx -> isize k n -> isize k dx -> isize k d ->
    ~ (hom_num dx d q == 0)%Q -> frac x q num den t -> 1 <= M ->
    Z.abs nx <= M -> Z.abs dx <= M -> Z.abs n <= M -> Z.abs d <= M ->
    hroom k (M * (Z.abs num + den) * 2 ^ Z.of_nat t) ->
    ev (fun f => number_homographic k f x nx n dx d)
       (fun y => numgood k No y (hom nx n dx d q)) No.
  Proof.
    intros. unfold number_homographic.
    apply (ev_bind (fun f => h_new k (clog_egest k f) f x nx n dx d)).
    assert (W : ev (fun f => h_new k (clog_egest k f) f x nx n dx d)
                   (made_ok k No (hom nx n dx d q)) No).
    { apply (ev2_diag (fun i j => h_new k (clog_egest k i) j x nx n dx d)).
      apply (h_new_safe x q nx n dx d _ num den t M); auto; reflexivity. }
    eapply ev_mono; [exact W | | auto]. intros m Hm. apply ev_const.
    destruct (number_of_made k No _ _ Hm) as (y & Y & G). rewrite Y. exact G.
  Qed.
End Hom.

(** ** Combine *)

Definition cden (m : ccoef) (a b p r : Z) : Z :=
  Z.abs (c_e m * (a * p) + c_f m * (a * r) + c_g m * (b * p) + c_h m * (b * r)).

Definition cweighed (k : cfg) (m : ccoef) (lx ly : list reduction) : Prop :=
  exists a b p r L, 0 < a < b /\ 0 < p < r /\ clog_seq (zq a / zq b) lx /\ clog_seq (zq p / zq r) ly /\
    cden m a b p r <= L /\ hroom k (L * 2 ^ Z.of_nat (amps lx + amps ly)).

Definition csized (m : ccoef) (a b p r L : Z) : Prop := exists c1 c2 c3 c4,
  (Z.abs (c_a m) <= c1 /\ Z.abs (c_e m) <= c1) /\ (Z.abs (c_b m) <= c2 /\ Z.abs (c_f m) <= c2) /\
  (Z.abs (c_c m) <= c3 /\ Z.abs (c_g m) <= c3) /\ (Z.abs (c_d m) <= c4 /\ Z.abs (c_h m) <= c4) /\
  c1 * (a * p) + c2 * (a * r) + c3 * (b * p) + c4 * (b * r) <= L.

Definition cpweighed (k : cfg) (m : ccoef) (lx ly : list reduction) : Prop :=
  exists a b p r L, 0 < a < b /\ 0 < p < r /\ clog_seq (zq a / zq b) lx /\ clog_seq (zq p / zq r) ly /\
    csized m a b p r L /\ hroom k (L * 2 ^ Z.of_nat (amps lx + amps ly)).

Lemma cden_swap m a b p r : cden (cswap m) p r a b = cden m a b p r.
Proof. unfold cden, cswap; cc. f_equal. ring. Qed.

Lemma cweighed_swap k m lx ly : cweighed k m lx ly -> cweighed k (cswap m) ly lx.
Proof.
  intros (a & b & p & r & L & P & P' & S & S' & X & R). exists p, r, a, b, L.
  rewrite cden_swap, Nat.add_comm. tauto.
Qed.

Lemma cweighed_unswap k m lx ly : cweighed k (cswap m) ly lx -> cweighed k m lx ly.
Proof. intro H. apply cweighed_swap in H. now rewrite cswap_invol in H. Qed.

Lemma cpweighed_swap k m lx ly : cpweighed k m lx ly -> cpweighed k (cswap m) ly lx.
Proof.
  intros (a & b & p & r & L & P & P' & S & S' & (c1 & c2 & c3 & c4 & A1 & A2 & A3 & A4 & X) & R). exists p, r, a, b, L.
  split; [exact P'|]. split; [exact P|]. split; [exact S'|]. split; [exact S|]. split; [|now rewrite Nat.add_comm].
  exists c1, c3, c2, c4. unfold cswap; cc. split; [exact A1|]. split; [exact A3|]. split; [exact A2|]. split; [exact A4|].
  eapply Z.le_trans; [|exact X]. apply Z.eq_le_incl. ring.
Qed.

Lemma cpweighed_unswap k m lx ly : cpweighed k (cswap m) ly lx -> cpweighed k m lx ly.
Proof. intro H. apply cpweighed_swap in H. now rewrite cswap_invol in H. Qed.

(** The value of a bilinear function, from those at the corners. *)
Lemma corners_sum d00 d10 d01 d11 a b p r : 0 < a < b -> 0 < p < r ->
  0 <= d00 -> 0 <= d10 -> 0 <= d01 -> 0 <= d11 ->
  d00 + d10 + d01 + d11 <= d00 * ((b - a) * (r - p)) + d10 * (a * (r - p)) + d01 * ((b - a) * p) + d11 * (a * p).
Proof.
  intros P P' A B C D. assert (1 <= (b - a) * (r - p) /\ 1 <= a * (r - p) /\ 1 <= (b - a) * p /\ 1 <= a * p) as (X1 & X2 & X3 & X4) by nia.
  set (w1 := (b - a) * (r - p)) in *. set (w2 := a * (r - p)) in *. set (w3 := (b - a) * p) in *. set (w4 := a * p) in *.
  clearbody w1 w2 w3 w4. clear P P'. nia.
Qed.

Lemma bilinear e f g h a b p r : e * (a * p) + f * (a * r) + g * (b * p) + h * (b * r) =
  h * ((b - a) * (r - p)) + (f + h) * (a * (r - p)) + (g + h) * ((b - a) * p) + (e + (f + (g + h))) * (a * p).
Proof. ring. Qed.

Lemma JC_bound m a b p r L : JC m -> 0 < a < b -> 0 < p < r -> cden m a b p r <= L -> cbound L m.
Proof.
  unfold JC, cden. rewrite bilinear. intros H P P' X.
  assert (Y : let s := fun i j => Z.abs (cd m i j) in s false false + s true false + s false true + s true true <= L).
  { cbn zeta. destruct H as [H|H].
    - pose proof (H false false) as H1. pose proof (H true false) as H2. pose proof (H false true) as H3. pose proof (H true true) as H4.
      cbn [cn cd] in *.
      pose proof (corners_sum (c_h m) (c_f m + c_h m) (c_g m + c_h m) (c_e m + (c_f m + (c_g m + c_h m))) a b p r P P'
        ltac:(lia) ltac:(lia) ltac:(lia) ltac:(lia)) as Y. lia.
    - pose proof (H false false) as H1. pose proof (H true false) as H2. pose proof (H false true) as H3. pose proof (H true true) as H4.
      cbn [cn cd] in *.
      pose proof (corners_sum (- c_h m) (- (c_f m + c_h m)) (- (c_g m + c_h m)) (- (c_e m + (c_f m + (c_g m + c_h m)))) a b p r P P'
        ltac:(lia) ltac:(lia) ltac:(lia) ltac:(lia)) as Y. rewrite !Z.mul_opp_l in Y. lia. }
  cbn zeta in Y.
  assert (N : forall i j, Z.abs (cn m i j) <= Z.abs (cd m i j)) by (intros i j; destruct H as [H|H]; specialize (H i j); lia).
  pose proof (N false false) as N1. pose proof (N true false) as N2. pose proof (N false true) as N3. pose proof (N true true) as N4.
  clear - Y N1 N2 N3 N4. cbn [cn cd] in *.
  assert (T : forall a b c d, Z.abs d + Z.abs (b + d) + Z.abs (c + d) + Z.abs (a + (b + (c + d))) <= L ->
    Z.abs a <= L /\ Z.abs b <= L /\ Z.abs c <= L /\ Z.abs d <= L).
  { clear. intros a b c d H.
    pose proof (Z.abs_triangle (b + d) (- d)) as T1. pose proof (Z.abs_triangle (c + d) (- d)) as T2.
    pose proof (Z.abs_triangle (a + (b + (c + d))) (- (b + d))) as T3.
    pose proof (Z.abs_triangle (a + (b + (c + d)) + - (b + d)) (- (c + d) + d)) as T4.
    pose proof (Z.abs_triangle (- (c + d)) d) as T5. rewrite !Z.abs_opp in *.
    replace (b + d + - d) with b in T1 by ring. replace (c + d + - d) with c in T2 by ring.
    replace (a + (b + (c + d)) + - (b + d) + (- (c + d) + d)) with a in T4 by ring.
    pose proof (Z.abs_nonneg (a + (b + (c + d)))). pose proof (Z.abs_nonneg (b + d)). pose proof (Z.abs_nonneg (c + d)).
    pose proof (Z.abs_nonneg d).
    set (u1 := Z.abs (a + (b + (c + d)) + - (b + d))) in *. set (u2 := Z.abs (- (c + d) + d)) in *.
    set (u3 := Z.abs (a + (b + (c + d)))) in *. set (u4 := Z.abs (b + d)) in *. set (u5 := Z.abs (c + d)) in *.
    set (u6 := Z.abs d) in *. set (u7 := Z.abs a) in *. set (u8 := Z.abs b) in *. set (u9 := Z.abs c) in *.
    clearbody u1 u2 u3 u4 u5 u6 u7 u8 u9. lia. }
  split; apply T; [|exact Y]. eapply Z.le_trans; [|exact Y].
  repeat apply Z.add_le_mono; assumption.
Qed.

Lemma cweighed_fits k m lx ly : JC m -> cweighed k m lx ly -> cfits k No m 0.
Proof.
  intros HJ (a & b & p & r & L & P & P' & _ & _ & X & R). right. exists L. split; [exact (JC_bound m a b p r L HJ P P' X)|].
  destruct (hroom_pow _ _ _ R) as [_ R']. change (hroom k (L * 1)). now rewrite Z.mul_1_r.
Qed.

Lemma csized_bound m a b p r L : 0 < a < b -> 0 < p < r -> csized m a b p r L -> cbound L m.
Proof.
  intros P P' (c1 & c2 & c3 & c4 & A1 & A2 & A3 & A4 & X).
  assert (1 <= a * p /\ 1 <= a * r /\ 1 <= b * p /\ 1 <= b * r) as (X1 & X2 & X3 & X4) by (clear - P P'; nia).
  set (w1 := a * p) in *. set (w2 := a * r) in *. set (w3 := b * p) in *. set (w4 := b * r) in *.
  clearbody w1 w2 w3 w4. clear P P'. assert (c1 + c2 + c3 + c4 <= L).
  { assert (0 <= c1 /\ 0 <= c2 /\ 0 <= c3 /\ 0 <= c4) by lia. clear A1 A2 A3 A4.
    assert (M : forall c w, 0 <= c -> 1 <= w -> c <= c * w) by (clear; nia).
    pose proof (M c1 w1). pose proof (M c2 w2). pose proof (M c3 w3). pose proof (M c4 w4). lia. }
  assert (0 <= c1 /\ 0 <= c2 /\ 0 <= c3 /\ 0 <= c4) by lia. clear X X1 X2 X3 X4.
  destruct A1, A2, A3, A4. unfold cbound. repeat split; (eapply Z.le_trans; [eassumption|lia]).
Qed.

Lemma cpweighed_fits k m lx ly : cpweighed k m lx ly -> cfits k No m 0.
Proof.
  intros (a & b & p & r & L & P & P' & _ & _ & X & R). right. exists L. split; [exact (csized_bound m a b p r L P P' X)|].
  destruct (hroom_pow _ _ _ R) as [_ R']. change (hroom k (L * 1)). now rewrite Z.mul_1_r.
Qed.

Lemma hroom_amplified_x k L l n : hroom k (L * 2 ^ Z.of_nat (amps (Amplify :: l) + n)) ->
  hroom k (2 * L * 2 ^ Z.of_nat (amps l + n)).
Proof. rewrite amps_cons. now rewrite pow_step. Qed.

Lemma cweighed_ingested k s m m' lx ly : cweighed k m (s :: lx) ly -> cingested s m m' -> cweighed k m' lx ly.
Proof.
  intros (a & b & p & r & L & P & P' & S & S' & X & R) I. unfold cden in X. destruct s; cbn [cingested] in I.
  - destruct (frac_amplify a b lx P S) as [Pa Sa]. exists (2 * a), b, p, r, (2 * L).
    split; [exact Pa|]. split; [exact P'|]. split; [exact Sa|]. split; [exact S'|]. split; [|now apply hroom_amplified_x].
    unfold cden. destruct I as [(_ & _ & _ & _ & -> & -> & -> & ->)|(_ & _ & _ & _ & E & F & -> & ->)].
    + replace (c_e m * (2 * a * p) + c_f m * (2 * a * r) + 2 * c_g m * (b * p) + 2 * c_h m * (b * r))
        with (2 * (c_e m * (a * p) + c_f m * (a * r) + c_g m * (b * p) + c_h m * (b * r))) by ring. lia.
    + replace (c_e m' * (2 * a * p)) with (c_e m * (a * p)) by (rewrite <- E; ring).
      replace (c_f m' * (2 * a * r)) with (c_f m * (a * r)) by (rewrite <- F; ring). lia.
  - subst m'. destruct (frac_uncover a b lx P S) as [Pa Sa]. exists (b - a), a, p, r, L.
    split; [exact Pa|]. split; [exact P'|]. split; [exact Sa|]. split; [exact S'|]. split; [|exact R].
    unfold cden, cing_uncover; cc. eapply Z.le_trans; [|exact X]. apply Z.eq_le_incl. f_equal. ring.
Qed.

Lemma cpweighed_ingested k s m m' lx ly : cpweighed k m (s :: lx) ly -> cingested s m m' -> cpweighed k m' lx ly.
Proof.
  intros (a & b & p & r & L & P & P' & S & S' & (c1 & c2 & c3 & c4 & A1 & A2 & A3 & A4 & X) & R) I.
  destruct s; cbn [cingested] in I.
  - destruct (frac_amplify a b lx P S) as [Pa Sa]. exists (2 * a), b, p, r, (2 * L).
    split; [exact Pa|]. split; [exact P'|]. split; [exact Sa|]. split; [exact S'|]. split; [|now apply hroom_amplified_x].
    exists c1, c2, (2 * c3), (2 * c4).
    split; [|split; [|split; [|split]]].
    5: { replace (c1 * (2 * a * p) + c2 * (2 * a * r) + 2 * c3 * (b * p) + 2 * c4 * (b * r))
        with (2 * (c1 * (a * p) + c2 * (a * r) + c3 * (b * p) + c4 * (b * r))) by ring. lia. }
    all: destruct I as [(? & ? & ? & ? & ? & ? & ? & ?)|(? & ? & ? & ? & ? & ? & ? & ?)].
    1,2: clear - A1 H H3; lia.
    1,2: clear - A2 H0 H4; lia.
    1,2: clear - A3 H1 H5; lia.
    1,2: clear - A4 H2 H6; lia.
  - subst m'. destruct (frac_uncover a b lx P S) as [Pa Sa]. exists (b - a), a, p, r, L.
    split; [exact Pa|]. split; [exact P'|]. split; [exact Sa|]. split; [exact S'|]. split; [|exact R].
    exists c3, c4, (c1 + c3), (c2 + c4). unfold cing_uncover; cc.
    split; [|split; [|split; [|split]]].
    5: { eapply Z.le_trans; [|exact X]. apply Z.eq_le_incl. ring. }
    1: exact A3. 1: exact A4.
    1: clear - A1 A3; lia.
    1: clear - A2 A4; lia.
Qed.

Lemma cweighed_ingested_y k s m m' lx ly : cweighed k m lx (s :: ly) -> cingested s (cswap m) (cswap m') -> cweighed k m' lx ly.
Proof. intros H I. apply cweighed_unswap. eapply cweighed_ingested; eauto. now apply cweighed_swap. Qed.

Lemma cpweighed_ingested_y k s m m' lx ly : cpweighed k m lx (s :: ly) -> cingested s (cswap m) (cswap m') -> cpweighed k m' lx ly.
Proof. intros H I. apply cpweighed_unswap. eapply cpweighed_ingested; eauto. now apply cpweighed_swap. Qed.

Lemma abs_bilin e f g h c1 c2 c3 c4 w1 w2 w3 w4 : 0 <= w1 -> 0 <= w2 -> 0 <= w3 -> 0 <= w4 ->
  Z.abs e <= c1 -> Z.abs f <= c2 -> Z.abs g <= c3 -> Z.abs h <= c4 ->
  Z.abs (e * w1 + f * w2 + g * w3 + h * w4) <= c1 * w1 + c2 * w2 + c3 * w3 + c4 * w4.
Proof.
  intros. assert (X : forall z c w, 0 <= w -> Z.abs z <= c -> Z.abs (z * w) <= c * w) by (intros; rewrite Z.abs_mul; nia).
  pose proof (X e c1 w1). pose proof (X f c2 w2). pose proof (X g c3 w3). pose proof (X h c4 w4). lia.
Qed.

Lemma cpweighed_pe k m p lx ly : cpweighed k m lx ly -> cweighed k (cpe_rel m p) lx ly.
Proof.
  intros (a & b & p' & r & L & P & P' & S & S' & (c1 & c2 & c3 & c4 & A1 & A2 & A3 & A4 & X) & R). exists a, b, p', r, L.
  split; [exact P|]. split; [exact P'|]. split; [exact S|]. split; [exact S'|]. split; [|exact R].
  eapply Z.le_trans; [|exact X]. unfold cden.
  assert (W : 0 <= a * p' /\ 0 <= a * r /\ 0 <= b * p' /\ 0 <= b * r) by (clear - P P'; nia).
  destruct W as (W1 & W2 & W3 & W4). clear S S' X R P P'. destruct A1, A2, A3, A4.
  destruct p as [[]|]; cbn [cpe_rel c_turn]; cc; apply abs_bilin; rewrite ?Z.abs_opp; assumption.
Qed.

Lemma cweighed_doubled k m m' lx ly : cweighed k m lx ly -> cdoubled m m' -> cweighed k m' lx ly.
Proof.
  intros (a & b & p & r & L & P & P' & S & S' & X & R) D. exists a, b, p, r, L.
  split; [exact P|]. split; [exact P'|]. split; [exact S|]. split; [exact S'|]. split; [|exact R].
  unfold cden in *. destruct D as [(_ & _ & _ & _ & -> & -> & -> & ->)|(_ & _ & _ & _ & E1 & E2 & E3 & E4)]; auto.
  assert (2 * (c_e m' * (a * p) + c_f m' * (a * r) + c_g m' * (b * p) + c_h m' * (b * r))
    = c_e m * (a * p) + c_f m * (a * r) + c_g m * (b * p) + c_h m * (b * r)) by (rewrite <- E1, <- E2, <- E3, <- E4; ring). lia.
Qed.

Lemma weights_pos a b p r : 0 < a < b -> 0 < p < r ->
  0 < (b - a) * (r - p) /\ 0 < a * (r - p) /\ 0 < (b - a) * p /\ 0 < a * p.
Proof. nia. Qed.

Lemma cweighed_uncovered k m lx ly : JC m -> cweighed k m lx ly -> cweighed k (cuncovered m) lx ly.
Proof.
  intros HJ (a & b & p & r & L & P & P' & S & S' & X & R). exists a, b, p, r, L.
  split; [exact P|]. split; [exact P'|]. split; [exact S|]. split; [exact S'|]. split; [|exact R].
  eapply Z.le_trans; [|exact X]. unfold cden, cuncovered; cc. rewrite !bilinear.
  destruct (weights_pos a b p r P P') as (W1 & W2 & W3 & W4).
  set (w1 := (b - a) * (r - p)) in *. set (w2 := a * (r - p)) in *. set (w3 := (b - a) * p) in *. set (w4 := a * p) in *.
  clearbody w1 w2 w3 w4. clear - HJ W1 W2 W3 W4.
  assert (M : forall u v w, 0 < w -> 0 < u < v -> 0 < u * w <= v * w) by nia.
  destruct HJ as [H|H]; pose proof (H false false) as H1; pose proof (H true false) as H2;
    pose proof (H false true) as H3; pose proof (H true true) as H4; cbn [cn cd] in *.
  - pose proof (M _ _ w1 W1 H1). pose proof (M _ _ w2 W2 H2). pose proof (M _ _ w3 W3 H3). pose proof (M _ _ w4 W4 H4). lia.
  - pose proof (M (- c_d m) (- c_h m) w1 W1 ltac:(lia)) as M1.
    pose proof (M (- (c_b m + c_d m)) (- (c_f m + c_h m)) w2 W2 ltac:(lia)) as M2.
    pose proof (M (- (c_c m + c_d m)) (- (c_g m + c_h m)) w3 W3 ltac:(lia)) as M3.
    pose proof (M (- (c_a m + (c_b m + (c_c m + c_d m)))) (- (c_e m + (c_f m + (c_g m + c_h m)))) w4 W4 ltac:(lia)) as M4.
    rewrite !Z.mul_opp_l in *. lia.
Qed.

(** The end of an operand. *)
Lemma JC_end m q : JC m -> cend m q -> inside q.
Proof.
  unfold JC, cend, inside. intros H E.
  destruct H as [H|H]; pose proof (H false false) as H1; pose proof (H true false) as H2;
    pose proof (H false true) as H3; pose proof (H true true) as H4; clear H; cbn [cn cd] in *; lia.
Qed.

Lemma cweighed_end k m q ly : cweighed k m [] ly -> cend m q -> weighed k q ly.
Proof.
  intros (a & b & p & r & L & P & P' & S & S' & X & R) E. exists p, r, L.
  split; [exact P'|]. split; [exact S'|]. split; [|exact R].
  pose proof (frac_end a b P S) as ->. unfold cden in X. unfold hden.
  assert (Y : Z.abs (a * ((c_e m + 2 * c_g m) * p + (c_f m + 2 * c_h m) * r)) <= L)
    by (eapply Z.le_trans; [|exact X]; apply Z.eq_le_incl; f_equal; ring).
  rewrite Z.abs_mul in Y. set (w := (c_e m + 2 * c_g m) * p + (c_f m + 2 * c_h m) * r) in *.
  assert (Z.abs w <= L) by (clear - P Y; nia).
  destruct E as [(_ & _ & -> & ->)|(_ & _ & E1 & E2)]; auto.
  assert (2 * (h_dx q * p + h_d q * r) = w) by (unfold w; rewrite <- E1, <- E2; ring). lia.
Qed.

Lemma cpweighed_end k m q ly : cpweighed k m [] ly -> cend m q -> pweighed k q ly.
Proof.
  intros (a & b & p & r & L & P & P' & S & S' & (c1 & c2 & c3 & c4 & A1 & A2 & A3 & A4 & X) & R) E. exists p, r, L.
  split; [exact P'|]. split; [exact S'|]. split; [|exact R].
  pose proof (frac_end a b P S) as ->. exists (c1 + 2 * c3), (c2 + 2 * c4).
  split; [clear - A1 A3 E; unfold cend in E; lia|]. split; [clear - A2 A4 E; unfold cend in E; lia|].
  assert (Y : a * ((c1 + 2 * c3) * p + (c2 + 2 * c4) * r) <= L)
    by (eapply Z.le_trans; [|exact X]; apply Z.eq_le_incl; ring).
  assert (0 <= (c1 + 2 * c3) * p + (c2 + 2 * c4) * r).
  { assert (0 <= c1 + 2 * c3 /\ 0 <= c2 + 2 * c4) by lia. clear - P' H. nia. }
  clear - P Y H. nia.
Qed.

Section Comb.
  Variable k : cfg.
  Hypothesis O : ovf k = true.

  Lemma end_new_safe q y ly v z : good k No y ly -> clog_seq v ly -> hv q v z -> hsized k q ->
    pweighed k q ly \/ (inside q /\ weighed k q ly) ->
    ev2 (fun i j => h_new k (clog_egest k i) j (NOther None y) (h_nx q) (h_n q) (h_dx q) (h_d q))
        (made_ok k No z) No.
  Proof.
    intros G S H (A & B & C & D) Wt. pose proof H as [H2 H1].
    assert (F : fits k No q 0).
    { destruct Wt as [W|[K W]]; [now apply (pweighed_fits k q ly)|]. apply (weighed_fits k q ly); auto. now apply inside_J. }
    unfold h_new. destruct ((h_nx q =? 0) && (h_dx q =? 0)) eqn:E.
    - apply andb_true_iff in E. destruct E as [E1 E2]. apply Z.eqb_eq in E1, E2.
      unfold hom_num in H1, H2. rewrite E1 in H2. rewrite E2 in H1, H2. change (zq 0) with 0%Q in *.
      apply ev2_const. eapply (as_ratio_ev k O No _ _ _ 0); auto.
      + eapply fits_same; [exact F|]. intros B0 X. unfold hbound in *; hc. lia.
      + intro X. apply H1. rewrite X. ring.
      + symmetry. apply div_eq_iff; [intro X; apply H1; rewrite X; ring|]. lra.
    - cbn [unwrap_other]. apply ev2_step. cbn [wp]. apply ev2_step. cbn [h_absorb_primer wp].
      replace (HC (h_nx q) (h_n q) (h_dx q) (h_d q)) with q by now destruct q.
      destruct Wt as [W|[K W]]; [eapply (h_prime_safe k O); eauto|eapply (h_prime_inside k O); eauto].
  Qed.

  Definition pfed (lx ly : list reduction) (z : Q) (x' y' : clog) (m' : ccoef) : Prop :=
    exists sx lx' sy ly' vx vy, lx = sx :: lx' /\ ly = sy :: ly' /\
      good k No x' lx' /\ good k No y' ly' /\ clog_seq vx lx' /\ clog_seq vy ly' /\ cv m' vx vy z /\
      cpweighed k m' lx' ly'.

  Lemma c_prime_ingest_safe x y lx ly m vx vy z : good k No x lx -> good k No y ly ->
    clog_seq vx lx -> clog_seq vy ly -> cv m vx vy z -> cpweighed k m lx ly ->
    ev2 (fun i j => c_prime_ingest k (clog_egest k i) j x y m)
        (fun r => match r with
                  | inl v => made_ok k No z v
                  | inr (x', y', m') => pfed lx ly z x' y' m'
                  end) No.
  Proof.
    intros Gx Gy Sx Sy H Wt. pose proof (cpweighed_fits _ _ _ _ Wt) as F. unfold c_prime_ingest.
    eapply (ev2_bind (fun i _ => clog_egest k i x) (fun i j '(o, x') => match o with
      | None => _ | Some _ => _ end)).
    eapply ev2_mono; [apply (good_ev2 k No x lx Gx) | | auto].
    intros [o x'] [Ho Gx']; cbn [fst snd] in *. subst o. destruct lx as [|sx lx].
    - pose proof (seq_cases _ _ Sx) as V; cbn in V.
      apply ev2_step. eapply wp_mono; [apply (cend_x_ev k No m _ F) | | auto].
      intros q [Q Sz].
      apply (ev2_bind (fun i j => h_new k (clog_egest k i) j (NOther None y) (h_nx q) (h_n q) (h_dx q) (h_d q))).
      eapply ev2_mono; [apply (end_new_safe q y ly vy z Gy Sy) | | auto]; auto.
      + now apply (cv_end m q vx vy z).
      + left. eapply cpweighed_end; eauto.
      + intros v M. apply ev2_const. exact M.
    - apply ev2_step. eapply wp_mono; [apply (cing_x_ev k No m _ sx F) | | auto].
      intros m1 I1.
      destruct (cingested_value _ _ _ _ _ _ _ Sx I1 H) as (vx' & Sx' & H').
      pose proof (cpweighed_ingested _ _ _ _ _ _ Wt I1) as W1. pose proof (cpweighed_fits _ _ _ _ W1) as F1.
      eapply (ev2_bind (fun i _ => clog_egest k i y) (fun i j '(o, y') => match o with
        | None => _ | Some _ => _ end)).
      eapply ev2_mono; [apply (good_ev2 k No y ly Gy) | | auto].
      intros [o y'] [Ho Gy']; cbn [fst snd] in *. subst o. destruct ly as [|sy ly].
      + pose proof (seq_cases _ _ Sy) as V; cbn in V.
        apply ev2_step. eapply wp_mono; [apply (cend_y_ev k No m1 _ F1) | | auto].
        intros q [Q Sz].
        apply (ev2_bind (fun i j => h_new k (clog_egest k i) j (NOther None x') (h_nx q) (h_n q) (h_dx q) (h_d q))).
        eapply ev2_mono; [apply (end_new_safe q x' lx vx' z Gx' Sx') | | auto]; auto.
        * apply (cv_end (cswap m1) q vy vx' z); auto. now apply cv_swap.
        * left. eapply cpweighed_end; [apply cpweighed_swap; exact W1|exact Q].
        * intros v M. apply ev2_const. exact M.
      + apply ev2_step. eapply wp_mono; [apply (cing_y_ev k No m1 _ sy F1) | | auto].
        intros m2 I2. apply ev2_const. cbn [wp].
        destruct (cingested_value_y _ _ _ _ _ _ _ Sy I2 H') as (vy' & Sy' & H'').
        exists sx, lx, sy, ly, vx', vy'. repeat (split; [solve [auto]|]). eapply cpweighed_ingested_y; eauto.
  Qed.

  Definition rfed (lx ly : list reduction) (z : Q) (x' y' : clog) (m' : ccoef) : Prop :=
    exists sx lx' sy ly' vx vy, lx = sx :: lx' /\ ly = sy :: ly' /\
      good k No x' lx' /\ good k No y' ly' /\ clog_seq vx lx' /\ clog_seq vy ly' /\ cv m' vx vy z /\
      JC m' /\ cweighed k m' lx' ly'.

  Lemma c_reduction_ingest_safe x y lx ly lz m vx vy z : good k No x lx -> good k No y ly ->
    clog_seq vx lx -> clog_seq vy ly -> cv m vx vy z -> clog_seq z lz -> JC m -> cweighed k m lx ly ->
    ev2 (fun i j => c_reduction_ingest k (clog_egest k i) j x y m)
        (fun r => match r with
                  | inl rh => left_ok k No lz rh
                  | inr (x', y', m') => rfed lx ly z x' y' m'
                  end) No.
  Proof.
    intros Gx Gy Sx Sy H Sz HJ Wt. pose proof (cweighed_fits _ _ _ _ HJ Wt) as F. unfold c_reduction_ingest.
    eapply (ev2_bind (fun i _ => clog_egest k i x) (fun i j '(o, x') => match o with
      | None => _ | Some _ => _ end)).
    eapply ev2_mono; [apply (good_ev2 k No x lx Gx) | | auto].
    intros [o x'] [Ho Gx']; cbn [fst snd] in *. subst o. destruct lx as [|sx lx].
    - pose proof (seq_cases _ _ Sx) as V; cbn in V.
      apply ev2_step. eapply wp_mono; [apply (cend_x_ev k No m _ F) | | auto].
      intros q [Q Hs]. rewrite (shutdown_ok k O). cbn [bind].
      apply (ev2_bind (fun i j => h_new k (clog_egest k i) j (NOther None y) (h_nx q) (h_n q) (h_dx q) (h_d q))).
      eapply ev2_mono; [apply (end_new_safe q y ly vy z Gy Sy) | | auto]; auto.
      + now apply (cv_end m q vx vy z).
      + right. split; [eapply JC_end; eauto|]. eapply cweighed_end; eauto.
      + intros v M. apply ev2_const. destruct (left_of_made k No z lz v Sz M) as (rh & -> & R). exact R.
    - apply ev2_step. eapply wp_mono; [apply (cing_x_ev k No m _ sx F) | | auto].
      intros m1 I1.
      destruct (cingested_value _ _ _ _ _ _ _ Sx I1 H) as (vx' & Sx' & H').
      pose proof (JC_ingested _ _ _ HJ I1) as J1.
      pose proof (cweighed_ingested _ _ _ _ _ _ Wt I1) as W1. pose proof (cweighed_fits _ _ _ _ J1 W1) as F1.
      eapply (ev2_bind (fun i _ => clog_egest k i y) (fun i j '(o, y') => match o with
        | None => _ | Some _ => _ end)).
      eapply ev2_mono; [apply (good_ev2 k No y ly Gy) | | auto].
      intros [o y'] [Ho Gy']; cbn [fst snd] in *. subst o. destruct ly as [|sy ly].
      + pose proof (seq_cases _ _ Sy) as V; cbn in V.
        apply ev2_step. eapply wp_mono; [apply (cend_y_ev k No m1 _ F1) | | auto].
        intros q [Q Hs]. rewrite (shutdown_ok k O). cbn [bind].
        apply (ev2_bind (fun i j => h_new k (clog_egest k i) j (NOther None x') (h_nx q) (h_n q) (h_dx q) (h_d q))).
        eapply ev2_mono; [apply (end_new_safe q x' lx vx' z Gx' Sx') | | auto]; auto.
        * apply (cv_end (cswap m1) q vy vx' z); auto. now apply cv_swap.
        * right. split; [eapply JC_end; [apply JC_swap; exact J1|exact Q]|].
          eapply cweighed_end; [apply cweighed_swap; exact W1|exact Q].
        * intros v M. apply ev2_const. destruct (left_of_made k No z lz v Sz M) as (rh & -> & R). exact R.
      + apply ev2_step. eapply wp_mono; [apply (cing_y_ev k No m1 _ sy F1) | | auto].
        intros m2 I2. apply ev2_const. cbn [wp].
        destruct (cingested_value_y _ _ _ _ _ _ _ Sy I2 H') as (vy' & Sy' & H'').
        exists sx, lx, sy, ly, vx', vy'. repeat (split; [solve [auto]|]).
        split; [apply (JC_ingested_y sy m1); auto|]. eapply cweighed_ingested_y; eauto.
  Qed.

  Definition comb_safe (x y : clog) (m : ccoef) (z : Q) (lz : list reduction) : Prop :=
    exists lx ly vx vy, good k No x lx /\ good k No y ly /\ clog_seq vx lx /\ clog_seq vy ly /\
      JC m /\ cv m vx vy z /\ clog_seq z lz /\ cweighed k m lx ly.

  Definition comb_then (z : Q) (lz : list reduction) (e : egested) : Prop :=
    match e with
    | Emit o (CCombine x y m) =>
        match lz with
        | [] => False
        | s :: lz' => o = Some s /\ exists z', comb_safe x y m z' lz'
        end
    | Emit _ _ => False
    | Become c => good k No c lz
    end.

  Lemma c_egest_safe lz z : forall lx ly x y m vx vy, good k No x lx -> good k No y ly ->
    clog_seq vx lx -> clog_seq vy ly -> JC m -> cv m vx vy z -> clog_seq z lz -> cweighed k m lx ly ->
    ev2 (fun i j => c_egest k (clog_egest k i) j x y m) (comb_then z lz) No.
  Proof.
    induction lx as [|s l IH]; intros ly x y m vx vy Gx Gy Sx Sy HJ H Sz Wt;
      destruct (clog_seq_range _ _ Sx) as [X0 X1]; destruct (clog_seq_range _ _ Sy) as [Y0 Y1];
      destruct (clog_seq_range _ _ Sz) as [Z0 Z1].
    all: pose proof (cweighed_fits _ _ _ _ HJ Wt) as F.
    all: apply ev2_S; cbn [c_egest].
    all: apply ev2_step; apply (cfits_tight _ _ _ _ _ F); intros B T;
      (eapply wp_mono; [apply (sing4_wp k B m) | | exact T]); intros out Hout;
      (assert (out = true) as -> by (apply Hout, JC_amen, HJ)); clear Hout.
    all: apply ev2_step; (eapply wp_mono; [apply (c_reduction_egest_wp k B m O HJ) | | exact T]);
      intros [[[[|]|] m']|] P; cbn [cre_post] in P; try contradiction.
    (* amplify *)
    1,4: apply ev2_const; cbn [wp comb_then]; destruct P as [J' D];
         destruct (cre_amplify _ _ _ _ _ J' D H X0 X1 Y0 Y1) as [Hz H'];
         pose proof (seq_cases _ _ Sz) as Cz;
         destruct lz as [|[|] lz]; [exfalso; lra | | exfalso; lra]; destruct Cz as [_ Sz'];
         split; [reflexivity|]; exists (2 * z)%Q;
         unfold comb_safe; eexists _, ly, vx, vy; repeat (split; [eassumption|]);
         eapply cweighed_doubled; eauto.
    (* uncover *)
    1,3: apply ev2_const; cbn [wp comb_then]; destruct P as [J' ->];
         destruct (cre_uncover _ _ _ _ J' H Z0 X0 X1 Y0 Y1) as [Hz H'];
         pose proof (seq_cases _ _ Sz) as Cz;
         destruct lz as [|[|] lz]; [exfalso; lra | exfalso; lra |]; destruct Cz as [_ Sz'];
         split; [reflexivity|]; exists (/ z - 1)%Q;
         unfold comb_safe; eexists _, ly, vx, vy; repeat (split; [eassumption|]);
         now apply cweighed_uncovered.
    (* ingestion *)
    - apply (ev2_bind (fun i j => c_reduction_ingest k (clog_egest k i) j x y m)).
      eapply ev2_mono; [apply (c_reduction_ingest_safe x y [] ly lz m vx vy z); auto | | auto].
      intros [[[r|] [[x' m']|]]|[[x' y'] m']] R; cbn [left_ok] in R; try contradiction.
      + apply ev2_const. exact R.
      + apply ev2_const. exact R.
      + destruct R as (sx & lx' & sy & ly' & wx & wy & X & _). discriminate.
    - apply (ev2_bind (fun i j => c_reduction_ingest k (clog_egest k i) j x y m)).
      eapply ev2_mono; [apply (c_reduction_ingest_safe x y (s :: l) ly lz m vx vy z); auto | | auto].
      intros [[[r|] [[x' m']|]]|[[x' y'] m']] R; cbn [left_ok] in R; try contradiction.
      + apply ev2_const. exact R.
      + apply ev2_const. exact R.
      + destruct R as (sx & lx' & sy & ly' & wx & wy & X & -> & Gx' & Gy' & Sx' & Sy' & H' & J' & W').
        inversion X; subst sx lx'.
        apply (IH ly' x' y' m' wx wy); auto.
  Qed.

  Lemma comb_safe_good lz : forall x y m z, comb_safe x y m z lz -> good k No (CCombine x y m) lz.
  Proof.
    induction lz as [|s lz IH]; intros x y m z (lx & ly & vx & vy & Gx & Gy & Sx & Sy & HJ & H & Sz & F).
    all: assert (W := c_egest_safe _ z lx ly x y m vx vy Gx Gy Sx Sy HJ H Sz F); apply ev2_diag in W.
    all: cbn [good]; apply ev_S; cbn [clog_egest strategy_egest].
    all: apply (ev_bind (fun n => c_egest k (clog_egest k n) n x y m)
            (fun n r => match r with
                      | Emit o s' => Ok (o, s')
                      | Become s' => clog_egest k n s' end)).
    all: eapply ev_mono; [exact W | | auto].
    all: intros [o c|c] P; cbn [comb_then] in P.
    - destruct c; contradiction.
    - exact P.
    - destruct c as [| |x' y' m']; try contradiction.
      destruct P as (-> & z' & St). apply ev_const. cbn. split; auto. eapply IH; eauto.
    - exact P.
  Qed.

  Lemma c_prime_safe z : forall lx ly x y m vx vy,
    good k No x lx -> good k No y ly -> clog_seq vx lx -> clog_seq vy ly ->
    cv m vx vy z -> cpweighed k m lx ly ->
    ev2 (fun i j => c_prime k (clog_egest k i) j x y m) (cmade_ok k No z) No.
  Proof.
    induction lx as [|s l IH]; intros ly x y m vx vy Gx Gy Sx Sy H Wt;
      destruct (clog_seq_range _ _ Sx) as [X0 X1]; destruct (clog_seq_range _ _ Sy) as [Y0 Y1].
    all: pose proof (cpweighed_fits _ _ _ _ Wt) as F.
    all: apply ev2_S; cbn [c_prime].
    all: apply ev2_step; apply (cfits_tight _ _ _ _ _ F); intros B T;
      (eapply wp_mono; [apply (sing4_wp k B m) | | exact T]); intros out Hout.
    all: apply ev2_step;
      assert (W : wp (cpe_post m) No (if out then c_primer_egest k m else Ok None)) by
       (destruct out; [|exact I]; destruct (proj1 Hout eq_refl) as [AN AD];
        eapply wp_mono; [apply (c_primer_egest_wp k B m O AN AD) | auto | exact T]);
      (eapply wp_mono; [exact W | | auto]); intros [[p m']|] Post.
    1,3: apply ev2_const; cbn [wp cpe_post] in *; destruct Post as (-> & HJ);
      destruct (cv_pe m p vx vy z H X0 X1 Y0 Y1 HJ) as (z' & H' & Z0 & Z1 & Hz);
      destruct (clog_seq_ex z' Z0 Z1) as [lz Sz];
      cbn [cmade_ok]; exists z', lz; split; [exact Sz|]; split; [exact Hz|];
      apply (comb_safe_good lz x y _ z'); unfold comb_safe; eexists _, ly, vx, vy;
      repeat (split; [eassumption|]);
      now apply cpweighed_pe.
    - apply (ev2_bind (fun i j => c_prime_ingest k (clog_egest k i) j x y m)).
      eapply ev2_mono; [apply (c_prime_ingest_safe x y [] ly m vx vy z); auto | | auto].
      intros [[[[sp p] r] h]|[[x' y'] m']] R.
      + apply ev2_const. cbn [wp]. now apply cmade_of_made.
      + destruct R as (sx & lx' & sy & ly' & wx & wy & X & _). discriminate.
    - apply (ev2_bind (fun i j => c_prime_ingest k (clog_egest k i) j x y m)).
      eapply ev2_mono; [apply (c_prime_ingest_safe x y (s :: l) ly m vx vy z); auto | | auto].
      intros [[[[sp p] r] h]|[[x' y'] m']] R.
      + apply ev2_const. cbn [wp]. now apply cmade_of_made.
      + destruct R as (sx & lx' & sy & ly' & wx & wy & X & -> & Gx' & Gy' & Sx' & Sy' & H' & W').
        inversion X; subst sx lx'.
        apply (IH ly' x' y' m' wx wy); auto.
  Qed.

  Lemma as_hom_safe x q nx n dx d z num den t M : numgood k No x q ->
    isize k nx -> isize k n -> isize k dx -> isize k d ->
    ~ (hom_num dx d q == 0)%Q -> (z == hom nx n dx d q)%Q -> frac x q num den t -> 1 <= M ->
    Z.abs nx <= M -> Z.abs dx <= M -> Z.abs n <= M -> Z.abs d <= M ->
    hroom k (M * (Z.abs num + den) * 2 ^ Z.of_nat t) ->
    ev2 (fun i j => c_as_homographic k (clog_egest k i) j x nx n dx d) (cmade_ok k No z) No.
  Proof.
    intros. unfold c_as_homographic.
    apply (ev2_bind (fun i j => h_new k (clog_egest k i) j x nx n dx d)).
    eapply ev2_mono; [apply (h_new_safe k O x q nx n dx d z num den t M); auto | | auto].
    intros [[[s p] r] h] Y. apply ev2_const. cbn [wp]. now apply cmade_of_made.
  Qed.

  Lemma special_frac s q num den t : (q == special_val s)%Q -> frac (NSpecial s) q num den t ->
    s = NegOne \/ s = PosOne -> 2 <= Z.abs num + den.
  Proof.
    intros G (D & Eq & _) S. destruct (Z.eq_dec num 0) as [->|]; [|lia].
    exfalso. rewrite G in Eq. unfold Qdiv in Eq. rewrite zq_0, Qmult_0_l in Eq.
    destruct S as [->| ->]; discriminate Eq.
  Qed.

  Lemma mul_ge1 a b : 1 <= a -> 1 <= b -> 1 <= a * b.
  Proof. nia. Qed.

  Lemma reduce_hom M s1 s2 t1 t2 : 1 <= M -> 1 <= s1 -> 1 <= s2 ->
    hroom k (M * (s1 * s2) * 2 ^ Z.of_nat (t1 + t2)) -> hroom k (M * s2 * s1 * 2 ^ Z.of_nat t1).
  Proof.
    intros P P1 P2 R. pose proof (pow2_pos t1) as A. pose proof (pow2_pos t2) as B.
    rewrite Nat2Z.inj_add, Z.pow_add_r in R by lia.
    set (e1 := 2 ^ Z.of_nat t1) in *. set (e2 := 2 ^ Z.of_nat t2) in *. clearbody e1 e2.
    assert (X : 1 <= M * s2 * s1 * e1).
    { assert (1 <= M * s2) by nia. assert (1 <= M * s2 * s1) by (clear - H P1; nia). nia. }
    eapply (hroom_mono k); [exact X| |exact R].
    replace (M * (s1 * s2) * (e1 * e2)) with (M * s2 * s1 * e1 * e2) by ring. clear - X B. nia.
  Qed.

  Lemma hroom_part M s1 s2 t : 1 <= s2 -> hroom k (M * s2 * s1 * 2 ^ Z.of_nat t) -> 1 <= M -> 1 <= s1 ->
    hroom k (M * s1 * 2 ^ Z.of_nat t).
  Proof.
    intros P R P1 P2. pose proof (pow2_pos t). set (e := 2 ^ Z.of_nat t) in *. clearbody e.
    assert (1 <= M * s1) by nia. assert (1 <= M * s1 * e) by nia.
    eapply (hroom_mono k); [eassumption| |exact R]. replace (M * s2 * s1 * e) with (M * s1 * e * s2) by ring. nia.
  Qed.

  Lemma abs_sum2 a b M : Z.abs a <= M -> Z.abs b <= M -> Z.abs (a + b) <= 2 * M. Proof. lia. Qed.
  Lemma abs_dif2 a b M : Z.abs a <= M -> Z.abs b <= M -> Z.abs (a - b) <= 2 * M. Proof. lia. Qed.

  (** A special operand leaves a function of the other one. *)
  Definition cless (M z : Z) : Prop := isize k z /\ Z.abs z <= M.

  Lemma special_safe s u nu du tu y q num den t M a b c d e f g h z :
    (u == special_val s)%Q -> frac (NSpecial s) u nu du tu -> numgood k No y q -> frac y q num den t -> 1 <= M ->
    cless M a -> cless M b -> cless M c -> cless M d -> cless M e -> cless M f -> cless M g -> cless M h ->
    hroom k (M * ((Z.abs num + den) * (Z.abs nu + du)) * 2 ^ Z.of_nat (t + tu)) ->
    ~ (comb_num e f g h u q == 0)%Q -> (z == comb_num a b c d u q / comb_num e f g h u q)%Q ->
    ev2 (fun i j =>
      match s with
      | NegOne =>
          let! p := checked_sub k c a in
          let! q := checked_sub k d b in
          let! r := checked_sub k g e in
          let! s := checked_sub k h f in
          c_as_homographic k (clog_egest k i) j y p q r s
      | Zero => c_as_homographic k (clog_egest k i) j y c d g h
      | PosOne =>
          let! p := checked_add k c a in
          let! q := checked_add k d b in
          let! r := checked_add k g e in
          let! s := checked_add k h f in
          c_as_homographic k (clog_egest k i) j y p q r s
      end) (cmade_ok k No z) No.
  Proof.
    intros U FU G FY P [Ia Ba] [Ib Bb] [Ic Bc] [Id Bd] [Ie Be] [If Bf] [Ig Bg] [Ih Bh] R ND Z.
    assert (S1 : 1 <= Z.abs num + den) by (destruct FY as [X _]; clear - X; lia).
    assert (S2 : 1 <= Z.abs nu + du) by (destruct FU as [X _]; clear - X; lia).
    pose proof (reduce_hom M (Z.abs num + den) (Z.abs nu + du) t tu P S1 S2 R) as R1.
    assert (F : cfits k No (CC a b c d e f g h) 0).
    { right. exists M. split; [unfold cbound; cc; auto 10|]. change (hroom k (M * 1)). rewrite Z.mul_1_r.
      eapply (hroom_mono k); [exact P| |exact R]. pose proof (pow2_pos (t + tu)).
      apply scale_ge; [exact P|now apply mul_ge1|lia]. }
    assert (V : forall N nx n dx d', isize k nx -> isize k n -> isize k dx -> isize k d' ->
       (hom_num nx n q == comb_num a b c d u q)%Q -> (hom_num dx d' q == comb_num e f g h u q)%Q -> 1 <= N ->
       Z.abs nx <= N -> Z.abs dx <= N -> Z.abs n <= N -> Z.abs d' <= N ->
       hroom k (N * (Z.abs num + den) * 2 ^ Z.of_nat t) ->
       ev2 (fun i j => c_as_homographic k (clog_egest k i) j y nx n dx d') (cmade_ok k No z) No).
    { intros N nx n dx d' I1 I2 I3 I4 HN HD PN B1 B2 B3 B4 RN.
      apply (as_hom_safe y q nx n dx d' z num den t N); auto.
      - now rewrite HD.
      - unfold hom. now rewrite HN, HD. }
    assert (R2 : s = NegOne \/ s = PosOne -> hroom k (2 * M * (Z.abs num + den) * 2 ^ Z.of_nat t)).
    { intro X. pose proof (special_frac s u nu du tu U FU X) as W.
      eapply (hroom_mono k); [| |exact R1].
      - pose proof (pow2_pos t). clear - P S1 H. eapply Z.le_trans; [|apply scale_ge; lia]. lia.
      - clear - P S1 W. apply Z.mul_le_mono_nonneg_r; [apply Z.pow_nonneg; lia|].
        apply Z.mul_le_mono_nonneg_r; [lia|]. rewrite Z.mul_comm. apply Z.mul_le_mono_nonneg_l; lia. }
    apply (cfits_tight _ _ _ _ _ F). intros B T.
    destruct s; cbn [special_val] in U.
    - do 4 (apply ev2_step; wps; [|apply T; ctightly k B]).
      apply (V (2 * M)); auto using abs_dif2; try (clear - P; lia); unfold hom_num, comb_num; rewrite ?zq_sub, ?U; ring.
    - apply (V M); auto; [unfold hom_num, comb_num; rewrite ?U; ring|unfold hom_num, comb_num; rewrite ?U; ring|].
      eapply hroom_part; [exact S2|exact R1|exact P|exact S1].
    - do 4 (apply ev2_step; wps; [|apply T; ctightly k B]).
      apply (V (2 * M)); auto using abs_sum2; try (clear - P; lia); unfold hom_num, comb_num; rewrite ?zq_add, ?U; ring.
  Qed.

  Lemma csized_of M m a b p r : 0 < a < b -> 0 < p < r -> cbound M m -> csized m a b p r (M * ((a + b) * (p + r))).
  Proof.
    intros P P' [(A1 & A2 & A3 & A4) (A5 & A6 & A7 & A8)]. exists M, M, M, M. repeat (split; [split; assumption|]).
    apply Z.eq_le_incl. ring.
  Qed.

  Lemma c_new_safe x u y q nx dx tx ny dy ty M a b c d e f g h z :
    numgood k No x u -> numgood k No y q -> frac x u nx dx tx -> frac y q ny dy ty -> 1 <= M ->
    cless M a -> cless M b -> cless M c -> cless M d -> cless M e -> cless M f -> cless M g -> cless M h ->
    hroom k (M * ((Z.abs nx + dx) * (Z.abs ny + dy)) * 2 ^ Z.of_nat (tx + ty)) ->
    ~ (comb_num e f g h u q == 0)%Q -> (z == comb a b c d e f g h u q)%Q ->
    ev2 (fun i j => c_new k (clog_egest k i) j x y a b c d e f g h) (cmade_ok k No z) No.
  Proof.
    intros Gx Gy Fx Fy P La Lb Lc Ld Le Lf Lg Lh R ND Z. unfold c_new. unfold comb in Z.
    destruct x as [s|px cx].
    - cbn [numgood] in Gx.
      pose proof (special_safe s u nx dx tx y q ny dy ty M a b c d e f g h z Gx Fx Gy Fy P La Lb Lc Ld Le Lf Lg Lh) as V.
      rewrite (Z.mul_comm (Z.abs nx + dx)), Nat.add_comm in R. specialize (V R ND Z). destruct s; exact V.
    - destruct y as [s|py cy].
      + cbn [numgood] in Gy.
        pose proof (special_safe s q ny dy ty (NOther px cx) u nx dx tx M a c b d e g f h z Gy Fy Gx Fx P La Lc Lb Ld Le Lg Lf Lh R) as V.
        assert (X : forall a b c d, (comb_num a c b d q u == comb_num a b c d u q)%Q) by (intros; unfold comb_num; ring).
        rewrite !X in V. specialize (V ND Z). destruct s; exact V.
      + cbn [numgood] in Gx, Gy. destruct Gx as (vx & lx & Sx & Px & Gx).
        destruct Gy as (vy & ly & Sy & Py & Gy). cbn [unwrap_other].
        destruct (clog_seq_range _ _ Sx) as [X0 X1]; destruct (clog_seq_range _ _ Sy) as [Y0 Y1].
        destruct Fx as (Dx & Ex & Ax). destruct Fy as (Dy & Ey & Ay).
        assert (CB : cbound M (CC a b c d e f g h)).
        { destruct La, Lb, Lc, Ld, Le, Lf, Lg, Lh. unfold cbound; cc; auto 10. }
        assert (F : cfits k No (CC a b c d e f g h) 0).
        { right. exists M. split; [exact CB|]. change (hroom k (M * 1)). rewrite Z.mul_1_r.
          eapply (hroom_mono k); [exact P| |exact R]. pose proof (pow2_pos (tx + ty)).
          apply scale_ge; [exact P|apply mul_ge1; lia|lia]. }
        apply ev2_step. cbn [wp]. apply ev2_step.
        apply (cfits_tight _ _ _ _ _ F). intros B T.
        eapply wp_mono; [apply (cabsorb_x_wp k B px _ O) | | exact T].
        intros m ->. apply ev2_step. cbn [wp]. apply ev2_step.
        assert (F1 := cfits_same k No _ _ _ F (fun B => cabsorbed_bound B px _)).
        apply (cfits_tight _ _ _ _ _ F1). intros B1 T1.
        eapply wp_mono; [apply (cabsorb_y_wp k B1 py _ O) | | exact T1].
        intros m' Hm.
        apply (c_prime_safe z lx ly cx cy m' vx vy); auto.
        * rewrite <- (cswap_invol m'), Hm. apply cv_swap. apply cv_absorbed; auto.
          apply cv_swap. apply cv_absorbed; auto.
          split; unfold cN, cD; cc; fold (primed px vx) (primed py vy).
          -- assert (X : forall a b c d, (comb_num a b c d (primed px vx) (primed py vy) == comb_num a b c d u q)%Q)
               by (intros; unfold comb_num; now rewrite Px, Py).
             rewrite !X, Z. field. exact ND.
          -- assert (X : forall a b c d, (comb_num a b c d (primed px vx) (primed py vy) == comb_num a b c d u q)%Q)
               by (intros; unfold comb_num; now rewrite Px, Py).
             now rewrite X.
        * destruct (frac_primed u nx dx px vx Dx Ex Px X0 X1) as (a1 & b1 & Pab & Ev & Sab & _).
          destruct (frac_primed q ny dy py vy Dy Ey Py Y0 Y1) as (p1 & r1 & Ppr & Ev' & Spr & _).
          exists a1, b1, p1, r1, (M * ((a1 + b1) * (p1 + r1))). split; [exact Pab|]. split; [exact Ppr|].
          split; [eapply clog_seq_compat; eauto|]. split; [eapply clog_seq_compat; eauto|]. split.
          -- apply csized_of; auto. rewrite <- (cswap_invol m'), Hm. now apply cbound_swap, cabsorbed_bound, cbound_swap, cabsorbed_bound.
          -- rewrite Sab, Spr. pose proof (Ax px vx lx Px Sx) as L1. pose proof (Ay py vy ly Py Sy) as L2.
             pose proof (pow2_pos (amps lx + amps ly)).
             eapply (hroom_mono k); [| |exact R].
             ++ pose proof (scale_ge M ((Z.abs nx + dx) * (Z.abs ny + dy)) (2 ^ Z.of_nat (amps lx + amps ly)) P). nia.
             ++ apply Z.mul_le_mono_nonneg_l; [nia|]. apply Z.pow_le_mono_r; lia.
  Qed.

  Theorem combine_safe x u y q nx dx tx ny dy ty M a b c d e f g h :
    numgood k No x u -> numgood k No y q -> frac x u nx dx tx -> frac y q ny dy ty -> 1 <= M ->
    cless M a -> cless M b -> cless M c -> cless M d -> cless M e -> cless M f -> cless M g -> cless M h ->
    hroom k (M * ((Z.abs nx + dx) * (Z.abs ny + dy)) * 2 ^ Z.of_nat (tx + ty)) ->
    ~ (comb_num e f g h u q == 0)%Q ->
    ev (fun n => number_combine k n x y a b c d e f g h)
       (fun r => numgood k No r (comb a b c d e f g h u q)) No.
  Proof.
    intros. unfold number_combine.
    apply (ev_bind (fun f0 => c_new k (clog_egest k f0) f0 x y a b c d e f g h)).
    assert (W : ev (fun f0 => c_new k (clog_egest k f0) f0 x y a b c d e f g h)
                   (cmade_ok k No (comb a b c d e f g h u q)) No).
    { apply (ev2_diag (fun i j => c_new k (clog_egest k i) j x y a b c d e f g h)).
      eapply (c_new_safe x u y q); eauto. reflexivity. }
    eapply ev_mono; [exact W | | auto].
    intros [[[[[s|] pr] r] h'] c'] Y; apply ev_const; cbn [cmade_ok] in Y.
    - exact Y.
    - destruct Y as (v & l & S & Z & G).
      destruct r as [r|], h' as [[? ?]|], c' as [[[? ?] ?]|]; try contradiction;
        cbn [wp numgood]; exists v, l; auto.
  Qed.
End Comb.

(** ** From what is read *)

Lemma amps_frac (x : number) q num den rx : 0 < den -> (q == zq num / zq den)%Q -> represents q rx ->
  frac x q num den (amplifications rx).
Proof.
  intros D E R. split; [exact D|]. split; [exact E|]. destruct x as [|po c]; [exact I|]. intros p v l Q S.
  assert (X : represents (primed p v) (inr (p, l))) by (exists v; split; [exact S|reflexivity]).
  pose proof (proj1 (represents_inj _ _ _ _ R X) Q) as ->. cbn. lia.
Qed.

Theorem fraction_homographic k x q rx num den nx n dx d r M :
  num_has (debug k) x q -> read (debug k) x rx -> 0 < den -> (q == zq num / zq den)%Q ->
  Z.abs nx <= M -> Z.abs n <= M -> Z.abs dx <= M -> Z.abs d <= M ->
  ~ (hom_num dx d q == 0)%Q -> represents (hom nx n dx d q) r ->
  16 * (M * (Z.abs num + den) * 2 ^ Z.of_nat (amplifications rx)) ^ 2 <= imax k ->
  exists y, returns (fun f => number_homographic k f x nx n dx d) y /\ read k y r.
Proof.
  intros X R D E B1 B2 B3 B4 ND Hr Room.
  destruct (has_read_good (debug k) x q rx eq_refl X R) as [G Rq].
  set (t := amplifications rx) in *.
  assert (M1 : 1 <= M).
  { destruct (Z.eq_dec M 0) as [-> |]; [|lia]. exfalso. apply ND.
    assert (dx = 0) by lia. assert (d = 0) by lia. subst. unfold hom_num. rewrite zq_0. ring. }
  pose proof (pow2_pos t) as P. assert (S1 : 1 <= Z.abs num + den) by lia.
  assert (HR : hroom (debug k) (M * (Z.abs num + den) * 2 ^ Z.of_nat t)).
  { pose proof (scale_ge M (Z.abs num + den) (2 ^ Z.of_nat t) M1 S1 ltac:(lia)) as Y. change (imax k) with (imax (debug k)) in Room.
    clear - M1 Y Room. split; [lia|]. lia. }
  assert (HM : hroom (debug k) M).
  { eapply (hroom_mono (debug k)); [exact M1| |exact HR]. apply scale_ge; lia. }
  assert (Is : forall z, Z.abs z <= M -> isize (debug k) z).
  { intros z Hz. eapply hroom_lin; [exact HM | clear - Hz M1; lia]. }
  pose proof (homographic_safe (debug k) eq_refl x q nx n dx d num den t M G
     (Is _ B1) (Is _ B2) (Is _ B3) (Is _ B4) ND (amps_frac x q num den rx D E Rq) M1 B1 B3 B2 B4 HR) as W.
  destruct (ev_returns _ _ W) as (y & Ry & Gy).
  exists y. split.
  - apply (both_returns (fun k f => number_homographic k f x nx n dx d)); [|exact Ry].
    intro. apply builds_homographic.
  - apply both_read. destruct (numgood_read _ _ _ Gy) as (r' & Rr & Y).
    now rewrite (proj1 (represents_inj _ _ _ _ Hr Rr) (Qeq_refl _)).
Qed.

Theorem fraction_combine k x p rx nx dx y q ry ny dy a b c d e f g h r M :
  num_has (debug k) x p -> read (debug k) x rx -> 0 < dx -> (p == zq nx / zq dx)%Q ->
  num_has (debug k) y q -> read (debug k) y ry -> 0 < dy -> (q == zq ny / zq dy)%Q ->
  Z.abs a <= M -> Z.abs b <= M -> Z.abs c <= M -> Z.abs d <= M ->
  Z.abs e <= M -> Z.abs f <= M -> Z.abs g <= M -> Z.abs h <= M ->
  ~ (comb_num e f g h p q == 0)%Q -> represents (comb a b c d e f g h p q) r ->
  16 * (M * ((Z.abs nx + dx) * (Z.abs ny + dy)) * 2 ^ Z.of_nat (amplifications rx + amplifications ry)) ^ 2 <= imax k ->
  exists z, returns (fun n => number_combine k n x y a b c d e f g h) z /\ read k z r.
Proof.
  intros X R Dx Ex Y Ry Dy Ey B1 B2 B3 B4 B5 B6 B7 B8 ND Hr Room.
  destruct (has_read_good (debug k) x p rx eq_refl X R) as [G Rp].
  destruct (has_read_good (debug k) y q ry eq_refl Y Ry) as [G2 Rq].
  set (t := (amplifications rx + amplifications ry)%nat) in *.
  assert (M1 : 1 <= M).
  { destruct (Z.eq_dec M 0) as [-> |]; [|clear - B1 n; lia]. exfalso. apply ND.
    assert (e = 0) by (clear - B5; lia). assert (f = 0) by (clear - B6; lia).
    assert (g = 0) by (clear - B7; lia). assert (h = 0) by (clear - B8; lia).
    subst. unfold comb_num. rewrite zq_0. ring. }
  pose proof (pow2_pos t) as P. assert (S1 : 1 <= (Z.abs nx + dx) * (Z.abs ny + dy)) by (apply mul_ge1; [clear - Dx; lia|clear - Dy; lia]).
  assert (HR : hroom (debug k) (M * ((Z.abs nx + dx) * (Z.abs ny + dy)) * 2 ^ Z.of_nat t)).
  { pose proof (scale_ge M _ (2 ^ Z.of_nat t) M1 S1 ltac:(clear - P; lia)) as Z. change (imax k) with (imax (debug k)) in Room.
    set (w := M * ((Z.abs nx + dx) * (Z.abs ny + dy)) * 2 ^ Z.of_nat t) in *. clearbody w.
    clear - M1 Z Room. split; lia. }
  assert (HM : hroom (debug k) M).
  { eapply (hroom_mono (debug k)); [exact M1| |exact HR]. apply scale_ge; [exact M1|exact S1|clear - P; lia]. }
  assert (Is : forall z, Z.abs z <= M -> cless (debug k) M z).
  { intros z Hz. split; [|exact Hz]. eapply hroom_lin; [exact HM | clear - Hz M1; lia]. }
  pose proof (combine_safe (debug k) eq_refl x p y q nx dx (amplifications rx) ny dy (amplifications ry) M a b c d e f g h G G2
    (amps_frac x p nx dx rx Dx Ex Rp) (amps_frac y q ny dy ry Dy Ey Rq) M1
    (Is _ B1) (Is _ B2) (Is _ B3) (Is _ B4) (Is _ B5) (Is _ B6) (Is _ B7) (Is _ B8) HR ND) as W.
  destruct (ev_returns _ _ W) as (z & Rz & Gz).
  exists z. split.
  - apply (both_returns (fun k n => number_combine k n x y a b c d e f g h)); [|exact Rz].
    intro. apply builds_combine.
  - apply both_read. destruct (numgood_read _ _ _ Gz) as (r' & Rr & Yr).
    now rewrite (proj1 (represents_inj _ _ _ _ Hr Rr) (Qeq_refl _)).
Qed.

(** ** How often a fraction amplifies *)

Lemma run_amps l : forall n d, 0 < n < d -> clog_seq (zq n / zq d) l ->
  exists (a : nat) rest, amps l = (a + amps rest)%nat /\
    let e := 2 ^ Z.of_nat a * n in
    e < d /\ d <= 2 * e /\
    match rest with
    | [] => True
    | Amplify :: _ => False
    | Uncover :: r => clog_seq (zq (d - e) / zq e) r /\ d < 2 * e
    end.
Proof.
  induction l as [|[|] l IH]; intros n d H Sq; pose proof (next n d _ H Sq) as N; cbv beta iota in N.
  - exists 0%nat, []. cbv zeta. rewrite Z.pow_0_r. cbn [amps]. repeat split; lia.
  - destruct N as [N S']. destruct (IH (2 * n) d ltac:(lia) S') as (a & rest & L & A & B & D).
    assert (E : 2 ^ Z.of_nat (S a) * n = 2 ^ Z.of_nat a * (2 * n)).
    { rewrite Nat2Z.inj_succ, Z.pow_succ_r by lia. ring. }
    exists (S a), rest. cbv zeta. rewrite E. cbn [amps]. repeat split; auto; lia.
  - destruct N as [N S']. exists 0%nat, (Uncover :: l). cbv zeta. rewrite Z.pow_0_r, Z.mul_1_l.
    cbn [amps]. repeat split; auto; lia.
Qed.

Lemma one_more_amps n e d l : 0 < n < 2 * e -> 2 * e < d -> d = 2 * e + n ->
  clog_seq (zq n / zq (2 * e)) l ->
  l = [] \/ exists n' d' l', (amps l <= S (amps l'))%nat /\ 0 < n' < d' /\ 2 * d' < d /\
    clog_seq (zq n' / zq d') l'.
Proof.
  intros H L E Sq. pose proof (next n (2 * e) l H Sq) as N. destruct l as [|[|] l]; cbv beta iota in N.
  - now left.
  - right. destruct N as [N S']. exists n, e, l. cbn [amps]. repeat split; try lia.
    eapply clog_seq_compat; [exact S'|]. apply frac_half. lia.
  - right. destruct N as [N S']. exists (2 * e - n), n, l. cbn [amps]. repeat split; try lia. exact S'.
Qed.

Lemma halve_amps m n d l : (1 <= m)%nat -> 0 < n < d -> d <= 2 ^ Z.of_nat (S m) -> clog_seq (zq n / zq d) l ->
  (amps l <= m)%nat \/
  exists n' d' l', (amps l <= m + amps l')%nat /\ 0 < n' < d' /\ d' <= 2 ^ Z.of_nat m /\
    clog_seq (zq n' / zq d') l'.
Proof.
  intros M H D Sq. rewrite pow2_succ in D. pose proof (pow2_pos m) as Pm.
  destruct (run_amps l n d H Sq) as (a & rest & L & A & B & R). cbv zeta in *.
  pose proof (pow2_pos a) as Pa.
  assert (Am : (a <= m)%nat).
  { assert (a < S m)%nat; [|lia]. apply pow2_lt. rewrite pow2_succ. nia. }
  destruct rest as [|[|] r1]; [left; cbn [amps] in L; lia | contradiction | destruct R as [R R']].
  cbn [amps] in L. destruct a as [|a].
  - rewrite Z.pow_0_r, Z.mul_1_l in *. clear A Am Pa.
    destruct (run_amps r1 (d - n) n ltac:(lia) R) as (b & rest & L2 & A2 & B2 & R2). cbv zeta in *.
    pose proof (pow2_pos b) as Pb. assert (Bm : (b < S m)%nat) by (apply pow2_lt; rewrite (pow2_succ m); nia).
    destruct rest as [|[|] r3]; [ | contradiction | destruct R2 as [R2 R2']].
    + left. cbn [amps] in L2. lia.
    + cbn [amps] in L2. destruct b as [|b].
      * rewrite Z.pow_0_r, Z.mul_1_l in *. right. exists (n - (d - n)), (d - n), r3.
        repeat split; try lia. exact R2.
      * destruct (Nat.eq_dec (S b) m) as [Eb|Nb].
        -- rewrite Eb in *. right. assert (d - n = 1) by nia.
           exists (n - 2 ^ Z.of_nat m * (d - n)), (2 ^ Z.of_nat m * (d - n)), r3.
           repeat split; try lia. exact R2.
        -- destruct (even_pow (S b) (d - n) ltac:(lia)) as (h & E & _). rewrite E in *.
           destruct (one_more_amps (n - 2 * h) h n r3 ltac:(lia) ltac:(lia) ltac:(lia) R2) as [->|(n' & d' & l' & X & Y & Z & T)].
           ++ left. cbn [amps] in *. lia.
           ++ right. exists n', d', l'. repeat split; auto; lia.
  - destruct (Nat.eq_dec (S a) m) as [Ea|Na].
    + right. rewrite Ea in *. assert (n = 1) as -> by nia. rewrite Z.mul_1_r in *.
      exists (d - 2 ^ Z.of_nat m), (2 ^ Z.of_nat m), r1. repeat split; try lia. exact R.
    + destruct (even_pow (S a) n ltac:(lia)) as (h & E & _). rewrite E in *.
      destruct (one_more_amps (d - 2 * h) h d r1 ltac:(lia) ltac:(lia) ltac:(lia) R) as [->|(n' & d' & l' & X & Y & Z & T)].
      * left. cbn [amps] in *. lia.
      * right. exists n', d', l'. repeat split; auto; lia.
Qed.

Lemma amps_tri m : forall n d l, 0 < n < d -> d <= 2 ^ Z.of_nat (S m) -> clog_seq (zq n / zq d) l ->
  2 * Z.of_nat (amps l) <= Z.of_nat m * (Z.of_nat m + 1).
Proof.
  induction m as [|m IH]; intros n d l H D Sq.
  - change (2 ^ Z.of_nat 1) with 2 in D. pose proof (next n d l H Sq) as N.
    destruct l as [|[|] l]; cbn [amps]; try lia.
  - destruct (halve_amps (S m) n d l ltac:(lia) H D Sq) as [L|(n' & d' & l' & L & H' & D' & S')].
    + nia.
    + pose proof (IH n' d' l' H' D' S'). nia.
Qed.

Theorem amps_bound m n d l : 1 <= m -> 0 < n < d -> d <= 2 ^ m -> clog_seq (zq n / zq d) l ->
  2 * Z.of_nat (amps l) <= m * (m - 1).
Proof.
  intros M H D Sq. replace m with (Z.of_nat (S (Z.to_nat (m - 1)))) in D by lia.
  pose proof (amps_tri _ n d l H D Sq) as L. rewrite Z2Nat.id in L by lia. nia.
Qed.

(** With both parts at most 2^m. *)
Theorem amplifications_bound m q num den r : 1 <= m -> 0 < den -> (q == zq num / zq den)%Q ->
  Z.abs num <= 2 ^ m -> den <= 2 ^ m -> represents q r -> 2 * Z.of_nat (amplifications r) <= m * (m - 1).
Proof.
  intros M D E A B R. destruct r as [s|[p l]]; cbn [amplifications].
  - nia.
  - destruct R as (v & S & X). destruct (clog_seq_range _ _ S) as [V0 V1]. 
    destruct (frac_primed q num den p v D E X V0 V1) as (a & b & P & Ev & _ & Hab).
    apply (amps_bound m a b); auto.
    + destruct p as [[]|]; injection Hab as -> ->; lia.
    + eapply clog_seq_compat; eauto.
Qed.

Lemma pow_room k M s m t : 0 <= m -> 0 <= s <= 2 ^ (m + 1) -> 1 <= M -> 2 * Z.of_nat t <= m * (m - 1) ->
  16 * M ^ 2 * 2 ^ (2 * (m + 1) + m * (m - 1)) <= imax k -> 16 * (M * s * 2 ^ Z.of_nat t) ^ 2 <= imax k.
Proof.
  intros Hm [S0 S1] P T R. eapply Z.le_trans; [|exact R].
  replace (16 * (M * s * 2 ^ Z.of_nat t) ^ 2) with (16 * M ^ 2 * (s ^ 2 * (2 ^ Z.of_nat t) ^ 2)) by ring.
  apply Z.mul_le_mono_nonneg_l; [nia|]. rewrite Z.pow_add_r by nia. apply Z.mul_le_mono_nonneg.
  - nia.
  - rewrite (Z.mul_comm 2), Z.pow_mul_r by lia. apply Z.pow_le_mono_l. lia.
  - apply Z.pow_nonneg. apply Z.pow_nonneg. lia.
  - rewrite <- Z.pow_mul_r by lia. apply Z.pow_le_mono_r; lia.
Qed.

Lemma pow_room2 k M s s' m t : 0 <= m -> 0 <= s <= 2 ^ (m + 1) -> 0 <= s' <= 2 ^ (m + 1) -> 1 <= M -> 2 * Z.of_nat t <= 2 * (m * (m - 1)) ->
  16 * M ^ 2 * 2 ^ (4 * (m + 1) + 2 * (m * (m - 1))) <= imax k -> 16 * (M * (s * s') * 2 ^ Z.of_nat t) ^ 2 <= imax k.
Proof.
  intros Hm [S0 S1] [S0' S1'] P T R. eapply Z.le_trans; [|exact R].
  replace (16 * (M * (s * s') * 2 ^ Z.of_nat t) ^ 2) with (16 * M ^ 2 * ((s * s') ^ 2 * (2 ^ Z.of_nat t) ^ 2)) by ring.
  apply Z.mul_le_mono_nonneg_l; [nia|]. rewrite Z.pow_add_r by nia.
  assert (W : s * s' <= 2 ^ (2 * (m + 1))).
  { replace (2 * (m + 1)) with (m + 1 + (m + 1)) by ring. rewrite Z.pow_add_r by lia. apply Z.mul_le_mono_nonneg; lia. }
  apply Z.mul_le_mono_nonneg.
  - nia.
  - replace (4 * (m + 1)) with (2 * (m + 1) * 2) by ring. rewrite (Z.pow_mul_r 2) by lia. apply Z.pow_le_mono_l. nia.
  - apply Z.pow_nonneg. apply Z.pow_nonneg. lia.
  - rewrite <- Z.pow_mul_r by lia. apply Z.pow_le_mono_r; lia.
Qed.

(** ** Ratios with small parts *)

Lemma small_ratio_max k m num den : 1 <= m -> den <> 0 -> Z.abs num <= 2 ^ m -> Z.abs den <= 2 ^ m -> 2 ^ m < imax k ->
  exists x rx num' den', number_ratio k num den = Ok x /\ num_has (debug k) x (zq num / zq den) /\ read (debug k) x rx /\
    0 < den' /\ (zq num / zq den == zq num' / zq den')%Q /\ Z.max (Z.abs num') den' <= 2 ^ m /\
    2 * Z.of_nat (amplifications rx) <= m * (m - 1).
Proof.
  intros Hm D A B R. pose proof (imin_imax k) as I.
  assert (In : isize (debug k) num) by (unfold isize; change (imax (debug k)) with (imax k); change (imin (debug k)) with (imin k); lia).
  assert (Id : isize (debug k) den) by (unfold isize; change (imax (debug k)) with (imax k); change (imin (debug k)) with (imin k); lia).
  destruct (proj2 (ratio_value (debug k) num den In Id D)) as (x & rx & X & Rx & Rd).
  { intros [_ [Y|Y]]; change (imin (debug k)) with (imin k) in Y; lia. }
  assert (Q : (zq num / zq den == zq (Z.sgn den * num) / zq (Z.abs den))%Q).
  { destruct (Z.lt_total den 0) as [N|[N|N]]; [|lia|].
    - rewrite Z.sgn_neg, Z.abs_neq by lia. rewrite zq_mul, zq_opp. change (zq (-1)) with (-(1))%Q. field. now apply zq_neq.
    - rewrite Z.sgn_pos, Z.abs_eq by lia. now rewrite Z.mul_1_l. }
  assert (An : Z.abs (Z.sgn den * num) = Z.abs num).
  { destruct (Z.lt_total den 0) as [N|[N|N]]; [rewrite Z.sgn_neg by lia|lia|rewrite Z.sgn_pos by lia]; lia. }
  exists x, rx, (Z.sgn den * num), (Z.abs den). rewrite An.
  split.
  { destruct k as [wd [|]]; [exact X|]. destruct (builds_ratio (Cfg wd false) num den) as [Y|Y]; [|unfold release in Y; cbn in Y; now rewrite Y].
    unfold debug in *. cbn in *. congruence. }
  split; [now apply has_ratio|]. split; [exact Rd|]. split; [lia|]. split; [exact Q|].
  split; [lia|].
  apply (amplifications_bound m _ (Z.sgn den * num) (Z.abs den) rx Hm ltac:(lia) Q); [lia|lia|exact Rx].
Qed.

Lemma small_ratio k m num den : 1 <= m -> den <> 0 -> Z.abs num <= 2 ^ m -> Z.abs den <= 2 ^ m -> 2 ^ m < imax k ->
  exists x rx num' den', number_ratio k num den = Ok x /\ num_has (debug k) x (zq num / zq den) /\ read (debug k) x rx /\
    0 < den' /\ (zq num / zq den == zq num' / zq den')%Q /\ 0 <= Z.abs num' + den' <= 2 ^ (m + 1) /\
    2 * Z.of_nat (amplifications rx) <= m * (m - 1).
Proof.
  intros Hm D A B R. destruct (small_ratio_max k m num den Hm D A B R) as (x & rx & n & d & X & Hx & Rx & D' & Q & Sz & Am).
  exists x, rx, n, d. do 5 (split; [assumption|]). split; [|assumption]. rewrite Z.pow_add_r, Z.pow_1_r by lia. lia.
Qed.

Lemma room_pow k M m e : 0 <= m <= e -> 1 <= M -> 16 * M ^ 2 * 2 ^ e <= imax k -> 2 ^ m < imax k.
Proof.
  intros Hm P R. assert (2 ^ m <= 2 ^ e) by (apply Z.pow_le_mono_r; lia).
  assert (0 < 2 ^ m) by (apply Z.pow_pos_nonneg; lia). nia.
Qed.

Theorem ratio_homographic k num den nx n dx d m M : 1 <= m -> den <> 0 ->
  Z.abs num <= 2 ^ m -> Z.abs den <= 2 ^ m ->
  Z.abs nx <= M -> Z.abs n <= M -> Z.abs dx <= M -> Z.abs d <= M -> ~ (hom_num dx d (zq num / zq den) == 0)%Q ->
  16 * M ^ 2 * 2 ^ (2 * (m + 1) + m * (m - 1)) <= imax k ->
  exists x y r, number_ratio k num den = Ok x /\ returns (fun f => number_homographic k f x nx n dx d) y /\
    represents (hom nx n dx d (zq num / zq den)) r /\ read k y r.
Proof.
  intros Hm D A B B1 B2 B3 B4 ND R.
  assert (M1 : 1 <= M).
  { destruct (Z.eq_dec M 0) as [-> |]; [|lia]. exfalso. apply ND.
    assert (dx = 0) by lia. assert (d = 0) by lia. subst. unfold hom_num. rewrite zq_0. ring. }
  destruct (small_ratio k m num den Hm D A B) as (x & rx & num' & den' & X & Hx & Rx & D' & Q & Sz & Am).
  { eapply (room_pow k M m); [|exact M1|exact R]. nia. }
  destruct (represents_ex (hom nx n dx d (zq num / zq den))) as [r Hr].
  destruct (fraction_homographic k x _ rx num' den' nx n dx d r M Hx Rx D' Q B1 B2 B3 B4 ND Hr) as (y & Ry & Y).
  { apply (pow_room k M _ m); auto. lia. }
  exists x, y, r. auto.
Qed.

Theorem ratio_combine k n1 d1 n2 d2 a b c d e f g h m M : 1 <= m -> d1 <> 0 -> d2 <> 0 ->
  Z.abs n1 <= 2 ^ m -> Z.abs d1 <= 2 ^ m -> Z.abs n2 <= 2 ^ m -> Z.abs d2 <= 2 ^ m ->
  Z.abs a <= M -> Z.abs b <= M -> Z.abs c <= M -> Z.abs d <= M ->
  Z.abs e <= M -> Z.abs f <= M -> Z.abs g <= M -> Z.abs h <= M ->
  ~ (comb_num e f g h (zq n1 / zq d1) (zq n2 / zq d2) == 0)%Q ->
  16 * M ^ 2 * 2 ^ (4 * (m + 1) + 2 * (m * (m - 1))) <= imax k ->
  exists x y z r, number_ratio k n1 d1 = Ok x /\ number_ratio k n2 d2 = Ok y /\
    returns (fun n => number_combine k n x y a b c d e f g h) z /\
    represents (comb a b c d e f g h (zq n1 / zq d1) (zq n2 / zq d2)) r /\ read k z r.
Proof.
  intros Hm D1 D2 A1 A2 A3 A4 B1 B2 B3 B4 B5 B6 B7 B8 ND R.
  assert (M1 : 1 <= M).
  { destruct (Z.eq_dec M 0) as [-> |]; [|clear - B1 n; lia]. exfalso. apply ND.
    assert (e = 0) by (clear - B5; lia). assert (f = 0) by (clear - B6; lia).
    assert (g = 0) by (clear - B7; lia). assert (h = 0) by (clear - B8; lia). subst. unfold comb_num. rewrite zq_0. ring. }
  assert (PM : 2 ^ m < imax k) by (eapply (room_pow k M m); [|exact M1|exact R]; clear - Hm; nia).
  destruct (small_ratio k m n1 d1 Hm D1 A1 A2 PM) as (x & rx & nx & dx & X & Hx & Rx & Dx & Qx & Sx & Tx).
  destruct (small_ratio k m n2 d2 Hm D2 A3 A4 PM) as (y & ry & ny & dy & Y & Hy & Ry & Dy & Qy & Sy & Ty).
  destruct (represents_ex (comb a b c d e f g h (zq n1 / zq d1) (zq n2 / zq d2))) as [r Hr].
  destruct (fraction_combine k x _ rx nx dx y _ ry ny dy a b c d e f g h r M Hx Rx Dx Qx Hy Ry Dy Qy
    B1 B2 B3 B4 B5 B6 B7 B8 ND Hr) as (z & Rz & Z).
  { apply (pow_room2 k M _ _ m); auto; clear - Hm Tx Ty; lia. }
  exists x, y, z, r. auto.
Qed.

(** The four operations. *)
Theorem ratio_operations k n1 d1 n2 d2 m : 1 <= m -> d1 <> 0 -> d2 <> 0 ->
  Z.abs n1 <= 2 ^ m -> Z.abs d1 <= 2 ^ m -> Z.abs n2 <= 2 ^ m -> Z.abs d2 <= 2 ^ m ->
  16 * 2 ^ (4 * (m + 1) + 2 * (m * (m - 1))) <= imax k ->
  let p := (zq n1 / zq d1)%Q in let q := (zq n2 / zq d2)%Q in
  exists x y, number_ratio k n1 d1 = Ok x /\ number_ratio k n2 d2 = Ok y /\
    (exists z r, returns (fun n => number_add k n x y) z /\ represents (p + q) r /\ read k z r) /\
    (exists z r, returns (fun n => number_sub k n x y) z /\ represents (p - q) r /\ read k z r) /\
    (exists z r, returns (fun n => number_mul k n x y) z /\ represents (p * q) r /\ read k z r) /\
    (n2 <> 0 -> exists z r, returns (fun n => number_div k n x y) z /\ represents (p / q) r /\ read k z r).
Proof.
  intros Hm D1 D2 A1 A2 A3 A4 R p q. subst p q.
  assert (R' : 16 * 1 ^ 2 * 2 ^ (4 * (m + 1) + 2 * (m * (m - 1))) <= imax k) by exact R.
  assert (S1 : Z.abs 0 <= 1) by lia. assert (S2 : Z.abs 1 <= 1) by lia. assert (S3 : Z.abs (-1) <= 1) by lia.
  set (p := (zq n1 / zq d1)%Q). set (q := (zq n2 / zq d2)%Q).
  assert (T : forall z z' r, represents z r -> (z == z')%Q -> represents z' r).
  { intros z z' [s|[pr l]] H E; cbn [represents] in *; [now rewrite <- E|]. destruct H as (v & S & X). exists v. split; [exact S|]. now rewrite <- E. }
  pose proof (fun a b c d e f g h => ratio_combine k n1 d1 n2 d2 a b c d e f g h m 1 Hm D1 D2 A1 A2 A3 A4) as W.
  assert (N1 : ~ (comb_num 0 0 0 1 p q == 0)%Q).
  { unfold comb_num. rewrite zq_0. change (zq 1) with 1%Q. intro X. ring_simplify in X. discriminate X. }
  destruct (W 0 1 1 0 0 0 0 1 S1 S2 S2 S1 S1 S1 S1 S2 N1 R') as (x & y & z1 & r1 & X & Y & Z1 & H1 & Rd1).
  destruct (W 0 1 (-1) 0 0 0 0 1 S1 S2 S3 S1 S1 S1 S1 S2 N1 R') as (x2 & y2 & z2 & r2 & X2 & Y2 & Z2 & H2 & Rd2).
  destruct (W 1 0 0 0 0 0 0 1 S2 S1 S1 S1 S1 S1 S1 S2 N1 R') as (x3 & y3 & z3 & r3 & X3 & Y3 & Z3 & H3 & Rd3).
  rewrite X in X2, X3. rewrite Y in Y2, Y3. injection X2 as <-. injection X3 as <-. injection Y2 as <-. injection Y3 as <-.
  exists x, y. split; [exact X|]. split; [exact Y|]. fold p q in H1, H2, H3.
  split; [|split; [|split]].
  - exists z1, r1. split; [exact Z1|]. split; [|exact Rd1]. apply (T _ _ _ H1).
    unfold comb, comb_num. change (zq 1) with 1%Q. rewrite zq_0. field.
  - exists z2, r2. split; [exact Z2|]. split; [|exact Rd2]. apply (T _ _ _ H2).
    unfold comb, comb_num. change (zq 1) with 1%Q. change (zq (-1)) with (-(1))%Q. rewrite zq_0. field.
  - exists z3, r3. split; [exact Z3|]. split; [|exact Rd3]. apply (T _ _ _ H3).
    unfold comb, comb_num. change (zq 1) with 1%Q. rewrite zq_0. field.
  - intro N. assert (Nq : ~ (q == 0)%Q).
    { unfold q. intro E. apply div_eq_iff in E; [|now apply zq_neq]. apply N. apply zq_eq. rewrite E, zq_0. ring. }
    assert (N2 : ~ (comb_num 0 0 1 0 p q == 0)%Q).
    { unfold comb_num. rewrite zq_0. change (zq 1) with 1%Q. intro E. apply Nq. rewrite <- E. ring. }
    destruct (W 0 1 0 0 0 0 1 0 S1 S2 S1 S1 S1 S1 S2 S1 N2 R') as (x4 & y4 & z4 & r4 & X4 & Y4 & Z4 & H4 & Rd4).
    rewrite X in X4. rewrite Y in Y4. injection X4 as <-. injection Y4 as <-. fold p q in H4.
    exists z4, r4. split; [exact Z4|]. split; [|exact Rd4]. apply (T _ _ _ H4).
    unfold comb, comb_num. change (zq 1) with 1%Q. rewrite zq_0. field. exact Nq.
Qed.
