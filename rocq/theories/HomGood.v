(** * HomGood: the loops of the Homographic strategy (debug build). *)

From Coq Require Import ZArith QArith Qfield List Lia Lqa Psatz Bool.
From Verif Require Import Machine Protocol Support Types Ratio Homographic Lib Spec
  SeqProofs Good RatioProofs SupportProofs HomProofs HomValue.
Import ListNotations.
Open Scope Z_scope.

(** Overflow is allowed, or the coefficients leave room for [t] doublings. *)
Definition fits (k : cfg) (E : panic -> Prop) (m : hcoef) (t : nat) : Prop :=
  (forall p, ovfp p -> E p) \/ exists B, hbound B m /\ hroom k (B * 2 ^ Z.of_nat t).

Lemma hroom_le k B C : 1 <= B -> B <= C -> hroom k C -> hroom k B.
Proof. unfold hroom. intros A H [X Y]. split; auto. nia. Qed.

Lemma pow2_pos t : 1 <= 2 ^ Z.of_nat t.
Proof. pose proof (Z.pow_pos_nonneg 2 (Z.of_nat t)). lia. Qed.

Lemma hroom_pow k B t : hroom k (B * 2 ^ Z.of_nat t) -> 1 <= B /\ hroom k B.
Proof.
  intro H. pose proof (pow2_pos t) as P. assert (A : 1 <= B) by (destruct H; nia).
  split; auto. eapply hroom_le; [auto| |exact H]. nia.
Qed.

(** The panics of a step are allowed. *)
Lemma fits_tight k E m t (Q : Prop) : fits k E m t ->
  (forall B, (forall p, tight k B m p -> E p) -> Q) -> Q.
Proof.
  intros [H|(B & HB & HR)] K.
  - apply (K 0). intros p [X _]. auto.
  - apply (K B). intros p [X Y]. exfalso. apply Y. split; auto. apply (hroom_pow _ _ _ HR).
Qed.

Lemma fits_le k E m t t' : (t' <= t)%nat -> fits k E m t -> fits k E m t'.
Proof.
  intros L [H|(B & HB & HR)]; [now left|]. right. exists B. split; auto.
  destruct (hroom_pow _ _ _ HR) as [P _].
  eapply hroom_le; [| |exact HR].
  - pose proof (pow2_pos t'). nia.
  - apply Z.mul_le_mono_nonneg_l; [lia|]. apply Z.pow_le_mono_r; lia.
Qed.

(** A step that needs at most one doubling. *)
Definition grows (m m' : hcoef) : Prop := forall B, hbound B m -> hbound (2 * B) m'.

Lemma fits_step k E m m' t : fits k E m (S t) -> grows m m' -> fits k E m' t.
Proof.
  intros [H|(B & HB & HR)] G; [now left|]. right. exists (2 * B). split; auto.
  replace (2 * B * 2 ^ Z.of_nat t) with (B * 2 ^ Z.of_nat (S t)); auto.
  rewrite Nat2Z.inj_succ, Z.pow_succ_r by lia. lia.
Qed.

Lemma fits_same k E m m' t : fits k E m t -> (forall B, hbound B m -> hbound B m') -> fits k E m' t.
Proof.
  intros [H|(B & HB & HR)] G; [now left|]. right. exists B. auto.
Qed.

(** ** The end of the operand *)

Lemma end_wp k B m v z : ovf k = true -> (v == 1#2)%Q -> hv m v z ->
  wp (fun nd => wp (fun m3 => made3_ok k m3 z) (tight k B m) (ratio_new_i k (fst nd) (snd nd)))
     (tight k B m) (h_value_at_one_half k m).
Proof.
  intros O V H. eapply wp_mono; [apply (value_at_one_half_wp k B m) | | auto].
  intros [num den] (I1 & I2 & X). cbn [fst snd] in *.
  destruct (hv_half m v z num den V H X) as [ND Z].
  eapply wp_mono; [apply (ratio_new_i_wp k num den O I1 I2 ND) | |].
  - intros m3 M. eapply made3_compat; [exact M|]. now rewrite Z.
  - intros p [-> Y]. split; [now right|]. intros [R W].
    assert (Z.abs num <= 16 * B /\ Z.abs den <= 16 * B).
    { unfold hbound in W. clear - X W R. destruct R. lia. }
    destruct (hroom_lin k B num R) as [_ A]; [tauto|].
    destruct (hroom_lin k B den R) as [_ A']; [tauto|].
    unfold isize in *. pose proof (imin_imax k). lia.
Qed.

Lemma end_ev k E m v z t : ovf k = true -> (v == 1#2)%Q -> hv m v z -> fits k E m t ->
  wp (fun nd => wp (fun m3 => made3_ok k m3 z) E (ratio_new_i k (fst nd) (snd nd)))
     E (h_value_at_one_half k m).
Proof.
  intros O V H F. apply (fits_tight _ _ _ _ _ F). intros B T.
  eapply wp_mono; [apply (end_wp k B m v z O V H) | | exact T].
  intros nd W. eapply wp_mono; [exact W | auto | exact T].
Qed.

Lemma seq_cases z lz : clog_seq z lz ->
  match lz with
  | [] => z == 1#2
  | Amplify :: l => z < 1#2 /\ clog_seq (2 * z) l
  | Uncover :: l => 1#2 < z /\ clog_seq (/ z - 1) l
  end%Q.
Proof. intro H. destruct H; auto. Qed.

(** One ingestion. *)
Lemma ingested_value s m m' v l z : clog_seq v (s :: l) -> ingested s m m' -> hv m v z ->
  exists v', clog_seq v' l /\ hv m' v' z.
Proof.
  intros S I H. destruct s; inversion S; subst; simpl in I.
  - exists (2 * v)%Q. split; auto. now apply (hv_amplify m).
  - exists (/ v - 1)%Q. split; auto. apply (hv_uncover m); auto. lra.
Qed.

Lemma ingest_ev k E m t s : fits k E m t ->
  wp (fun m' => ingested s m m' /\ grows m m') E
     (match s with Amplify => h_ingest_amplify k m | Uncover => h_ingest_uncover k m end).
Proof.
  intro F. apply (fits_tight _ _ _ _ _ F). intros B T.
  assert (G : forall m', ingested s m m' -> grows m m').
  { intros m' I C X. unfold hbound in *. destruct s; simpl in I.
    - unfold ingested_amplify in I. lia.
    - unfold ingested_uncover in I. subst. hc. lia. }
  destruct s.
  - eapply wp_mono; [apply (ingest_amplify_wp k B m) | | exact T]. intros m' [I _]. split; auto.
  - eapply wp_mono; [apply (ingest_uncover_wp k B m) | | exact T]. intros m' [I _]. split; auto.
Qed.

Section Loops.
  Variable k : cfg.
  Hypothesis O : ovf k = true.
  Variable E : panic -> Prop.

  (** What the operand delivers, in both indices. *)
  Lemma good_ev2 x lx : good k E x lx ->
    ev2 (fun i _ => clog_egest k i x)
        (fun oc => fst oc = match lx with [] => None | s :: _ => Some s end
           /\ good k E (snd oc) (match lx with [] => [] | _ :: l' => l' end)) E.
  Proof. intro G. apply (ev_ev2 (fun i => clog_egest k i x)). now apply good_ev. Qed.

  Lemma reduction_ingest_ev x lx m v z t : good k E x lx -> clog_seq v lx -> hv m v z ->
    (0 < z)%Q -> (z < 1)%Q -> fits k E m t ->
    ev2 (fun i _ => h_reduction_ingest k (clog_egest k i) x m)
        (fun r => match r with
                  | inl r => rat_ok k r z
                  | inr (x', m') => exists s l v', lx = s :: l /\ good k E x' l /\ clog_seq v' l
                      /\ hv m' v' z /\ ingested s m m' /\ grows m m'
                  end) E.
  Proof.
    intros G S H Z0 Z1 F. unfold h_reduction_ingest.
    apply (ev2_bind (fun i _ => clog_egest k i x)
      (fun i j '(o, x') => match o with
        | Some Amplify => let! m' := h_ingest_amplify k m in Ok (inr (x', m'))
        | Some Uncover => let! m' := h_ingest_uncover k m in Ok (inr (x', m'))
        | None => let! (num, den) := h_value_at_one_half k m in
                  let! v := ratio_new_i k num den in
                  match v with (None, None, Some r) => Ok (inl r) | _ => Panic PLogic end
        end)).
    eapply ev2_mono; [apply (good_ev2 x lx G) | | auto].
    intros [o x'] [Ho Gx]; cbn [fst snd] in *. apply ev2_const. subst o.
    destruct lx as [|s l].
    - pose proof (seq_cases _ _ S) as V; cbn in V.
      apply wp_bind. eapply wp_mono; [apply (end_ev k E m v z t O V H F) | | auto].
      intros [num den] W; cbn [fst snd] in *. apply wp_bind.
      eapply wp_mono; [exact W | | auto].
      intros [[[sp|] p] [r|]] M; cbn [made3_ok] in M; try contradiction.
      + exfalso. apply (primed_not_special None z sp Z0 Z1 M).
      + exfalso. apply (primed_not_special None z sp Z0 Z1 M).
      + destruct M as (v0 & R & P). destruct (rat_ok_range _ _ _ R) as [R0 R1].
        destruct (primed_inj None p z v0 Z0 Z1 R0 R1 P) as [<- Q]. cbn.
        destruct R as (X & Y & W'). repeat split; auto; try lia. now rewrite Q.
    - assert (W := ingest_ev k E m t s F).
      assert (W' : wp (fun r => match r with
                  | inl r => rat_ok k r z
                  | inr (x', m') => exists s0 l0 v', s :: l = s0 :: l0 /\ good k E x' l0 /\ clog_seq v' l0
                      /\ hv m' v' z /\ ingested s0 m m' /\ grows m m'
                  end) E (let! m' := match s with Amplify => h_ingest_amplify k m
                                     | Uncover => h_ingest_uncover k m end in Ok (inr (x', m')))).
      { apply wp_bind. eapply wp_mono; [exact W | | auto]. intros m' [I Gr]. cbn [wp].
        destruct (ingested_value _ _ _ _ _ _ S I H) as (v' & S' & H').
        exists s, l, v'. auto 7. }
      destruct s; exact W'.
  Qed.

  (** What one call of [Homographic::egest] gives for the sequence [lz]. *)
  Definition hom_state (x : clog) (m : hcoef) (z : Q) (lz : list reduction) : Prop :=
    exists lx v, good k E x lx /\ clog_seq v lx /\ J m /\ hv m v z /\ clog_seq z lz
      /\ fits k E m (length lx + length lz).

  Definition hom_next (z : Q) (lz : list reduction) (e : egested) : Prop :=
    match e with
    | Emit o (CHomographic x m) =>
        match lz with
        | [] => o = None /\ h_are_singularities_outside_domain k m = Ok true
                /\ h_reduction_egest k m = Ok (Some (None, m))
        | s :: lz' => o = Some s /\ exists z', hom_state x m z' lz'
        end
    | Become (CRatio r) => rat_ok k r z
    | _ => False
    end.

  Lemma h_egest_ev lz z : forall lx x m v, good k E x lx -> clog_seq v lx -> J m -> hv m v z ->
    clog_seq z lz -> fits k E m (length lx + length lz) ->
    ev2 (fun i j => h_egest k (clog_egest k i) j x m) (hom_next z lz) E.
  Proof.
    induction lx as [|s l IH]; intros x m v G S HJ H Sz F;
      destruct (clog_seq_range _ _ S) as [V0 V1]; destruct (clog_seq_range _ _ Sz) as [Z0 Z1].
    all: apply ev2_S; cbn [h_egest].
    all: apply ev2_step; destruct (h_are_singularities_outside_domain k m) as [out|p|] eqn:Es;
      [ | apply (fits_tight _ _ _ _ _ F); intros B T; pose proof (sing_wp k B m) as W;
          rewrite Es in W; cbn [wp] in *; auto
        | pose proof (sing_wp k 0 m) as W; rewrite Es in W; exact W ].
    all: cbn [wp]; assert (out = true) as -> by
      (pose proof (sing_wp k 0 m) as W; rewrite Es in W; cbn [wp] in W; apply W, J_amen, HJ).
    all: apply ev2_step; destruct (h_reduction_egest k m) as [eg|p|] eqn:Er;
      [ | apply (fits_tight _ _ _ _ _ F); intros B T;
          pose proof (reduction_egest_wp k B m O HJ) as W; rewrite Er in W; cbn [wp] in *; auto
        | pose proof (reduction_egest_wp k 0 m O HJ) as W; rewrite Er in W; exact W ].
    all: cbn [wp].
    all: destruct eg as [[o m']|].
    1,3: apply ev2_const; cbn [wp].
    1,2: assert (Post : forall B, re_post B m (Some (o, m'))) by
      (intro B; pose proof (reduction_egest_wp k B m O HJ) as W; rewrite Er in W; exact W).
    1,2: assert (Gr : o <> None -> grows m m') by
      (intros No B; specialize (Post B); destruct o as [[]|]; cbn in Post; tauto).
    1,2: pose proof (Post 0) as P0; clear Post; destruct o as [[]|]; cbn [re_post] in P0.
    (* amplify *)
    1,4: destruct P0 as (J' & D & NH & _);
         destruct (re_amplify m m' v z J' D NH H V0 V1) as [Hz H'];
         pose proof (seq_cases _ _ Sz) as Cz;
         destruct lz as [|[|] lz]; [exfalso; lra | | exfalso; lra]; destruct Cz as [_ Sz'];
         cbn [hom_next]; split; [reflexivity|];
         exists (2 * z)%Q;
         unfold hom_state; eexists; exists v; split; [exact G|]; split; [exact S|];
         split; [exact J'|]; split; [exact H'|]; split; [assumption|];
         eapply fits_step; [|apply Gr; discriminate]; eapply fits_le; [|exact F]; cbn [length]; lia.
    (* uncover *)
    1,3: destruct P0 as (J' & D & NH & _); subst m';
         destruct (re_uncover m v z J' NH H Z0 V0 V1) as [Hz H'];
         pose proof (seq_cases _ _ Sz) as Cz;
         destruct lz as [|[|] lz]; [exfalso; lra | exfalso; lra |]; destruct Cz as [_ Sz'];
         cbn [hom_next]; split; [reflexivity|];
         exists (/ z - 1)%Q;
         unfold hom_state; eexists; exists v; split; [exact G|]; split; [exact S|];
         split; [exact J'|]; split; [exact H'|]; split; [assumption|];
         eapply fits_step; [|apply Gr; discriminate]; eapply fits_le; [|exact F]; cbn [length]; lia.
    (* one half *)
    1,2: destruct P0 as [-> He]; pose proof (half_ends_value m v z He H) as Hz;
         pose proof (seq_cases _ _ Sz) as Cz;
         destruct lz as [|[|] lz]; [ | exfalso; lra | exfalso; lra];
         cbn [hom_next]; auto.
    (* ingestion *)
    - eapply (ev2_bind (fun i _ => h_reduction_ingest k (clog_egest k i) x m)
        (fun i j ing => match ing with
                        | inl r => Ok (Become (CRatio r))
                        | inr (x', m') => h_egest k (clog_egest k i) j x' m' end)).
      eapply ev2_mono; [apply (reduction_ingest_ev x [] m v z _ G S H Z0 Z1 F) | | auto].
      intros [r|[x' m']] R.
      + apply ev2_const. exact R.
      + destruct R as (s & l & v' & X & _). discriminate.
    - eapply (ev2_bind (fun i _ => h_reduction_ingest k (clog_egest k i) x m)
        (fun i j ing => match ing with
                        | inl r => Ok (Become (CRatio r))
                        | inr (x', m') => h_egest k (clog_egest k i) j x' m' end)).
      eapply ev2_mono; [apply (reduction_ingest_ev x (s :: l) m v z _ G S H Z0 Z1 F) | | auto].
      intros [r|[x' m']] R.
      + apply ev2_const. exact R.
      + destruct R as (s' & l' & v' & X & G' & S' & H' & I & Gr). inversion X; subst s' l'.
        apply (IH x' m' v' G' S' (J_ingested _ _ _ HJ I) H' Sz).
        eapply fits_step; [exact F | exact Gr].
  Qed.

  (** Homographic clogs behave. *)
  Lemma hom_good lz : forall x m z, hom_state x m z lz -> good k E (CHomographic x m) lz.
  Proof.
    induction lz as [|s lz IH]; intros x m z (lx & v & G & S & HJ & H & Sz & F).
    all: assert (W := h_egest_ev _ z lx x m v G S HJ H Sz F); apply ev2_diag in W.
    all: cbn [good]; apply ev_S; cbn [clog_egest strategy_egest].
    all: apply (ev_bind (fun n => h_egest k (clog_egest k n) n x m)
            (fun n r => match r with
                      | Emit o s' => Ok (o, s')
                      | Become s' => clog_egest k n s' end)).
    all: eapply ev_mono; [exact W | | auto].
    all: intros [o c|c] P; cbn [hom_next] in P; destruct c as [r|x' m'|]; try contradiction.
    - destruct P as (-> & Es & Er). apply ev_const. cbn. split; auto.
      exists 2%nat. intros [|[|n]] Hn; try lia. cbn [clog_egest strategy_egest h_egest].
      rewrite Es. cbn [bind]. rewrite Er. reflexivity.
    - pose proof (ratio_good k E [] r z P Sz) as Gr. exact Gr.
    - destruct P as (-> & z' & St). apply ev_const. cbn. split; auto. eapply IH; eauto.
    - pose proof (ratio_good k E (s :: lz) r z P Sz) as Gr. exact Gr.
  Qed.

  (** *** Construction *)

  (** What the constructors hand over for the value [z]. *)
  Definition made_ok (z : Q) (m : h_made) : Prop :=
    match m with
    | (Some s, _, _, _) => (z == special_val s)%Q
    | (None, p, r, h) =>
        exists v l, clog_seq v l /\ (z == primed p v)%Q /\
          match r, h with
          | Some r, None => good k E (CRatio r) l
          | None, Some (x, m) => good k E (CHomographic x m) l
          | _, _ => False
          end
    end.

  Lemma made_of_made3 z sp p r : made3_ok k (sp, p, r) z -> made_ok z (sp, p, r, None).
  Proof.
    destruct sp as [s|]; cbn; auto. destruct r as [r|]; [|contradiction].
    intros (v & R & Z). destruct (rat_good_ex k E r v R) as (l & S & G). exists v, l. auto.
  Qed.

  (** [t] bounds the number of symbols of the result. *)
  Definition zlen (z : Q) (t : nat) : Prop :=
    forall p v l, (z == primed p v)%Q -> clog_seq v l -> (length l <= t)%nat.

  Lemma zlen_ex z : exists t, zlen z t.
  Proof.
    destruct (primed_ex z) as [(s & Hs)|(p & v & V0 & V1 & Hp)].
    - exists 0%nat. intros p v l Z S. exfalso. destruct (clog_seq_range _ _ S).
      apply (primed_not_special p v s); auto. now rewrite <- Z.
    - destruct (clog_seq_ex v V0 V1) as [l S]. exists (length l).
      intros p' v' l' Z S'. destruct (clog_seq_range _ _ S') as [V0' V1'].
      destruct (primed_inj p p' v v') as [_ X]; auto; [now rewrite <- Hp|].
      now rewrite (clog_seq_det _ _ S _ _ S' X).
  Qed.

  Lemma prime_ingest_ev x lx m v z t : good k E x lx -> clog_seq v lx -> hv m v z ->
    fits k E m t ->
    ev2 (fun i _ => h_prime_ingest k (clog_egest k i) x m)
        (fun r => match r with
                  | inl m3 => lx = [] /\ made3_ok k m3 z
                  | inr (x', m') => exists s l v', lx = s :: l /\ good k E x' l /\ clog_seq v' l
                      /\ hv m' v' z /\ ingested s m m' /\ grows m m'
                  end) E.
  Proof.
    intros G S H F. unfold h_prime_ingest.
    apply (ev2_bind (fun i _ => clog_egest k i x)
      (fun i j '(o, x') => match o with
        | Some Amplify => let! m' := h_ingest_amplify k m in Ok (inr (x', m'))
        | Some Uncover => let! m' := h_ingest_uncover k m in Ok (inr (x', m'))
        | None => let! (num, den) := h_value_at_one_half k m in
                  let! v := ratio_new_i k num den in Ok (inl v)
        end)).
    eapply ev2_mono; [apply (good_ev2 x lx G) | | auto].
    intros [o x'] [Ho Gx]; cbn [fst snd] in *. apply ev2_const. subst o.
    destruct lx as [|s l].
    - pose proof (seq_cases _ _ S) as V; cbn in V.
      apply wp_bind. eapply wp_mono; [apply (end_ev k E m v z t O V H F) | | auto].
      intros [num den] W; cbn [fst snd] in *. apply wp_bind.
      eapply wp_mono; [exact W | | auto]. intros m3 M. cbn [wp]. auto.
    - assert (W := ingest_ev k E m t s F).
      assert (W' : wp (fun r => match r with
                  | inl m3 => s :: l = [] /\ made3_ok k m3 z
                  | inr (x', m') => exists s0 l0 v', s :: l = s0 :: l0 /\ good k E x' l0 /\ clog_seq v' l0
                      /\ hv m' v' z /\ ingested s0 m m' /\ grows m m'
                  end) E (let! m' := match s with Amplify => h_ingest_amplify k m
                                     | Uncover => h_ingest_uncover k m end in Ok (inr (x', m')))).
      { apply wp_bind. eapply wp_mono; [exact W | | auto]. intros m' [I Gr]. cbn [wp].
        destruct (ingested_value _ _ _ _ _ _ S I H) as (v' & S' & H').
        exists s, l, v'. auto 7. }
      destruct s; exact W'.
  Qed.

  Lemma h_prime_ev z t (Ht : zlen z t) : forall lx x m v, good k E x lx -> clog_seq v lx ->
    hv m v z -> fits k E m (length lx + t) ->
    ev2 (fun i j => h_prime k (clog_egest k i) j x m) (made_ok z) E.
  Proof.
    induction lx as [|s l IH]; intros x m v G S H F;
      destruct (clog_seq_range _ _ S) as [V0 V1].
    all: apply ev2_S; cbn [h_prime].
    all: apply ev2_step; apply (fits_tight _ _ _ _ _ F); intros B T;
      (eapply wp_mono; [apply (sing_wp k B m) | | exact T]); intros out Hout.
    all: apply ev2_step;
      assert (W : wp (pe_post m) E (if out then h_primer_egest k m else Ok None)) by
       (destruct out; [|exact I]; destruct (proj1 Hout eq_refl) as [AN AD];
        eapply wp_mono; [apply (primer_egest_wp k B m O AN AD (hv_den _ _ _ H)) | auto | exact T]);
      (eapply wp_mono; [exact W | | auto]); intros [[p m']|] Post.
    1,3: apply ev2_const; cbn [wp pe_post] in *; destruct Post as (-> & HJ & N0 & N1);
      destruct (hv_pe m p v z H V0 V1 HJ N0 N1) as (z' & H' & Z0 & Z1 & Hz);
      destruct (clog_seq_ex z' Z0 Z1) as [lz Sz];
      exists z', lz; split; [exact Sz|]; split; [exact Hz|];
      apply (hom_good lz x _ z'); unfold hom_state; eexists; exists v;
      split; [exact G|]; split; [exact S|]; split; [exact HJ|]; split; [exact H'|];
      split; [exact Sz|];
      eapply fits_same; [|intro; apply pe_rel_bound];
      eapply fits_le; [|exact F]; pose proof (Ht p z' lz Hz Sz); lia.
    - eapply (ev2_bind (fun i _ => h_prime_ingest k (clog_egest k i) x m)
        (fun i j ing => match ing with
                        | inl (special, p, r) => Ok (special, p, r, None)
                        | inr (x', m') => h_prime k (clog_egest k i) j x' m' end)).
      eapply ev2_mono; [apply (prime_ingest_ev x [] m v z _ G S H F) | | auto].
      intros [[[sp p] r]|[x' m']] R.
      + apply ev2_const. destruct R as [_ R]. cbn [wp]. now apply made_of_made3.
      + destruct R as (s & l & v' & X & _). discriminate.
    - eapply (ev2_bind (fun i _ => h_prime_ingest k (clog_egest k i) x m)
        (fun i j ing => match ing with
                        | inl (special, p, r) => Ok (special, p, r, None)
                        | inr (x', m') => h_prime k (clog_egest k i) j x' m' end)).
      eapply ev2_mono; [apply (prime_ingest_ev x (s :: l) m v z _ G S H F) | | auto].
      intros [[[sp p] r]|[x' m']] R.
      + destruct R as [R _]. discriminate.
      + destruct R as (s' & l' & v' & X & G' & S' & H' & I & Gr). inversion X; subst s' l'.
        apply (IH x' m' v' G' S' H'). eapply fits_step; [exact F | exact Gr].
  Qed.

  (** *** [homographic::new] *)

  (** [t] bounds the number of symbols of the operand. *)
  Definition nlen (x : number) (q : Q) (t : nat) : Prop :=
    match x with NSpecial _ => True | NOther _ _ => zlen q t end.

  Lemma as_ratio_ev n d z tn (F : fits k E (HC 0 n 0 d) tn) : isize k n -> isize k d ->
    ~ (zq d == 0)%Q -> (z == zq n / zq d)%Q ->
    wp (made_ok z) E (h_as_ratio k n d).
  Proof.
    intros In Id ND Z. unfold h_as_ratio. apply wp_bind.
    assert (d <> 0) by (intros ->; now apply ND).
    apply (fits_tight _ _ _ _ _ F). intros B T.
    eapply wp_mono; [apply (ratio_new_i_wp k n d O In Id H) | |].
    - intros [[sp p] r] M. cbn [wp]. apply made_of_made3. eapply made3_compat; [exact M|].
      now rewrite Z.
    - intros p [-> Y]. apply T. split; [now right|]. intros [R W]. unfold hbound in W; hc.
      destruct (hroom_lin k B n R) as [_ A]; [destruct R; lia|].
      destruct (hroom_lin k B d R) as [_ A']; [destruct R; lia|].
      unfold isize in *. pose proof (imin_imax k). lia.
  Qed.

  Lemma h_new_ev x q nx n dx d z tx tz : numgood k E x q ->
    isize k nx -> isize k n -> isize k dx -> isize k d ->
    ~ (hom_num dx d q == 0)%Q -> (z == hom nx n dx d q)%Q ->
    nlen x q tx -> zlen z tz -> fits k E (HC nx n dx d) (S (tx + tz)) ->
    ev2 (fun i j => h_new k (clog_egest k i) j x nx n dx d) (made_ok z) E.
  Proof.
    intros G Inx In Idx Id ND Z Lx Lz F. unfold h_new.
    unfold hom, hom_num in *.
    destruct ((nx =? 0) && (dx =? 0)) eqn:C.
    { apply andb_true_iff in C. destruct C as [C1 C2]. apply Z.eqb_eq in C1, C2. subst nx dx.
      change (zq 0) with 0%Q in *.
      apply ev2_const. eapply as_ratio_ev; eauto.
      - intro X. apply ND. rewrite X. ring.
      - rewrite Z. apply div_eq_iff; [exact ND|]. field. intro X. apply ND. rewrite X. ring. }
    destruct x as [s|p c].
    - cbn [numgood] in G. destruct s; cbn [special_val] in G.
      + apply ev2_step. apply (fits_tight _ _ _ _ _ F). intros B T.
        wps; [|apply T; tightly k B]. apply ev2_step.
        wps; [|apply T; tightly k B]. apply ev2_const.
        eapply (as_ratio_ev _ _ _ (tx + tz)); auto.
        * eapply fits_step; [exact F|]. intros B0 X. unfold hbound in *; hc. lia.
        * rewrite zq_sub. intro X. apply ND. rewrite G. lra.
        * rewrite Z, G, !zq_sub. apply div_eq_iff; [intro X; apply ND; rewrite G; lra|].
          field. intro X. apply ND. rewrite G. lra.
      + apply ev2_const.
        eapply (as_ratio_ev _ _ _ (S (tx + tz))); auto.
        * eapply fits_same; [exact F|]. intros B0 X. unfold hbound in *; hc. lia.
        * intro X. apply ND. rewrite G, X. ring.
        * rewrite Z, G. apply div_eq_iff; [intro X; apply ND; rewrite G; lra|].
          field. intro X. apply ND. rewrite G. lra.
      + apply ev2_step. apply (fits_tight _ _ _ _ _ F). intros B T.
        wps; [|apply T; tightly k B]. apply ev2_step.
        wps; [|apply T; tightly k B]. apply ev2_const.
        eapply (as_ratio_ev _ _ _ (tx + tz)); auto.
        * eapply fits_step; [exact F|]. intros B0 X. unfold hbound in *; hc. lia.
        * rewrite zq_add. intro X. apply ND. rewrite G. lra.
        * rewrite Z, G, !zq_add. apply div_eq_iff; [intro X; apply ND; rewrite G; lra|].
          field. intro X. apply ND. rewrite G. lra.
    - cbn [numgood] in G. destruct G as (v & l & S & Q & G). cbn [unwrap_other].
      apply ev2_step. cbn [wp]. apply ev2_step.
      apply (fits_tight _ _ _ _ _ F). intros B T.
      eapply wp_mono; [apply (absorb_wp k B p (HC nx n dx d) O) | | exact T].
      intros m ->. destruct (clog_seq_range _ _ S) as [V0 V1].
      apply (h_prime_ev z tz Lz l c _ v G S).
      + apply hv_absorbed; auto. split; unfold hom_num; hc; rewrite <- Q; auto.
        rewrite Z. field. exact ND.
      + eapply fits_same; [|intro; apply absorbed_bound].
        eapply fits_le; [|exact F]. cbn [nlen] in Lx. pose proof (Lx p v l Q S). lia.
  Qed.

  (** *** [Number::homographic] *)

  Lemma number_of_made z (m : h_made) : made_ok z m ->
    exists y, (let '(special, p, r, h) := m in
       match special with
       | Some fixed => Ok (NSpecial fixed)
       | None => match r with
                 | Some r => Ok (NOther p (CRatio r))
                 | None => match h with
                           | Some (x, m) => Ok (NOther p (CHomographic x m))
                           | None => Panic PUnwrapNone
                           end
                 end
       end) = Ok y /\ numgood k E y z.
  Proof.
    destruct m as [[[[s|] p] r] h]; cbn.
    - eauto.
    - intros (v & l & S & Z & G). destruct r as [r|].
      + destruct h as [[x m]|]; [contradiction|].
        eexists. split; [reflexivity|]. exists v, l. auto.
      + destruct h as [[x m]|]; [|contradiction].
        eexists. split; [reflexivity|]. exists v, l. auto.
  Qed.

  Theorem homographic_ev x q nx n dx d tx tz : numgood k E x q ->
    isize k nx -> isize k n -> isize k dx -> isize k d ->
    ~ (hom_num dx d q == 0)%Q ->
    nlen x q tx -> zlen (hom nx n dx d q) tz -> fits k E (HC nx n dx d) (S (tx + tz)) ->
    ev (fun f => number_homographic k f x nx n dx d)
       (fun y => numgood k E y (hom nx n dx d q)) E.
  Proof.
    intros. unfold number_homographic.
    apply (ev_bind (fun f => h_new k (clog_egest k f) f x nx n dx d)).
    assert (W : ev (fun f => h_new k (clog_egest k f) f x nx n dx d)
                   (made_ok (hom nx n dx d q)) E).
    { apply (ev2_diag (fun i j => h_new k (clog_egest k i) j x nx n dx d)).
      eapply h_new_ev; eauto. reflexivity. }
    eapply ev_mono; [exact W | | auto]. intros m M. apply ev_const.
    destruct (number_of_made _ _ M) as (y & Y & G). rewrite Y. exact G.
  Qed.
End Loops.
