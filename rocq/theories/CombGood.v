(** * CombGood: the loops of the Combine strategy (debug build). *)

From Coq Require Import ZArith QArith Qfield List Lia Lqa Psatz Bool.
From Verif Require Import Machine Protocol Support Types Ratio Homographic Combine Lib Spec
  SeqProofs Good RatioProofs SupportProofs HomProofs HomValue HomGood CombProofs CombValue.
Import ListNotations.
Open Scope Z_scope.

Definition cfits (k : cfg) (E : panic -> Prop) (m : ccoef) (t : nat) : Prop :=
  (forall p, ovfp p -> E p) \/ exists B, cbound B m /\ hroom k (B * 2 ^ Z.of_nat t).

Lemma cfits_tight k E m t (Q : Prop) : cfits k E m t ->
  (forall B, (forall p, ctight k B m p -> E p) -> Q) -> Q.
Proof.
  intros [H|(B & HB & HR)] K.
  - apply (K 0). intros p [X _]. auto.
  - apply (K B). intros p [X Y]. exfalso. apply Y. split; auto. apply (hroom_pow _ _ _ HR).
Qed.

Lemma cfits_le k E m t t' : (t' <= t)%nat -> cfits k E m t -> cfits k E m t'.
Proof.
  intros L [H|(B & HB & HR)]; [now left|]. right. exists B. split; auto.
  destruct (hroom_pow _ _ _ HR) as [P _].
  eapply hroom_le; [| |exact HR].
  - pose proof (pow2_pos t'). nia.
  - apply Z.mul_le_mono_nonneg_l; [lia|]. apply Z.pow_le_mono_r; lia.
Qed.

Lemma pow_step B t : 2 * B * 2 ^ Z.of_nat t = B * 2 ^ Z.of_nat (S t).
Proof. rewrite Nat2Z.inj_succ, Z.pow_succ_r by lia. lia. Qed.

Lemma cfits_step k E m m' t : cfits k E m (S t) -> cgrows m m' -> cfits k E m' t.
Proof.
  intros [H|(B & HB & HR)] G; [now left|]. right. exists (2 * B). split; auto.
  now rewrite pow_step.
Qed.

Lemma cfits_same k E m m' t : cfits k E m t -> (forall B, cbound B m -> cbound B m') -> cfits k E m' t.
Proof. intros [H|(B & HB & HR)] G; [now left|]. right. exists B. auto. Qed.

Lemma cfits_end k E m q t : cfits k E m (S (S t)) -> cend m q -> fits k E q t.
Proof.
  intros [H|(B & HB & HR)] G; [now left|]. right. exists (2 * (2 * B)). split.
  - replace (2 * (2 * B)) with (4 * B) by lia. eapply cend_bound; eauto.
  - now rewrite !pow_step.
Qed.

(** ** The ends, the symbols *)

Lemma cend_x_ev k E m t : cfits k E m t ->
  wp (fun q => cend m q /\ hsized k q) E (c_value_at_end_of_x k m).
Proof.
  intro F. apply (cfits_tight _ _ _ _ _ F). intros B T.
  eapply wp_mono; [apply (cend_x_wp k B m) | auto | exact T].
Qed.
Lemma cend_y_ev k E m t : cfits k E m t ->
  wp (fun q => cend (cswap m) q /\ hsized k q) E (c_value_at_end_of_y k m).
Proof.
  intro F. apply (cfits_tight _ _ _ _ _ F). intros B T.
  eapply wp_mono; [apply (cend_y_wp k B m) | auto | exact T].
Qed.
Lemma cing_x_ev k E m t s : cfits k E m t ->
  wp (cingested s m) E (match s with Amplify => c_amplify_x k m | Uncover => c_uncover_x k m end).
Proof.
  intro F. apply (cfits_tight _ _ _ _ _ F). intros B T.
  eapply wp_mono; [apply (cing_x_wp k B m s) | auto | exact T].
Qed.
Lemma cing_y_ev k E m t s : cfits k E m t ->
  wp (fun m' => cingested s (cswap m) (cswap m')) E
     (match s with Amplify => c_amplify_y k m | Uncover => c_uncover_y k m end).
Proof.
  intro F. apply (cfits_tight _ _ _ _ _ F). intros B T.
  eapply wp_mono; [apply (cing_y_wp k B m s) | auto | exact T].
Qed.

Lemma cingested_y_grows s m m' : cingested s (cswap m) (cswap m') -> cgrows m m'.
Proof.
  intros H B W. rewrite <- (cswap_invol m'). apply cbound_swap.
  apply (cingested_grows _ _ _ H). now apply cbound_swap.
Qed.

Lemma cingested_value s m m' v l y z : clog_seq v (s :: l) -> cingested s m m' -> cv m v y z ->
  exists v', clog_seq v' l /\ cv m' v' y z.
Proof.
  intros S I H. destruct s; inversion S; subst; cbn [cingested] in I.
  - exists (2 * v)%Q. split; auto. now apply (cv_amplify m).
  - subst. exists (/ v - 1)%Q. split; auto. apply cv_uncover; auto. lra.
Qed.

Lemma cingested_value_y s m m' v l x z : clog_seq v (s :: l) ->
  cingested s (cswap m) (cswap m') -> cv m x v z ->
  exists v', clog_seq v' l /\ cv m' x v' z.
Proof.
  intros S I H. apply cv_swap in H.
  destruct (cingested_value s _ _ v l x z S I H) as (v' & S' & H').
  exists v'. split; auto. apply cv_swap in H'. now rewrite cswap_invol in H'.
Qed.

Lemma zlen_seq v l : clog_seq v l -> zlen v (length l).
Proof.
  intros S p v' l' E S'. destruct (clog_seq_range _ _ S) as [A B].
  destruct (clog_seq_range _ _ S') as [A' B'].
  destruct (primed_inj None p v v' A B A' B' E) as [_ X].
  now rewrite (clog_seq_det _ _ S _ _ S' X).
Qed.

Section Loops.
  Variable k : cfg.
  Hypothesis O : ovf k = true.
  Variable E : panic -> Prop.

  (** The function of one operand that is left at the end of the other one. *)
  Lemma end_new_ev q y ly v z t : good k E y ly -> clog_seq v ly -> hv q v z -> hsized k q ->
    zlen z t -> fits k E q (S (length ly + t)) ->
    ev2 (fun i j => h_new k (clog_egest k i) j (NOther None y) (h_nx q) (h_n q) (h_dx q) (h_d q))
        (made_ok k E z) E.
  Proof.
    intros G S [H1 H2] (A & B & C & D) L F.
    apply (h_new_ev k O E (NOther None y) v _ _ _ _ z (length ly) t); auto.
    - cbn [numgood]. exists v, ly. split; [auto|]. split; [reflexivity | auto].
    - unfold hom. symmetry. apply div_eq_iff; auto.
    - cbn [nlen]. now apply zlen_seq.
  Qed.

  Definition fed (lx ly : list reduction) (z : Q) (m : ccoef) (x' y' : clog) (m' : ccoef) : Prop :=
    exists sx lx' sy ly' vx vy m1, lx = sx :: lx' /\ ly = sy :: ly' /\
      good k E x' lx' /\ good k E y' ly' /\ clog_seq vx lx' /\ clog_seq vy ly' /\ cv m' vx vy z /\
      cingested sx m m1 /\ cingested sy (cswap m1) (cswap m').

  Lemma c_prime_ingest_ev x y lx ly m vx vy z t : good k E x lx -> good k E y ly ->
    clog_seq vx lx -> clog_seq vy ly -> cv m vx vy z -> zlen z t ->
    cfits k E m (length lx + length ly + t + 3) ->
    ev2 (fun i j => c_prime_ingest k (clog_egest k i) j x y m)
        (fun r => match r with
                  | inl v => made_ok k E z v
                  | inr (x', y', m') => fed lx ly z m x' y' m'
                  end) E.
  Proof.
    intros Gx Gy Sx Sy H L F. unfold c_prime_ingest.
    eapply (ev2_bind (fun i _ => clog_egest k i x) (fun i j '(o, x') => match o with
      | None => _ | Some _ => _ end)).
    eapply ev2_mono; [apply (good_ev2 k E x lx Gx) | | auto].
    intros [o x'] [Ho Gx']; cbn [fst snd] in *. subst o. destruct lx as [|sx lx].
    - (* the end of x *)
      pose proof (seq_cases _ _ Sx) as V; cbn in V.
      apply ev2_step. eapply wp_mono; [apply (cend_x_ev k E m _ F) | | auto].
      intros q [Q Sz].
      apply (ev2_bind (fun i j => h_new k (clog_egest k i) j (NOther None y) (h_nx q) (h_n q) (h_dx q) (h_d q))).
      eapply ev2_mono; [apply (end_new_ev q y ly vy z t Gy Sy) | | auto]; auto.
      + now apply (cv_end m q vx vy z).
      + eapply cfits_end; [|exact Q]. eapply cfits_le; [|exact F]. cbn [length]. lia.
      + intros v M. apply ev2_const. exact M.
    - apply ev2_step. eapply wp_mono; [apply (cing_x_ev k E m _ sx F) | | auto].
      intros m1 I1. cbn [length] in F.
      destruct (cingested_value _ _ _ _ _ _ _ Sx I1 H) as (vx' & Sx' & H').
      assert (F1 : cfits k E m1 (length lx + length ly + t + 3))
        by (eapply cfits_step; [exact F | eapply cingested_grows; eauto]).
      eapply (ev2_bind (fun i _ => clog_egest k i y) (fun i j '(o, y') => match o with
        | None => _ | Some _ => _ end)).
      eapply ev2_mono; [apply (good_ev2 k E y ly Gy) | | auto].
      intros [o y'] [Ho Gy']; cbn [fst snd] in *. subst o. destruct ly as [|sy ly].
      + pose proof (seq_cases _ _ Sy) as V; cbn in V.
        apply ev2_step. eapply wp_mono; [apply (cend_y_ev k E m1 _ F1) | | auto].
        intros q [Q Sz].
        apply (ev2_bind (fun i j => h_new k (clog_egest k i) j (NOther None x') (h_nx q) (h_n q) (h_dx q) (h_d q))).
        eapply ev2_mono; [apply (end_new_ev q x' lx vx' z t Gx' Sx') | | auto]; auto.
        * apply (cv_end (cswap m1) q vy vx' z); auto. now apply cv_swap.
        * eapply cfits_end; [|exact Q]. eapply cfits_same; [|intro; apply cbound_swap].
          eapply cfits_le; [|exact F1]. cbn [length]. lia.
        * intros v M. apply ev2_const. exact M.
      + apply ev2_step. eapply wp_mono; [apply (cing_y_ev k E m1 _ sy F1) | | auto].
        intros m2 I2. apply ev2_const. cbn [wp].
        destruct (cingested_value_y _ _ _ _ _ _ _ Sy I2 H') as (vy' & Sy' & H'').
        exists sx, lx, sy, ly, vx', vy', m1. auto 10.
  Qed.

  (** What the end of an operand leaves for a value of the unit interval. *)
  Definition left_ok (lz : list reduction) (rh : option ratio * option (clog * hcoef)) : Prop :=
    match rh with
    | (Some r, None) => good k E (CRatio r) lz
    | (None, Some (x, m)) => good k E (CHomographic x m) lz
    | _ => False
    end.

  Lemma left_of_made z lz v : clog_seq z lz -> made_ok k E z v ->
    exists rh, (match v with (None, None, r, h) => Ok (inl (r, h)) | _ => Panic PLogic end)
       = Ok (A := option ratio * option (clog * hcoef) + clog * clog * ccoef) (inl rh)
      /\ left_ok lz rh.
  Proof.
    intros S M. destruct (clog_seq_range _ _ S) as [Z0 Z1].
    destruct v as [[[[s|] p] r] h]; cbn [made_ok] in M.
    - exfalso. apply (primed_not_special None z s Z0 Z1 M).
    - destruct M as (v & l & Sv & Hz & G). destruct (clog_seq_range _ _ Sv) as [V0 V1].
      destruct (primed_inj None p z v Z0 Z1 V0 V1 Hz) as [<- X].
      rewrite <- (clog_seq_det _ _ S _ _ Sv X) in G.
      exists (r, h). split; auto.
  Qed.

  Lemma shutdown_ok c : c_shutdown k c = Ok (NOther None c).
  Proof.
    assert (X : exists v, ratio_new_i k 1 2 = Ok (None, None, Some v)).
    { destruct k as [[] []]; eexists; vm_compute; reflexivity. }
    destruct X as [v X]. unfold c_shutdown, c_simple_clog. rewrite X. reflexivity.
  Qed.

  Lemma c_reduction_ingest_ev x y lx ly lz m vx vy z : good k E x lx -> good k E y ly ->
    clog_seq vx lx -> clog_seq vy ly -> cv m vx vy z -> clog_seq z lz ->
    cfits k E m (length lx + length ly + length lz + 3) ->
    ev2 (fun i j => c_reduction_ingest k (clog_egest k i) j x y m)
        (fun r => match r with
                  | inl rh => left_ok lz rh
                  | inr (x', y', m') => fed lx ly z m x' y' m'
                  end) E.
  Proof.
    intros Gx Gy Sx Sy H Sz F. unfold c_reduction_ingest.
    eapply (ev2_bind (fun i _ => clog_egest k i x) (fun i j '(o, x') => match o with
      | None => _ | Some _ => _ end)).
    eapply ev2_mono; [apply (good_ev2 k E x lx Gx) | | auto].
    intros [o x'] [Ho Gx']; cbn [fst snd] in *. subst o. destruct lx as [|sx lx].
    - (* the end of x *)
      pose proof (seq_cases _ _ Sx) as V; cbn in V.
      apply ev2_step. eapply wp_mono; [apply (cend_x_ev k E m _ F) | | auto].
      intros q [Q Hs]. rewrite shutdown_ok. cbn [bind].
      apply (ev2_bind (fun i j => h_new k (clog_egest k i) j (NOther None y) (h_nx q) (h_n q) (h_dx q) (h_d q))).
      eapply ev2_mono; [apply (end_new_ev q y ly vy z (length lz) Gy Sy) | | auto]; auto.
      + now apply (cv_end m q vx vy z).
      + now apply zlen_seq.
      + eapply cfits_end; [|exact Q]. eapply cfits_le; [|exact F]. cbn [length]. lia.
      + intros v M. apply ev2_const. destruct (left_of_made z lz v Sz M) as (rh & -> & R). exact R.
    - apply ev2_step. eapply wp_mono; [apply (cing_x_ev k E m _ sx F) | | auto].
      intros m1 I1. cbn [length] in F.
      destruct (cingested_value _ _ _ _ _ _ _ Sx I1 H) as (vx' & Sx' & H').
      assert (F1 : cfits k E m1 (length lx + length ly + length lz + 3))
        by (eapply cfits_step; [exact F | eapply cingested_grows; eauto]).
      eapply (ev2_bind (fun i _ => clog_egest k i y) (fun i j '(o, y') => match o with
        | None => _ | Some _ => _ end)).
      eapply ev2_mono; [apply (good_ev2 k E y ly Gy) | | auto].
      intros [o y'] [Ho Gy']; cbn [fst snd] in *. subst o. destruct ly as [|sy ly].
      + pose proof (seq_cases _ _ Sy) as V; cbn in V.
        apply ev2_step. eapply wp_mono; [apply (cend_y_ev k E m1 _ F1) | | auto].
        intros q [Q Hs]. rewrite shutdown_ok. cbn [bind].
        apply (ev2_bind (fun i j => h_new k (clog_egest k i) j (NOther None x') (h_nx q) (h_n q) (h_dx q) (h_d q))).
        eapply ev2_mono; [apply (end_new_ev q x' lx vx' z (length lz) Gx' Sx') | | auto]; auto.
        * apply (cv_end (cswap m1) q vy vx' z); auto. now apply cv_swap.
        * now apply zlen_seq.
        * eapply cfits_end; [|exact Q]. eapply cfits_same; [|intro; apply cbound_swap].
          eapply cfits_le; [|exact F1]. cbn [length]. lia.
        * intros v M. apply ev2_const. destruct (left_of_made z lz v Sz M) as (rh & -> & R). exact R.
      + apply ev2_step. eapply wp_mono; [apply (cing_y_ev k E m1 _ sy F1) | | auto].
        intros m2 I2. apply ev2_const. cbn [wp].
        destruct (cingested_value_y _ _ _ _ _ _ _ Sy I2 H') as (vy' & Sy' & H'').
        exists sx, lx, sy, ly, vx', vy', m1. auto 10.
  Qed.

  (** What one call of [Combine::egest] gives for the sequence [lz]. *)
  Definition comb_state (x y : clog) (m : ccoef) (z : Q) (lz : list reduction) : Prop :=
    exists lx ly vx vy, good k E x lx /\ good k E y ly /\ clog_seq vx lx /\ clog_seq vy ly /\
      JC m /\ cv m vx vy z /\ clog_seq z lz /\
      cfits k E m (length lx + length ly + length lz + 3).

  Definition comb_next (z : Q) (lz : list reduction) (e : egested) : Prop :=
    match e with
    | Emit o (CCombine x y m) =>
        match lz with
        | [] => False
        | s :: lz' => o = Some s /\ exists z', comb_state x y m z' lz'
        end
    | Emit _ _ => False
    | Become c => good k E c lz
    end.

  Lemma c_egest_ev lz z : forall lx ly x y m vx vy, good k E x lx -> good k E y ly ->
    clog_seq vx lx -> clog_seq vy ly -> JC m -> cv m vx vy z -> clog_seq z lz ->
    cfits k E m (length lx + length ly + length lz + 3) ->
    ev2 (fun i j => c_egest k (clog_egest k i) j x y m) (comb_next z lz) E.
  Proof.
    induction lx as [|s l IH]; intros ly x y m vx vy Gx Gy Sx Sy HJ H Sz F;
      destruct (clog_seq_range _ _ Sx) as [X0 X1]; destruct (clog_seq_range _ _ Sy) as [Y0 Y1];
      destruct (clog_seq_range _ _ Sz) as [Z0 Z1].
    all: apply ev2_S; cbn [c_egest].
    all: apply ev2_step; apply (cfits_tight _ _ _ _ _ F); intros B T;
      (eapply wp_mono; [apply (sing4_wp k B m) | | exact T]); intros out Hout;
      (assert (out = true) as -> by (apply Hout, JC_amen, HJ)); clear Hout.
    all: apply ev2_step; (eapply wp_mono; [apply (c_reduction_egest_wp k B m O HJ) | | exact T]);
      intros [[[[|]|] m']|] P; cbn [cre_post] in P; try contradiction.
    (* amplify *)
    1,4: apply ev2_const; cbn [wp comb_next]; destruct P as [J' D];
         destruct (cre_amplify _ _ _ _ _ J' D H X0 X1 Y0 Y1) as [Hz H'];
         pose proof (seq_cases _ _ Sz) as Cz;
         destruct lz as [|[|] lz]; [exfalso; lra | | exfalso; lra]; destruct Cz as [_ Sz'];
         split; [reflexivity|]; exists (2 * z)%Q;
         unfold comb_state; eexists _, ly, vx, vy; repeat (split; [eassumption|]);
         eapply cfits_step; [|eapply cdoubled_grows; exact D]; eapply cfits_le; [|exact F]; cbn [length]; lia.
    (* uncover *)
    1,3: apply ev2_const; cbn [wp comb_next]; destruct P as [J' ->];
         destruct (cre_uncover _ _ _ _ J' H Z0 X0 X1 Y0 Y1) as [Hz H'];
         pose proof (seq_cases _ _ Sz) as Cz;
         destruct lz as [|[|] lz]; [exfalso; lra | exfalso; lra |]; destruct Cz as [_ Sz'];
         split; [reflexivity|]; exists (/ z - 1)%Q;
         unfold comb_state; eexists _, ly, vx, vy; repeat (split; [eassumption|]);
         eapply cfits_step; [|apply cuncovered_grows]; eapply cfits_le; [|exact F]; cbn [length]; lia.
    (* ingestion *)
    - apply (ev2_bind (fun i j => c_reduction_ingest k (clog_egest k i) j x y m)).
      eapply ev2_mono; [apply (c_reduction_ingest_ev x y [] ly lz m vx vy z); auto | | auto].
      intros [[[r|] [[x' m']|]]|[[x' y'] m']] R; cbn [left_ok] in R; try contradiction.
      + apply ev2_const. exact R.
      + apply ev2_const. exact R.
      + destruct R as (sx & lx' & sy & ly' & wx & wy & m1 & X & _). discriminate.
    - apply (ev2_bind (fun i j => c_reduction_ingest k (clog_egest k i) j x y m)).
      eapply ev2_mono; [apply (c_reduction_ingest_ev x y (s :: l) ly lz m vx vy z); auto | | auto].
      intros [[[r|] [[x' m']|]]|[[x' y'] m']] R; cbn [left_ok] in R; try contradiction.
      + apply ev2_const. exact R.
      + apply ev2_const. exact R.
      + destruct R as (sx & lx' & sy & ly' & wx & wy & m1 & X & -> & Gx' & Gy' & Sx' & Sy' & H' & I1 & I2).
        inversion X; subst sx lx'.
        apply (IH ly' x' y' m' wx wy); auto.
        * apply (JC_ingested_y sy m1); auto. apply (JC_ingested s m); auto.
        * eapply cfits_step; [|eapply cingested_y_grows; exact I2].
          eapply cfits_step; [|eapply cingested_grows; exact I1].
          eapply cfits_le; [|exact F]. cbn [length]. lia.
  Qed.

  (** Combined clogs behave. *)
  Lemma comb_good lz : forall x y m z, comb_state x y m z lz -> good k E (CCombine x y m) lz.
  Proof.
    induction lz as [|s lz IH]; intros x y m z (lx & ly & vx & vy & Gx & Gy & Sx & Sy & HJ & H & Sz & F).
    all: assert (W := c_egest_ev _ z lx ly x y m vx vy Gx Gy Sx Sy HJ H Sz F); apply ev2_diag in W.
    all: cbn [good]; apply ev_S; cbn [clog_egest strategy_egest].
    all: apply (ev_bind (fun n => c_egest k (clog_egest k n) n x y m)
            (fun n r => match r with
                      | Emit o s' => Ok (o, s')
                      | Become s' => clog_egest k n s' end)).
    all: eapply ev_mono; [exact W | | auto].
    all: intros [o c|c] P; cbn [comb_next] in P.
    - destruct c; contradiction.
    - exact P.
    - destruct c as [| |x' y' m']; try contradiction.
      destruct P as (-> & z' & St). apply ev_const. cbn. split; auto. eapply IH; eauto.
    - exact P.
  Qed.

  (** *** Construction *)

  Definition cmade_ok (z : Q) (m : c_made) : Prop :=
    match m with
    | (Some s, _, _, _, _) => (z == special_val s)%Q
    | (None, p, r, h, c) =>
        exists v l, clog_seq v l /\ (z == primed p v)%Q /\
          match r, h, c with
          | Some r, None, None => good k E (CRatio r) l
          | None, Some (x, m), None => good k E (CHomographic x m) l
          | None, None, Some (x, y, m) => good k E (CCombine x y m) l
          | _, _, _ => False
          end
    end.

  Lemma cmade_of_made z s p r h : made_ok k E z (s, p, r, h) -> cmade_ok z (s, p, r, h, None).
  Proof.
    destruct s; cbn; auto.
  Qed.

  Lemma c_prime_ev z t (Ht : zlen z t) : forall lx ly x y m vx vy,
    good k E x lx -> good k E y ly -> clog_seq vx lx -> clog_seq vy ly ->
    cv m vx vy z -> cfits k E m (length lx + length ly + t + 3) ->
    ev2 (fun i j => c_prime k (clog_egest k i) j x y m) (cmade_ok z) E.
  Proof.
    induction lx as [|s l IH]; intros ly x y m vx vy Gx Gy Sx Sy H F;
      destruct (clog_seq_range _ _ Sx) as [X0 X1]; destruct (clog_seq_range _ _ Sy) as [Y0 Y1].
    all: apply ev2_S; cbn [c_prime].
    all: apply ev2_step; apply (cfits_tight _ _ _ _ _ F); intros B T;
      (eapply wp_mono; [apply (sing4_wp k B m) | | exact T]); intros out Hout.
    all: apply ev2_step;
      assert (W : wp (cpe_post m) E (if out then c_primer_egest k m else Ok None)) by
       (destruct out; [|exact I]; destruct (proj1 Hout eq_refl) as [AN AD];
        eapply wp_mono; [apply (c_primer_egest_wp k B m O AN AD) | auto | exact T]);
      (eapply wp_mono; [exact W | | auto]); intros [[p m']|] Post.
    1,3: apply ev2_const; cbn [wp cpe_post] in *; destruct Post as (-> & HJ);
      destruct (cv_pe m p vx vy z H X0 X1 Y0 Y1 HJ) as (z' & H' & Z0 & Z1 & Hz);
      destruct (clog_seq_ex z' Z0 Z1) as [lz Sz];
      cbn [cmade_ok]; exists z', lz; split; [exact Sz|]; split; [exact Hz|];
      apply (comb_good lz x y _ z'); unfold comb_state; eexists _, ly, vx, vy;
      repeat (split; [eassumption|]);
      eapply cfits_same; [|intro; apply cpe_bound];
      eapply cfits_le; [|exact F]; pose proof (Ht p z' lz Hz Sz); lia.
    - apply (ev2_bind (fun i j => c_prime_ingest k (clog_egest k i) j x y m)).
      eapply ev2_mono; [apply (c_prime_ingest_ev x y [] ly m vx vy z t); auto | | auto].
      intros [[[[sp p] r] h]|[[x' y'] m']] R.
      + apply ev2_const. cbn [wp]. now apply cmade_of_made.
      + destruct R as (sx & lx' & sy & ly' & wx & wy & m1 & X & _). discriminate.
    - apply (ev2_bind (fun i j => c_prime_ingest k (clog_egest k i) j x y m)).
      eapply ev2_mono; [apply (c_prime_ingest_ev x y (s :: l) ly m vx vy z t); auto | | auto].
      intros [[[[sp p] r] h]|[[x' y'] m']] R.
      + apply ev2_const. cbn [wp]. now apply cmade_of_made.
      + destruct R as (sx & lx' & sy & ly' & wx & wy & m1 & X & -> & Gx' & Gy' & Sx' & Sy' & H' & I1 & I2).
        inversion X; subst sx lx'.
        apply (IH ly' x' y' m' wx wy); auto.
        eapply cfits_step; [|eapply cingested_y_grows; exact I2].
        eapply cfits_step; [|eapply cingested_grows; exact I1].
        eapply cfits_le; [|exact F]. cbn [length]. lia.
  Qed.

  (** *** [combine::new] *)

  Lemma as_hom_ev x q nx n dx d z tx tz : numgood k E x q ->
    isize k nx -> isize k n -> isize k dx -> isize k d ->
    ~ (hom_num dx d q == 0)%Q -> (z == hom nx n dx d q)%Q ->
    nlen x q tx -> zlen z tz -> fits k E (HC nx n dx d) (S (tx + tz)) ->
    ev2 (fun i j => c_as_homographic k (clog_egest k i) j x nx n dx d) (cmade_ok z) E.
  Proof.
    intros. unfold c_as_homographic.
    apply (ev2_bind (fun i j => h_new k (clog_egest k i) j x nx n dx d)).
    eapply ev2_mono; [apply (h_new_ev k O E x q nx n dx d z tx tz); auto | | auto].
    intros [[[s p] r] h] M. apply ev2_const. cbn [wp]. now apply cmade_of_made.
  Qed.

  Lemma fits_sum m q t : cfits k E m (S t) ->
    (forall B, cbound B m -> hbound (2 * B) q) -> fits k E q t.
  Proof.
    intros [H|(B & HB & HR)] G; [now left|]. right. exists (2 * B). split; auto.
    now rewrite pow_step.
  Qed.

  Lemma c_new_ev x p y q a b c d e f g h z tx ty tz : numgood k E x p -> numgood k E y q ->
    isize k a -> isize k b -> isize k c -> isize k d ->
    isize k e -> isize k f -> isize k g -> isize k h ->
    ~ (comb_num e f g h p q == 0)%Q -> (z == comb a b c d e f g h p q)%Q ->
    nlen x p tx -> nlen y q ty -> zlen z tz ->
    cfits k E (CC a b c d e f g h) (tx + ty + tz + 3) ->
    ev2 (fun i j => c_new k (clog_egest k i) j x y a b c d e f g h) (cmade_ok z) E.
  Proof.
    intros Gx Gy Ia Ib Ic Id Ie If Ig Ih ND Z Lx Ly Lz F. unfold c_new.
    unfold comb in Z.
    assert (F2 : forall q t, (t <= tx + ty + tz + 2)%nat ->
       (forall B, cbound B (CC a b c d e f g h) -> hbound (2 * B) q) -> fits k E q t).
    { intros q0 t Ht HB. eapply fits_sum; [|exact HB]. eapply cfits_le; [|exact F]. lia. }
    destruct x as [s|px cx].
    - (* x special: a homographic function of y *)
      cbn [numgood] in Gx.
      assert (V : forall nx n dx d', isize k nx -> isize k n -> isize k dx -> isize k d' ->
         (hom_num nx n q == comb_num a b c d p q)%Q -> (hom_num dx d' q == comb_num e f g h p q)%Q ->
         (forall B, cbound B (CC a b c d e f g h) -> hbound (2 * B) (HC nx n dx d')) ->
         ev2 (fun i j => c_as_homographic k (clog_egest k i) j y nx n dx d') (cmade_ok z) E).
      { intros nx n dx d' I1 I2 I3 I4 HN HD HB.
        apply (as_hom_ev y q nx n dx d' z ty tz); auto.
        - now rewrite HD.
        - unfold hom. now rewrite HN, HD.
        - apply F2; auto. lia. }
      destruct s; cbn [special_val] in Gx.
      + apply (cfits_tight _ _ _ _ _ F). intros B T.
        do 4 (apply ev2_step; wps; [|apply T; ctightly k B]).
        apply V; auto; unfold hom_num, comb_num; rewrite ?zq_sub, ?Gx; try ring.
        intros B' W. unfold cbound, hbound in *; cc; hc. destruct W as [(?&?&?&?) (?&?&?&?)].
        auto using abs_sub2.
      + apply V; auto; unfold hom_num, comb_num; rewrite ?Gx; try ring.
        intros B' W. unfold cbound, hbound in *; cc; hc. destruct W as [(?&?&?&?) (?&?&?&?)].
        auto using abs_le2.
      + apply (cfits_tight _ _ _ _ _ F). intros B T.
        do 4 (apply ev2_step; wps; [|apply T; ctightly k B]).
        apply V; auto; unfold hom_num, comb_num; rewrite ?zq_add, ?Gx; try ring.
        intros B' W. unfold cbound, hbound in *; cc; hc. destruct W as [(?&?&?&?) (?&?&?&?)].
        auto using abs_add2.
    - destruct y as [s|py cy].
      + cbn [numgood] in Gy.
        assert (V : forall nx n dx d', isize k nx -> isize k n -> isize k dx -> isize k d' ->
           (hom_num nx n p == comb_num a b c d p q)%Q -> (hom_num dx d' p == comb_num e f g h p q)%Q ->
           (forall B, cbound B (CC a b c d e f g h) -> hbound (2 * B) (HC nx n dx d')) ->
           ev2 (fun i j => c_as_homographic k (clog_egest k i) j (NOther px cx) nx n dx d') (cmade_ok z) E).
        { intros nx n dx d' I1 I2 I3 I4 HN HD HB.
          apply (as_hom_ev (NOther px cx) p nx n dx d' z tx tz); auto.
          - now rewrite HD.
          - unfold hom. now rewrite HN, HD.
          - apply F2; auto. lia. }
        destruct s; cbn [special_val] in Gy.
        * apply (cfits_tight _ _ _ _ _ F). intros B T.
          do 4 (apply ev2_step; wps; [|apply T; ctightly k B]).
          apply V; auto; unfold hom_num, comb_num; rewrite ?zq_sub, ?Gy; try ring.
          intros B' W. unfold cbound, hbound in *; cc; hc. destruct W as [(?&?&?&?) (?&?&?&?)].
          auto using abs_sub2.
        * apply V; auto; unfold hom_num, comb_num; rewrite ?Gy; try ring.
          intros B' W. unfold cbound, hbound in *; cc; hc. destruct W as [(?&?&?&?) (?&?&?&?)].
          auto using abs_le2.
        * apply (cfits_tight _ _ _ _ _ F). intros B T.
          do 4 (apply ev2_step; wps; [|apply T; ctightly k B]).
          apply V; auto; unfold hom_num, comb_num; rewrite ?zq_add, ?Gy; try ring.
          intros B' W. unfold cbound, hbound in *; cc; hc. destruct W as [(?&?&?&?) (?&?&?&?)].
          auto using abs_add2.
      + cbn [numgood] in Gx, Gy. destruct Gx as (vx & lx & Sx & Px & Gx).
        destruct Gy as (vy & ly & Sy & Py & Gy). cbn [unwrap_other].
        destruct (clog_seq_range _ _ Sx) as [X0 X1]; destruct (clog_seq_range _ _ Sy) as [Y0 Y1].
        apply ev2_step. cbn [wp]. apply ev2_step.
        apply (cfits_tight _ _ _ _ _ F). intros B T.
        eapply wp_mono; [apply (cabsorb_x_wp k B px _ O) | | exact T].
        intros m ->. apply ev2_step. cbn [wp]. apply ev2_step.
        assert (F1 := cfits_same k E _ _ _ F (fun B => cabsorbed_bound B px _)).
        apply (cfits_tight _ _ _ _ _ F1). intros B1 T1.
        eapply wp_mono; [apply (cabsorb_y_wp k B1 py _ O) | | exact T1].
        intros m' Hm.
        apply (c_prime_ev z tz Lz lx ly cx cy m' vx vy); auto.
        * rewrite <- (cswap_invol m'), Hm. apply cv_swap. apply cv_absorbed; auto.
          apply cv_swap. apply cv_absorbed; auto.
          split; unfold cN, cD; cc; fold (primed px vx) (primed py vy).
          -- assert (X : forall a b c d, (comb_num a b c d (primed px vx) (primed py vy) == comb_num a b c d p q)%Q)
               by (intros; unfold comb_num; now rewrite Px, Py).
             rewrite !X, Z. field. exact ND.
          -- assert (X : forall a b c d, (comb_num a b c d (primed px vx) (primed py vy) == comb_num a b c d p q)%Q)
               by (intros; unfold comb_num; now rewrite Px, Py).
             now rewrite X.
        * cbn [nlen] in Lx, Ly. pose proof (Lx px vx lx Px Sx). pose proof (Ly py vy ly Py Sy).
          eapply cfits_le with (t := (tx + ty + tz + 3)%nat); [lia|].
          eapply cfits_same; [exact F1|]. intros B2 W. rewrite <- (cswap_invol m'), Hm.
          apply cbound_swap, cabsorbed_bound, cbound_swap, W.
  Qed.

  (** *** [Number::combine] *)

  Theorem combine_ev x p y q a b c d e f g h tx ty tz : numgood k E x p -> numgood k E y q ->
    isize k a -> isize k b -> isize k c -> isize k d ->
    isize k e -> isize k f -> isize k g -> isize k h ->
    ~ (comb_num e f g h p q == 0)%Q ->
    nlen x p tx -> nlen y q ty -> zlen (comb a b c d e f g h p q) tz ->
    cfits k E (CC a b c d e f g h) (tx + ty + tz + 3) ->
    ev (fun n => number_combine k n x y a b c d e f g h)
       (fun r => numgood k E r (comb a b c d e f g h p q)) E.
  Proof.
    intros. unfold number_combine.
    apply (ev_bind (fun f0 => c_new k (clog_egest k f0) f0 x y a b c d e f g h)).
    assert (W : ev (fun f0 => c_new k (clog_egest k f0) f0 x y a b c d e f g h)
                   (cmade_ok (comb a b c d e f g h p q)) E).
    { apply (ev2_diag (fun i j => c_new k (clog_egest k i) j x y a b c d e f g h)).
      eapply (c_new_ev x p y q); eauto. reflexivity. }
    eapply ev_mono; [exact W | | auto].
    intros [[[[[s|] pr] r] h'] c'] M; apply ev_const; cbn [cmade_ok] in M.
    - exact M.
    - destruct M as (v & l & S & Z & G).
      destruct r as [r|], h' as [[? ?]|], c' as [[[? ?] ?]|]; try contradiction;
        cbn [wp numgood]; exists v, l; auto.
  Qed.
End Loops.
