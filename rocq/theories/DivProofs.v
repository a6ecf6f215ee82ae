(** * DivProofs: what a vanishing denominator leads to (debug build).

    Either a panic or, when the denominator vanishes identically in one operand,
    a number that emits [Amplify] for ever. *)

From Coq Require Import ZArith QArith Qfield List Lia Lqa Psatz Bool.
From Verif Require Import Machine Protocol Support Types Ratio Homographic Combine Lib Spec Upto
  SeqProofs Good RatioProofs SupportProofs HomProofs HomValue HomGood CombProofs CombValue CombGood
  LibProofs ApiProofs ArithProofs BuildProofs.
Import ListNotations.
Open Scope Z_scope.

Definition divp (p : panic) : Prop := ovfp p \/ p = PDivZero.

Lemma ovf_div p : ovfp p -> divp p.
Proof. now left. Qed.

Lemma cfits_div k m t : cfits k divp m t.
Proof. left. exact ovf_div. Qed.
Lemma tight_div k B m p : tight k B m p -> divp p.
Proof. intros [H _]. now left. Qed.
Lemma ctight_div k B m p : ctight k B m p -> divp p.
Proof. intros [H _]. now left. Qed.

(** ** A zero numerator emits [Amplify] for ever *)

Definition zeroed (m : hcoef) : Prop :=
  h_nx m = 0 /\ h_n m = 0 /\ ((0 < h_d m /\ 0 < h_d m + h_dx m) \/ (h_d m < 0 /\ h_d m + h_dx m < 0)).

Lemma zeroed_egest k m x : ovf k = true -> zeroed m ->
  ev2 (fun i j => h_egest k (clog_egest k i) j x m)
    (fun e => exists m', e = Emit (Some Amplify) (CHomographic x m') /\ zeroed m') ovfp.
Proof.
  intros O (Z1 & Z2 & Z3). apply ev2_S. cbn [h_egest]. apply ev2_step.
  eapply wp_mono; [apply (sing_wp k 0 m) | | intros p [H _]; exact H].
  intros out Hout. assert (out = true) as -> by (apply Hout; unfold amen; lia).
  apply ev2_step.
  assert (W : wp (fun o => exists m', o = Some (Some Amplify, m') /\ zeroed m') ovfp (h_reduction_egest k m)).
  { unfold h_reduction_egest. apply wp_bind.
    eapply wp_mono; [apply (image_wp k 0 m O) | | intros p [H _]; exact H].
    intros r [[X _]|[_ X]]; [lia|].
    destruct X as (a0 & b0 & a1 & b1 & N0 & N1 & X).
    assert (a0 = 0 /\ b0 = 1) as [-> ->] by (unfold nz in N0; lia).
    assert (a1 = 0 /\ b1 = 1) as [-> ->] by (unfold nz in N1; lia).
    assert (r = (0, 1, 0, 1)) as -> by (destruct X as [[? ->]|[[? ->]|[? ->]]]; try reflexivity; lia).
    change (less_than_zero 0 1) with false. change (greater_than_one 0 1) with false. cbv iota.
    assert (E1 : equal_to_one_half k 0 1 = Ok false) by (destruct k as [[] []]; reflexivity).
    assert (E2 : greater_than_one_half k 0 1 = Ok false) by (destruct k as [[] []]; reflexivity).
    rewrite E1. cbn [andm bind]. rewrite E2. cbn [notm bind negb].
    apply wp_bind. eapply wp_mono; [apply (h_amplify_wp k 0 m) | | intros p [H _]; exact H].
    intros m' [D _]. cbn [wp]. exists m'. split; auto. unfold zeroed, doubled in *. lia. }
  eapply wp_mono; [exact W | | auto]. intros o (m' & -> & Zm). apply ev2_const. cbn [wp]. eauto.
Qed.

Lemma zeroed_step k m x : ovf k = true -> zeroed m ->
  ev (fun f => clog_egest k f (CHomographic x m))
     (fun r => exists m', r = (Some Amplify, CHomographic x m') /\ zeroed m') ovfp.
Proof.
  intros O Z. apply ev_S. cbn [clog_egest strategy_egest].
  apply (ev_bind (fun n => h_egest k (clog_egest k n) n x m)
            (fun n r => match r with
                      | Emit o s' => Ok (o, s')
                      | Become s' => clog_egest k n s' end)).
  pose proof (zeroed_egest k m x O Z) as W. apply ev2_diag in W.
  eapply ev_mono; [exact W | | auto].
  intros e (m' & -> & Zm). apply ev_const. cbn [wp]. eauto.
Qed.

Lemma zeroed_endless k x m : ovf k = true -> zeroed m -> endless k (CHomographic x m).
Proof.
  intros O Z l c' H. remember (CHomographic x m) as c eqn:Ec. revert m Z Ec.
  induction H as [c|c s c1 l c2 R H IH]; intros m Z ->.
  - split; [reflexivity|]. apply ev_yields. eapply ev_mono; [apply (zeroed_step k m x O Z) | | auto].
    intros r (m' & -> & _). reflexivity.
  - destruct (zeroed_step k m x O Z) as (r & Hs & W).
    rewrite (settles_det _ _ _ Hs R) in W. destruct W as (m' & X & Zm). inversion X; subst s c1.
    destruct (IH m' Zm eq_refl) as [Hl Hy]. split; [|exact Hy]. cbn. now f_equal.
Qed.

(** ** The homographic strategy *)

Definition vanish (m : hcoef) (v : Q) : Prop := (hom_num (h_dx m) (h_d m) v == 0)%Q.
Definition flat (m : hcoef) : Prop := h_dx m = 0 /\ h_d m = 0.

Definition infinite (r : h_made) : Prop :=
  exists p x m, r = (None, Some p, None, Some (x, m)) /\ (p = Turn \/ p = Ground) /\ zeroed m.

Lemma vanish_amen m v : vanish m v -> (0 < v)%Q -> (v < 1)%Q -> amen (h_d m) (h_d m + h_dx m) -> flat m.
Proof.
  unfold vanish, flat, amen. intros H P Q A. rewrite hom_interp in H.
  destruct (Z.eq_dec (h_d m) 0) as [E|E]; destruct (Z.eq_dec (h_d m + h_dx m) 0) as [F|F]; [lia| | |].
  all: exfalso; destruct A as [[A B]|[A B]].
  1,3,5: pose proof (interp_pos (h_d m) (h_d m + h_dx m) v A B ltac:(lia) P Q); lra.
  all: pose proof (interp_pos (- h_d m) (- (h_d m + h_dx m)) v ltac:(lia) ltac:(lia) ltac:(lia) P Q) as X;
    rewrite !zq_opp in X; lra.
Qed.

Lemma vanish_ingested s m m' v l : clog_seq v (s :: l) -> ingested s m m' -> vanish m v ->
  exists v', clog_seq v' l /\ vanish m' v'.
Proof.
  unfold vanish, hom_num. intros Sq I H. destruct s; inversion Sq; subst; simpl in I.
  - exists (2 * v)%Q. split; auto. destruct I as [(_ & _ & A & B)|(_ & _ & A & B)].
    + rewrite A, B, zq_mul, zq_2.
      transitivity (2 * (zq (h_dx m) * v + zq (h_d m)))%Q; [ring|]. rewrite H. reflexivity.
    + apply zeq_Q in A. rewrite zq_mul, zq_2 in A. rewrite B, <- H, <- A. ring.
  - exists (/ v - 1)%Q. split; auto. unfold ingested_uncover in I. subst m'. hc.
    assert (~ v == 0)%Q by lra. rewrite zq_add.
    transitivity ((zq (h_dx m) * v + zq (h_d m)) * / v)%Q; [field; auto|]. rewrite H. ring.
Qed.

Lemma flat_ingested s m m' : ingested s m m' -> flat m' -> flat m.
Proof.
  unfold flat. destruct s; simpl; [unfold ingested_amplify | unfold ingested_uncover; intros ->; hc]; lia.
Qed.

(** A zero denominator. *)
Lemma ratio_zero_den k n : ovf k = true -> wp (fun _ => False) divp (ratio_new_i k n 0).
Proof.
  intro O. unfold ratio_new_i. apply wp_bind.
  assert (M : wp (fun _ => True) ovfp (magnitude k n)).
  { unfold magnitude, neg. apply wp_bind. destruct (0 <=? n); [exact I|].
    apply wp_plain; [exact O | intros _; exact I | intros _; now right]. }
  eapply wp_mono; [exact M | | exact ovf_div]. intros z _.
  assert (E : magnitude k 0 = Ok 0) by (destruct k as [[] []]; reflexivity).
  rewrite E. right. reflexivity.
Qed.

Lemma flat_primer k m : ovf k = true -> flat m -> amen (h_n m) (h_n m + h_nx m) ->
  wp (fun o => match o with
               | None => True
               | Some (p, m') => exists p', p = Some p' /\ (p' = Turn \/ p' = Ground) /\ zeroed m'
               end) ovfp (h_primer_egest k m).
Proof.
  intros O [F1 F2] A. unfold h_primer_egest. apply wp_bind.
  eapply wp_mono; [apply (image_wp k 0 m O) | | intros p [H _]; exact H].
  intros r [[_ ->]|[N X]]; [exact I|].
  destruct X as (a0 & b0 & a1 & b1 & N0 & N1 & X).
  assert (H : (a0 = 1 /\ a1 = 1 /\ 0 < h_n m /\ 0 < h_n m + h_nx m) \/
              (a0 = -1 /\ a1 = -1 /\ h_n m < 0 /\ h_n m + h_nx m < 0))
    by (unfold nz in *; unfold amen in A; lia).
  assert (b0 = 0 /\ b1 = 0) as [-> ->] by (unfold nz in *; lia).
  destruct H as [(-> & -> & P0 & P1)|(-> & -> & P0 & P1)];
    destruct X as [[? ->]|[[? ->]|[_ ->]]]; try lia.
  - change (are_same 1 0 1 0) with true.
    assert (E1 : is_special k 1 0 = Ok false) by (destruct k as [[] []]; reflexivity).
    assert (E2 : greater_than_minus_one k 1 0 = Ok true) by (destruct k as [[] []]; reflexivity).
    cbn -[is_special greater_than_minus_one less_than_one]. rewrite E1. cbn [bind]. rewrite E2. cbn [bind negb].
    change (less_than_one 1 0) with false. cbn [negb wp]. exists Turn.
    split; auto. split; auto. unfold zeroed, h_turn; hc. lia.
  - change (are_same (-1) 0 (-1) 0) with true.
    assert (E1 : is_special k (-1) 0 = Ok false) by (destruct k as [[] []]; reflexivity).
    assert (E2 : greater_than_minus_one k (-1) 0 = Ok false) by (destruct k as [[] []]; reflexivity).
    cbn -[is_special greater_than_minus_one less_than_one h_ground]. rewrite E1. cbn [bind]. rewrite E2.
    cbn -[h_ground]. apply wp_bind. unfold h_ground. wps; try (right; reflexivity).
    exists Ground. split; auto. split; auto. unfold zeroed; hc. lia.
Qed.

Section Hom.
  Variable k : cfg.
  Hypothesis O : ovf k = true.

  Lemma h_prime_div : forall lx x m v, good k divp x lx -> clog_seq v lx -> vanish m v ->
    ev2 (fun i j => h_prime k (clog_egest k i) j x m) (fun r => flat m /\ infinite r) divp.
  Proof.
    induction lx as [|s l IH]; intros x m v G Sq H;
      destruct (clog_seq_range _ _ Sq) as [V0 V1].
    all: apply ev2_S; cbn [h_prime].
    all: apply ev2_step; (eapply wp_mono; [apply (sing_wp k 0 m) | | apply tight_div]); intros out Hout.
    all: apply ev2_step;
      assert (W : wp (fun o => match o with
               | None => True
               | Some (p, m') => flat m /\ exists p', p = Some p' /\ (p' = Turn \/ p' = Ground) /\ zeroed m'
               end) divp (if out then h_primer_egest k m else Ok None)).
    1,3: destruct out; [|exact I]; destruct (proj1 Hout eq_refl) as [AN AD];
      pose proof (vanish_amen m v H V0 V1 AD) as Fl;
      (eapply wp_mono; [apply (flat_primer k m O Fl AN) | | apply ovf_div]);
      intros [[p m']|]; auto.
    all: (eapply wp_mono; [exact W | | auto]); intros [[p m']|] Post.
    1,3: apply ev2_const; cbn [wp]; destruct Post as (Fl & p' & -> & Hp & Zm); split; [exact Fl|];
      exists p', x, m'; auto.
    - unfold h_prime_ingest.
      eapply (ev2_bind (fun i j => let! (o, x') := clog_egest k i x in _)
        (fun i j ing => match ing with
                        | inl (special, p, r) => Ok (special, p, r, None)
                        | inr (x', m') => h_prime k (clog_egest k i) j x' m' end)).
      eapply (ev2_bind (fun i _ => clog_egest k i x)).
      eapply ev2_mono; [apply (good_ev2 k divp x [] G) | | auto].
      intros [o x'] [Ho _]; cbn [fst] in Ho. subst o.
      apply ev2_const. apply wp_bind.
      eapply wp_mono; [apply (value_at_one_half_wp k 0 m) | | apply tight_div].
      intros [num den] (_ & _ & X). cbn [fst snd] in *.
      pose proof (seq_cases _ _ Sq) as V; cbv beta iota in V.
      assert (den = 0) as ->.
      { unfold vanish, hom_num in H. rewrite V in H.
        assert (Y : (zq (h_dx m) + 2 * zq (h_d m) == 0)%Q) by lra.
        assert (h_dx m + 2 * h_d m = 0).
        { apply (proj2 (zq_eq _ _)). rewrite zq_add, zq_mul, zq_2. exact Y. }
        lia. }
      apply wp_bind. eapply wp_mono; [apply (ratio_zero_den k num O) | | auto]. contradiction.
    - unfold h_prime_ingest.
      eapply (ev2_bind (fun i j => let! (o, x') := clog_egest k i x in _)
        (fun i j ing => match ing with
                        | inl (special, p, r) => Ok (special, p, r, None)
                        | inr (x', m') => h_prime k (clog_egest k i) j x' m' end)).
      eapply (ev2_bind (fun i _ => clog_egest k i x)).
      eapply ev2_mono; [apply (good_ev2 k divp x (s :: l) G) | | auto].
      intros [o x'] [Ho Gx]; cbn [fst snd] in *. subst o.
      assert (W' : wp (fun m' => ingested s m m') divp
         (match s with Amplify => h_ingest_amplify k m | Uncover => h_ingest_uncover k m end)).
      { eapply wp_mono; [apply (ingest_ev k divp m 0 s); left; exact ovf_div | | auto]. now intros m' []. }
      apply ev2_const.
      assert (W2 : wp (fun r => match r with inl _ => False | inr (x1, m1) => x1 = x' /\ ingested s m m1 end) divp
        (let! m' := match s with Amplify => h_ingest_amplify k m | Uncover => h_ingest_uncover k m end in
          Ok (A := option special * option primer * option ratio + clog * hcoef) (inr (x', m')))).
      { apply wp_bind. eapply wp_mono; [exact W' | | auto]. intros m' I'. cbn [wp]. auto. }
      assert (W3 : wp (fun r => ev2 (fun i j => match r with
                        | inl (special, p, r) => Ok (special, p, r, None)
                        | inr (x', m') => h_prime k (clog_egest k i) j x' m' end)
                  (fun r => flat m /\ infinite r) divp) divp
        (let! m' := match s with Amplify => h_ingest_amplify k m | Uncover => h_ingest_uncover k m end in
          Ok (A := option special * option primer * option ratio + clog * hcoef) (inr (x', m')))).
      { eapply wp_mono; [exact W2 | | auto]. intros [?|[x1 m1]]; [contradiction|]. intros [-> I'].
        destruct (vanish_ingested _ _ _ _ _ Sq I' H) as (v' & S' & H').
        eapply ev2_mono; [apply (IH x' m1 v' Gx S' H') | | auto].
        intros r [Fl Inf]. split; [|exact Inf]. eapply flat_ingested; eauto. }
      destruct s; exact W3.
  Qed.

  Lemma as_ratio_div n : wp (fun _ => False) divp (h_as_ratio k n 0).
  Proof.
    unfold h_as_ratio. apply wp_bind. eapply wp_mono; [apply (ratio_zero_den k n O) | | auto]. contradiction.
  Qed.

  Lemma h_new_div x q nx n dx d : numgood k divp x q -> (hom_num dx d q == 0)%Q ->
    ev2 (fun i j => h_new k (clog_egest k i) j x nx n dx d)
        (fun r => (dx = 0 /\ d = 0) /\ infinite r) divp.
  Proof.
    intros G H. unfold h_new. unfold hom_num in H.
    assert (Z0 : forall z, (zq z == 0)%Q -> z = 0) by (intros z Hz; now apply (proj2 (zq_eq z 0))).
    destruct ((nx =? 0) && (dx =? 0)) eqn:C.
    { apply andb_true_iff in C. destruct C as [C1 C2]. apply Z.eqb_eq in C1, C2. subst nx dx.
      assert (d = 0) as -> by (apply Z0; change (zq 0) with 0%Q in H; lra).
      apply ev2_const. eapply wp_mono; [apply as_ratio_div | | auto]. contradiction. }
    destruct x as [s|p c].
    - cbn [numgood] in G. destruct s; cbn [special_val] in G; rewrite G in H.
      + apply ev2_step. wps; [|left; now left]. apply ev2_step. wps; [|left; now left].
        assert (d - dx = 0) as -> by (apply Z0; rewrite zq_sub; lra).
        apply ev2_const. eapply wp_mono; [apply as_ratio_div | | auto]. contradiction.
      + assert (d = 0) as -> by (apply Z0; lra).
        apply ev2_const. eapply wp_mono; [apply as_ratio_div | | auto]. contradiction.
      + apply ev2_step. wps; [|left; now left]. apply ev2_step. wps; [|left; now left].
        assert (d + dx = 0) as -> by (apply Z0; rewrite zq_add; lra).
        apply ev2_const. eapply wp_mono; [apply as_ratio_div | | auto]. contradiction.
    - cbn [numgood] in G. destruct G as (v & l & Sq & Q & G). cbn [unwrap_other].
      apply ev2_step. cbn [wp]. apply ev2_step.
      eapply wp_mono; [apply (absorb_wp k 0 p (HC nx n dx d) O) | | apply tight_div].
      intros m ->. destruct (clog_seq_range _ _ Sq) as [V0 V1].
      eapply ev2_mono; [apply (h_prime_div l c _ v G Sq) | | auto].
      + assert (NV : ~ (v == 0)%Q) by lra. rewrite Q in H.
        unfold vanish, hom_num. destruct p as [[]|]; cbn [absorbed primed] in *; hc.
        * transitivity ((zq dx * / v + zq d) * v)%Q; [field; auto|]. rewrite H. ring.
        * rewrite zq_opp, <- H. ring.
        * rewrite zq_opp. transitivity ((zq dx * - / v + zq d) * v)%Q; [field; auto|]. rewrite H. ring.
        * exact H.
      + intros r [Fl Inf]. split; [|exact Inf]. unfold flat in Fl.
        destruct p as [[]|]; cbn [absorbed] in Fl; hc; lia.
  Qed.

  Lemma homographic_div x q nx n dx d : numgood k divp x q -> (hom_num dx d q == 0)%Q ->
    ev (fun f => number_homographic k f x nx n dx d)
       (fun y => (dx = 0 /\ d = 0) /\ exists p c, y = NOther (Some p) c /\ (p = Turn \/ p = Ground) /\ endless k c)
       divp.
  Proof.
    intros G H. unfold number_homographic.
    apply (ev_bind (fun f => h_new k (clog_egest k f) f x nx n dx d)).
    pose proof (h_new_div x q nx n dx d G H) as W. apply ev2_diag in W.
    eapply ev_mono; [exact W | | auto]. intros r [Z (p & c & m & -> & Hp & Zm)].
    apply ev_const. cbn [wp]. split; [exact Z|]. exists p, (CHomographic c m). split; [reflexivity|].
    split; [exact Hp|]. now apply zeroed_endless.
  Qed.
End Hom.

(** ** The combine strategy *)

(** The denominator vanishes for this value of [x], whatever [y] is. *)
Definition fx (m : ccoef) (v : Q) : Prop :=
  (zq (c_e m) * v + zq (c_g m) == 0)%Q /\ (zq (c_f m) * v + zq (c_h m) == 0)%Q.
Definition hole (m : ccoef) (x y : Q) : Prop := fx m x \/ fx (cswap m) y.

Lemma hole_swap m x y : hole m x y -> hole (cswap m) y x.
Proof. unfold hole. rewrite cswap_invol. tauto. Qed.

Lemma cD_swap m x y : (cD (cswap m) y x == cD m x y)%Q.
Proof. unfold cD, comb_num, cswap. cc. ring. Qed.

Lemma fx_x s m m' v v' l : clog_seq v (s :: l) -> cingested s m m' ->
  (v' == match s with Amplify => 2 * v | Uncover => / v - 1 end)%Q -> fx m' v' -> fx m v.
Proof.
  unfold fx. intros Sq I Hv. assert (P : (0 < v)%Q) by now apply clog_seq_range in Sq.
  assert (NV : ~ (v == 0)%Q) by lra.
  destruct s; cbn [cingested] in I; rewrite Hv.
  - destruct I as [(_ & _ & _ & _ & E & F & G & H)|(_ & _ & _ & _ & E & F & G & H)]; intros [A B].
    + rewrite E, G, zq_mul, zq_2 in A. rewrite F, H, zq_mul, zq_2 in B. split; lra.
    + rewrite G in A. rewrite H in B. rewrite <- E, <- F, !zq_mul, !zq_2. split; lra.
  - subst. unfold cing_uncover. cc. rewrite !zq_add. intros [A B]. split.
    + transitivity (v * (zq (c_g m) * (/ v - 1) + (zq (c_e m) + zq (c_g m))))%Q; [field; auto|].
      rewrite A. ring.
    + transitivity (v * (zq (c_h m) * (/ v - 1) + (zq (c_f m) + zq (c_h m))))%Q; [field; auto|].
      rewrite B. ring.
Qed.

Lemma fx_other s m m' y : cingested s m m' -> fx (cswap m') y -> fx (cswap m) y.
Proof.
  unfold fx, cswap. cc. destruct s; cbn [cingested].
  - intros [(_ & _ & _ & _ & E & F & G & H)|(_ & _ & _ & _ & E & F & G & H)] [A B].
    + rewrite E, F in A. rewrite G, H, !zq_mul, zq_2 in B. split; lra.
    + rewrite G, H in B. rewrite <- E, <- F, !zq_mul, !zq_2. split; lra.
  - intros -> [A B]. unfold cing_uncover in A, B. cc. rewrite !zq_add in B. split; lra.
Qed.

Lemma hole_ingested s m m' v v' l y : clog_seq v (s :: l) -> cingested s m m' ->
  (v' == match s with Amplify => 2 * v | Uncover => / v - 1 end)%Q -> hole m' v' y -> hole m v y.
Proof.
  intros Sq I Hv [H|H]; [left; eapply fx_x; eauto | right; eapply fx_other; eauto].
Qed.

Lemma cD_ingested s m m' v l y : clog_seq v (s :: l) -> cingested s m m' -> (cD m v y == 0)%Q ->
  exists v', clog_seq v' l /\ (v' == match s with Amplify => 2 * v | Uncover => / v - 1 end)%Q /\
    (cD m' v' y == 0)%Q.
Proof.
  intros Sq I H. unfold cD, comb_num in *. destruct s; inversion Sq; subst; cbn [cingested] in I.
  - exists (2 * v)%Q. split; auto. split; [reflexivity|].
    destruct I as [(_ & _ & _ & _ & E & F & G & K)|(_ & _ & _ & _ & E & F & G & K)].
    + rewrite E, F, G, K, !zq_mul, !zq_2.
      transitivity (2 * (zq (c_e m) * v * y + zq (c_f m) * v + zq (c_g m) * y + zq (c_h m)))%Q; [ring|].
      rewrite H. ring.
    + rewrite G, K, <- H, <- E, <- F, !zq_mul, !zq_2. ring.
  - exists (/ v - 1)%Q. split; auto. split; [reflexivity|]. subst. unfold cing_uncover. cc.
    rewrite !zq_add. assert (~ (v == 0)%Q) by lra.
    transitivity ((zq (c_e m) * v * y + zq (c_f m) * v + zq (c_g m) * y + zq (c_h m)) * / v)%Q; [field; auto|].
    rewrite H. ring.
Qed.

Lemma cend_vanish m q x y : (x == 1#2)%Q -> cend m q -> (cD m x y == 0)%Q ->
  (hom_num (h_dx q) (h_d q) y == 0)%Q.
Proof.
  intros X E H. unfold cD, comb_num in H. rewrite X in H. unfold hom_num.
  destruct E as [(_ & _ & C & D)|(_ & _ & C & D)]; apply zeq_Q in C, D;
    rewrite ?zq_add, ?zq_mul, ?zq_2 in C, D.
  - rewrite C, D.
    transitivity (2 * (zq (c_e m) * (1#2) * y + zq (c_f m) * (1#2) + zq (c_g m) * y + zq (c_h m)))%Q; [ring|].
    rewrite H. ring.
  - assert (C' : (zq (h_dx q) == (1#2) * (zq (c_e m) + 2 * zq (c_g m)))%Q) by lra.
    assert (D' : (zq (h_d q) == (1#2) * (zq (c_f m) + 2 * zq (c_h m)))%Q) by lra.
    rewrite C', D', <- H. ring.
Qed.

Lemma cend_flat m q x y : (x == 1#2)%Q -> cend m q -> h_dx q = 0 /\ h_d q = 0 -> hole m x y.
Proof.
  intros X E [A B]. left. unfold fx. rewrite X.
  assert (c_e m + 2 * c_g m = 0 /\ c_f m + 2 * c_h m = 0) as [C D] by (unfold cend in E; lia).
  apply zeq_Q in C, D. rewrite zq_add, zq_mul, zq_2 in C, D. change (zq 0) with 0%Q in *. split; lra.
Qed.

Lemma amen4_den m x y : amen4 (cd m) -> (0 < x)%Q -> (x < 1)%Q -> (0 < y)%Q -> (y < 1)%Q ->
  ~ (cD m x y == 0)%Q.
Proof.
  intros A X0 X1 Y0 Y1 H. rewrite cD_interp in H.
  destruct A as [A|A].
  - pose proof (interp4_pos x y (fun i j => zq (cd m i j)) X0 X1 Y0 Y1 (fun i j => zq_pos _ (A i j))). cbv beta in *.
    lra.
  - assert (P : forall i j, (0 < - zq (cd m i j))%Q).
    { intros i j. rewrite <- zq_opp. apply zq_pos. specialize (A i j). lia. }
    pose proof (interp4_pos x y (fun i j => (- zq (cd m i j))%Q) X0 X1 Y0 Y1 P). cbv beta in *. lra.
Qed.

Definition cinfinite (r : c_made) : Prop :=
  exists p x m, r = (None, Some p, None, Some (x, m), None) /\ (p = Turn \/ p = Ground) /\ zeroed m.

Section Comb.
  Variable k : cfg.
  Hypothesis O : ovf k = true.

  Lemma end_div q y ly v : good k divp y ly -> clog_seq v ly -> (hom_num (h_dx q) (h_d q) v == 0)%Q ->
    ev2 (fun i j => h_new k (clog_egest k i) j (NOther None y) (h_nx q) (h_n q) (h_dx q) (h_d q))
        (fun r => (h_dx q = 0 /\ h_d q = 0) /\ infinite r) divp.
  Proof.
    intros G Sq H. apply (h_new_div k O (NOther None y) v); auto.
    cbn [numgood]. exists v, ly. split; [auto|]. split; [reflexivity | auto].
  Qed.

  Lemma c_prime_div : forall lx ly x y m vx vy, good k divp x lx -> good k divp y ly ->
    clog_seq vx lx -> clog_seq vy ly -> (cD m vx vy == 0)%Q ->
    ev2 (fun i j => c_prime k (clog_egest k i) j x y m) (fun r => hole m vx vy /\ cinfinite r) divp.
  Proof.
    induction lx as [|s l IH]; intros ly x y m vx vy Gx Gy Sx Sy H;
      destruct (clog_seq_range _ _ Sx) as [X0 X1]; destruct (clog_seq_range _ _ Sy) as [Y0 Y1].
    all: apply ev2_S; cbn [c_prime].
    all: apply ev2_step; (eapply wp_mono; [apply (sing4_wp k 0 m) | | apply ctight_div]); intros out Hout.
    all: assert (out = false) as -> by
      (destruct out; auto; destruct (proj1 Hout eq_refl) as [_ AD];
       elim (amen4_den m vx vy AD X0 X1 Y0 Y1 H)).
    all: cbn [bind].
    - apply (ev2_bind (fun i j => c_prime_ingest k (clog_egest k i) j x y m)
        (fun i j ing => match ing with
                        | inl (special, p, r, h) => Ok (special, p, r, h, None)
                        | inr (x', y', m') => c_prime k (clog_egest k i) j x' y' m' end)).
      unfold c_prime_ingest.
      eapply (ev2_bind (fun i _ => clog_egest k i x)).
      eapply ev2_mono; [apply (good_ev2 k divp x [] Gx) | | auto].
      intros [o x'] [Ho _]; cbn [fst] in Ho. subst o.
      pose proof (seq_cases _ _ Sx) as V; cbv beta iota in V.
      apply ev2_step. eapply wp_mono; [apply (cend_x_wp k 0 m) | | apply ctight_div].
      intros q [Q _].
      apply (ev2_bind (fun i j => h_new k (clog_egest k i) j (NOther None y) (h_nx q) (h_n q) (h_dx q) (h_d q))).
      eapply ev2_mono; [apply (end_div q y ly vy Gy Sy); eapply cend_vanish; eauto | | auto].
      intros r [Fl (p & c & mm & -> & Hp & Zm)]. apply ev2_const. cbn [wp]. apply ev2_const. cbn [wp]. split.
      + eapply cend_flat; eauto.
      + exists p, c, mm. auto.
    - apply (ev2_bind (fun i j => c_prime_ingest k (clog_egest k i) j x y m)
        (fun i j ing => match ing with
                        | inl (special, p, r, h) => Ok (special, p, r, h, None)
                        | inr (x', y', m') => c_prime k (clog_egest k i) j x' y' m' end)).
      unfold c_prime_ingest.
      eapply (ev2_bind (fun i _ => clog_egest k i x)).
      eapply ev2_mono; [apply (good_ev2 k divp x (s :: l) Gx) | | auto].
      intros [o x'] [Ho Gx']; cbn [fst snd] in *. subst o.
      apply ev2_step. eapply wp_mono; [apply (cing_x_wp k 0 m s) | | apply ctight_div].
      intros m1 I1.
      destruct (cD_ingested _ _ _ _ _ _ Sx I1 H) as (vx' & Sx' & Ev & H').
      eapply (ev2_bind (fun i _ => clog_egest k i y)).
      eapply ev2_mono; [apply (good_ev2 k divp y ly Gy) | | auto].
      intros [o y'] [Ho Gy']; cbn [fst snd] in *. subst o. destruct ly as [|sy ly].
      + pose proof (seq_cases _ _ Sy) as V; cbv beta iota in V.
        apply ev2_step. eapply wp_mono; [apply (cend_y_wp k 0 m1) | | apply ctight_div].
        intros q [Q _].
        apply (ev2_bind (fun i j => h_new k (clog_egest k i) j (NOther None x') (h_nx q) (h_n q) (h_dx q) (h_d q))).
        eapply ev2_mono; [apply (end_div q x' l vx' Gx' Sx'); eapply cend_vanish; eauto;
          rewrite cD_swap; exact H' | | auto].
        intros r [Fl (p & c & mm & -> & Hp & Zm)]. apply ev2_const. cbn [wp]. apply ev2_const. cbn [wp]. split.
        * eapply hole_ingested; [exact Sx | exact I1 | exact Ev |].
          rewrite <- (cswap_invol m1). apply hole_swap. eapply cend_flat; eauto.
        * exists p, c, mm. auto.
      + apply ev2_step. eapply wp_mono; [apply (cing_y_wp k 0 m1 sy) | | apply ctight_div].
        intros m2 I2. apply ev2_const. cbn [wp].
        destruct (cD_ingested sy (cswap m1) (cswap m2) vy ly vx' Sy I2) as (vy' & Sy' & Ew & H'');
          [now rewrite cD_swap|].
        rewrite cD_swap in H''.
        eapply ev2_mono; [apply (IH ly x' y' m2 vx' vy' Gx' Gy' Sx' Sy' H'') | | auto].
        intros r [Ho Inf]. split; [|exact Inf].
        eapply hole_ingested; [exact Sx | exact I1 | exact Ev |].
        rewrite <- (cswap_invol m1). apply hole_swap.
        eapply hole_ingested; [exact Sy | exact I2 | exact Ew |]. now apply hole_swap.
  Qed.

  Lemma c_new_div x p y q a b c d e f g h : numgood k divp x p -> numgood k divp y q ->
    (comb_num e f g h p q == 0)%Q ->
    ev2 (fun i j => c_new k (clog_egest k i) j x y a b c d e f g h)
        (fun r => spec_hole e f g h p q /\ cinfinite r) divp.
  Proof.
    intros Gx Gy H. unfold c_new.
    destruct x as [s|px cx].
    - cbn [numgood] in Gx.
      assert (V : forall nx n dx d', (forall y, hom_num dx d' y == comb_num e f g h p y)%Q ->
         ev2 (fun i j => c_as_homographic k (clog_egest k i) j y nx n dx d')
           (fun r => spec_hole e f g h p q /\ cinfinite r) divp).
      { intros nx n dx d' HD. unfold c_as_homographic.
        apply (ev2_bind (fun i j => h_new k (clog_egest k i) j y nx n dx d')).
        eapply ev2_mono; [apply (h_new_div k O y q nx n dx d' Gy); now rewrite HD | | auto].
        intros r [[-> ->] (pp & cc' & mm & -> & Hp & Zm)]. apply ev2_const. cbn [wp]. split.
        - left. intro y0. rewrite <- HD. unfold hom_num. change (zq 0) with 0%Q. ring.
        - exists pp, cc', mm. auto. }
      destruct s; cbn [special_val] in Gx.
      + do 4 (apply ev2_step; wps; [|left; now left]).
        apply V. intro. unfold hom_num, comb_num. rewrite !zq_sub, Gx. ring.
      + apply V. intro. unfold hom_num, comb_num. rewrite Gx. ring.
      + do 4 (apply ev2_step; wps; [|left; now left]).
        apply V. intro. unfold hom_num, comb_num. rewrite !zq_add, Gx. ring.
    - destruct y as [s|py cy].
      + cbn [numgood] in Gy.
        assert (V : forall nx n dx d', (forall x, hom_num dx d' x == comb_num e f g h x q)%Q ->
           ev2 (fun i j => c_as_homographic k (clog_egest k i) j (NOther px cx) nx n dx d')
             (fun r => spec_hole e f g h p q /\ cinfinite r) divp).
        { intros nx n dx d' HD. unfold c_as_homographic.
          apply (ev2_bind (fun i j => h_new k (clog_egest k i) j (NOther px cx) nx n dx d')).
          eapply ev2_mono; [apply (h_new_div k O (NOther px cx) p nx n dx d' Gx); now rewrite HD | | auto].
          intros r [[-> ->] (pp & cc' & mm & -> & Hp & Zm)]. apply ev2_const. cbn [wp]. split.
          - right. intro y0. rewrite <- HD. unfold hom_num. change (zq 0) with 0%Q. ring.
          - exists pp, cc', mm. auto. }
        destruct s; cbn [special_val] in Gy.
        * do 4 (apply ev2_step; wps; [|left; now left]).
          apply V. intro. unfold hom_num, comb_num. rewrite !zq_sub, Gy. ring.
        * apply V. intro. unfold hom_num, comb_num. rewrite Gy. ring.
        * do 4 (apply ev2_step; wps; [|left; now left]).
          apply V. intro. unfold hom_num, comb_num. rewrite !zq_add, Gy. ring.
      + cbn [numgood] in Gx, Gy. destruct Gx as (vx & lx & Sx & Px & Gx).
        destruct Gy as (vy & ly & Sy & Py & Gy). cbn [unwrap_other].
        destruct (clog_seq_range _ _ Sx) as [X0 X1]; destruct (clog_seq_range _ _ Sy) as [Y0 Y1].
        apply ev2_step. cbn [wp]. apply ev2_step.
        eapply wp_mono; [apply (cabsorb_x_wp k 0 px _ O) | | apply ctight_div].
        intros m ->. apply ev2_step. cbn [wp]. apply ev2_step.
        eapply wp_mono; [apply (cabsorb_y_wp k 0 py _ O) | | apply ctight_div].
        intros m' Hm.
        (* absorbing a primer *)
        assert (AD : forall pr mm v w, (0 < v)%Q -> exists t, ~ (t == 0)%Q /\
           (cD (cabsorbed pr mm) v w == t * cD mm (primed pr v) w)%Q).
        { intros pr mm v w P. assert (NV : ~ (v == 0)%Q) by lra. unfold cD, comb_num.
          destruct pr as [[]|]; cbn [cabsorbed primed]; cc.
          - exists v. split; auto. field; auto.
          - exists 1%Q. split; [lra|]. rewrite !zq_opp. ring.
          - exists (- v)%Q. split; [lra|]. rewrite !zq_opp. field; auto.
          - exists 1%Q. split; [lra|]. ring. }
        assert (AX : forall pr mm v, (0 < v)%Q -> fx (cabsorbed pr mm) v -> fx mm (primed pr v)).
        { intros pr mm v P. assert (NV : ~ (v == 0)%Q) by lra. unfold fx.
          destruct pr as [[]|]; cbn [cabsorbed primed]; cc; rewrite ?zq_opp; intros [A B]; split; auto.
          - transitivity ((zq (c_g mm) * v + zq (c_e mm)) * / v)%Q; [field; auto|]. rewrite A. ring.
          - transitivity ((zq (c_h mm) * v + zq (c_f mm)) * / v)%Q; [field; auto|]. rewrite B. ring.
          - rewrite <- A. ring.
          - rewrite <- B. ring.
          - transitivity ((- zq (c_g mm) * v + zq (c_e mm)) * - / v)%Q; [field; auto|]. rewrite A. ring.
          - transitivity ((- zq (c_h mm) * v + zq (c_f mm)) * - / v)%Q; [field; auto|]. rewrite B. ring. }
        assert (AY : forall pr mm y, fx (cswap (cabsorbed pr mm)) y -> fx (cswap mm) y).
        { intros pr mm y. unfold fx, cswap.
          destruct pr as [[]|]; cbn [cabsorbed primed]; cc; rewrite ?zq_opp; intros [A B]; split; lra. }
        set (m0 := CC a b c d e f g h) in *.
        eapply ev2_mono; [apply (c_prime_div lx ly cx cy m' vx vy Gx Gy Sx Sy) | | auto].
        * rewrite <- cD_swap, Hm.
          destruct (AD py (cswap (cabsorbed px m0)) vy vx Y0) as (t & _ & ->).
          rewrite cD_swap. destruct (AD px m0 vx (primed py vy) X0) as (t' & _ & ->).
          unfold cD, m0; cc. unfold comb_num in *. rewrite <- Px, <- Py, H. ring.
        * intros r [Ho Inf]. split; [|exact Inf].
          assert (Ho' : hole m0 (primed px vx) (primed py vy)).
          { destruct Ho as [Ho|Ho].
            - left. apply AX; auto. rewrite <- (cswap_invol m'), Hm in Ho.
              apply AY in Ho. now rewrite cswap_invol in Ho.
            - right. rewrite Hm in Ho. apply AX in Ho; auto. now apply AY in Ho. }
          destruct Ho' as [[A B]|[A B]]; [left|right]; unfold m0, cswap in A, B; cc; intro w;
            unfold comb_num; rewrite ?Px, ?Py.
          -- transitivity ((zq e * primed px vx + zq g) * w + (zq f * primed px vx + zq h))%Q; [ring|].
             rewrite A, B. ring.
          -- transitivity ((zq e * primed py vy + zq f) * w + (zq g * primed py vy + zq h))%Q; [ring|].
             rewrite A, B. ring.
  Qed.

  Lemma combine_div x p y q a b c d e f g h : numgood k divp x p -> numgood k divp y q ->
    (comb_num e f g h p q == 0)%Q ->
    ev (fun n => number_combine k n x y a b c d e f g h)
       (fun z => spec_hole e f g h p q /\
          exists p c, z = NOther (Some p) c /\ (p = Turn \/ p = Ground) /\ endless k c)
       divp.
  Proof.
    intros Gx Gy H. unfold number_combine.
    apply (ev_bind (fun n => c_new k (clog_egest k n) n x y a b c d e f g h)).
    pose proof (c_new_div x p y q a b c d e f g h Gx Gy H) as W. apply ev2_diag in W.
    eapply ev_mono; [exact W | | auto]. intros r [Z (pp & cc' & m & -> & Hp & Zm)].
    apply ev_const. cbn [wp]. split; [exact Z|]. exists pp, (CHomographic cc' m). split; [reflexivity|].
    split; [exact Hp|]. now apply zeroed_endless.
  Qed.
End Comb.

(** ** The statements *)

Lemma numgood_mono k (E F : panic -> Prop) n q : (forall p, E p -> F p) -> numgood k E n q -> numgood k F n q.
Proof.
  intros H. destruct n; cbn [numgood]; auto. intros (v & l & A & B & C). exists v, l.
  split; auto. split; auto. eapply good_mono; eauto.
Qed.

Lemma ev_divp {A} (f : nat -> res A) P : ev f P divp ->
  settles f (Panic PDivZero) \/ overflows f \/ exists a, returns f a /\ P a.
Proof.
  intros ([a|p|] & H & W); cbn [wp] in W.
  - right. right. exists a. auto.
  - destruct W as [[->| ->]| ->]; unfold overflows; auto.
  - contradiction.
Qed.

Theorem homographic_by_zero k x q nx n dx d : ovf k = true -> num_has k x q ->
  (hom_num dx d q == 0)%Q ->
  settles (fun f => number_homographic k f x nx n dx d) (Panic PDivZero) \/
  overflows (fun f => number_homographic k f x nx n dx d) \/
  (dx = 0 /\ d = 0) /\
  exists p c, returns (fun f => number_homographic k f x nx n dx d) (NOther (Some p) c) /\
    (p = Turn \/ p = Ground) /\ endless k c.
Proof.
  intros O X H. pose proof (proj2 (has_good k O) _ _ X) as G.
  apply (numgood_mono _ _ divp) in G; [|exact ovf_div].
  destruct (ev_divp _ _ (homographic_div k O x q nx n dx d G H)) as [R|[R|(y & R & Z & p & c & -> & Hp & He)]];
    auto. right. right. split; auto. exists p, c. auto.
Qed.

Theorem combine_by_zero k x p y q a b c d e f g h : ovf k = true -> num_has k x p -> num_has k y q ->
  (comb_num e f g h p q == 0)%Q ->
  settles (fun n => number_combine k n x y a b c d e f g h) (Panic PDivZero) \/
  overflows (fun n => number_combine k n x y a b c d e f g h) \/
  spec_hole e f g h p q /\
  exists pr cl, returns (fun n => number_combine k n x y a b c d e f g h) (NOther (Some pr) cl) /\
    (pr = Turn \/ pr = Ground) /\ endless k cl.
Proof.
  intros O X Y H. pose proof (proj2 (has_good k O) _ _ X) as Gx. pose proof (proj2 (has_good k O) _ _ Y) as Gy.
  apply (numgood_mono _ _ divp) in Gx, Gy; try exact ovf_div.
  destruct (ev_divp _ _ (combine_div k O x p y q a b c d e f g h Gx Gy H)) as [R|[R|(z & R & Z & pr & cl & -> & Hp & He)]];
    auto. right. right. split; auto. exists pr, cl. auto.
Qed.
