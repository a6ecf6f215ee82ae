(** * LibProofs: the public functions on numbers that behave. *)

From Coq Require Import ZArith QArith Qfield List Lia Lqa Psatz Bool.
From Verif Require Import Machine Protocol Support Types Ratio Homographic Combine Lib Spec Upto
  SeqProofs Good RatioProofs SupportProofs HomProofs HomValue HomGood CombProofs CombValue CombGood.
Import ListNotations.
Open Scope Z_scope.

(** ** Draining *)

Lemma drain_ev k E l : forall c, good k E c l -> ev (fun f => drain k f c) (fun l' => l' = l) E.
Proof.
  induction l as [|s l IH]; intros c G; apply ev_S; cbn [drain];
    apply (ev_bind (fun f => clog_egest k f c)); (eapply ev_mono; [apply (good_ev _ _ _ _ G)| |auto]);
    intros [o c'] [Ho G']; cbn [fst snd] in *; subst o.
  - apply ev_const. reflexivity.
  - apply (ev_bind (fun f => drain k f c')). eapply ev_mono; [apply (IH c' G')| |auto].
    intros l' ->. apply ev_const. reflexivity.
Qed.

(** A clog that has been drained without a panic does not panic. *)
Lemma drained_good k E l : forall c, good k E c l -> returns (fun f => drain k f c) l ->
  good k (fun _ => False) c l.
Proof.
  induction l as [|s l IH]; intros c G D; cbn [good] in *; destruct G as (r & S & W);
    exists r; (split; [exact S|]); destruct r as [[o c']|p|]; cbn [wp fst snd] in *; auto.
  - exfalso. destruct S as (F & H). destruct D as (F' & H').
    specialize (H' (S (Nat.max F F')) ltac:(lia)). cbn [drain] in H'.
    rewrite H in H' by lia. discriminate.
  - destruct W as [-> G']. split; auto. apply IH; auto.
    destruct S as (F & H). destruct D as (F' & H'). exists (S (Nat.max F F')).
    intros n Hn. specialize (H' (S n) ltac:(lia)). cbn [drain] in H'.
    rewrite H in H' by lia. cbn [bind] in H'. destruct (drain k n c') as [l'|p|]; try discriminate.
    cbn [bind] in H'. congruence.
  - destruct S as (F & H). destruct D as (F' & H').
    specialize (H' (S (Nat.max F F')) ltac:(lia)). cbn [drain] in H'.
    rewrite H in H' by lia. discriminate.
Qed.

(** ** Comparison *)

Lemma cmp_lt a b : (a < b)%Q -> (a ?= b)%Q = Lt.
Proof. intro. now apply (proj1 (Qlt_alt _ _)). Qed.
Lemma cmp_gt a b : (b < a)%Q -> (a ?= b)%Q = Gt.
Proof. intro. now apply (proj1 (Qgt_alt _ _)). Qed.
Lemma cmp_eq a b : (a == b)%Q -> (a ?= b)%Q = Eq.
Proof. intro. now apply (proj1 (Qeq_alt _ _)). Qed.

Definition polar (pol : bool) (o : comparison) : comparison := if pol then o else CompOpp o.

Lemma compare_clogs_ev k E l1 : forall l2 c1 c2 v1 v2 pol, good k E c1 l1 -> good k E c2 l2 ->
  clog_seq v1 l1 -> clog_seq v2 l2 ->
  ev (fun f => compare_clogs k f c1 c2 pol) (fun o => o = polar pol (v1 ?= v2)%Q) E.
Proof.
  induction l1 as [|s1 l1 IH]; intros l2 c1 c2 v1 v2 pol G1 G2 S1 S2;
    apply ev_S; cbn [compare_clogs];
    apply (ev_bind (fun f => clog_egest k f c1)); (eapply ev_mono; [apply (good_ev _ _ _ _ G1)| |auto]);
    intros [o1 c1'] [Ho1 G1']; cbn [fst snd] in Ho1, G1'; subst o1;
    apply (ev_bind (fun f => clog_egest k f c2)); (eapply ev_mono; [apply (good_ev _ _ _ _ G2)| |auto]);
    intros [o2 c2'] [Ho2 G2']; cbn [fst snd] in Ho2, G2'; subst o2;
    pose proof (seq_cases _ _ S1) as C1; pose proof (seq_cases _ _ S2) as C2;
    destruct (clog_seq_range _ _ S1) as [A1 B1]; destruct (clog_seq_range _ _ S2) as [A2 B2];
    destruct l2 as [|s2 l2]; cbv beta iota in C1, C2.
  - apply ev_const. cbn -[Qcompare]. rewrite cmp_eq; [now destruct pol | lra].
  - apply ev_const. destruct s2; cbn -[Qcompare]; destruct C2 as [C2 _];
      [rewrite cmp_gt by lra | rewrite cmp_lt by lra]; now destruct pol.
  - destruct s1; cbn [option_eqb reduction_eqb]; apply ev_const; cbn -[Qcompare]; destruct C1 as [C1 _];
      [rewrite cmp_lt by lra | rewrite cmp_gt by lra]; now destruct pol.
  - destruct s1, s2; cbn [option_eqb reduction_eqb compare_symbols];
      destruct C1 as [C1 S1'], C2 as [C2 S2'].
    + eapply ev_mono; [apply (IH l2 c1' c2' _ _ pol G1' G2' S1' S2') | | auto].
      intros o ->. now rewrite compare_scale by lra.
    + apply ev_const. cbn -[Qcompare]. rewrite cmp_lt by lra. now destruct pol.
    + apply ev_const. cbn -[Qcompare]. rewrite cmp_gt by lra. now destruct pol.
    + eapply ev_mono; [apply (IH l2 c1' c2' _ _ (negb pol) G1' G2' S1' S2') | | auto].
      intros o ->. rewrite compare_sub, compare_inv by lra.
      destruct pol; cbn [negb polar]; [now rewrite CompOpp_involutive | reflexivity].
Qed.

Lemma compare_hybrid_ok s p q v : (q == primed p v)%Q -> (0 < v)%Q -> (v < 1)%Q ->
  compare_hybrid s p = (special_val s ?= q)%Q.
Proof.
  intros Hq A B. pose proof (primed_range p v A B) as R.
  destruct p as [[]|], s; cbn [compare_hybrid special_eqb special_val] in *; symmetry;
    try (apply cmp_lt; lra); try (apply cmp_gt; lra).
Qed.

Lemma compare_specials_ok s1 s2 : compare_specials s1 s2 = (special_val s1 ?= special_val s2)%Q.
Proof. destruct s1, s2; reflexivity. Qed.

Lemma compare_others_ok p1 v1 p2 v2 : (0 < v1)%Q -> (v1 < 1)%Q -> (0 < v2)%Q -> (v2 < 1)%Q ->
  match compare_primers p1 p2 with
  | Eq => polar (negb (option_eqb primer_eqb p1 (Some Reflect))
               && negb (option_eqb primer_eqb p1 (Some Turn))) (v1 ?= v2)%Q
  | x => x
  end = (primed p1 v1 ?= primed p2 v2)%Q.
Proof.
  intros A1 B1 A2 B2.
  pose proof (primed_range p1 v1 A1 B1) as R1. pose proof (primed_range p2 v2 A2 B2) as R2.
  destruct p1 as [[]|], p2 as [[]|]; cbn -[Qcompare primed] in *;
    try (symmetry; apply cmp_lt; lra); try (symmetry; apply cmp_gt; lra); cbn [primed].
  - now rewrite compare_inv by auto.
  - now rewrite compare_opp.
  - rewrite compare_opp, compare_inv by auto. now rewrite CompOpp_involutive.
  - reflexivity.
Qed.

Lemma Qcompare_compat a b c d : (a == b)%Q -> (c == d)%Q -> (a ?= c)%Q = (b ?= d)%Q.
Proof. intros X Y. now rewrite X, Y. Qed.

Lemma compare_ev k E n1 n2 q1 q2 : numgood k E n1 q1 -> numgood k E n2 q2 ->
  ev (fun f => number_compare k f n1 n2) (fun o => o = (q1 ?= q2)%Q) E.
Proof.
  intros G1 G2. destruct n1 as [s1|p1 c1], n2 as [s2|p2 c2]; cbn [number_compare numgood] in *.
  - apply ev_const. cbn [wp]. rewrite compare_specials_ok. symmetry. now apply Qcompare_compat.
  - apply ev_const. cbn [wp]. destruct G2 as (v & l & S & H & G).
    destruct (clog_seq_range _ _ S).
    rewrite (compare_hybrid_ok s1 p2 q2 v) by auto. symmetry. now apply Qcompare_compat.
  - apply ev_const. cbn [wp]. destruct G1 as (v & l & S & H & G).
    destruct (clog_seq_range _ _ S).
    rewrite (compare_hybrid_ok s2 p1 q1 v) by auto. rewrite <- compare_antisym.
    symmetry. now apply Qcompare_compat.
  - destruct G1 as (v1 & l1 & S1 & H1 & G1), G2 as (v2 & l2 & S2 & H2 & G2). unfold compare_others.
    destruct (clog_seq_range _ _ S1), (clog_seq_range _ _ S2).
    eapply (ev_bind (fun f => compare_clogs k f c1 c2 _)).
    eapply ev_mono; [eapply (compare_clogs_ev k E l1 l2); eauto | | auto].
    intros o ->. apply ev_const. cbn [wp].
    rewrite (compare_others_ok p1 v1 p2 v2) by auto. symmetry. now apply Qcompare_compat.
Qed.

(** ** Consumption *)

Definition hdet (m : hcoef) : Z := h_nx m * h_d m - h_n m * h_dx m.

Lemma det_ingested s m m' : ingested s m m' -> hdet m <> 0 -> hdet m' <> 0.
Proof.
  unfold hdet. intros I D. destruct s; cbn [ingested] in I.
  - destruct I as [(A & B & C & F)|(A & B & C & F)].
    + rewrite A, B, C, F. nia.
    + rewrite B, F. nia.
  - rewrite I. hc. nia.
Qed.

Lemma hv_inj m v w z : hdet m <> 0 -> hv m v z -> hv m w z -> (v == w)%Q.
Proof.
  intros D [A B] [C F].
  assert (X : (zq (hdet m) * (v - w) == 0)%Q).
  { transitivity (hom_num (h_nx m) (h_n m) v * hom_num (h_dx m) (h_d m) w -
                  hom_num (h_nx m) (h_n m) w * hom_num (h_dx m) (h_d m) v)%Q.
    - unfold hdet, hom_num. rewrite zq_sub, !zq_mul. ring.
    - rewrite A, C. ring. }
  apply Qmult_integral in X. destruct X as [X|X]; [|lra].
  exfalso. apply D. now apply (proj2 (zq_eq _ _)).
Qed.

(** The two ways to stop: near overflow or not. *)
Definition k_lim (k : cfg) : Z := Z.quot (imax k) 4.

Lemma k_lim_ok k : 4 * k_lim k <= imax k < 4 * k_lim k + 4 /\ 1 < k_lim k.
Proof.
  unfold k_lim. pose proof (imax_ge k). pose proof (Z.quot_rem' (imax k) 4).
  pose proof (Z.rem_bound_pos (imax k) 4 ltac:(lia) ltac:(lia)). lia.
Qed.

Definition k_small (k : cfg) (m : hcoef) : Prop :=
  Z.abs (h_nx m) < k_lim k /\ Z.abs (h_n m) < k_lim k /\
  Z.abs (h_dx m) < k_lim k /\ Z.abs (h_d m) < k_lim k.

Lemma plain_ok k z : isize k z -> plain k z = Ok z.
Proof. intro H. unfold plain. apply in_i_spec in H. now rewrite H. Qed.

Lemma half_size k z : Z.abs z <= 2 * k_lim k -> isize k z.
Proof. pose proof (k_lim_ok k). pose proof (imin_imax k). unfold isize. lia. Qed.

Lemma k_ingest_ok k m s : k_small k m ->
  exists m', (match s with Amplify => k_amplify_x k m | Uncover => k_uncover_x k m end) = Ok m'
    /\ ingested s m m' /\ hbound (2 * k_lim k - 2) m'.
Proof.
  intros (A & B & C & D). pose proof (k_lim_ok k) as L. destruct s; cbn [ingested].
  - unfold k_amplify_x. destruct (is_odd (h_nx m) || is_odd (h_dx m)) eqn:Eo.
    + rewrite !plain_ok by (apply half_size; lia). cbn [bind].
      eexists. split; [reflexivity|]. split.
      * left. hc. lia.
      * unfold hbound. hc. lia.
    + apply orb_false_iff in Eo. destruct Eo as [E1 E2]. apply odd_even in E1, E2.
      eexists. split; [reflexivity|]. split.
      * right. hc. lia.
      * unfold hbound. hc. lia.
  - unfold k_uncover_x. rewrite !plain_ok by (apply half_size; lia). cbn [bind].
    eexists. split; [reflexivity|]. split.
    + unfold ingested_uncover. reflexivity.
    + unfold hbound. hc. lia.
Qed.

Lemma k_unsafe_ok k m : hbound (2 * k_lim k) m ->
  exists b, k_is_state_unsafe k m = Ok b /\ (b = false <-> k_small k m).
Proof.
  intros (A & B & C & D). unfold k_is_state_unsafe, orm, iabs, k_small. cbv zeta. fold (k_lim k).
  rewrite !plain_ok by (apply half_size; rewrite ?Z.abs_involutive; lia). cbn [bind].
  destruct (Z.leb_spec (k_lim k) (Z.abs (h_nx m))); [eexists; split; [reflexivity|]; split; [discriminate | lia]|].
  destruct (Z.leb_spec (k_lim k) (Z.abs (h_n m))); [eexists; split; [reflexivity|]; split; [discriminate | lia]|].
  destruct (Z.leb_spec (k_lim k) (Z.abs (h_dx m))); [eexists; split; [reflexivity|]; split; [discriminate | lia]|].
  destruct (Z.leb_spec (k_lim k) (Z.abs (h_d m))); eexists; (split; [reflexivity|]); split; auto; try discriminate; lia.
Qed.

(** What consuming returns. *)
Definition consumed (k : cfg) (E : panic -> Prop) (q : Q) (r : option clog * hcoef) : Prop :=
  let '(co, m) := r in
  hbound (2 * k_lim k) m /\
  match co with
  | None => hv m (1#2) q
  | Some c => hdet m <> 0 /\ ~ k_small k m /\
      exists v l, clog_seq v l /\ good k E c l /\ hv m v q
  end.

Lemma k_consume_ev k E q l : forall c m v, good k E c l -> clog_seq v l -> hv m v q ->
  k_small k m -> hdet m <> 0 ->
  ev (fun f => k_consume k f c m) (consumed k E q) E.
Proof.
  induction l as [|s l IH]; intros c m v G S H K D; apply ev_S; cbn [k_consume];
    apply (ev_bind (fun f => clog_egest k f c)); (eapply ev_mono; [apply (good_ev _ _ _ _ G)| |auto]);
    intros [o c'] [Ho G']; cbn [fst snd] in Ho, G'; subst o.
  - apply ev_const. pose proof (seq_cases _ _ S) as V. cbn [wp consumed]. split.
    + unfold k_small, hbound in *. lia.
    + eapply hv_compat; eauto. reflexivity.
  - destruct (k_ingest_ok k m s K) as (m' & Em & I & Bm). rewrite Em. cbn [bind].
    assert (Bm' : hbound (2 * k_lim k) m') by (unfold hbound in *; lia).
    destruct (k_unsafe_ok k m' Bm') as (b & Eb & Hb). rewrite Eb. cbn [bind].
    destruct (ingested_value _ _ _ _ _ _ S I H) as (v' & S' & H').
    pose proof (det_ingested _ _ _ I D) as D'.
    destruct b.
    + apply ev_const. cbn [wp consumed]. split; auto. split; auto. split; [|eauto 6].
      intro X. apply Hb in X. discriminate.
    + apply (IH c' m' v'); auto. now apply Hb.
Qed.

Definition nconsumed (k : cfg) (E : panic -> Prop) (q : Q) (r : option number * hcoef) : Prop :=
  let '(y, m) := r in
  hbound (2 * k_lim k) m /\
  match y with
  | None => hv m (1#2) q
  | Some y => hdet m <> 0 /\ ~ k_small k m /\ exists w, numgood k E y w /\ hv m w q
  end.

Lemma absorb_one k p : exists m, h_absorb_primer k p (HC 1 0 0 1) = Ok m /\
  m = absorbed p (HC 1 0 0 1).
Proof. destruct k as [[] []], p as [[]|]; eexists; split; reflexivity. Qed.

Lemma consume_ev k E x q : numgood k E x q ->
  ev (fun f => number_consume k f x) (nconsumed k E q) E.
Proof.
  intro G. unfold number_consume. pose proof (k_lim_ok k) as KL.
  apply (ev_bind (fun f => consume_new k f x)).
  assert (W : ev (fun f => consume_new k f x) (consumed k E q) E).
  { unfold consume_new. destruct x as [s|p c]; cbn [numgood] in G.
    - destruct s; apply ev_const; cbn [wp consumed]; (split; [unfold hbound; hc; lia|]);
        cbn [special_val] in G; unfold hv, hom_num; hc; rewrite G;
        change (zq 0) with 0%Q; change (zq 1) with 1%Q; change (zq (-1)) with (-1)%Q; split; lra.
    - destruct G as (v & l & S & H & G). cbn [unwrap_other bind].
      destruct (absorb_one k p) as (m & Em & ->). rewrite Em. cbn [bind].
      destruct (clog_seq_range _ _ S) as [A B].
      apply (k_consume_ev k E q l c _ v); auto.
      + apply hv_absorbed; auto. split; unfold hom_num; hc;
          change (zq 0) with 0%Q; change (zq 1) with 1%Q; [rewrite H; ring | lra].
      + unfold k_small. destruct p as [[]|]; cbn [absorbed]; hc; cbn; lia.
      + unfold hdet. destruct p as [[]|]; cbn [absorbed]; hc; cbn; lia. }
  eapply ev_mono; [exact W | | auto].
  intros [[c|] m] H; apply ev_const; cbn [wp option_map nconsumed consumed] in *; auto.
  destruct H as (Hb & D & K & v & l & S & G' & H). split; auto. split; auto. split; auto.
  exists v. split; auto. cbn [numgood]. exists v, l. split; auto. split; [reflexivity|auto].
Qed.

(** ** Everything that can be built behaves *)

Lemma ratio_den num den k n : number_ratio k num den = Ok n -> isize k num -> isize k den ->
  den <> 0 /\ (ovf k = true -> num <> imin k /\ den <> imin k).
Proof.
  unfold number_ratio. intros H In Id. split.
  - intros ->. cbn in H. destruct (magnitude k num) as [a|p|]; cbn [bind] in H; try discriminate.
  - intro O. split; intros ->.
    + rewrite magnitude_min in H by auto. discriminate.
    + destruct (magnitude k num) as [a|p|]; cbn [bind] in H; try discriminate.
      rewrite magnitude_min in H by auto. discriminate.
Qed.

Lemma ratio_u_den (pos : bool) num den n : number_ratio_u pos num den = Ok n -> den <> 0.
Proof. intros H ->. unfold number_ratio_u, ratio_new in H. cbn in H. discriminate. Qed.

Lemma nlen_ex x q : exists t, nlen x q t.
Proof. destruct (zlen_ex q) as [t H]. exists t. destruct x; cbn; auto. Qed.

Lemma numgood_clog k E p c v q : numgood k E (NOther p c) q -> (0 < v)%Q -> (v < 1)%Q ->
  (primed p v == q)%Q -> exists l, clog_seq v l /\ good k E c l.
Proof.
  intros (w & l & S & H & G) A B Hq. destruct (clog_seq_range _ _ S).
  destruct (primed_inj p p w v) as [_ X]; auto; [now rewrite <- H, Hq|].
  exists l. split; auto. eapply clog_seq_compat; eauto.
Qed.

Theorem has_good k : ovf k = true ->
  (forall c v, clog_has k c v -> exists l, clog_seq v l /\ good k ovfp c l) /\
  (forall n q, num_has k n q -> numgood k ovfp n q).
Proof.
  intro O. apply has_mutind.
  - intros n q p c v _ G U A B Hq. destruct n as [|p' c']; cbn in U; [discriminate|].
    inversion U; subst p' c'. eapply numgood_clog; eauto.
  - intros c v f o c' _ (l & S & G) Hf. 
    assert (X : fst (o, c') = match l with [] => None | s :: _ => Some s end
        /\ good k ovfp (snd (o, c')) (match l with [] => [] | _ :: l' => l' end)).
    { pose proof (good_ev _ _ _ _ G) as W.
      refine (ev_returned _ _ _ f (o, c') _ W Hf).
      intros f1 f2 L. apply upto_egest; auto. }
    exists (match l with [] => [] | _ :: l' => l' end). split; [now apply clog_seq_rest | apply X].
  - intros c v w _ (l & S & G) H. exists l. split; auto. eapply clog_seq_compat; eauto.
  - intros s. cbn. reflexivity.
  - intros p c v _ (l & S & G). cbn. exists v, l. split; auto. split; [reflexivity | auto].
  - intros num den n In Id H. destruct (ratio_den _ _ _ _ H In Id) as [D M].
    destruct (number_ratio_ok k ovfp num den In Id D M) as (x & X & G). congruence.
  - intros pos num den n In Id H. pose proof (ratio_u_den _ _ _ _ H) as D.
    destruct (number_ratio_u_ok k ovfp pos num den In Id D) as (x & X & G). congruence.
  - intros x q nx n dx d f y _ G I1 I2 I3 I4 ND H.
    destruct (nlen_ex x q) as [tx Lx]. destruct (zlen_ex (hom nx n dx d q)) as [tz Lz].
    apply (ev_returned (fun f => number_homographic k f x nx n dx d) (fun y => numgood k ovfp y (hom nx n dx d q)) ovfp f y); auto.
    + intros f1 f2 L. apply upto_homographic; auto.
    + apply (homographic_ev k O ovfp x q nx n dx d tx tz); auto. now left.
  - intros x p y q a b c d e f g h fu z _ Gx _ Gy I1 I2 I3 I4 I5 I6 I7 I8 ND H.
    destruct (nlen_ex x p) as [tx Lx]. destruct (nlen_ex y q) as [ty Ly].
    destruct (zlen_ex (comb a b c d e f g h p q)) as [tz Lz].
    apply (ev_returned (fun fu => number_combine k fu x y a b c d e f g h)
       (fun r => numgood k ovfp r (comb a b c d e f g h p q)) ovfp fu z); auto.
    + intros f1 f2 L. apply upto_combine; auto.
    + apply (combine_ev k O ovfp x p y q a b c d e f g h tx ty tz); auto. now left.
  - intros x q f y m w _ G H ND Hq.
    assert (X : nconsumed k ovfp q (Some y, m)).
    { apply (ev_returned (fun f => number_consume k f x) _ ovfp f); auto.
      - intros f1 f2 L. apply upto_consume; auto.
      - now apply consume_ev. }
    destruct X as (_ & D & _ & w' & G' & Hw').
    eapply numgood_compat; [exact G'|]. apply (hv_inj m w' w q); auto.
    split; auto. unfold hom in Hq. rewrite <- Hq. field. auto.
  - intros n p q _ G H. eapply numgood_compat; eauto.
Qed.
