(** * ApiProofs: the statements about the public API, from the invariants. *)

From Coq Require Import ZArith QArith Qfield List Lia Lqa Psatz Bool.
From Verif Require Import Machine Protocol Support Types Ratio Homographic Combine Lib Spec Upto
  SeqProofs Good RatioProofs HomProofs HomValue HomGood CombGood LibProofs.
Import ListNotations.
Open Scope Z_scope.

(** ** From the proof framework to the vocabulary of [Spec] *)

Lemma ev_yields {A} (f : nat -> res A) (P : A -> Prop) : ev f P ovfp -> yields f P.
Proof.
  intros ([a|p|] & S & W); cbn [wp] in W.
  - left. exists a. auto.
  - right. destruct W as [-> | ->]; [left | right]; auto.
  - contradiction.
Qed.

Lemma ev_returns {A} (f : nat -> res A) (P : A -> Prop) : ev f P (fun _ => False) ->
  exists a, returns f a /\ P a.
Proof. intros ([a|p|] & S & W); cbn [wp] in W; try contradiction. eauto. Qed.

Lemma numgood_shows k n q : numgood k ovfp n q -> shows k n q.
Proof.
  destruct n as [s|p c]; cbn [numgood shows]; auto.
  intros (v & l & S & H & G). exists l. split; [exists v; auto|].
  apply ev_yields. eapply ev_mono; [apply (drain_ev k ovfp l c G) | | auto]. intros; congruence.
Qed.

Lemma numgood_read k n q : numgood k (fun _ => False) n q -> exists r, represents q r /\ read k n r.
Proof.
  destruct n as [s|p c]; cbn [numgood].
  - intro H. exists (inl s). split; [exact H | reflexivity].
  - intros (v & l & S & H & G). exists (inr (p, l)). split; [exists v; auto|].
    destruct (ev_returns _ _ (drain_ev k _ l c G)) as (l' & R & ->). split; auto.
Qed.

Lemma represents_inj q q' r r' : represents q r -> represents q' r' -> ((q == q')%Q <-> r = r').
Proof.
  destruct r as [s|[p l]], r' as [s'|[p' l']]; cbn [represents].
  - intros H H'. split; intro X.
    + f_equal. apply special_val_inj. now rewrite <- H, <- H'.
    + inversion X; subst. now rewrite H, H'.
  - intros H (v & S & H'). destruct (clog_seq_range _ _ S). split; [intro X | discriminate].
    exfalso. apply (primed_not_special p' v s); auto. now rewrite <- H, <- H'.
  - intros (v & S & H) H'. destruct (clog_seq_range _ _ S). split; [intro X | discriminate].
    exfalso. apply (primed_not_special p v s'); auto. now rewrite <- H, <- H'.
  - intros (v & S & H) (v' & S' & H').
    destruct (clog_seq_range _ _ S), (clog_seq_range _ _ S'). split; intro X.
    + destruct (primed_inj p p' v v') as [-> Y]; auto; [now rewrite <- H, <- H'|].
      now rewrite (clog_seq_det _ _ S _ _ S' Y).
    + inversion X; subst. rewrite H, H'. apply primed_compat. eapply clog_seq_inj; eauto.
Qed.

Lemma represents_compat q q' r : represents q r -> (q == q')%Q -> represents q' r.
Proof.
  destruct r as [s|[p l]]; cbn [represents].
  - intros A B. now rewrite <- B.
  - intros (v & S & H) B. exists v. rewrite <- B. auto.
Qed.

Lemma represents_ex q : exists r, represents q r.
Proof.
  destruct (primed_ex q) as [[s H]|(p & v & A & B & H)].
  - now exists (inl s).
  - destruct (clog_seq_ex v A B) as [l S]. exists (inr (p, l)). exists v. auto.
Qed.

Lemma read_det k n r r' : read k n r -> read k n r' -> r = r'.
Proof.
  destruct n as [s|p c], r as [s1|[p1 l1]], r' as [s2|[p2 l2]]; cbn [read]; try tauto.
  - congruence.
  - intros [-> R] [-> R']. f_equal. f_equal.
    pose proof (settles_det _ _ _ R R'). congruence.
Qed.

(** ** Ratios *)

Theorem ratio_value k num den : isize k num -> isize k den -> den <> 0 ->
  (ovf k = true /\ (num = imin k \/ den = imin k) -> number_ratio k num den = Panic PArith) /\
  (~ (ovf k = true /\ (num = imin k \/ den = imin k)) ->
   exists n r, number_ratio k num den = Ok n /\ represents (zq num / zq den) r /\ read k n r).
Proof.
  intros In Id D. split.
  - intros [O M]. unfold number_ratio.
    destruct (Z.eq_dec num (imin k)) as [-> | Hn]; [now rewrite magnitude_min by auto|].
    destruct M as [M | ->]; [contradiction|].
    rewrite magnitude_ok by auto. cbn [bind]. now rewrite magnitude_min by auto.
  - intro M. destruct (number_ratio_ok k (fun _ => False) num den) as (x & X & G); auto.
    { intro O. split; intro; apply M; auto. }
    destruct (numgood_read _ _ _ G) as (r & R & Y). eauto.
Qed.

Theorem ratio_zero k num : isize k num ->
  number_ratio k num 0 = Panic PDivZero \/
  (ovf k = true /\ num = imin k /\ number_ratio k num 0 = Panic PArith).
Proof.
  intro In. unfold number_ratio.
  destruct (ovf k) eqn:O.
  - destruct (Z.eq_dec num (imin k)) as [-> | Hn].
    + right. now rewrite magnitude_min by auto.
    + left. rewrite magnitude_ok by auto. cbn [bind]. destruct k as [[] []]; reflexivity.
  - left. rewrite magnitude_ok by (auto; congruence). cbn [bind]. destruct k as [[] []]; reflexivity.
Qed.

Theorem ratio_u_value k (pos : bool) num den : usize k num -> usize k den ->
  (number_ratio_u pos num den = Panic PDivZero <-> den = 0) /\
  (den <> 0 -> exists n r, number_ratio_u pos num den = Ok n /\
     represents ((if pos then 1 else -1) * (zq num / zq den)) r /\ read k n r).
Proof.
  intros In Id. split.
  - split; [|intros ->; reflexivity]. intro H.
    destruct (Z.eq_dec den 0) as [|D]; auto.
    destruct (number_ratio_u_ok k (fun _ => False) pos num den) as (x & X & _); auto. congruence.
  - intro D. destruct (number_ratio_u_ok k (fun _ => False) pos num den) as (x & X & G); auto.
    destruct (numgood_read _ _ _ G) as (r & R & Y). eauto.
Qed.

(** What [ratio] makes, whatever the way. *)
Lemma made_good k E num den n : isize k num -> isize k den -> number_ratio k num den = Ok n ->
  numgood k E n (zq num / zq den).
Proof.
  intros In Id H. destruct (ratio_den _ _ _ _ H In Id) as [D M].
  destruct (number_ratio_ok k E num den In Id D M) as (x & X & G). congruence.
Qed.

Lemma made_u_good k E (pos : bool) num den n : usize k num -> usize k den ->
  number_ratio_u pos num den = Ok n ->
  numgood k E n ((if pos then 1 else -1) * (zq num / zq den)).
Proof.
  intros In Id H. pose proof (ratio_u_den _ _ _ _ H) as D.
  destruct (number_ratio_u_ok k E pos num den In Id D) as (x & X & G). congruence.
Qed.

Lemma numgood_reads k n q r : numgood k (fun _ => False) n q -> read k n r -> represents q r.
Proof.
  intros G R. destruct (numgood_read _ _ _ G) as (r' & R' & Y).
  now rewrite (read_det _ _ _ _ R Y).
Qed.

Theorem ratio_canonical k a b c d n1 n2 r1 r2 :
  isize k a -> isize k b -> isize k c -> isize k d ->
  number_ratio k a b = Ok n1 -> number_ratio k c d = Ok n2 ->
  read k n1 r1 -> read k n2 r2 ->
  (a * d = c * b <-> r1 = r2).
Proof.
  intros Ia Ib Ic Id H1 H2 R1 R2.
  pose proof (made_good k (fun _ => False) _ _ _ Ia Ib H1) as G1.
  pose proof (made_good k (fun _ => False) _ _ _ Ic Id H2) as G2.
  destruct (ratio_den _ _ _ _ H1 Ia Ib) as [Db _]. destruct (ratio_den _ _ _ _ H2 Ic Id) as [Dd _].
  rewrite <- (represents_inj (zq a / zq b) (zq c / zq d) r1 r2) by (eapply numgood_reads; eauto).
  assert (~ zq b == 0)%Q by now apply zq_neq. assert (~ zq d == 0)%Q by now apply zq_neq.
  rewrite div_eq_iff by auto. split.
  - intro X. apply (f_equal zq) in X. apply zeq_Q in X || idtac.
    assert (Y : (zq a * zq d == zq c * zq b)%Q) by (rewrite <- !zq_mul, X; reflexivity).
    transitivity (zq a * zq d / zq d)%Q; [field; auto|]. rewrite Y. field. auto.
  - intro X. apply (proj2 (zq_eq _ _)). rewrite !zq_mul, X. field. auto.
Qed.

(** ** Symbol lists *)

Theorem seq_decode l : exists v, clog_seq v l /\ (forall w, clog_seq w l <-> (v == w)%Q).
Proof.
  assert (X : exists v, clog_seq v l).
  { induction l as [|[|] l [v S]].
    - exists (1#2)%Q. now constructor.
    - destruct (clog_seq_range _ _ S) as [A B]. exists (v * (1#2))%Q. constructor; try lra.
      eapply clog_seq_compat; eauto. ring.
    - destruct (clog_seq_range _ _ S) as [A B]. exists (/ (1 + v))%Q. constructor.
      + apply (proj1 (Qinv_lt_contravar (1 + v) 2 ltac:(lra) ltac:(lra))). lra.
      + apply (proj1 (Qinv_lt_contravar 1 (1 + v) ltac:(lra) ltac:(lra))). lra.
      + eapply clog_seq_compat; eauto. field. lra. }
  destruct X as [v S]. exists v. split; auto. intro w. split; intro H.
  - eapply clog_seq_inj; eauto.
  - eapply clog_seq_compat; eauto.
Qed.

(** ** Comparison *)

Theorem compare_ratios k a b c d n1 n2 :
  isize k a -> isize k b -> isize k c -> isize k d ->
  number_ratio k a b = Ok n1 -> number_ratio k c d = Ok n2 ->
  returns (fun f => number_compare k f n1 n2) (zq a / zq b ?= zq c / zq d)%Q.
Proof.
  intros Ia Ib Ic Id H1 H2.
  destruct (ev_returns _ _ (compare_ev k (fun _ => False) n1 n2 _ _
     (made_good _ _ _ _ _ Ia Ib H1) (made_good _ _ _ _ _ Ic Id H2))) as (o & R & ->). exact R.
Qed.

Theorem compare_values k x y p q : ovf k = true -> num_has k x p -> num_has k y q ->
  yields (fun f => number_compare k f x y) (eq (p ?= q)%Q).
Proof.
  intros O X Y. destruct (has_good k O) as [_ N]. apply ev_yields.
  eapply ev_mono; [apply (compare_ev k ovfp x y p q (N _ _ X) (N _ _ Y)) | | auto]. auto.
Qed.

(** *** A total order, on all numbers whatsoever *)

Lemma reduction_eqb_eq a b : reduction_eqb a b = true <-> a = b.
Proof. destruct a, b; cbn; split; congruence. Qed.
Lemma oreduction_eqb_eq a b : option_eqb reduction_eqb a b = true <-> a = b.
Proof. destruct a as [[]|], b as [[]|]; cbn; split; congruence. Qed.

Lemma compare_symbols_sym a b : a <> b -> compare_symbols b a = CompOpp (compare_symbols a b).
Proof. destruct a as [[]|], b as [[]|]; cbn; congruence. Qed.

Lemma compare_clogs_sym k f : forall c1 c2 pol pol' o, compare_clogs k f c1 c2 pol = Ok o ->
  exists o', compare_clogs k f c2 c1 pol' = Ok o' /\ (pol = pol' -> o' = CompOpp o).
Proof.
  induction f as [|f IH]; cbn [compare_clogs]; intros c1 c2 pol pol' o H; [discriminate|].
  destruct (clog_egest k f c1) as [[e1 c1']|p|] eqn:E1; cbn [bind] in H; try discriminate.
  destruct (clog_egest k f c2) as [[e2 c2']|p|] eqn:E2; cbn [bind] in H; try discriminate.
  cbn [bind]. destruct (option_eqb reduction_eqb e1 e2) eqn:Q.
  - apply oreduction_eqb_eq in Q. subst e2.
    replace (option_eqb reduction_eqb e1 e1) with true by (symmetry; now apply oreduction_eqb_eq).
    destruct e1 as [[|]|].
    + destruct (IH _ _ _ pol' _ H) as (o' & H' & X). eauto.
    + destruct (IH _ _ _ (negb pol') _ H) as (o' & H' & X). exists o'. split; auto.
      intros ->. auto.
    + inversion H; subst. eexists. split; [reflexivity|]. auto.
  - assert (N : e1 <> e2).
    { intro Y. apply oreduction_eqb_eq in Y. congruence. }
    replace (option_eqb reduction_eqb e2 e1) with false.
    2:{ symmetry. apply not_true_iff_false. rewrite oreduction_eqb_eq. congruence. }
    inversion H; subst. eexists. split; [reflexivity|]. intros ->.
    rewrite (compare_symbols_sym e1 e2 N). now destruct pol'.
Qed.

Lemma compare_primers_sym p1 p2 : compare_primers p2 p1 = CompOpp (compare_primers p1 p2).
Proof. destruct p1 as [[]|], p2 as [[]|]; reflexivity. Qed.
Lemma compare_primers_eq p1 p2 : compare_primers p1 p2 = Eq -> p1 = p2.
Proof. destruct p1 as [[]|], p2 as [[]|]; cbn; congruence. Qed.
Lemma compare_specials_sym p1 p2 : compare_specials p2 p1 = CompOpp (compare_specials p1 p2).
Proof. destruct p1, p2; reflexivity. Qed.

Theorem compare_antisym_all k f x y o :
  number_compare k f x y = Ok o -> number_compare k f y x = Ok (CompOpp o).
Proof.
  destruct x as [s1|p1 c1], y as [s2|p2 c2]; cbn [number_compare].
  - intro H. inversion H. now rewrite compare_specials_sym.
  - intro H. now inversion H.
  - intro H. inversion H. now rewrite CompOpp_involutive.
  - unfold compare_others. intro H.
    destruct (compare_clogs k f c1 c2 _) as [a|p|] eqn:E; cbn [bind] in H; try discriminate.
    destruct (compare_clogs_sym k f c1 c2 _
      (negb (option_eqb primer_eqb p2 (Some Reflect)) && negb (option_eqb primer_eqb p2 (Some Turn))) _ E)
      as (o' & E' & X).
    rewrite E'. cbn [bind]. rewrite (compare_primers_sym p1 p2).
    destruct (compare_primers p1 p2) eqn:P; cbn [CompOpp]; inversion H; subst; auto.
    apply compare_primers_eq in P. subst p2. now rewrite X.
Qed.

(** Not greater: less or equal. *)
Definition le_c (o : comparison) : Prop := o <> Gt.

Lemma compare_clogs_trans k f : forall c1 c2 c3 pol o1 o2,
  compare_clogs k f c1 c2 pol = Ok o1 -> compare_clogs k f c2 c3 pol = Ok o2 ->
  o1 = o2 \/ o1 = Eq \/ o2 = Eq ->
  compare_clogs k f c1 c3 pol = Ok (match o1 with Eq => o2 | _ => o1 end).
Proof.
  induction f as [|f IH]; cbn [compare_clogs]; intros c1 c2 c3 pol o1 o2 H1 H2 L; [discriminate|].
  destruct (clog_egest k f c1) as [[e1 c1']|p|] eqn:E1; cbn [bind] in *; try discriminate.
  destruct (clog_egest k f c2) as [[e2 c2']|p|] eqn:E2; cbn [bind] in *; try discriminate.
  destruct (clog_egest k f c3) as [[e3 c3']|p|] eqn:E3; cbn [bind] in *; try discriminate.
  destruct e1 as [[|]|], e2 as [[|]|], e3 as [[|]|];
    cbn [option_eqb reduction_eqb compare_symbols] in *;
    try (eapply IH; eassumption);
    try (inversion H1; subst; clear H1); try (inversion H2; subst; clear H2);
    destruct pol; cbn [CompOpp] in *; try reflexivity; try assumption;
    try (exfalso; destruct L as [L|[L|L]]; congruence);
    try (destruct L as [L|[L|L]]; try congruence; subst; auto; fail);
    destruct o1; destruct L as [L|[L|L]]; try congruence; try (subst; assumption).
Qed.

Lemma compare_clogs_refl k f : forall c pol o, compare_clogs k f c c pol = Ok o -> o = Eq.
Proof.
  induction f as [|f IH]; cbn [compare_clogs]; intros c pol o H; [discriminate|].
  destruct (clog_egest k f c) as [[e c']|p|]; cbn [bind] in H; try discriminate.
  destruct e as [[|]|]; cbn [option_eqb reduction_eqb] in H; eauto. congruence.
Qed.

Theorem compare_refl_all k f x o : number_compare k f x x = Ok o -> o = Eq.
Proof.
  destruct x as [s|p c]; cbn [number_compare].
  - destruct s; cbn; congruence.
  - unfold compare_others. intro H.
    destruct (compare_clogs k f c c _) as [a|q|] eqn:E; cbn [bind] in H; try discriminate.
    apply compare_clogs_refl in E. subst a.
    destruct p as [[]|]; cbn in H; congruence.
Qed.

Theorem compare_trans_all k f x y z o1 o2 o3 :
  number_compare k f x y = Ok o1 -> number_compare k f y z = Ok o2 -> number_compare k f x z = Ok o3 ->
  o1 = o2 \/ o1 = Eq \/ o2 = Eq ->
  o3 = match o1 with Eq => o2 | _ => o1 end.
Proof.
  intros H1 H2 H3 L.
  destruct x as [s1|p1 c1], y as [s2|p2 c2], z as [s3|p3 c3]; cbn [number_compare] in *.
  - inversion H1; inversion H2; inversion H3; subst.
    destruct s1, s2, s3; cbn in *; try reflexivity; exfalso; destruct L as [L|[L|L]]; congruence.
  - inversion H1; inversion H2; inversion H3; subst.
    destruct s1, s2, p3 as [[]|]; cbn in *; try reflexivity; exfalso; destruct L as [L|[L|L]]; congruence.
  - inversion H1; inversion H2; inversion H3; subst.
    destruct s1, s3, p2 as [[]|]; cbn in *; try reflexivity; exfalso; destruct L as [L|[L|L]]; congruence.
  - unfold compare_others in H2. destruct (compare_clogs k f c2 c3 _) as [a|q|]; cbn [bind] in H2; try discriminate.
    inversion H1; inversion H2; inversion H3; subst.
    destruct s1, p2 as [[]|], p3 as [[]|]; cbn in *; try reflexivity; exfalso;
      destruct L as [L|[L|L]]; congruence.
  - inversion H1; inversion H2; inversion H3; subst.
    destruct p1 as [[]|], s2, s3; cbn in *; try reflexivity; exfalso; destruct L as [L|[L|L]]; congruence.
  - unfold compare_others in H3. destruct (compare_clogs k f c1 c3 _) as [a|q|]; cbn [bind] in H3; try discriminate.
    inversion H1; inversion H2; inversion H3; subst.
    destruct p1 as [[]|], s2, p3 as [[]|]; cbn in *; try reflexivity; exfalso;
      destruct L as [L|[L|L]]; congruence.
  - unfold compare_others in H1. destruct (compare_clogs k f c1 c2 _) as [a|q|]; cbn [bind] in H1; try discriminate.
    inversion H1; inversion H2; inversion H3; subst.
    destruct p1 as [[]|], p2 as [[]|], s3, a; cbn in *; try reflexivity; exfalso;
      destruct L as [L|[L|L]]; congruence.
  - unfold compare_others in *.
    destruct (compare_clogs k f c1 c2 _) as [a1|q|] eqn:E1; cbn [bind] in H1; try discriminate.
    destruct (compare_clogs k f c2 c3 _) as [a2|q|] eqn:E2; cbn [bind] in H2; try discriminate.
    destruct (compare_clogs k f c1 c3 _) as [a3|q|] eqn:E3; cbn [bind] in H3; try discriminate.
    injection H1 as H1. injection H2 as H2. injection H3 as H3.
    destruct p1 as [[]|], p2 as [[]|], p3 as [[]|];
      cbn [compare_primers option_eqb primer_eqb negb andb] in *; subst;
      try (pose proof (compare_clogs_trans _ _ _ _ _ _ _ _ E1 E2 L) as E; congruence);
      try reflexivity; try (exfalso; destruct L as [L|[L|L]]; congruence);
      destruct o1; try reflexivity; exfalso; destruct L as [L|[L|L]]; congruence.
Qed.
