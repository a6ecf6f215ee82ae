(** * AlikeProofs: what compare and consume have read decides their answer. *)

From Coq Require Import ZArith QArith Qfield List Lia Lqa Bool.
From Verif Require Import Machine Protocol Support Types Ratio Homographic Combine Lib Spec SpecEnd
  SeqProofs Upto Good RatioProofs SupportProofs HomProofs HomValue HomGood LibProofs ArithProofs
  SpecLazy LazyProofs SpecTell TellProofs SpecAlike.
Import ListNotations.
Open Scope Q_scope.

Lemma egest_returns k f c v : clog_egest k f c = Ok v -> returns (fun f => clog_egest k f c) v.
Proof. intro E. eapply egest_settles; [exact E|discriminate]. Qed.

Lemma compare_clogs_reads k f : forall c1 c2 pol a, compare_clogs k f c1 c2 pol = Ok a ->
  exists l o1 o2 c1' c2', gives_then k c1 l o1 c1' /\ gives_then k c2 l o2 c2' /\ (o1 = o2 -> o1 = None) /\
    forall v1 v2 t1 t2, clog_seq v1 (l ++ t1) -> clog_seq v2 (l ++ t2) -> hd_error t1 = o1 -> hd_error t2 = o2 ->
      a = polar pol (v1 ?= v2).
Proof.
  induction f as [|f IH]; intros c1 c2 pol a H; [discriminate|]. cbn [compare_clogs] in H.
  destruct (clog_egest k f c1) as [[o1 d1]|?|] eqn:E1; try discriminate. cbn [bind] in H.
  destruct (clog_egest k f c2) as [[o2 d2]|?|] eqn:E2; try discriminate. cbn [bind] in H.
  apply egest_returns in E1, E2.
  destruct (option_eqb reduction_eqb o1 o2) eqn:Eo.
  - assert (o1 = o2) as <- by (destruct o1 as [[]|], o2 as [[]|]; (reflexivity || discriminate Eo)). clear Eo.
    destruct o1 as [s|].
    + assert (Hs : compare_clogs k f d1 d2 (match s with Amplify => pol | Uncover => negb pol end) = Ok a) by (destruct s; exact H).
      clear H. destruct (IH _ _ _ _ Hs) as (l & o1 & o2 & c1' & c2' & (b1 & A1 & A2) & (b2 & B1 & B2) & C & D).
      exists (s :: l), o1, o2, c1', c2'. split; [exists b1; split; [econstructor; eauto|exact A2]|].
      split; [exists b2; split; [econstructor; eauto|exact B2]|]. split; [exact C|].
      intros v1 v2 t1 t2 S1 S2 T1 T2. cbn [app] in S1, S2.
      pose proof (seq_cases _ _ S1) as C1; pose proof (seq_cases _ _ S2) as C2. cbv beta iota in C1, C2.
      destruct (clog_seq_range _ _ S1) as [P1 Q1]; destruct (clog_seq_range _ _ S2) as [P2 Q2].
      destruct s; destruct C1 as [C1 S1'], C2 as [C2 S2']; rewrite (D _ _ _ _ S1' S2' T1 T2).
      * now rewrite compare_scale by lra.
      * rewrite compare_sub, compare_inv by lra.
        destruct pol; cbn [negb polar]; [now rewrite CompOpp_involutive | reflexivity].
    + injection H as <-. exists [], None, None, d1, d2. split; [exists c1; split; [constructor|exact E1]|].
      split; [exists c2; split; [constructor|exact E2]|]. split; [auto|].
      intros v1 v2 [|? ?] [|? ?] S1 S2 T1 T2; try discriminate.
      pose proof (seq_cases _ _ S1) as C1; pose proof (seq_cases _ _ S2) as C2. cbn in C1, C2.
      rewrite cmp_eq; [now destruct pol | lra].
  - injection H as <-. exists [], o1, o2, d1, d2. split; [exists c1; split; [constructor|exact E1]|].
    split; [exists c2; split; [constructor|exact E2]|]. split.
    { intros <-. destruct o1 as [[]|]; discriminate || reflexivity. }
    intros v1 v2 t1 t2 S1 S2 T1 T2. cbn [app] in S1, S2.
    pose proof (seq_cases _ _ S1) as C1; pose proof (seq_cases _ _ S2) as C2.
    destruct (clog_seq_range _ _ S1) as [P1 Q1]; destruct (clog_seq_range _ _ S2) as [P2 Q2].
    destruct t1 as [|[] t1], t2 as [|[] t2]; cbn [hd_error] in T1, T2; subst o1 o2; try discriminate Eo;
      cbv beta iota in C1, C2; cbn [compare_symbols];
      first [rewrite cmp_lt by lra | rewrite cmp_gt by lra]; now destruct pol.
Qed.

Lemma goes_on_seq q p l o : goes_on q p l o -> exists v t, clog_seq v (l ++ t) /\ hd_error t = o /\ q == primed p v.
Proof.
  destruct o as [s|]; cbn [goes_on].
  - intros (r & v & S & E). exists v, (s :: r). rewrite <- app_assoc in S. auto.
  - intros (v & S & E). exists v, []. rewrite app_nil_r. auto.
Qed.

Theorem compare_alike k f p1 c1 p2 c2 o : number_compare k f (NOther p1 c1) (NOther p2 c2) = Ok o ->
  exists l o1 o2 c1' c2', gives_then k c1 l o1 c1' /\ gives_then k c2 l o2 c2' /\ (o1 = o2 -> o1 = None) /\
    forall q1 q2, goes_on q1 p1 l o1 -> goes_on q2 p2 l o2 -> o = (q1 ?= q2).
Proof.
  cbn [number_compare]. unfold compare_others. intro H.
  destruct (compare_clogs k f c1 c2 _) as [a| |] eqn:E; try discriminate. cbn [bind] in H. injection H as <-.
  destruct (compare_clogs_reads k f c1 c2 _ a E) as (l & o1 & o2 & c1' & c2' & A & B & C & D).
  exists l, o1, o2, c1', c2'. split; [exact A|]. split; [exact B|]. split; [exact C|].
  intros q1 q2 G1 G2. destruct (goes_on_seq _ _ _ _ G1) as (v1 & t1 & S1 & T1 & E1).
  destruct (goes_on_seq _ _ _ _ G2) as (v2 & t2 & S2 & T2 & E2). rewrite (D _ _ _ _ S1 S2 T1 T2).
  destruct (clog_seq_range _ _ S1), (clog_seq_range _ _ S2).
  rewrite (compare_others_ok p1 v1 p2 v2) by auto. symmetry. now apply Qcompare_compat.
Qed.

Theorem compare_special_alike k f s p c q : begins q p [] ->
  number_compare k f (NSpecial s) (NOther p c) = Ok (special_val s ?= q) /\
  number_compare k f (NOther p c) (NSpecial s) = Ok (q ?= special_val s).
Proof.
  intros (r & v & S & E). destruct (clog_seq_range _ _ S). cbn [number_compare].
  rewrite (compare_hybrid_ok s p q v) by auto. split; [reflexivity|]. now rewrite <- compare_antisym.
Qed.

(** With the same primer and the same symbols, each may be the larger. *)
Theorem alike_undecided p l : exists q1 q2, begins q1 p l /\ begins q2 p l /\ q1 < q2.
Proof.
  assert (X : exists q1 q2, begins q1 p l /\ begins q2 p l /\ ~ q1 == q2).
  { exists (primed p (unread l (1#3))), (primed p (unread l (2#3))).
    assert (R1 := unread_range l (1#3) ltac:(lra) ltac:(lra)). assert (R2 := unread_range l (2#3) ltac:(lra) ltac:(lra)).
    split; [apply begins_unread; lra|]. split; [apply begins_unread; lra|].
    assert (N : ~ unread l (1#3) == unread l (2#3)).
    { clear. induction l as [|s l IH]; [discriminate|]. cbn [unread fold_right]. fold (unread l (1#3)). fold (unread l (2#3)).
      assert (R1 := unread_range l (1#3) ltac:(lra) ltac:(lra)). assert (R2 := unread_range l (2#3) ltac:(lra) ltac:(lra)).
      intro E. apply IH. destruct s; cbn [unread1] in E.
      - transitivity (2 * (unread l (1#3) / 2)); [field|]. rewrite E. field.
      - transitivity (/ / (1 + unread l (1#3)) - 1); [rewrite Qinv_involutive; ring|]. rewrite E, Qinv_involutive. ring. }
    intro E. apply N. destruct p as [[]|]; cbn [primed] in E; [|lra| |exact E].
    - rewrite <- (Qinv_involutive (unread l (1#3))), <- (Qinv_involutive (unread l (2#3))). now rewrite E.
    - rewrite <- (Qinv_involutive (unread l (1#3))), <- (Qinv_involutive (unread l (2#3))).
      assert (E' : / unread l (1#3) == / unread l (2#3)) by lra. now rewrite E'. }
  destruct X as (q1 & q2 & A & B & N). destruct (Q_dec q1 q2) as [[L|L]|L]; [eauto|eauto|contradiction].
Qed.

(** ** Consume *)

Definition right_for (p : option primer) (l : list reduction) (m : hcoef) : Prop :=
  forall w, 0 < w -> w < 1 -> ~ hom_num (h_dx m) (h_d m) w == 0 /\
    hom (h_nx m) (h_n m) (h_dx m) (h_d m) w == primed p (followed l w).

Lemma follows_right p l m : follows (HC 1 0 0 1) p l m -> right_for p l m.
Proof.
  intros F w W0 W1. destruct (F w W0 W1) as (t & T & A & B). cbn [h_nx h_n h_dx h_d] in A, B.
  assert (NT : ~ t == 0) by now apply Qlt_neq.
  assert (X : hom_num 0 1 (primed p (unread l w)) == 1) by (unfold hom_num, zq; ring).
  assert (Y : hom_num 1 0 (primed p (unread l w)) == primed p (unread l w)) by (unfold hom_num, zq; ring).
  rewrite X in B. rewrite Y in A. rewrite primed_followed. unfold hom. rewrite A, B.
  split; [|field; exact NT]. intro Z0. apply NT. rewrite <- Z0. ring.
Qed.

Lemma k_consume_alike k p f : forall l0 c m y m', follows (HC 1 0 0 1) p l0 m -> k_small k m ->
  k_consume k f c m = Ok (y, m') ->
  exists l, follows (HC 1 0 0 1) p (l0 ++ l) m' /\
    match y with Some c' => egests k c l c' | None => exists c', gives_then k c l None c' end.
Proof.
  induction f as [|f IH]; intros l0 c m y m' F K H; [discriminate|]. cbn [k_consume] in H.
  destruct (clog_egest k f c) as [[o c']|?|] eqn:E; try discriminate. cbn [bind] in H. apply egest_returns in E.
  destruct o as [s|].
  - destruct (k_ingest_ok k m s K) as (m1 & Em & I & Bm). rewrite Em in H. cbn [bind] in H.
    assert (Bm' : hbound (2 * k_lim k) m1) by (unfold hbound in *; lia).
    destruct (k_unsafe_ok k m1 Bm') as (b & Eb & Hb). rewrite Eb in H. cbn [bind] in H.
    pose proof (follows_ingested _ _ _ _ _ _ F I) as F1. destruct b.
    + injection H as <- <-. exists [s]. split; [exact F1|]. econstructor; [exact E|constructor].
    + destruct (IH _ _ _ _ _ F1 (proj1 Hb eq_refl) H) as (l & A & B). exists (s :: l).
      rewrite <- app_assoc in A. split; [exact A|]. destruct y as [c''|]; [econstructor; eauto|].
      destruct B as (c2 & c1 & B1 & B2). exists c2, c1. split; [econstructor; eauto|exact B2].
  - injection H as <- <-. exists []. rewrite app_nil_r. split; [exact F|]. exists c', c. split; [constructor|exact E].
Qed.

Theorem consume_alike k f p c y m : number_consume k f (NOther p c) = Ok (y, m) ->
  exists l, right_for p l m /\
    match y with Some y => exists c', y = NOther None c' /\ egests k c l c' | None => exists c', gives_then k c l None c' end.
Proof.
  rewrite consume_cases. destruct (k_consume k f c (absorbed p (HC 1 0 0 1))) as [[y' m']| |] eqn:E; cbn [bind]; try discriminate.
  intro H. injection H as <- <-.
  destruct (k_consume_alike k p f [] c _ _ _ (follows_absorbed _ _) (absorbed_one_small k p) E) as (l & A & B).
  exists l. split; [now apply follows_right|]. destruct y' as [c'|]; cbn [option_map]; eauto.
Qed.
