(** * ApartProofs: how many symbols a comparison reads. *)

From Coq Require Import ZArith QArith Qabs List Lia Lqa.
From Verif Require Import Machine Protocol Types Lib Spec SeqProofs SpecLazy SpecAlike SpecApart LazyProofs AlikeProofs SoonProofs.
Import ListNotations.
Open Scope Q_scope.

Lemma primed_magnitude q p v : 0 < v -> v < 1 -> q == primed p v -> magnitude q == v.
Proof.
  intros A B E. assert (I : 1 < / v) by (change 1 with (/ 1); now apply inv_lt). unfold magnitude.
  assert (X : Qabs q == match p with Some Turn | Some Ground => / v | _ => v end).
  { rewrite E. destruct p as [[]|]; cbn [primed]; rewrite ?Qabs_opp, Qabs_pos; (reflexivity || lra). }
  destruct (Qle_bool 1 (Qabs q)) eqn:L.
  - apply Qle_bool_iff in L. rewrite X in L. rewrite X. destruct p as [[]|]; try lra; apply Qinv_involutive.
  - assert (N : ~ 1 <= Qabs q) by (intro G; apply Qle_bool_iff in G; congruence). rewrite X in N. rewrite X.
    destruct p as [[]|]; try reflexivity; exfalso; apply N; lra.
Qed.

Lemma begins_close q1 p1 q2 p2 l j : begins q1 p1 l -> begins q2 p2 l ->
  1 <= zq (2 ^ Z.of_nat j) * Qabs (magnitude q1 - magnitude q2) -> (length l < 2 * j)%nat.
Proof.
  intros B1 B2 Ap. destruct (le_lt_dec (2 * j) (length l)) as [G|]; [exfalso|assumption].
  apply begins_inv in B1 as (u & U0 & U1 & F1). apply begins_inv in B2 as (w & W0 & W1 & F2).
  destruct (unread_range l u U0 U1) as [R0 R1]. destruct (unread_range l w W0 W1) as [S0 S1].
  apply primed_magnitude in F1; auto. apply primed_magnitude in F2; auto.
  pose proof (unread_close j l u w G U0 U1 W0 W1) as C. rewrite <- F1, <- F2 in C. unfold pow2 in C. lra.
Qed.

Theorem compare_apart k f p1 c1 q1 p2 c2 q2 o : ovf k = true ->
  num_has k (NOther p1 c1) q1 -> num_has k (NOther p2 c2) q2 -> number_compare k f (NOther p1 c1) (NOther p2 c2) = Ok o ->
  exists l o1 o2 c1' c2', gives_then k c1 l o1 c1' /\ gives_then k c2 l o2 c2' /\ (o1 = o2 -> o1 = None) /\
    forall j, 1 <= zq (2 ^ Z.of_nat j) * Qabs (magnitude q1 - magnitude q2) -> (length l < 2 * j)%nat.
Proof.
  intros O H1 H2 C. destruct (compare_alike _ _ _ _ _ _ _ C) as (l & o1 & o2 & c1' & c2' & G1 & G2 & N & _).
  exists l, o1, o2, c1', c2'. split; [exact G1|]. split; [exact G2|]. split; [exact N|].
  intros j Ap. destruct G1 as (d1 & X1 & _), G2 as (d2 & X2 & _).
  eapply begins_close; [exact (has_begins _ _ _ _ _ _ O H1 X1)|exact (has_begins _ _ _ _ _ _ O H2 X2)|exact Ap].
Qed.

Lemma compare_clogs_enough k l : forall c1 c2 o1 o2 c1' c2' pol, gives_then k c1 l o1 c1' -> gives_then k c2 l o2 c2' ->
  (o1 = o2 -> o1 = None) -> exists a, returns (fun f => compare_clogs k f c1 c2 pol) a.
Proof.
  induction l as [|s l IH]; intros c1 c2 o1 o2 c1' c2' pol (d1 & X1 & Y1) (d2 & X2 & Y2) N.
  - inversion X1; subst. inversion X2; subst. destruct Y1 as [F1 Y1], Y2 as [F2 Y2].
    destruct (option_eqb reduction_eqb o1 o2) eqn:E.
    + exists Eq. exists (Datatypes.S (max F1 F2)). intros [|f] L; [lia|]. cbn [compare_clogs].
      rewrite Y1, Y2 by lia. cbn [bind]. rewrite E.
      assert (o1 = None) as -> by (apply N; destruct o1 as [[]|], o2 as [[]|]; (reflexivity || discriminate)). reflexivity.
    + exists (if pol then compare_symbols o1 o2 else CompOpp (compare_symbols o1 o2)).
      exists (Datatypes.S (max F1 F2)). intros [|f] L; [lia|]. cbn [compare_clogs].
      rewrite Y1, Y2 by lia. cbn [bind]. now rewrite E.
  - inversion X1 as [|? ? e1 ? ? A1 B1]; subst. inversion X2 as [|? ? e2 ? ? A2 B2]; subst.
    destruct (IH e1 e2 o1 o2 c1' c2' (match s with Amplify => pol | Uncover => negb pol end)) as (a & F & R);
      [exists d1; auto|exists d2; auto|exact N|].
    destruct A1 as [F1 A1], A2 as [F2 A2]. exists a. exists (Datatypes.S (max F (max F1 F2))). intros [|f] L; [lia|].
    cbn [compare_clogs]. rewrite A1, A2 by lia. cbn [bind]. specialize (R f ltac:(lia)). destruct s; exact R.
Qed.

Theorem compare_enough k p1 c1 p2 c2 l o1 o2 c1' c2' : gives_then k c1 l o1 c1' -> gives_then k c2 l o2 c2' ->
  (o1 = o2 -> o1 = None) -> exists o, returns (fun f => number_compare k f (NOther p1 c1) (NOther p2 c2)) o.
Proof.
  intros G1 G2 N. cbn [number_compare]. unfold compare_others.
  destruct (compare_clogs_enough k l _ _ _ _ _ _ (negb (option_eqb primer_eqb p1 (Some Reflect))
    && negb (option_eqb primer_eqb p1 (Some Turn))) G1 G2 N) as (a & F & R).
  eexists. exists F. intros n L. rewrite R by exact L. reflexivity.
Qed.
