(** * MirrorProofs: which comparisons return, and which panic. *)

From Coq Require Import ZArith List Bool Lia.
From Verif Require Import Machine Protocol Types Lib Spec SpecEnd Upto Good EndProofs.
From Verif Require ApiProofs.
Import ListNotations.

Lemma egest_settles k c f a : clog_egest k f c = a -> a <> NoFuel -> settles (fun f => clog_egest k f c) a.
Proof. intros E N. eapply settles_fuel; eauto. intros f1 f2 L. now apply upto_egest. Qed.

Lemma clogs_mirror k f : forall c1 c2 pol pol' p, steady_clog k c1 -> steady_clog k c2 ->
  compare_clogs k f c1 c2 pol = Panic p -> exists p', settles (fun f => compare_clogs k f c2 c1 pol') (Panic p').
Proof.
  induction f as [|f IH]; cbn [compare_clogs]; intros c1 c2 pol pol' p S1 S2 H; [discriminate|].
  destruct (clog_egest k f c1) as [[e1 c1']|p1|] eqn:E1; cbn [bind] in H; try discriminate.
  - destruct (egest_settles _ _ _ _ E1 ltac:(discriminate)) as (F1 & G1).
    destruct (clog_egest k f c2) as [[e2 c2']|p2|] eqn:E2; cbn [bind] in H; try discriminate.
    + destruct (egest_settles _ _ _ _ E2 ltac:(discriminate)) as (F2 & G2).
      destruct (option_eqb reduction_eqb e1 e2) eqn:Q; [|discriminate].
      apply ApiProofs.oreduction_eqb_eq in Q. subst e2. destruct e1 as [s|]; [|discriminate].
      assert (T1 : steady_clog k c1') by (eapply steady_next; [exact S1|exists F1; exact G1]).
      assert (T2 : steady_clog k c2') by (eapply steady_next; [exact S2|exists F2; exact G2]).
      assert (X : exists p', settles (fun f => compare_clogs k f c2' c1' (match s with Uncover => negb pol' | Amplify => pol' end)) (Panic p')).
      { destruct s; eapply IH; eauto. }
      destruct X as (p' & F & G). exists p', (S (max F (max F1 F2))). intros [|n] L; [lia|].
      cbn [compare_clogs]. rewrite G2, G1 by lia. cbn [bind].
      replace (option_eqb reduction_eqb (Some s) (Some s)) with true by (now destruct s).
      specialize (G n ltac:(lia)). now destruct s.
    + destruct (egest_settles _ _ _ _ E2 ltac:(discriminate)) as (F2 & G2).
      exists p2, (S F2). intros [|n] L; [lia|]. cbn [compare_clogs]. rewrite G2 by lia. reflexivity.
  - destruct (egest_settles _ _ _ _ E1 ltac:(discriminate)) as (F1 & G1).
    destruct (steady_now k c2 S2) as ([[e2 c2']|p2|] & N & (F2 & G2)); [| |now destruct N].
    + exists p1, (S (max F1 F2)). intros [|n] L; [lia|]. cbn [compare_clogs]. rewrite G2, G1 by lia. reflexivity.
    + exists p2, (S F2). intros [|n] L; [lia|]. cbn [compare_clogs]. rewrite G2 by lia. reflexivity.
Qed.

Theorem compare_mirror k x y p : steady k x -> steady k y ->
  settles (fun f => number_compare k f x y) (Panic p) ->
  exists p', settles (fun f => number_compare k f y x) (Panic p').
Proof.
  intros Sx Sy (F & G). specialize (G F (le_n _)).
  destruct x as [s1|p1 c1], y as [s2|p2 c2]; cbn [number_compare] in G; try discriminate.
  unfold compare_others in G.
  destruct (compare_clogs k F c1 c2 _) as [o|q|] eqn:E; cbn [bind] in G; try discriminate.
  destruct (clogs_mirror k F c1 c2 _ (negb (option_eqb primer_eqb p2 (Some Reflect)) && negb (option_eqb primer_eqb p2 (Some Turn))) q Sx Sy E) as (p' & K & I).
  exists p', K. intros n L. cbn [number_compare]. unfold compare_others. now rewrite I by lia.
Qed.

Lemma clogs_chain k f : forall c1 c2 c3 pol o1 o2,
  compare_clogs k f c1 c2 pol = Ok o1 -> compare_clogs k f c2 c3 pol = Ok o2 ->
  o1 = o2 \/ o1 = Eq \/ o2 = Eq -> exists o3, compare_clogs k f c1 c3 pol = Ok o3.
Proof.
  induction f as [|f IH]; cbn [compare_clogs]; intros c1 c2 c3 pol o1 o2 H1 H2 T; [discriminate|].
  destruct (clog_egest k f c1) as [[e1 c1']|p1|]; cbn [bind] in *; try discriminate.
  destruct (clog_egest k f c2) as [[e2 c2']|p2|]; cbn [bind] in *; try discriminate.
  destruct (clog_egest k f c3) as [[e3 c3']|p3|]; cbn [bind] in *; try discriminate.
  destruct e1 as [[]|], e2 as [[]|], e3 as [[]|]; cbn [option_eqb reduction_eqb compare_symbols] in *;
    try (eexists; reflexivity); try (eapply IH; eassumption);
    exfalso; injection H1 as <-; injection H2 as <-; destruct pol; cbn in T; destruct T as [T|[T|T]]; discriminate.
Qed.

Theorem compare_chain k f x y z o1 o2 : number_compare k f x y = Ok o1 -> number_compare k f y z = Ok o2 ->
  o1 = o2 \/ o1 = Eq \/ o2 = Eq ->
  (forall p c p' c', x = NOther p c -> z = NOther p' c' -> p = p') ->
  number_compare k f x z = Ok (match o1 with Eq => o2 | _ => o1 end).
Proof.
  intros H1 H2 T P.
  assert (X : exists o3, number_compare k f x z = Ok o3).
  { destruct x as [s1|p1 c1], z as [s3|p3 c3]; cbn [number_compare]; try (eexists; reflexivity).
    assert (p1 = p3) by eauto. subst p3.
    destruct y as [s2|p2 c2].
    - (* both on the same side of a special: impossible *)
      cbn [number_compare] in H1, H2. exfalso. injection H1 as <-. injection H2 as <-.
      destruct p1 as [[]|], s2; cbn in T; destruct T as [T|[T|T]]; discriminate.
    - cbn [number_compare] in H1, H2. unfold compare_others in *.
      destruct (compare_clogs k f c1 c2 _) as [a1|q|] eqn:E1; cbn [bind] in H1; try discriminate.
      destruct (compare_clogs k f c2 c3 _) as [a2|q|] eqn:E2; cbn [bind] in H2; try discriminate.
      injection H1 as <-. injection H2 as <-.
      assert (N : p1 = p2).
      { destruct p1 as [[]|], p2 as [[]|]; auto; cbn in T; destruct T as [T|[T|T]]; discriminate. }
      subst p2.
      replace (compare_primers p1 p1) with Eq in T by (now destruct p1 as [[]|]).
      destruct (clogs_chain k f c1 c2 c3 _ a1 a2 E1 E2 T) as (a3 & E3). rewrite E3. eexists. reflexivity. }
  destruct X as (o3 & H3). rewrite H3. f_equal.
  exact (ApiProofs.compare_trans_all k f x y z o1 o2 o3 H1 H2 H3 T).
Qed.

(** How far the clogs are read. *)
Lemma clogs_read k f : forall c1 c2 pol,
  match compare_clogs k f c1 c2 pol with
  | NoFuel => True
  | Ok _ => exists l c1' c2' e1 d1 e2 d2, egests k c1 l c1' /\ egests k c2 l c2' /\
      returns (fun f => clog_egest k f c1') (e1, d1) /\ returns (fun f => clog_egest k f c2') (e2, d2) /\
      (e1 <> e2 \/ e1 = None /\ e2 = None)
  | Panic q => exists l c1' c2', egests k c1 l c1' /\ egests k c2 l c2' /\
      (settles (fun f => clog_egest k f c1') (Panic q) \/
       exists r, returns (fun f => clog_egest k f c1') r /\ settles (fun f => clog_egest k f c2') (Panic q))
  end.
Proof.
  induction f as [|f IH]; intros c1 c2 pol; cbn [compare_clogs]; [exact I|].
  destruct (clog_egest k f c1) as [[e1 d1]|p1|] eqn:E1; cbn [bind]; [| |exact I].
  2:{ apply egest_settles in E1; [|discriminate]. exists [], c1, c2. split; [constructor|]. split; [constructor|]. now left. }
  apply egest_settles in E1; [|discriminate].
  destruct (clog_egest k f c2) as [[e2 d2]|p2|] eqn:E2; cbn [bind]; [| |exact I].
  2:{ apply egest_settles in E2; [|discriminate]. exists [], c1, c2. split; [constructor|]. split; [constructor|].
      right. exists (e1, d1). now split. }
  apply egest_settles in E2; [|discriminate].
  destruct (option_eqb reduction_eqb e1 e2) eqn:Q.
  - apply ApiProofs.oreduction_eqb_eq in Q. subst e2. destruct e1 as [s|].
    + specialize (IH d1 d2 (match s with Uncover => negb pol | Amplify => pol end)).
      replace (match s with Amplify => compare_clogs k f d1 d2 pol | Uncover => compare_clogs k f d1 d2 (negb pol) end)
        with (compare_clogs k f d1 d2 (match s with Uncover => negb pol | Amplify => pol end)) by (now destruct s).
      destruct (compare_clogs k f d1 d2 _) as [o|q|]; [| |exact I].
      * destruct IH as (l & c1' & c2' & a1 & b1 & a2 & b2 & A & B & R).
        exists (s :: l), c1', c2', a1, b1, a2, b2. split; [econstructor; eauto|]. split; [econstructor; eauto|]. exact R.
      * destruct IH as (l & c1' & c2' & A & B & R).
        exists (s :: l), c1', c2'. split; [econstructor; eauto|]. split; [econstructor; eauto|]. exact R.
    + exists [], c1, c2, None, d1, None, d2. split; [constructor|]. split; [constructor|]. auto.
  - exists [], c1, c2, e1, d1, e2, d2. split; [constructor|]. split; [constructor|]. split; [exact E1|]. split; [exact E2|].
    left. intros ->. assert (option_eqb reduction_eqb e2 e2 = true) by (now apply ApiProofs.oreduction_eqb_eq). congruence.
Qed.
