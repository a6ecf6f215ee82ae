(** * TellProofs: the debugging lines are right. *)

From Coq Require Import ZArith QArith Qfield List String Lia Lqa Bool.
From Verif Require Import Machine Protocol Support Types Ratio Homographic Combine Lib Output Spec SpecEnd SpecMain
  SeqProofs Upto Good RatioProofs SupportProofs HomProofs HomValue CombProofs CombValue LibProofs ArithProofs BuildProofs EndProofs
  SpecLazy LazyProofs OutputProofs SpecTell.
Import ListNotations.
Open Scope Q_scope.

Lemma followed_unread l w : followed l w == unread l w.
Proof.
  induction l as [|[] l IH]; cbn [followed unread fold_right unread1]; [reflexivity| |].
  - fold (unread l w). rewrite IH. reflexivity.
  - fold (unread l w). rewrite IH. reflexivity.
Qed.

Lemma primed_followed p l w : primed p (followed l w) == primed p (unread l w).
Proof. destruct p as [[]|]; cbn [primed]; now rewrite followed_unread. Qed.

Lemma hom_num_same a b q q' : q == q' -> hom_num a b q == hom_num a b q'.
Proof. intro E. unfold hom_num. now rewrite E. Qed.

(** ** The loops *)

Section Loop.
  Variable k : cfg.
  Variable e : nat.
  Variable I : list reduction -> hcoef -> Prop.
  Variable P : list reduction -> Z -> Z -> Z -> Z -> Prop.
  Hypothesis IP : forall lx m, I lx m -> P lx (h_nx m) (h_n m) (h_dx m) (h_d m).
  Hypothesis IS : forall lx m s m', I lx m -> ingested s m m' -> I (lx ++ [s])%list m'.

  Lemma println_line m : fst (h_println m) = debug_line (h_nx m) (h_n m) (h_dx m) (h_d m).
  Proof. reflexivity. Qed.

  Lemma says_settled x t r : r <> NoFuel -> clog_egest_says k e x = (t, r) -> prints (fun f => clog_egest_says k f x) t r.
  Proof.
    intros N E. exists e. intros n L. destruct (clog_egest_tri k e n x L) as (A & _ & [B|B]).
    - rewrite E in A. cbn [snd] in A. congruence.
    - now rewrite B.
  Qed.

  Lemma h_prime_tells n : forall lx x m t r, I lx m -> r <> NoFuel ->
    h_prime_says k (clog_egest_says k e) n x m = (t, r) ->
    exists x1, tells k P lx x x1 t /\ forall s p q x2 m2, r = Ok (s, p, q, Some (x2, m2)) -> x2 = x1.
  Proof.
    induction n as [|n IH]; intros lx x m t r Hi N H; [injection H as <- <-; now elim N|]. cbn [h_prime_says] in H.
    unfold sbind at 1 in H. change (snd (h_println m)) with (Ok tt) in H. cbv iota zeta in H. rewrite println_line in H.
    pose proof (IP _ _ Hi) as Hp.
    assert (Stop : forall (v : said h_made), fst v = ""%string -> (forall s p q x2 m2, snd v = Ok (s, p, q, Some (x2, m2)) -> x2 = x) -> (debug_line (h_nx m) (h_n m) (h_dx m) (h_d m) ++ fst v, snd v)%string = (t, r) -> (exists x1, tells k P lx x x1 t /\ forall s p q x2 m2, r = Ok (s, p, q, Some (x2, m2)) -> x2 = x1)).
    { intros v E1 E0 E2. injection E2 as <- <-. exists x. split; [|exact E0]. rewrite E1, app_nil_s. now constructor. }
    destruct (h_are_singularities_outside_domain k m) as [out|p|]; [|eapply Stop; [| |exact H]; [reflexivity|discriminate]..].
    rewrite sbind_ok in H.
    destruct (if out then h_primer_egest k m else Ok None) as [eg|p|]; [|eapply Stop; [| |exact H]; [reflexivity|discriminate]..].
    rewrite sbind_ok in H. destruct eg as [[p m']|]; [eapply Stop; [| |exact H]; [reflexivity|cbn [snd silent]; congruence]|].
    unfold h_prime_ingest_says in H.
    destruct (clog_egest_says k e x) as [u ro] eqn:E.
    assert (Read : forall (v : said h_made), fst v = ""%string -> (forall s p q x2 m2, snd v = Ok (s, p, q, Some (x2, m2)) -> x2 = x) -> ro <> NoFuel ->
      (debug_line (h_nx m) (h_n m) (h_dx m) (h_d m) ++ u ++ fst v, snd v)%string = (t, r) -> (exists x1, tells k P lx x x1 t /\ forall s p q x2 m2, r = Ok (s, p, q, Some (x2, m2)) -> x2 = x1)).
    { intros v E1 E0 N1 E2. injection E2 as <- <-. exists x. split; [|exact E0]. rewrite E1, app_nil_s. eapply tells_read; [exact Hp|]. exact (says_settled _ _ _ N1 E). }
    destruct ro as [[o x']|q|].
    2,3: unfold sbind in H; cbn [fst snd] in H; injection H as <- <-.
    3: now elim N.
    2: { exists x. split; [|discriminate]. eapply tells_read; [exact Hp|]. eapply says_settled; [|exact E]. discriminate. }
    assert (NEXT : forall s m', o = Some s -> ingested s m m' ->
      (debug_line (h_nx m) (h_n m) (h_dx m) (h_d m) ++ u ++ fst (h_prime_says k (clog_egest_says k e) n x' m'),
       snd (h_prime_says k (clog_egest_says k e) n x' m'))%string = (t, r) -> (exists x1, tells k P lx x x1 t /\ forall s p q x2 m2, r = Ok (s, p, q, Some (x2, m2)) -> x2 = x1)).
    { intros s m' -> J0 E2. destruct (h_prime_says k (clog_egest_says k e) n x' m') as [t' r'] eqn:E'. cbn [fst snd] in E2.
      injection E2 as <- <-. destruct (IH (lx ++ [s])%list x' m' t' r') as (x1 & T1 & T2); auto; [eapply IS; eauto|].
      exists x1. split; [|exact T2]. eapply tells_more; [exact Hp|apply says_settled; [discriminate|exact E]|exact T1]. }
    unfold sbind in H. cbn [fst snd silent] in H.
    destruct o as [[]|].
    - destruct (h_ingest_amplify k m) as [m'| |] eqn:G; cbn [bind fst snd append] in H; rewrite ?app_nil_s in H.
      + apply (NEXT Amplify m'); [reflexivity|now apply (ingest_ok k Amplify)|exact H].
      + apply (Read (""%string, Panic p)); [reflexivity|discriminate|discriminate|]. cbn [fst snd]. now rewrite app_nil_s.
      + injection H as <- <-. now elim N.
    - destruct (h_ingest_uncover k m) as [m'| |] eqn:G; cbn [bind fst snd append] in H; rewrite ?app_nil_s in H.
      + apply (NEXT Uncover m'); [reflexivity|now apply (ingest_ok k Uncover)|exact H].
      + apply (Read (""%string, Panic p)); [reflexivity|discriminate|discriminate|]. cbn [fst snd]. now rewrite app_nil_s.
      + injection H as <- <-. now elim N.
    - destruct (h_value_at_one_half k m) as [[num den]|p|]; cbn [bind fst snd append] in H; rewrite ?app_nil_s in H.
      2: { apply (Read (""%string, Panic p)); [reflexivity|discriminate|discriminate|]. cbn [fst snd]. now rewrite app_nil_s. }
      2: { injection H as <- <-. now elim N. }
      destruct (ratio_new_i k num den) as [[[s p] rr]|p|]; cbn [bind fst snd append] in H; rewrite ?app_nil_s in H.
      + apply (Read (""%string, Ok (s, p, rr, None))); [reflexivity|discriminate|discriminate|]. cbn [fst snd]. now rewrite app_nil_s.
      + apply (Read (""%string, Panic p)); [reflexivity|discriminate|discriminate|]. cbn [fst snd]. now rewrite app_nil_s.
      + injection H as <- <-. now elim N.
  Qed.

  Lemma h_egest_tells n : forall lx x m t r, I lx m -> r <> NoFuel ->
    h_egest_says k (clog_egest_says k e) n x m = (t, r) ->
    exists x1, tells k P lx x x1 t /\ forall o x2 m2, r = Ok (Emit o (CHomographic x2 m2)) -> x2 = x1.
  Proof.
    induction n as [|n IH]; intros lx x m t r Hi N H; [injection H as <- <-; now elim N|]. cbn [h_egest_says] in H.
    unfold sbind at 1 in H. change (snd (h_println m)) with (Ok tt) in H. cbv iota zeta in H. rewrite println_line in H.
    pose proof (IP _ _ Hi) as Hp.
    assert (Stop : forall (v : said egested), fst v = ""%string -> (forall o x2 m2, snd v = Ok (Emit o (CHomographic x2 m2)) -> x2 = x) -> (debug_line (h_nx m) (h_n m) (h_dx m) (h_d m) ++ fst v, snd v)%string = (t, r) -> (exists x1, tells k P lx x x1 t /\ forall o x2 m2, r = Ok (Emit o (CHomographic x2 m2)) -> x2 = x1)).
    { intros v E1 E0 E2. injection E2 as <- <-. exists x. split; [|exact E0]. rewrite E1, app_nil_s. now constructor. }
    destruct (h_are_singularities_outside_domain k m) as [out|p|]; [|eapply Stop; [| |exact H]; [reflexivity|discriminate]..].
    rewrite sbind_ok in H.
    destruct (if out then h_reduction_egest k m else Ok None) as [eg|p|]; [|eapply Stop; [| |exact H]; [reflexivity|discriminate]..].
    rewrite sbind_ok in H. destruct eg as [[p m']|]; [eapply Stop; [| |exact H]; [reflexivity|cbn [snd silent]; congruence]|].
    unfold h_reduction_ingest_says in H.
    destruct (clog_egest_says k e x) as [u ro] eqn:E.
    assert (Read : forall (v : said egested), fst v = ""%string -> (forall o x2 m2, snd v = Ok (Emit o (CHomographic x2 m2)) -> x2 = x) -> ro <> NoFuel ->
      (debug_line (h_nx m) (h_n m) (h_dx m) (h_d m) ++ u ++ fst v, snd v)%string = (t, r) -> (exists x1, tells k P lx x x1 t /\ forall o x2 m2, r = Ok (Emit o (CHomographic x2 m2)) -> x2 = x1)).
    { intros v E1 E0 N1 E2. injection E2 as <- <-. exists x. split; [|exact E0]. rewrite E1, app_nil_s. eapply tells_read; [exact Hp|]. exact (says_settled _ _ _ N1 E). }
    destruct ro as [[o x']|q|].
    2,3: unfold sbind in H; cbn [fst snd] in H; injection H as <- <-.
    3: now elim N.
    2: { exists x. split; [|discriminate]. eapply tells_read; [exact Hp|]. eapply says_settled; [|exact E]. discriminate. }
    assert (NEXT : forall s m', o = Some s -> ingested s m m' ->
      (debug_line (h_nx m) (h_n m) (h_dx m) (h_d m) ++ u ++ fst (h_egest_says k (clog_egest_says k e) n x' m'),
       snd (h_egest_says k (clog_egest_says k e) n x' m'))%string = (t, r) -> (exists x1, tells k P lx x x1 t /\ forall o x2 m2, r = Ok (Emit o (CHomographic x2 m2)) -> x2 = x1)).
    { intros s m' -> J0 E2. destruct (h_egest_says k (clog_egest_says k e) n x' m') as [t' r'] eqn:E'. cbn [fst snd] in E2.
      injection E2 as <- <-. destruct (IH (lx ++ [s])%list x' m' t' r') as (x1 & T1 & T2); auto; [eapply IS; eauto|].
      exists x1. split; [|exact T2]. eapply tells_more; [exact Hp|apply says_settled; [discriminate|exact E]|exact T1]. }
    unfold sbind in H. cbn [fst snd silent] in H.
    destruct o as [[]|].
    - destruct (h_ingest_amplify k m) as [m'| |] eqn:G; cbn [bind fst snd append] in H; rewrite ?app_nil_s in H.
      + apply (NEXT Amplify m'); [reflexivity|now apply (ingest_ok k Amplify)|exact H].
      + apply (Read (""%string, Panic p)); [reflexivity|discriminate|discriminate|]. cbn [fst snd]. now rewrite app_nil_s.
      + injection H as <- <-. now elim N.
    - destruct (h_ingest_uncover k m) as [m'| |] eqn:G; cbn [bind fst snd append] in H; rewrite ?app_nil_s in H.
      + apply (NEXT Uncover m'); [reflexivity|now apply (ingest_ok k Uncover)|exact H].
      + apply (Read (""%string, Panic p)); [reflexivity|discriminate|discriminate|]. cbn [fst snd]. now rewrite app_nil_s.
      + injection H as <- <-. now elim N.
    - destruct (h_value_at_one_half k m) as [[num den]|p|]; cbn [bind fst snd append] in H; rewrite ?app_nil_s in H.
      2: { apply (Read (""%string, Panic p)); [reflexivity|discriminate|discriminate|]. cbn [fst snd]. now rewrite app_nil_s. }
      2: { injection H as <- <-. now elim N. }
      destruct (ratio_new_i k num den) as [[[[s|] [p|]] [rr|]]|p|]; cbn [bind silent fst snd append] in H; rewrite ?app_nil_s in H;
        try (injection H as <- <-; now elim N);
        match type of H with (_, ?v) = _ => apply (Read (""%string, v)); [reflexivity|discriminate|discriminate|cbn [fst snd]; now rewrite app_nil_s] end.
  Qed.
End Loop.

(** ** The lines of homographic *)

Lemma follows_line nx n dx d px lx m : follows (HC nx n dx d) px lx m ->
  opening_line nx n dx d px lx (h_nx m) (h_n m) (h_dx m) (h_d m).
Proof.
  intros F w W0 W1 q. destruct (F w W0 W1) as (t & T & A & B). cbn [h_nx h_n h_dx h_d] in A, B.
  assert (NT : ~ t == 0) by now apply Qlt_neq.
  assert (Eq : q == primed px (unread lx w)) by apply primed_followed.
  pose proof (hom_num_same nx n _ _ Eq) as EA. pose proof (hom_num_same dx d _ _ Eq) as EB.
  rewrite <- EA in A. rewrite <- EB in B. split.
  - rewrite B. split; intro Z0.
    + destruct (Qeq_dec (hom_num dx d q) 0) as [Y|Y]; [exact Y|]. exfalso. exact (mul_neq _ _ NT Y Z0).
    + rewrite Z0. ring.
  - unfold hom. rewrite A, B. destruct (Qeq_dec (hom_num dx d q) 0) as [Y|Y].
    + rewrite Y. unfold Qdiv. rewrite Qmult_0_r. unfold Qinv at 1 2. cbn. rewrite !Qmult_0_r. reflexivity.
    + field. auto.
Qed.

Lemma held_line nx n dx d px lx p l m : held (HC nx n dx d) px lx p l m ->
  reading_line nx n dx d px p l lx (h_nx m) (h_n m) (h_dx m) (h_d m).
Proof.
  intros (HJ & D & B) w W0 W1 q z.
  destruct (held_value m w HJ D W0 W1) as (z' & Hz & Z0 & Z1).
  specialize (B w z' W0 W1 Z0 Z1 Hz). apply hv_hom in B as [B1 B2]. cbn [h_nx h_n h_dx h_d] in B1, B2.
  apply hv_hom in Hz as [C1 C2]. change (z == z') in C2. clearbody z.
  assert (Eq : q == primed px (unread lx w)) by apply primed_followed.
  split; [exact C1|]. split; [now rewrite (hom_num_same dx d _ _ Eq)|].
  split; [now rewrite C2|]. split; [now rewrite C2|].
  rewrite (hom_same nx n dx d _ _ Eq), B2, primed_followed.
  assert (X : unread l z == unread l z').
  { clear - C2. induction l as [|[] l IH]; cbn [unread fold_right unread1]; [exact C2| |]; fold (unread l z); fold (unread l z'); now rewrite IH. }
  destruct p as [[]|]; cbn [primed]; now rewrite X.
Qed.

Theorem opening_tells k f px cx nx n dx d t r : ovf k = true -> r <> NoFuel ->
  number_homographic_says k f (NOther px cx) nx n dx d = (t, r) ->
  t = ""%string \/ exists x1, tells k (opening_line nx n dx d px) [] cx x1 t /\
    forall p x m, r = Ok (NOther p (CHomographic x m)) -> x = x1.
Proof.
  intros O N H. unfold number_homographic_says in H.
  destruct (h_new_says k (clog_egest_says k f) f (NOther px cx) nx n dx d) as [t' r'] eqn:E.
  assert (t = t' /\ r' <> NoFuel /\ forall p x m, r = Ok (NOther p (CHomographic x m)) ->
    exists s p q, r' = Ok (s, p, q, Some (x, m))) as (-> & N' & Hr).
  { destruct r' as [[[[s p] rr] h]|p|]; unfold sbind in H; cbn [fst snd] in H.
    - destruct s; [|destruct rr; [|destruct h as [[]|]]]; cbn in H; injection H as <- <-; rewrite app_nil_s;
        (split; [reflexivity|]; split; [discriminate|]); intros p0 x m Y; try discriminate.
      injection Y as <- <- <-. eauto.
    - injection H as <- <-. split; [reflexivity|]. split; discriminate.
    - injection H as <- <-. now elim N. }
  clear H. unfold h_new_says in E. destruct ((nx =? 0) && (dx =? 0))%Z; [left; injection E as <- _; reflexivity|].
  cbn [unwrap_other] in E. rewrite sbind_ok in E.
  destruct (h_absorb_primer k px (HC nx n dx d)) as [m|p|] eqn:E1; [|left; injection E as <- _; reflexivity..].
  rewrite sbind_ok in E.
  pose proof (wp_ok _ _ _ _ (absorb_wp k 1 px (HC nx n dx d) O) E1) as A. cbv beta in A. subst m. right.
  destruct (h_prime_tells k f (follows (HC nx n dx d) px) _ (follows_line nx n dx d px)
    (follows_ingested (HC nx n dx d) px) f [] cx _ t' r' (follows_absorbed _ _) N' E) as (x1 & T1 & T2).
  exists x1. split; [exact T1|]. intros p x m Y. destruct (Hr _ _ _ Y) as (s & q & rr & Z0). eapply T2; eauto.
Qed.

Theorem reading_tells k f f' px cx nx n dx d p c l x m t r : ovf k = true -> (nx * d <> n * dx)%Z ->
  number_homographic k f (NOther px cx) nx n dx d = Ok (NOther p c) -> egests k c l (CHomographic x m) ->
  r <> NoFuel -> clog_egest_says k f' (CHomographic x m) = (t, r) ->
  exists lx x1, egests k cx lx x /\ tells k (reading_line nx n dx d px p l) lx x x1 t /\
    forall o x2 m2, r = Ok (o, CHomographic x2 m2) -> x2 = x1.
Proof.
  intros O D H X N E. destruct (homographic_held _ _ _ _ _ _ _ _ _ _ _ _ _ O D H X) as (lx & Xx & Hd).
  destruct f' as [|f']; [injection E as <- <-; now elim N|].
  cbn [clog_egest_says strategy_egest_says] in E.
  destruct (h_egest_says k (clog_egest_says k f') f' x m) as [t' r'] eqn:E'.
  assert (t = t' /\ r' <> NoFuel /\ forall o x2 m2, r = Ok (o, CHomographic x2 m2) ->
    r' = Ok (Emit o (CHomographic x2 m2))) as (-> & N' & Hr).
  { destruct r' as [[o c'|c']|q|]; unfold sbind in E; cbn [fst snd] in E.
    - injection E as <- <-. rewrite app_nil_s. split; [reflexivity|]. split; [discriminate|]. intros o' x2 m2 Y. injection Y as -> ->. reflexivity.
    - assert (R : exists rr, c' = CRatio rr).
      { destruct (h_egest_tri k (clog_egest_says k f') (clog_egest_says k f') (clog_egest k f')
          (fun c => clog_egest_tri k f' f' c (le_n _)) f' f' x m (le_n _)) as (A & _).
        rewrite E' in A. cbn [snd] in A. symmetry in A.
        pose proof (h_egest_lazy k f' x (HC nx n dx d) px lx p l O f' [] x m _ (egests_nil _ _)
          ltac:(now rewrite app_nil_r) ltac:(intros [|] ? ? Y; discriminate) A) as G. cbn [egested_ok] in G.
        destruct G as (rr & ? & G & _). eauto. }
      destruct R as [rr ->]. rewrite ratio_silent in E. cbn [silent fst snd] in E. injection E as <- <-. rewrite app_nil_s.
      split; [reflexivity|]. split; [discriminate|]. intros o x2 m2 Y. apply ratio_egest_stays in Y as [? Y]. discriminate.
    - injection E as <- <-. split; [reflexivity|]. split; discriminate.
    - injection E as <- <-. now elim N. }
  destruct (h_egest_tells k f' (fun lx m => held (HC nx n dx d) px lx p l m) (reading_line nx n dx d px p l)
    (fun lx m => held_line nx n dx d px lx p l m) (fun lx m => held_ingested (HC nx n dx d) px lx p l m)
    f' lx x m t' r' Hd N' E') as (x1 & T1 & T2).
  exists lx, x1. split; [exact Xx|]. split; [exact T1|]. intros o x2 m2 Y. eapply T2, Hr, Y.
Qed.
