(** * Proofs for C69: what is read off the operands decides how every call comes out. *)

From Coq Require Import ZArith QArith List Bool Lia.
From Verif Require Import Machine Protocol Types Ratio Homographic Combine Lib Spec SpecFormula SpecSame Upto Good.
From Verif Require ArithProofs BuildProofs.
Import ListNotations.
Open Scope nat_scope.

(** [ends2 g r]: with enough fuel of both sorts g comes to r. *)
Definition ends2 {A} (g : nat -> nat -> res A) (r : res A) : Prop :=
  exists N, forall F n, N <= F -> N <= n -> g F n = r.

(** Whatever r is, but for missing fuel, g comes out likewise. *)
Definition follow {A B} (T : A -> B -> Prop) (r : res A) (g : nat -> nat -> res B) : Prop :=
  match r with
  | NoFuel => True
  | Panic p => ends2 g (Panic p)
  | Ok a => exists b, ends2 g (Ok b) /\ T a b
  end.

Lemma ends2_const A (r : res A) : ends2 (fun _ _ => r) r.
Proof. exists 0. reflexivity. Qed.

Lemma follow_ok A B (T : A -> B -> Prop) a b : T a b -> follow T (Ok a) (fun _ _ => Ok b).
Proof. intro H. exists b. split; [apply ends2_const|exact H]. Qed.

Lemma follow_panic A B (T : A -> B -> Prop) p : follow T (Panic p) (fun _ _ => Panic p).
Proof. apply ends2_const. Qed.

Lemma follow_bind A B C D (T : A -> B -> Prop) (U : C -> D -> Prop) m g (f : A -> res C) (h : nat -> nat -> B -> res D) :
  follow T m g -> (forall a b, T a b -> follow U (f a) (fun F n => h F n b)) ->
  follow U (bind m f) (fun F n => bind (g F n) (h F n)).
Proof.
  destruct m as [a|p|]; cbn [follow bind]; auto.
  - intros (b & (N & G) & t) H. specialize (H a b t). destruct (f a) as [c|p|]; cbn [follow] in *; auto.
    + destruct H as (d & (M & K) & u). exists d. split; [|exact u]. exists (Nat.max N M). intros F n L1 L2.
      rewrite G by lia. apply K; lia.
    + destruct H as (M & K). exists (Nat.max N M). intros F n L1 L2. rewrite G by lia. apply K; lia.
  - intros (N & G) _. exists N. intros F n L1 L2. rewrite G by lia. reflexivity.
Qed.

Lemma follow_pure A C D (U : C -> D -> Prop) (m : res A) (f : A -> res C) (h : nat -> nat -> A -> res D) :
  (forall a, follow U (f a) (fun F n => h F n a)) -> follow U (bind m f) (fun F n => bind m (h F n)).
Proof.
  intro H. destruct m as [a|p|]; cbn [bind]; [apply H|apply follow_panic|exact I].
Qed.

Lemma follow_step A B (T : A -> B -> Prop) r g g' : (forall F n, g' F (S n) = g F n) -> follow T r g -> follow T r g'.
Proof.
  intro E. destruct r as [a|p|]; cbn [follow]; auto.
  - intros (b & (N & G) & t). exists b. split; [|exact t]. exists (S N). intros F [|n] L1 L2; [lia|]. rewrite E. apply G; lia.
  - intros (N & G). exists (S N). intros F [|n] L1 L2; [lia|]. rewrite E. apply G; lia.
Qed.

Lemma follow_diag A B (T : A -> B -> Prop) r g : follow T r g -> follow T r (fun _ n => g n n).
Proof.
  destruct r as [a|p|]; cbn [follow]; auto.
  - intros (b & (N & G) & t). exists b. split; [|exact t]. exists N. intros F n L1 L2. apply G; lia.
  - intros (N & G). exists N. intros F n L1 L2. apply G; lia.
Qed.

Lemma follow_swap A B (T : A -> B -> Prop) r (g : nat -> res B) : follow T r (fun _ n => g n) -> follow T r (fun F _ => g F).
Proof.
  destruct r as [a|p|]; cbn [follow]; auto.
  - intros (b & (N & G) & t). exists b. split; [|exact t]. exists N. intros F n L1 L2. apply (G F F); lia.
  - intros (N & G). exists N. intros F n L1 L2. apply (G F F); lia.
Qed.

Section Sim.
Variable k : cfg.
Notation egest c := (fun f => clog_egest k f c).

(** c2 does at least what c1 does. *)
Definition sim (c1 c2 : clog) : Prop := forall l,
  (gives k c1 l -> gives k c2 l) /\ (stops k c1 l -> stops k c2 l) /\ (forall p, dies k c1 l p -> dies k c2 l p).

Lemma sim_refl c : sim c c.
Proof. intro l. auto. Qed.

Lemma settles_fun A (f : nat -> res A) r s : settles f r -> settles f s -> r = s.
Proof. intros (F & H) (G & K). rewrite <- (H (Nat.max F G)), <- (K (Nat.max F G)); auto; lia. Qed.

Lemma egests_one c l s c' d : returns (egest c) (Some s, c') -> egests k c (s :: l) d -> egests k c' l d.
Proof.
  intros R E. inversion E; subst. match goal with A : returns (egest c) (Some s, ?x), B : returns (egest c) (Some s, ?y) |- _ =>
    assert (Q := settles_fun _ _ _ _ A B); inversion Q; subst; assumption end.
Qed.

Lemma sim_some c1 c2 s c1' : sim c1 c2 -> returns (egest c1) (Some s, c1') ->
  exists c2', returns (egest c2) (Some s, c2') /\ sim c1' c2'.
Proof.
  intros S R. destruct (S [s]) as (G & _ & _).
  destruct G as (d & E). { exists c1'. econstructor; [exact R|constructor]. }
  inversion E as [|? ? c2' ? ? R2 E2]; subst. exists c2'. split; [exact R2|].
  intro l. destruct (S (s :: l)) as (G1 & G2 & G3). split; [|split].
  - intros (x & X). destruct G1 as (y & Y). { exists x. econstructor; eauto. } exists y. eapply egests_one; eauto.
  - intros (x & x' & X & X'). destruct G2 as (y & y' & Y & Y'). { exists x, x'. split; [econstructor; eauto|exact X']. }
    exists y, y'. split; [eapply egests_one; eauto|exact Y'].
  - intros p (x & X & X'). destruct (G3 p) as (y & Y & Y'). { exists x. split; [econstructor; eauto|exact X']. }
    exists y. split; [eapply egests_one; eauto|exact Y'].
Qed.

Lemma sim_none c1 c2 c1' : sim c1 c2 -> returns (egest c1) (None, c1') -> exists c2', returns (egest c2) (None, c2').
Proof.
  intros S R. destruct (S []) as (_ & G & _). destruct G as (x & x' & E & E'). { exists c1, c1'. split; [constructor|exact R]. }
  inversion E; subst. eauto.
Qed.

Lemma sim_panic c1 c2 p : sim c1 c2 -> settles (egest c1) (Panic p) -> settles (egest c2) (Panic p).
Proof.
  intros S R. destruct (S []) as (_ & _ & G). destruct (G p) as (x & E & E'). { exists c1. split; [constructor|exact R]. }
  inversion E; subst. exact E'.
Qed.

(** Clogs built the same way around operands that simulate one another. *)
Inductive like : clog -> clog -> Prop :=
| like_sim c1 c2 : sim c1 c2 -> like c1 c2
| like_hom x1 x2 m : like x1 x2 -> like (CHomographic x1 m) (CHomographic x2 m)
| like_comb x1 x2 y1 y2 m : like x1 x2 -> like y1 y2 -> like (CCombine x1 y1 m) (CCombine x2 y2 m).

Definition step_like (a b : option reduction * clog) : Prop := fst a = fst b /\ (fst a <> None -> like (snd a) (snd b)).
Definition egested_like (a b : egested) : Prop :=
  match a, b with
  | Emit o c, Emit o' c' => o = o' /\ like c c'
  | Become c, Become c' => like c c'
  | _, _ => False
  end.
Definition opt {A} (T : A -> A -> Prop) (a b : option A) : Prop :=
  match a, b with Some x, Some y => T x y | None, None => True | _, _ => False end.
Definition pair_like (a b : clog * hcoef) : Prop := snd a = snd b /\ like (fst a) (fst b).
Definition triple_like (a b : clog * clog * ccoef) : Prop :=
  snd a = snd b /\ like (fst (fst a)) (fst (fst b)) /\ like (snd (fst a)) (snd (fst b)).
Definition made_like (a b : h_made) : Prop := fst a = fst b /\ opt pair_like (snd a) (snd b).
Definition cmade_like (a b : c_made) : Prop := made_like (fst a) (fst b) /\ opt triple_like (snd a) (snd b).
Definition sum_like {A B} (T : A -> A -> Prop) (U : B -> B -> Prop) (a b : A + B) : Prop :=
  match a, b with inl x, inl y => T x y | inr x, inr y => U x y | _, _ => False end.
Definition number_like (a b : number) : Prop :=
  match a, b with
  | NSpecial s, NSpecial t => s = t
  | NOther p c, NOther q d => p = q /\ like c d
  | _, _ => False
  end.

(** One side reads its operands with [eg], the other with enough fuel. *)
Section Eg.
Variable eg : clog -> res (option reduction * clog).
Hypothesis Heg : forall c1 c2, like c1 c2 -> follow step_like (eg c1) (fun F _ => clog_egest k F c2).

Ltac pure := apply follow_pure; intro.
Ltac ok := apply follow_ok.

Lemma h_prime_ingest_like x1 x2 m : like x1 x2 ->
  follow (sum_like eq pair_like) (h_prime_ingest k eg x1 m) (fun F _ => h_prime_ingest k (clog_egest k F) x2 m).
Proof.
  intro L. unfold h_prime_ingest. eapply follow_bind; [apply (Heg _ _ L)|].
  intros [o a] [o' b] [E H]. cbn [fst snd] in E, H. subst o'. destruct o as [[|]|].
  - pure. ok. split; [reflexivity|apply H; discriminate].
  - pure. ok. split; [reflexivity|apply H; discriminate].
  - apply follow_pure; intros [num den]. pure. ok. reflexivity.
Qed.

Lemma h_prime_like : forall f x1 x2 m, like x1 x2 ->
  follow made_like (h_prime k eg f x1 m) (fun F n => h_prime k (clog_egest k F) n x2 m).
Proof.
  induction f as [|f IH]; intros x1 x2 m L; cbn [h_prime]; [exact I|].
  eapply follow_step; [intros F n; reflexivity|].
  pure. pure. destruct a0 as [[p m']|].
  - ok. split; [reflexivity|]. split; [reflexivity|exact L].
  - eapply follow_bind; [apply (h_prime_ingest_like _ _ _ L)|].
    intros [[[s p] r]|[x1' m1]] [[[s' p'] r']|[x2' m2]] H; cbn [sum_like] in H; try contradiction.
    + inversion H; subst. ok. split; [reflexivity|exact I].
    + destruct H as [E H]. cbn [fst snd] in E, H. subst. apply IH, H.
Qed.

Lemma h_new_like f n1 n2 nx n dx d : number_like n1 n2 ->
  follow made_like (h_new k eg f n1 nx n dx d) (fun F g => h_new k (clog_egest k F) g n2 nx n dx d).
Proof.
  assert (R : forall a b, follow made_like (h_as_ratio k a b) (fun _ _ => h_as_ratio k a b)).
  { intros a b. unfold h_as_ratio. apply follow_pure; intros [[s p] r]. ok. split; [reflexivity|exact I]. }
  intro L. unfold h_new. destruct ((nx =? 0)%Z && (dx =? 0)%Z); [apply R|].
  destruct n1 as [s|p c], n2 as [s'|p' c']; cbn [number_like] in L; try contradiction.
  - subst s'. destruct s; [pure; pure; apply R|apply R|pure; pure; apply R].
  - destruct L as [-> L]. cbn [unwrap_other bind]. pure. apply h_prime_like, L.
Qed.

Lemma h_reduction_ingest_like x1 x2 m : like x1 x2 ->
  follow (sum_like eq pair_like) (h_reduction_ingest k eg x1 m) (fun F _ => h_reduction_ingest k (clog_egest k F) x2 m).
Proof.
  intro L. unfold h_reduction_ingest. eapply follow_bind; [apply (Heg _ _ L)|].
  intros [o a] [o' b] [E H]. cbn [fst snd] in E, H. subst o'. destruct o as [[|]|].
  - pure. ok. split; [reflexivity|apply H; discriminate].
  - pure. ok. split; [reflexivity|apply H; discriminate].
  - apply follow_pure; intros [num den]. apply follow_pure; intros [[[s|] [p|]] [r|]]; try apply follow_panic. ok. reflexivity.
Qed.

Lemma h_egest_like : forall f x1 x2 m, like x1 x2 ->
  follow egested_like (h_egest k eg f x1 m) (fun F n => h_egest k (clog_egest k F) n x2 m).
Proof.
  induction f as [|f IH]; intros x1 x2 m L; cbn [h_egest]; [exact I|].
  eapply follow_step; [intros F n; reflexivity|].
  pure. pure. destruct a0 as [[o m']|].
  - ok. split; [reflexivity|]. apply like_hom, L.
  - eapply follow_bind; [apply (h_reduction_ingest_like _ _ _ L)|].
    intros [r|[x1' m1]] [r'|[x2' m2]] H; cbn [sum_like] in H; try contradiction.
    + subst. ok. apply like_sim, sim_refl.
    + destruct H as [E H]. cbn [fst snd] in E, H. subst. apply IH, H.
Qed.

Lemma c_prime_ingest_like f x1 x2 y1 y2 m : like x1 x2 -> like y1 y2 ->
  follow (sum_like made_like triple_like) (c_prime_ingest k eg f x1 y1 m)
    (fun F n => c_prime_ingest k (clog_egest k F) n x2 y2 m).
Proof.
  intros L K. unfold c_prime_ingest. eapply follow_bind; [apply (Heg _ _ L)|].
  intros [o a] [o' b] [E H]. cbn [fst snd] in E, H. subst o'. destruct o as [s|].
  - pure. eapply follow_bind; [apply (Heg _ _ K)|].
    intros [o c] [o' d] [E' H']. cbn [fst snd] in E', H'. subst o'. destruct o as [t|].
    + pure. ok. split; [reflexivity|]. split; [apply H; discriminate|apply H'; discriminate].
    + pure. eapply follow_bind; [apply h_new_like; split; [reflexivity|apply H; discriminate]|].
      intros v w V. ok. exact V.
  - pure. eapply follow_bind; [apply h_new_like; split; [reflexivity|exact K]|].
    intros v w V. ok. exact V.
Qed.

Lemma c_prime_like : forall f x1 x2 y1 y2 m, like x1 x2 -> like y1 y2 ->
  follow cmade_like (c_prime k eg f x1 y1 m) (fun F n => c_prime k (clog_egest k F) n x2 y2 m).
Proof.
  induction f as [|f IH]; intros x1 x2 y1 y2 m L K; cbn [c_prime]; [exact I|].
  eapply follow_step; [intros F n; reflexivity|].
  pure. pure. destruct a0 as [[p m']|].
  - ok. split; [split; [reflexivity|exact I]|]. split; [reflexivity|split; assumption].
  - eapply follow_bind; [apply (c_prime_ingest_like _ _ _ _ _ _ L K)|].
    intros [[[[s p] r] h]|[[x1' y1'] m1]] [[[[s' p'] r'] h']|[[x2' y2'] m2]] H; cbn [sum_like] in H; try contradiction.
    + destruct H as [E H]. cbn [fst snd] in E, H. inversion E; subst. ok. split; [split; [reflexivity|exact H]|exact I].
    + destruct H as (E & H & H'). cbn [fst snd] in E, H, H'. subst. apply IH; assumption.
Qed.

Lemma c_new_like f n1 n2 m1 m2 a b c d e f' g h : number_like n1 n2 -> number_like m1 m2 ->
  follow cmade_like (c_new k eg f n1 m1 a b c d e f' g h) (fun F n => c_new k (clog_egest k F) n n2 m2 a b c d e f' g h).
Proof.
  assert (R : forall x1 x2 p q r s, number_like x1 x2 ->
    follow cmade_like (c_as_homographic k eg f x1 p q r s) (fun F n => c_as_homographic k (clog_egest k F) n x2 p q r s)).
  { intros x1 x2 p q r s L. unfold c_as_homographic. eapply follow_bind; [apply (h_new_like _ _ _ _ _ _ _ L)|].
    intros [[[s1 p1] r1] h1] [[[s2 p2] r2] h2] [E H]. cbn [fst snd] in E, H. inversion E; subst. ok.
    split; [split; [reflexivity|exact H]|exact I]. }
  intros L K. unfold c_new.
  destruct n1 as [s|p x], n2 as [s'|p' x']; cbn [number_like] in L; try contradiction.
  - subst s'. destruct s; [do 4 pure; apply R, K|apply R, K|do 4 pure; apply R, K].
  - destruct m1 as [t|q y], m2 as [t'|q' y']; cbn [number_like] in K; try contradiction.
    + subst t'. destruct t; [do 4 pure; apply R, L|apply R, L|do 4 pure; apply R, L].
    + destruct L as [-> L], K as [-> K]. cbn [unwrap_other bind]. pure. pure. apply c_prime_like; assumption.
Qed.

Lemma c_reduction_ingest_like f x1 x2 y1 y2 m : like x1 x2 -> like y1 y2 ->
  follow (sum_like (fun u v => fst u = fst v /\ opt pair_like (snd u) (snd v)) triple_like)
    (c_reduction_ingest k eg f x1 y1 m) (fun F n => c_reduction_ingest k (clog_egest k F) n x2 y2 m).
Proof.
  intros L K. unfold c_reduction_ingest, c_shutdown, c_promote_clog. eapply follow_bind; [apply (Heg _ _ L)|].
  intros [o a] [o' b] [E H]. cbn [fst snd] in E, H. subst o'.
  assert (T : forall x1 x2 q, like x1 x2 ->
    follow (sum_like (fun u v => fst u = fst v /\ opt pair_like (snd u) (snd v)) triple_like)
      (let! nn := (let! _ := c_simple_clog k in Ok (NOther None x1)) in
       let! v := h_new k eg f nn (h_nx q) (h_n q) (h_dx q) (h_d q) in
       match v with (None, None, r, h) => Ok (inl (r, h)) | _ => Panic PLogic end)
      (fun F n => let! nn := (let! _ := c_simple_clog k in Ok (NOther None x2)) in
       let! v := h_new k (clog_egest k F) n nn (h_nx q) (h_n q) (h_dx q) (h_d q) in
       match v with (None, None, r, h) => Ok (inl (r, h)) | _ => Panic PLogic end)).
  { intros u1 u2 q U. eapply follow_bind with (T := number_like).
    - pure. ok. split; [reflexivity|exact U].
    - intros n1 n2 N. eapply follow_bind; [apply (h_new_like _ _ _ _ _ _ _ N)|].
      intros [[[s1 p1] r1] h1] [[[s2 p2] r2] h2] [E V]. cbn [fst snd] in E, V. inversion E; subst.
      destruct s2, p2; try apply follow_panic. ok. split; [reflexivity|exact V]. }
  destruct o as [s|].
  - pure. eapply follow_bind; [apply (Heg _ _ K)|].
    intros [o c] [o' d] [E' H']. cbn [fst snd] in E', H'. subst o'. destruct o as [t|].
    + pure. ok. split; [reflexivity|]. split; [apply H; discriminate|apply H'; discriminate].
    + pure. apply T. apply H; discriminate.
  - pure. apply T, K.
Qed.

Lemma c_egest_like : forall f x1 x2 y1 y2 m, like x1 x2 -> like y1 y2 ->
  follow egested_like (c_egest k eg f x1 y1 m) (fun F n => c_egest k (clog_egest k F) n x2 y2 m).
Proof.
  induction f as [|f IH]; intros x1 x2 y1 y2 m L K; cbn [c_egest]; [exact I|].
  eapply follow_step; [intros F n; reflexivity|].
  pure. pure. destruct a0 as [[o m']|].
  - ok. split; [reflexivity|]. apply like_comb; assumption.
  - eapply follow_bind; [apply (c_reduction_ingest_like _ _ _ _ _ _ L K)|].
    intros [[r h]|[[x1' y1'] m1]] [[r' h']|[[x2' y2'] m2]] H; cbn [sum_like] in H; try contradiction.
    + destruct H as [E H]. cbn [fst snd] in E, H. subst r'. destruct h as [[z q]|], h' as [[z' q']|]; cbn [opt] in H; try contradiction.
      * destruct H as [E H]. cbn [fst snd] in E, H. subst. destruct r; ok; apply like_hom, H.
      * destruct r; [ok; apply like_sim, sim_refl|apply follow_panic].
    + destruct H as (E & H & H'). cbn [fst snd] in E, H, H'. subst. apply IH; assumption.
Qed.
End Eg.

Lemma settles_ends2 A (f : nat -> res A) r : settles f r -> ends2 (fun F _ => f F) r.
Proof. intros (N & H). exists N. intros. apply H; assumption. Qed.

Lemma egest_like : forall f c1 c2, like c1 c2 -> follow step_like (clog_egest k f c1) (fun F _ => clog_egest k F c2).
Proof.
  induction f as [|f IH]; intros c1 c2 L; [exact I|].
  assert (B : forall a b, egested_like a b ->
    follow step_like (match a with Emit o s => Ok (o, s) | Become s => clog_egest k f s end)
      (fun F _ => match b with Emit o s => Ok (o, s) | Become s => clog_egest k F s end)).
  { intros [o s|s] [o' s'|s'] H; cbn [egested_like] in H; try contradiction.
    - destruct H as [-> H]. apply follow_ok. split; [reflexivity|intros _; exact H].
    - apply IH, H. }
  destruct L as [c1 c2 Sm|x1 x2 m L|x1 x2 y1 y2 m L K].
  - destruct (clog_egest k (S f) c1) as [[o c']|p|] eqn:E; cbn [follow]; [| |exact I].
    + assert (R : returns (egest c1) (o, c')) by (eapply ArithProofs.egest_settles; eauto; discriminate).
      destruct o as [s|].
      * destruct (sim_some _ _ _ _ Sm R) as (c2' & R2 & S'). exists (Some s, c2').
        split; [apply settles_ends2, R2|]. split; [reflexivity|intros _; apply like_sim, S'].
      * destruct (sim_none _ _ _ Sm R) as (c2' & R2). exists (None, c2').
        split; [apply settles_ends2, R2|]. split; [reflexivity|]. cbn [fst]. congruence.
    + apply settles_ends2. eapply sim_panic; [exact Sm|]. eapply ArithProofs.egest_settles; eauto; discriminate.
  - apply (follow_swap _ _ _ _ (fun n => clog_egest k n (CHomographic x2 m))).
    eapply (follow_step _ _ _ _ (fun _ n => let! r := h_egest k (clog_egest k n) n x2 m in
      match r with Emit o s => Ok (o, s) | Become s => clog_egest k n s end)); [reflexivity|].
    apply (follow_diag _ _ _ _ (fun F n => let! r := h_egest k (clog_egest k F) n x2 m in
      match r with Emit o s => Ok (o, s) | Become s => clog_egest k F s end)).
    cbn [clog_egest strategy_egest]. eapply follow_bind; [apply (h_egest_like _ IH), L|]. exact B.
  - apply (follow_swap _ _ _ _ (fun n => clog_egest k n (CCombine x2 y2 m))).
    eapply (follow_step _ _ _ _ (fun _ n => let! r := c_egest k (clog_egest k n) n x2 y2 m in
      match r with Emit o s => Ok (o, s) | Become s => clog_egest k n s end)); [reflexivity|].
    apply (follow_diag _ _ _ _ (fun F n => let! r := c_egest k (clog_egest k F) n x2 y2 m in
      match r with Emit o s => Ok (o, s) | Become s => clog_egest k F s end)).
    cbn [clog_egest strategy_egest]. eapply follow_bind; [apply (c_egest_like _ IH); assumption|]. exact B.
Qed.

Lemma ends2_settles A (g : nat -> res A) r : ends2 (fun F _ => g F) r -> settles g r.
Proof. intros (N & H). exists N. intros n L. apply (H n n); assumption. Qed.

Lemma follow_egest c1 c2 : like c1 c2 -> forall r, settles (egest c1) r ->
  match r with
  | Ok (Some s, c1') => exists c2', returns (egest c2) (Some s, c2') /\ like c1' c2'
  | Ok (None, _) => exists c2', returns (egest c2) (None, c2')
  | Panic p => settles (egest c2) (Panic p)
  | NoFuel => True
  end.
Proof.
  intros L r (N & H). pose proof (egest_like N _ _ L) as F. rewrite (H N (le_n _)) in F.
  destruct r as [[[s|] c']|p|]; cbn [follow] in F; auto.
  - destruct F as ([o c2'] & E & (G & G')). cbn [fst snd] in G, G'. subst o. exists c2'.
    split; [apply ends2_settles, E|apply G'; discriminate].
  - destruct F as ([o c2'] & E & (G & G')). cbn [fst snd] in G. subst o. exists c2'. apply ends2_settles, E.
  - apply ends2_settles, F.
Qed.

Lemma egests_like l : forall c1 c2 c1', like c1 c2 -> egests k c1 l c1' -> exists c2', egests k c2 l c2' /\ like c1' c2'.
Proof.
  induction l as [|s l IH]; intros c1 c2 c1' L E; inversion E; subst.
  - exists c2. split; [constructor|exact L].
  - match goal with R : returns _ _, E' : egests _ _ l _ |- _ =>
      destruct (follow_egest _ _ L _ R) as (d & D & L'); destruct (IH _ _ _ L' E') as (c2' & E2 & L2) end.
    exists c2'. split; [econstructor; eauto|exact L2].
Qed.

Lemma like_is_sim c1 c2 : like c1 c2 -> sim c1 c2.
Proof.
  intros L l. split; [|split].
  - intros (d & E). destruct (egests_like _ _ _ _ L E) as (d' & E' & _). exists d'. exact E'.
  - intros (d & e & E & R). destruct (egests_like _ _ _ _ L E) as (d' & E' & L').
    destruct (follow_egest _ _ L' _ R) as (e' & R'). exists d', e'. auto.
  - intros p (d & E & R). destruct (egests_like _ _ _ _ L E) as (d' & E' & L').
    exists d'. split; [exact E'|]. exact (follow_egest _ _ L' _ R).
Qed.

(** ** The operations. *)

Definition numsim (x y : number) : Prop :=
  match x, y with
  | NSpecial s, NSpecial t => s = t
  | NOther p c, NOther q d => p = q /\ sim c d
  | _, _ => False
  end.

Lemma numsim_like x y : numsim x y -> number_like x y.
Proof. destruct x, y; cbn [numsim number_like]; auto. intros [-> H]. split; [reflexivity|apply like_sim, H]. Qed.
Lemma like_numsim x y : number_like x y -> numsim x y.
Proof. destruct x, y; cbn [numsim number_like]; auto. intros [-> H]. split; [reflexivity|apply like_is_sim, H]. Qed.

(** One half of [alike]. *)
Definition half {A} (T : A -> A -> Prop) (f g : nat -> res A) : Prop :=
  (forall p, settles f (Panic p) -> settles g (Panic p)) /\
  (forall a, returns f a -> exists b, returns g b /\ T a b).

Lemma follow_half A (T : A -> A -> Prop) f g : (forall n, follow T (f n) (fun _ n => g n)) -> half T f g.
Proof.
  intro H. split.
  - intros p (N & E). specialize (H N). rewrite (E N (le_n _)) in H. destruct H as (M & K).
    exists M. intros n L. apply (K n n); assumption.
  - intros a (N & E). specialize (H N). rewrite (E N (le_n _)) in H. destruct H as (b & (M & K) & t). exists b.
    split; [exists M; intros n L; apply (K n n); assumption|exact t].
Qed.

Lemma half_weaken A (T U : A -> A -> Prop) f g : (forall a b, T a b -> U a b) -> half T f g -> half U f g.
Proof. intros H [P R]. split; [exact P|]. intros a E. destruct (R a E) as (b & F & t). exists b. auto. Qed.

Lemma homographic_half x1 x2 nx n dx d : numsim x1 x2 ->
  half numsim (fun f => number_homographic k f x1 nx n dx d) (fun f => number_homographic k f x2 nx n dx d).
Proof.
  intro S. apply (half_weaken _ number_like); [exact like_numsim|]. apply follow_half. intro f.
  apply (follow_diag _ _ _ _ (fun F g =>
    let! (special, p, r, h) := h_new k (clog_egest k F) g x2 nx n dx d in
    match special with
    | Some fixed => Ok (NSpecial fixed)
    | None => match r with
      | Some r => Ok (NOther p (CRatio r))
      | None => match h with Some (x, m) => Ok (NOther p (CHomographic x m)) | None => Panic PUnwrapNone end
      end
    end)).
  unfold number_homographic. eapply follow_bind; [apply (h_new_like _ (egest_like f)), numsim_like, S|].
  intros [[[s1 p1] r1] h1] [[[s2 p2] r2] h2] [E H]. cbn [fst snd] in E, H. inversion E; subst.
  destruct s2; [apply follow_ok; reflexivity|]. destruct r2; [apply follow_ok; split; [reflexivity|apply like_sim, sim_refl]|].
  destruct h1 as [[x m]|], h2 as [[x' m']|]; cbn [opt] in H; try contradiction; [|apply follow_panic].
  destruct H as [E' H]. cbn [fst snd] in E', H. subst. apply follow_ok. split; [reflexivity|apply like_hom, H].
Qed.

Lemma combine_half x1 x2 y1 y2 nxy nx ny n dxy dx dy d : numsim x1 x2 -> numsim y1 y2 ->
  half numsim (fun f => number_combine k f x1 y1 nxy nx ny n dxy dx dy d) (fun f => number_combine k f x2 y2 nxy nx ny n dxy dx dy d).
Proof.
  intros S S'. apply (half_weaken _ number_like); [exact like_numsim|]. apply follow_half. intro f.
  apply (follow_diag _ _ _ _ (fun F g =>
    let! (special, p, r, h, c) := c_new k (clog_egest k F) g x2 y2 nxy nx ny n dxy dx dy d in
    match special with
    | Some fixed => Ok (NSpecial fixed)
    | None => match r with
      | Some r => Ok (NOther p (CRatio r))
      | None => match h with
        | Some (x, m) => Ok (NOther p (CHomographic x m))
        | None => match c with Some (x, y, m) => Ok (NOther p (CCombine x y m)) | None => Panic PUnwrapNone end
        end
      end
    end)).
  unfold number_combine. eapply follow_bind; [apply (c_new_like _ (egest_like f)); apply numsim_like; assumption|].
  intros [[[[s1 p1] r1] h1] c1] [[[[s2 p2] r2] h2] c2] [[E H] H']. cbn [fst snd] in E, H, H'. inversion E; subst.
  destruct s2; [apply follow_ok; reflexivity|]. destruct r2; [apply follow_ok; split; [reflexivity|apply like_sim, sim_refl]|].
  destruct h1 as [[x m]|], h2 as [[x' m']|]; cbn [opt] in H; try contradiction.
  - destruct H as [E' H]. cbn [fst snd] in E', H. subst. apply follow_ok. split; [reflexivity|apply like_hom, H].
  - destruct c1 as [[[x y] m]|], c2 as [[[x' y'] m']|]; cbn [opt] in H'; try contradiction; [|apply follow_panic].
    destruct H' as (E' & K & K'). cbn [fst snd] in E', K, K'. subst. apply follow_ok. split; [reflexivity|apply like_comb; assumption].
Qed.

Lemma compare_clogs_like : forall f c1 c2 d1 d2 b, like c1 c2 -> like d1 d2 ->
  follow eq (compare_clogs k f c1 d1 b) (fun _ n => compare_clogs k n c2 d2 b).
Proof.
  induction f as [|f IH]; intros c1 c2 d1 d2 b L K; cbn [compare_clogs]; [exact I|].
  apply (follow_step _ _ _ _ (fun _ n =>
    let! (e1, c1') := clog_egest k n c2 in
    let! (e2, c2') := clog_egest k n d2 in
    if option_eqb reduction_eqb e1 e2 then
      match e1 with
      | None => Ok Eq
      | Some Uncover => compare_clogs k n c1' c2' (negb b)
      | Some Amplify => compare_clogs k n c1' c2' b
      end
    else let answer := compare_symbols e1 e2 in Ok (if b then answer else CompOpp answer))); [reflexivity|].
  apply (follow_diag _ _ _ _ (fun F n =>
    let! (e1, c1') := clog_egest k F c2 in
    let! (e2, c2') := clog_egest k F d2 in
    if option_eqb reduction_eqb e1 e2 then
      match e1 with
      | None => Ok Eq
      | Some Uncover => compare_clogs k n c1' c2' (negb b)
      | Some Amplify => compare_clogs k n c1' c2' b
      end
    else let answer := compare_symbols e1 e2 in Ok (if b then answer else CompOpp answer))).
  eapply follow_bind; [apply (egest_like f _ _ L)|]. intros [o a] [o' a'] [E H]. cbn [fst snd] in E, H. subst o'.
  eapply follow_bind; [apply (egest_like f _ _ K)|]. intros [t c] [t' c'] [E' H']. cbn [fst snd] in E', H'. subst t'.
  destruct o as [s|].
  - destruct t as [t|]; [|apply follow_ok; reflexivity].
    destruct (option_eqb reduction_eqb (Some s) (Some t)); [|apply follow_ok; reflexivity].
    destruct s; apply IH; (apply H || apply H'); discriminate.
  - destruct t as [t|]; apply follow_ok; reflexivity.
Qed.

Lemma compare_half x1 x2 y1 y2 : numsim x1 x2 -> numsim y1 y2 ->
  half eq (fun f => number_compare k f x1 y1) (fun f => number_compare k f x2 y2).
Proof.
  intros S S'. apply follow_half. intro f.
  destruct x1 as [s|p c], x2 as [s'|p' c']; cbn [numsim] in S; try contradiction;
  destruct y1 as [t|q e], y2 as [t'|q' e']; cbn [numsim] in S'; try contradiction; cbn [number_compare].
  - subst. apply follow_ok. reflexivity.
  - destruct S' as [-> S']. subst. apply follow_ok. reflexivity.
  - destruct S as [-> S]. subst. apply follow_ok. reflexivity.
  - destruct S as [-> S], S' as [-> S']. unfold compare_others.
    eapply follow_bind; [apply compare_clogs_like; apply like_sim; assumption|]. intros o _ <-. apply follow_ok. reflexivity.
Qed.

Definition consumed_like (u v : option clog * hcoef) : Prop := snd u = snd v /\ opt like (fst u) (fst v).

Lemma k_consume_like : forall f c1 c2 m, like c1 c2 ->
  follow consumed_like (k_consume k f c1 m) (fun _ n => k_consume k n c2 m).
Proof.
  induction f as [|f IH]; intros c1 c2 m L; cbn [k_consume]; [exact I|].
  apply (follow_step _ _ _ _ (fun _ n =>
    let! (o, x') := clog_egest k n c2 in
    match o with
    | None => Ok (None, m)
    | Some r =>
        let! m' := (match r with Amplify => k_amplify_x k m | Uncover => k_uncover_x k m end) in
        let! unsafe := k_is_state_unsafe k m' in
        if unsafe then Ok (Some x', m') else k_consume k n x' m'
    end)); [reflexivity|].
  apply (follow_diag _ _ _ _ (fun F n =>
    let! (o, x') := clog_egest k F c2 in
    match o with
    | None => Ok (None, m)
    | Some r =>
        let! m' := (match r with Amplify => k_amplify_x k m | Uncover => k_uncover_x k m end) in
        let! unsafe := k_is_state_unsafe k m' in
        if unsafe then Ok (Some x', m') else k_consume k n x' m'
    end)).
  eapply follow_bind; [apply (egest_like f _ _ L)|]. intros [o a] [o' a'] [E H]. cbn [fst snd] in E, H. subst o'.
  destruct o as [s|]; [|apply follow_ok; split; [reflexivity|exact I]].
  assert (H' : like a a') by (apply H; discriminate).
  apply follow_pure; intro m'. apply follow_pure; intros [|].
  - apply follow_ok. split; [reflexivity|exact H'].
  - apply IH, H'.
Qed.

Definition consumed_sim (u v : option number * hcoef) : Prop := snd u = snd v /\ opt numsim (fst u) (fst v).

Lemma consume_half x1 x2 : numsim x1 x2 ->
  half consumed_sim (fun f => number_consume k f x1) (fun f => number_consume k f x2).
Proof.
  intro S. apply follow_half. intro f. unfold number_consume, consume_new.
  destruct x1 as [s|p c], x2 as [s'|p' c']; cbn [numsim] in S; try contradiction.
  - subst s'. destruct s; cbn [bind]; apply follow_ok; split; try reflexivity; exact I.
  - destruct S as [-> S]. cbn [unwrap_other bind].
    eapply follow_bind with (T := consumed_like).
    + apply follow_pure; intro m. apply k_consume_like, like_sim, S.
    + intros [o m] [o' m'] [E H]. cbn [fst snd] in E, H. subst m'. apply follow_ok. split; [reflexivity|].
      destruct o, o'; cbn [opt] in *; try contradiction; auto. cbn [option_map fst opt]. split; [reflexivity|apply like_is_sim, H].
Qed.
End Sim.

(** ** Both halves. *)

Lemma same_clog_sim k c1 c2 : same_clog k c1 c2 <-> sim k c1 c2 /\ sim k c2 c1.
Proof.
  split.
  - intro H. split; intro l; destruct (H l) as (A & B & C); repeat split; try apply A; try apply B; intro p; apply C.
  - intros [H K] l. destruct (H l) as (A & B & C), (K l) as (A' & B' & C'). repeat split; auto.
Qed.

Lemma same_numsim k x y : same k x y <-> numsim k x y /\ numsim k y x.
Proof.
  destruct x as [s|p c], y as [t|q d]; cbn [same numsim].
  - split; [intros ->; auto|intros [H _]; exact H].
  - tauto.
  - tauto.
  - rewrite same_clog_sim. split; [intros [-> [H K]]; auto|intros [[-> H] [_ K]]; auto].
Qed.

Lemma halves A (T U : A -> A -> Prop) f g : (forall a b, T a b -> T b a -> U a b) -> half T f g -> half T g f -> alike U f g.
Proof.
  intros W [P R] [P' R']. split; [|split].
  - intro p. split; auto.
  - intros a E. destruct (R a E) as (b & F & t). exists b. split; [exact F|].
    destruct (R' b F) as (a' & E' & t'). assert (Q := settles_fun _ _ _ _ E E'). inversion Q; subst. auto.
  - intros b F. destruct (R' b F) as (a & E & t'). exists a. split; [exact E|].
    destruct (R a E) as (b' & F' & t). assert (Q := settles_fun _ _ _ _ F F'). inversion Q; subst. auto.
Qed.

Lemma homographic_alike k x1 x2 nx n dx d : same k x1 x2 ->
  alike (same k) (fun f => number_homographic k f x1 nx n dx d) (fun f => number_homographic k f x2 nx n dx d).
Proof.
  intro S. apply same_numsim in S. destruct S as [S S']. apply (halves _ (numsim k)).
  - intros a b H K. apply same_numsim. auto.
  - apply homographic_half, S.
  - apply homographic_half, S'.
Qed.

Lemma combine_alike k x1 x2 y1 y2 nxy nx ny n dxy dx dy d : same k x1 x2 -> same k y1 y2 ->
  alike (same k) (fun f => number_combine k f x1 y1 nxy nx ny n dxy dx dy d)
                 (fun f => number_combine k f x2 y2 nxy nx ny n dxy dx dy d).
Proof.
  intros S T. apply same_numsim in S. apply same_numsim in T. destruct S as [S S'], T as [T T']. apply (halves _ (numsim k)).
  - intros a b H K. apply same_numsim. auto.
  - apply combine_half; assumption.
  - apply combine_half; assumption.
Qed.

Lemma compare_alike k x1 x2 y1 y2 : same k x1 x2 -> same k y1 y2 ->
  alike eq (fun f => number_compare k f x1 y1) (fun f => number_compare k f x2 y2).
Proof.
  intros S T. apply same_numsim in S. apply same_numsim in T. destruct S as [S S'], T as [T T']. apply (halves _ eq).
  - auto.
  - apply compare_half; assumption.
  - apply compare_half; assumption.
Qed.

Lemma consume_alike k x1 x2 : same k x1 x2 ->
  alike (same_consumed k) (fun f => number_consume k f x1) (fun f => number_consume k f x2).
Proof.
  intro S. apply same_numsim in S. destruct S as [S S']. apply (halves _ (consumed_sim k)).
  - intros [o m] [o' m'] [E H] [_ K]. cbn [fst snd] in *. split; [exact E|]. cbn [fst].
    destruct o, o'; cbn [opt] in *; try contradiction; auto. apply same_numsim. auto.
  - apply consume_half, S.
  - apply consume_half, S'.
Qed.

(** ** Numbers that are read to the same end. *)

Lemma drain_stops k : forall f c l, drain k f c = Ok l -> stops k c l.
Proof.
  induction f as [|f IH]; intros c l E; [discriminate|]. cbn [drain] in E.
  destruct (clog_egest k f c) as [[[s|] c']|p|] eqn:G; cbn [bind] in E; try discriminate.
  - destruct (drain k f c') as [l'|p|] eqn:D; cbn [bind] in E; try discriminate. inversion E; subst.
    destruct (IH _ _ D) as (d & e & X & Y). exists d, e. split; [|exact Y].
    econstructor; [eapply ArithProofs.egest_settles; eauto; discriminate|exact X].
  - inversion E; subst. exists c, c'. split; [constructor|]. eapply ArithProofs.egest_settles; eauto; discriminate.
Qed.

(** Once a clog is known to stop after l, all that reading shows is determined. *)
Lemma stops_all k c : forall l, stops k c l -> forall m,
  (gives k c m <-> exists r, l = m ++ r) /\ (stops k c m <-> m = l) /\ (forall p, ~ dies k c m p).
Proof.
  intro l. revert c. induction l as [|s l IH]; intros c (d & e & X & Y) m; inversion X; subst.
  - destruct m as [|t m].
    + split; [|split].
      * split; [intros _; exists []; reflexivity|intros _; exists d; constructor].
      * split; [reflexivity|intros _; exists d, e; split; [constructor|exact Y]].
      * intros p (x & A & B). inversion A; subst. pose proof (settles_fun _ _ _ _ Y B). discriminate.
    + assert (N : forall x, ~ egests k d (t :: m) x).
      { intros x A. inversion A; subst. match goal with R : returns _ (Some _, _) |- _ =>
          pose proof (settles_fun _ _ _ _ Y R) as Q; discriminate end. }
      split; [|split].
      * split; [intros (x & A); destruct (N x A)|intros (r & Q); discriminate].
      * split; [intros (x & x' & A & _); destruct (N x A)|discriminate].
      * intros p (x & A & _). destruct (N x A).
  - match goal with R : returns _ (Some s, ?x), E : egests k ?x l d |- _ => rename x into c'; rename R into RR; rename E into EE end.
    assert (ST : stops k c' l) by (exists d, e; auto).
    destruct m as [|t m].
    + split; [|split].
      * split; [intros _; exists (s :: l); reflexivity|intros _; exists c; constructor].
      * split; [|discriminate]. intros (x & x' & A & B). inversion A; subst.
        pose proof (settles_fun _ _ _ _ RR B) as Q. discriminate.
      * intros p (x & A & B). inversion A; subst. pose proof (settles_fun _ _ _ _ RR B) as Q. discriminate.
    + assert (N : forall x, egests k c (t :: m) x -> t = s /\ egests k c' m x).
      { intros x A. inversion A; subst. match goal with R : returns _ (Some t, _) |- _ =>
          pose proof (settles_fun _ _ _ _ RR R) as Q; inversion Q; subst; auto end. }
      destruct (IH c' ST m) as (G1 & G2 & G3).
      split; [|split].
      * split.
        -- intros (x & A). destruct (N x A) as [-> B]. destruct (proj1 G1) as (r & Q); [exists x; exact B|].
           exists r. rewrite Q. reflexivity.
        -- intros (r & Q). inversion Q; subst. destruct (proj2 G1) as (x & A); [exists r; reflexivity|].
           exists x. econstructor; eauto.
      * split.
        -- intros (x & x' & A & B). destruct (N x A) as [-> C]. f_equal. apply G2. exists x, x'. auto.
        -- intro Q. inversion Q; subst. destruct (proj2 G2 eq_refl) as (x & x' & A & B). exists x, x'. split; [econstructor; eauto|exact B].
      * intros p (x & A & B). destruct (N x A) as [-> C]. apply (G3 p). exists x. auto.
Qed.

Lemma stops_same k c1 c2 l : stops k c1 l -> stops k c2 l -> same_clog k c1 c2.
Proof.
  intros A B m. destruct (stops_all k c1 l A m) as (G1 & G2 & G3), (stops_all k c2 l B m) as (H1 & H2 & H3).
  rewrite G1, H1, G2, H2. repeat split; auto; intro D; [destruct (G3 p D)|destruct (H3 p D)].
Qed.

Lemma read_same k x y r : read k x r -> read k y r -> same k x y.
Proof.
  destruct x as [s|p c], y as [t|q d], r as [u|[v l]]; cbn [read same]; try tauto.
  - intros -> ->. reflexivity.
  - intros [-> (F & A)] [-> (G & B)]. split; [reflexivity|].
    apply (stops_same k c d l); [apply (drain_stops k F), A|apply (drain_stops k G), B]; auto.
Qed.

Lemma same_read k x y r : same k x y -> read k x r -> read k y r.
Proof.
  destruct x as [s|p c], y as [t|q d], r as [u|[v l]]; cbn [read same]; try tauto.
  - intros -> ->. reflexivity.
  - intros [-> S] [-> (F & A)]. split; [reflexivity|].
    assert (ST : stops k c l) by (apply (drain_stops k F), A; auto).
    destruct (S l) as (_ & B & _). apply B in ST. clear -ST. destruct ST as (x & y & E & R).
    revert d E. induction l as [|s l IH]; intros d E; inversion E; subst.
    + destruct R as (N & H). exists (S N). intros [|n] L; [lia|]. cbn [drain]. rewrite H by lia. reflexivity.
    + match goal with R1 : returns _ (Some s, ?z), E1 : egests k ?z l x |- _ =>
        destruct R1 as (M & K); destruct (IH z E1) as (N & H) end.
      exists (S (Nat.max M N)). intros [|n] L; [lia|]. cbn [drain]. rewrite K by lia. cbn [bind]. rewrite H by lia. reflexivity.
Qed.

(** ** Formulas. *)

Lemma same_refl k x : same k x x.
Proof. apply same_numsim. destruct x; split; cbn [numsim]; auto; split; auto; apply sim_refl. Qed.

Lemma same_sym k x y : same k x y -> same k y x.
Proof. rewrite !same_numsim. tauto. Qed.

Lemma upto_evaluate k f1 f2 e : f1 <= f2 -> upto BadFuel (evaluate k f1 e) (evaluate k f2 e).
Proof.
  intro L. induction e as [s|num den|e IH nx n dx d|e1 IH1 e2 IH2 a b c d e f g h]; cbn [evaluate].
  - right. reflexivity.
  - right. reflexivity.
  - apply (upto_bind BadFuel k k eq_refl); [exact IH|]. intro x. apply upto_homographic; auto.
  - apply (upto_bind BadFuel k k eq_refl); [exact IH1|]. intro x. apply (upto_bind BadFuel k k eq_refl); [exact IH2|]. intro y. apply upto_combine; auto.
Qed.

Lemma alike_follow A (T : A -> A -> Prop) f g : (forall f1 f2, f1 <= f2 -> upto BadFuel (f f1) (f f2)) ->
  alike T f g -> forall n, follow T (f n) (fun F _ => g F).
Proof.
  intros U (P & R & _) n. destruct (f n) as [a|p|] eqn:E; cbn [follow]; [| |exact I].
  - destruct (R a) as (b & S & t); [exact (settles_fuel f (Ok a) U n E ltac:(discriminate))|].
    exists b. split; [apply settles_ends2, S|exact t].
  - apply settles_ends2, P. exact (settles_fuel f (Panic p) U n E ltac:(discriminate)).
Qed.

Lemma alike_sym A (T : A -> A -> Prop) f g : (forall a b, T a b -> T b a) -> alike T f g -> alike T g f.
Proof.
  intros S (P & R & R'). split; [|split].
  - intro p. symmetry. apply P.
  - intros a E. destruct (R' a E) as (b & F & t). exists b. auto.
  - intros a E. destruct (R a E) as (b & F & t). exists b. auto.
Qed.

Lemma follow_halves A (T : A -> A -> Prop) f g : (forall a b, T a b -> T b a) ->
  (forall n, follow T (f n) (fun F _ => g F)) -> (forall n, follow T (g n) (fun F _ => f F)) -> alike T f g.
Proof.
  intros S H K. apply (halves _ T); auto; apply follow_half; intro n;
  apply follow_diag with (g := fun F _ => _ F); [apply H|apply K].
Qed.

Lemma alike_refl A (T : A -> A -> Prop) f : (forall a, T a a) -> alike T f f.
Proof. intro H. split; [|split]; [tauto| |]; intros a E; exists a; auto. Qed.

Lemma replaced_sym a b e1 e2 : replaced a b e1 e2 -> replaced b a e2 e1.
Proof. induction 1; constructor; auto. Qed.

Lemma replaced_follow k a b : alike (same k) (fun f => evaluate k f a) (fun f => evaluate k f b) ->
  forall e1 e2, replaced a b e1 e2 -> forall n, follow (same k) (evaluate k n e1) (fun F _ => evaluate k F e2).
Proof.
  intros H e1 e2 R. induction R as [|e|e1 e2 nx n dx d R IH|e1 e2 e3 e4 nxy nx ny n dxy dx dy d R IH R' IH']; intro f.
  - apply (alike_follow _ _ (fun f => evaluate k f a)); [intros; apply upto_evaluate; assumption|exact H].
  - apply (alike_follow _ _ (fun f => evaluate k f e)); [intros; apply upto_evaluate; assumption|apply alike_refl, same_refl].
  - cbn [evaluate]. eapply (follow_bind _ _ _ _ (same k) (same k) _ _ _ (fun F _ x => number_homographic k F x nx n dx d)); [apply IH|].
    intros x y S. apply (alike_follow _ _ (fun f => number_homographic k f x nx n dx d)).
    + intros; apply upto_homographic; auto.
    + apply homographic_alike, S.
  - cbn [evaluate]. eapply (follow_bind _ _ _ _ (same k) (same k) _ _ _
      (fun F _ x => let! y := evaluate k F e4 in number_combine k F x y nxy nx ny n dxy dx dy d)); [apply IH|].
    intros x y S. eapply (follow_bind _ _ _ _ (same k) (same k) _ _ _
      (fun F _ z => number_combine k F y z nxy nx ny n dxy dx dy d)); [apply IH'|].
    intros z w S'. apply (alike_follow _ _ (fun f => number_combine k f x z nxy nx ny n dxy dx dy d)).
    + intros; apply upto_combine; auto.
    + apply combine_alike; assumption.
Qed.

Lemma replaced_alike k a b : alike (same k) (fun f => evaluate k f a) (fun f => evaluate k f b) ->
  forall e1 e2, replaced a b e1 e2 -> alike (same k) (fun f => evaluate k f e1) (fun f => evaluate k f e2).
Proof.
  intros H e1 e2 R. apply follow_halves.
  - apply same_sym.
  - apply replaced_follow with (a := a) (b := b); assumption.
  - apply replaced_follow with (a := b) (b := a); [|apply replaced_sym, R]. apply alike_sym; [apply same_sym|exact H].
Qed.

Lemma reads_alike k f g x y r : returns f x -> returns g y -> read k x r -> read k y r -> alike (same k) f g.
Proof.
  intros F G X Y. assert (S : same k x y) by (eapply read_same; eauto). split; [|split].
  - intro p. split; intro E; [pose proof (settles_fun _ _ _ _ F E)|pose proof (settles_fun _ _ _ _ G E)]; discriminate.
  - intros a E. pose proof (settles_fun _ _ _ _ F E) as Q. inversion Q; subst. exists y. auto.
  - intros a E. pose proof (settles_fun _ _ _ _ G E) as Q. inversion Q; subst. exists x. auto.
Qed.

(** ** The identity, the opposite, the reciprocal. *)

Lemma same_trans k x y z : same k x y -> same k y z -> same k x z.
Proof.
  destruct x as [s|p c], y as [t|q d], z as [u|r e]; cbn [same]; try tauto; [congruence|].
  intros [-> H] [-> K]. split; [reflexivity|]. intro l. destruct (H l) as (A & B & C), (K l) as (A' & B' & C').
  rewrite A, B, A', B'. repeat split; auto; intro D; apply C', C || apply C, C'; exact D.
Qed.

Lemma ingest_bad k eg c m : (forall a, eg c <> Ok a) -> h_reduction_ingest k eg c m =
  match eg c with Panic p => Panic p | _ => NoFuel end.
Proof. intro H. unfold h_reduction_ingest. destruct (eg c) as [a|p|]; [destruct (H a eq_refl)|reflexivity|reflexivity]. Qed.

Lemma ident_panic k s c p : settles (fun f => clog_egest k f c) (Panic p) ->
  settles (fun f => clog_egest k f (CHomographic c (BuildProofs.ident s))) (Panic p).
Proof.
  intros (F & H). exists (S (S (S F))). intros [|[|[|f]]] L; [lia .. |].
  specialize (H (S (S f)) ltac:(lia)).
  cbn [clog_egest]. cbn [strategy_egest]. change (clog_egest k (S (S f))) with (clog_egest k (S (S f))).
  rewrite BuildProofs.ident_ingests. fold (clog_egest k (S (S f))).
  erewrite ingest_bad by (intros a E; assert (X : Ok a = Panic p) by (rewrite <- E; exact H); discriminate).
  match goal with |- context [bind (match ?e with _ => _ end) _] => assert (X : e = Panic p) by exact H; rewrite X end.
  reflexivity.
Qed.

(** A client that goes on to read has the operand read. *)
Lemma ident_inv k s c r : settles (fun f => clog_egest k f (CHomographic c (BuildProofs.ident s))) r -> r <> NoFuel ->
  exists r', settles (fun f => clog_egest k f c) r' /\ r' <> NoFuel.
Proof.
  intros (F & H) N. specialize (H (S (S F)) ltac:(lia)). cbn [clog_egest] in H. cbn [strategy_egest] in H.
  change (clog_egest k (S F)) with (clog_egest k (S F)) in H. rewrite BuildProofs.ident_ingests in H.
  destruct (clog_egest k (S F) c) as [a|p|] eqn:E.
  - exists (Ok a). split; [|discriminate]. eapply ArithProofs.egest_settles; eauto; discriminate.
  - exists (Panic p). split; [|discriminate]. eapply ArithProofs.egest_settles; eauto; discriminate.
  - exfalso. apply N. rewrite <- H. clear H.
    erewrite ingest_bad by (intros a Q; assert (X : Ok a = NoFuel) by (rewrite <- Q; exact E); discriminate).
    match goal with |- context [bind (match ?e with _ => _ end) _] =>
      assert (X : e = NoFuel) by exact E; rewrite X end. reflexivity.
Qed.

Lemma ident_egests k s l : forall c c', egests k c l c' ->
  egests k (CHomographic c (BuildProofs.ident s)) l (CHomographic c' (BuildProofs.ident s)).
Proof.
  induction l as [|t l IH]; intros c c' E; inversion E; subst; [constructor|].
  match goal with R : returns _ (Some t, _) |- _ => apply (BuildProofs.ident_egest k c s) in R end.
  econstructor; eauto.
Qed.

Lemma egests_ident k s l : forall c d, egests k (CHomographic c (BuildProofs.ident s)) l d ->
  exists c', d = CHomographic c' (BuildProofs.ident s) /\ egests k c l c'.
Proof.
  induction l as [|t l IH]; intros c d E; inversion E; subst; [exists c; split; [reflexivity|constructor]|].
  match goal with R : returns _ (Some t, ?x), E' : egests k ?x l d |- _ => rename x into e; rename R into RR; rename E' into EE end.
  destruct (ident_inv k s c _ RR) as (r & (R & N)); [discriminate|].
  destruct r as [[o c']|p|]; [|pose proof (settles_fun _ _ _ _ RR (ident_panic k s c p R)); discriminate|congruence].
  pose proof (settles_fun _ _ _ _ RR (BuildProofs.ident_egest k c s o c' R)) as Q. inversion Q; subst.
  destruct (IH _ _ EE) as (c'' & -> & E'). exists c''. split; [reflexivity|]. econstructor; eauto.
Qed.

Lemma ident_same k s c : same_clog k c (CHomographic c (BuildProofs.ident s)).
Proof.
  intro l. split; [|split].
  - split; intros (d & E).
    + exists (CHomographic d (BuildProofs.ident s)). apply ident_egests, E.
    + destruct (egests_ident k s l c d E) as (c' & _ & E'). exists c'. exact E'.
  - split; intros (d & e & E & R).
    + exists (CHomographic d (BuildProofs.ident s)), (CRatio (MkRatio 1 2)). split; [apply ident_egests, E|].
      apply (BuildProofs.ident_egest k d s) in R. exact R.
    + destruct (egests_ident k s l c d E) as (c' & -> & E'). exists c'.
      destruct (ident_inv k s c' _ R) as (r & (R' & N)); [discriminate|].
      destruct r as [[o c'']|p|]; [|pose proof (settles_fun _ _ _ _ R (ident_panic k s c' p R')); discriminate|congruence].
      pose proof (settles_fun _ _ _ _ R (BuildProofs.ident_egest k c' s o c'' R')) as Q. inversion Q; subst. exists c''. auto.
  - intro p. split; intros (d & E & R).
    + exists (CHomographic d (BuildProofs.ident s)). split; [apply ident_egests, E|]. apply ident_panic, R.
    + destruct (egests_ident k s l c d E) as (c' & -> & E'). exists c'. split; [exact E'|].
      destruct (ident_inv k s c' _ R) as (r & (R' & N)); [discriminate|].
      destruct r as [[o c'']|p'|]; [|pose proof (settles_fun _ _ _ _ R (ident_panic k s c' p' R')) as Q; inversion Q; subst; exact R'|congruence].
      pose proof (settles_fun _ _ _ _ R (BuildProofs.ident_egest k c' s o c'' R')) as Q. discriminate.
Qed.

Lemma identity_same k x : exists y, returns (fun f => number_homographic k f x 1 0 0 1) y /\ same k x y.
Proof.
  destruct x as [s|p c].
  - exists (NSpecial s). split; [|reflexivity]. apply BuildProofs.returns_S. intro n. destruct k as [[] []], s; reflexivity.
  - eexists. split; [apply BuildProofs.returns_S; intro; apply BuildProofs.id_other|].
    cbn [BuildProofs.id_primer fst snd same]. split; [reflexivity|apply ident_same].
Qed.

Lemma opposite_same k x : exists y z, returns (fun f => number_homographic k f x (-1) 0 0 1) y /\ returns (fun f => number_homographic k f y (-1) 0 0 1) z /\ same k x z.
Proof.
  destruct x as [s|p c].
  - exists (NSpecial (match s with NegOne => PosOne | Zero => Zero | PosOne => NegOne end)), (NSpecial s).
    split; [|split; [|reflexivity]]; apply BuildProofs.returns_S; intro n; destruct k as [[] []], s; reflexivity.
  - eexists. eexists. split; [apply BuildProofs.returns_S; intro; apply BuildProofs.neg_other|].
    split; [apply BuildProofs.returns_S; intro; apply BuildProofs.neg_other|].
    cbn [same]. split; [destruct p as [[]|]; reflexivity|].
    match goal with |- same_clog k c (CHomographic (CHomographic c (BuildProofs.ident ?s)) (BuildProofs.ident ?t)) =>
      pose proof (same_trans k (NOther None c) (NOther None (CHomographic c (BuildProofs.ident s)))
        (NOther None (CHomographic (CHomographic c (BuildProofs.ident s)) (BuildProofs.ident t)))) as H end.
    cbn [same] in H. apply H; (split; [reflexivity|apply ident_same]).
Qed.

Lemma neutral_alike k e a :
  (forall n, evaluate k n a = let! x := evaluate k n e in number_homographic k n x 1 0 0 1) ->
  alike (same k) (fun f => evaluate k f e) (fun f => evaluate k f a).
Proof.
  intro H. apply follow_halves; [apply same_sym| |]; intro n.
  - destruct (evaluate k n e) as [x|p|] eqn:E; cbn [follow]; [| |exact I].
    + assert (R := settles_fuel (fun f => evaluate k f e) (Ok x) (fun f1 f2 => upto_evaluate k f1 f2 e) n E ltac:(discriminate)).
      destruct (identity_same k x) as (y & (G & Y) & S). destruct R as (F & X). exists y. split; [|exact S].
      exists (Nat.max F G). intros f _ L _. rewrite H, X by lia. cbn [bind]. apply Y. lia.
    + assert (R := settles_fuel (fun f => evaluate k f e) (Panic p) (fun f1 f2 => upto_evaluate k f1 f2 e) n E ltac:(discriminate)).
      destruct R as (F & X). exists F. intros f _ L _. rewrite H, X by lia. reflexivity.
  - rewrite H. destruct (evaluate k n e) as [x|p|] eqn:E; cbn [bind follow]; [| |exact I].
    + assert (R := settles_fuel (fun f => evaluate k f e) (Ok x) (fun f1 f2 => upto_evaluate k f1 f2 e) n E ltac:(discriminate)).
      destruct (identity_same k x) as (y & Y & S).
      destruct (number_homographic k n x 1 0 0 1) as [z|p|] eqn:Z; cbn [follow]; [| |exact I].
      * assert (R' := settles_fuel (fun f => number_homographic k f x 1 0 0 1) (Ok z)
          ltac:(intros; apply upto_homographic; auto) n Z ltac:(discriminate)).
        pose proof (settles_fun _ _ _ _ Y R') as Q. inversion Q; subst. exists x. split; [|apply same_sym, S].
        apply settles_ends2, R.
      * assert (R' := settles_fuel (fun f => number_homographic k f x 1 0 0 1) (Panic p)
          ltac:(intros; apply upto_homographic; auto) n Z ltac:(discriminate)).
        pose proof (settles_fun _ _ _ _ Y R') as Q. discriminate.
    + assert (R := settles_fuel (fun f => evaluate k f e) (Panic p) (fun f1 f2 => upto_evaluate k f1 f2 e) n E ltac:(discriminate)).
      apply settles_ends2, R.
Qed.

Lemma returns_one {A} (f : nat -> res A) a b : returns f a -> returns f b -> a = b.
Proof. intros H K. pose proof (settles_fun _ _ _ _ H K) as Q. now inversion Q. Qed.
