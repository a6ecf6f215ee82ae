(** * HeapUnwindProofs: the reference counts are one also after caught panics. *)

From Coq Require Import ZArith Bool List Arith Lia Permutation.
From Verif Require Import Machine Protocol Support Types Ratio Homographic Combine Lib SpecHist History
  Unwind SpecUnwind UnwindProofs Heap SpecHeap HeapProofs HeapUnwind SpecHeapUnwind.
Import ListNotations.

(** ** Triples with what a panic leaves *)

Definition vends {S A T B} (R : A -> B -> T -> asrt) (X : S -> T -> asrt) (h : heap) (l : list nat)
  (e : fate S A) (r : kept T B) : Prop :=
  match r with
  | Done b t => exists a h' l', e = Returns a h' /\ moves h l h' l' /\ R a b t h' l'
  | Broke p t => exists s h' l', e = Unwinds (Usual p) s h' /\ moves h l h' l' /\ X s t h' l'
  | Short => e = Hungry
  end.

Definition vtriple {S A T B} (P : asrt) (e : vact S A) (r : kept T B)
  (R : A -> B -> T -> asrt) (X : S -> T -> asrt) : Prop :=
  forall h l, fits h l -> P h l -> vends R X h l (e h) r.

(** A call by value leaves nothing to its caller. *)
Definition embed {B} (r : res B) : kept unit B :=
  match r with Ok b => Done b tt | Panic p => Broke p tt | NoFuel => Short end.

Lemma v_pre {S A T B} P P' (e : vact S A) (r : kept T B) R X :
  entails P P' -> vtriple P' e r R X -> vtriple P e r R X.
Proof. intros E V h l F HP. apply V; auto. Qed.

Lemma v_post {S A T B} P (e : vact S A) (r : kept T B) R R' X X' :
  (forall a b t, entails (R a b t) (R' a b t)) -> (forall s t, entails (X s t) (X' s t)) ->
  vtriple P e r R X -> vtriple P e r R' X'.
Proof.
  intros E1 E2 V h l F HP. specialize (V h l F HP). destruct r as [b t|p t|]; auto;
    destruct V as (a & h' & l' & E & M & HR); exists a, h', l'; (split; [exact E|]); (split; [exact M|]).
  - apply E1, HR.
  - apply E2, HR.
Qed.

Lemma v_pure {S A T B} (p : Prop) P (e : vact S A) (r : kept T B) R X :
  (p -> vtriple P e r R X) -> vtriple (pure p P) e r R X.
Proof. intros V h l F (Hp & HP). apply V; auto. Qed.

Lemma v_ret {S A T B} (P : asrt) (a : A) (b : B) (t : T) R (X : S -> T -> asrt) :
  entails P (R a b t) -> vtriple P (vret a) (Done b t) R X.
Proof. intros E h l F HP. exists a, h, l. split; auto. split; [apply moves_refl; auto|auto]. Qed.

Lemma v_broke {S A T B} (P : asrt) p (s : S) (t : T) (R : A -> B -> T -> asrt) X :
  entails P (X s t) -> vtriple P (broke p s) (Broke p t) R X.
Proof. intros E h l F HP. exists s, h, l. split; auto. split; [apply moves_refl; auto|auto]. Qed.

Lemma v_hungry {S A T B} P (R : A -> B -> T -> asrt) (X : S -> T -> asrt) : vtriple P (fun _ => Hungry) Short R X.
Proof. intros h l F HP. reflexivity. Qed.

Lemma v_within {S S' A A' T T' B B'} P (e : vact S A) (r : kept T B) (f : A -> vact S' A')
  (g : B -> T -> kept T' B') up up' Q Y R X :
  vtriple P e r Q Y -> (forall s t, entails (Y s t) (X (up s) (up' t))) ->
  (forall a b t, vtriple (Q a b t) (f a) (g b t) R X) ->
  vtriple P (within e up f) (inside r up' g) R X.
Proof.
  intros V1 E V2 h l F HP. specialize (V1 h l F HP). unfold within. destruct r as [b t|p t|]; simpl in *.
  - destruct V1 as (a & h1 & l1 & -> & M1 & HQ). specialize (V2 a b t h1 l1 (m_fits _ _ _ _ M1) HQ).
    destruct (g b t) as [b' t'|p t'|]; simpl in *; auto;
      destruct V2 as (a' & h2 & l2 & -> & M2 & HR); exists a', h2, l2;
      (split; [auto|]); (split; [eapply moves_trans; eauto|auto]).
  - destruct V1 as (s & h1 & l1 & -> & M1 & HY). exists (up s), h1, l1. split; auto. split; auto. apply E, HY.
  - rewrite V1. reflexivity.
Qed.

Lemma v_frame {S A T B} P (e : vact S A) (r : kept T B) R X G : local G ->
  vtriple P e r R X -> vtriple (star P G) e r (fun a b t => star (R a b t) G) (fun s t => star (X s t) G).
Proof.
  intros L V h l F (l1 & l2 & Pm & HP & HG).
  pose proof (fits_perm _ _ _ Pm F) as F'.
  specialize (V h l1 (fits_app _ _ _ F') HP).
  assert (K : forall h' l1', moves h l1 h' l1' -> moves h l h' (l1' ++ l2) /\ G h' l2).
  { intros h' l1' M. split.
    - eapply moves_perm; [apply Permutation_sym, Pm|]. apply moves_frame; auto.
    - eapply L; [apply HG|]. intros q I.
      destruct F' as (N & Bd & _). apply nodup_app in N as (_ & _ & D). apply M.
      + apply Bd, in_app_iff. auto.
      + intro J. eapply D; eauto. }
  destruct r as [b t|p t|]; simpl in *; auto;
    destruct V as (a & h' & l1' & E & M & HR); exists a, h', (l1' ++ l2); (split; [auto|]);
    destruct (K _ _ M) as (M' & HG'); (split; [auto|]); exists l1', l2; auto.
Qed.

Lemma v_within_fr {S S' A A' T T' B B'} P G (e : vact S A) (r : kept T B) (f : A -> vact S' A')
  (g : B -> T -> kept T' B') up up' Q Y R X :
  local G -> vtriple P e r Q Y -> (forall s t, entails (star (Y s t) G) (X (up s) (up' t))) ->
  (forall a b t, vtriple (star (Q a b t) G) (f a) (g b t) R X) ->
  vtriple (star P G) (within e up f) (inside r up' g) R X.
Proof. intros L V1 E V2. eapply v_within; [apply v_frame; [apply L|apply V1]|exact E|exact V2]. Qed.

(** A panic of a part that is not kept. *)
Lemma embed_bind {A B} (r : res A) (g : A -> res B) :
  embed (bind r g) = inside (embed r) (fun _ => tt) (fun b _ => embed (g b)).
Proof. destruct r; reflexivity. Qed.

Lemma embed_forget {T A B} (r : kept T A) (g : A * T -> res B) :
  embed (bind (forget r) g) = inside r (fun _ => tt) (fun b t => embed (g (b, t))).
Proof. destruct r; reflexivity. Qed.

Lemma attempt_inside {T A B} (r : res A) (s : T) (f : A -> kept T B) :
  attempt r s f = inside (embed r) (fun _ => s) (fun a _ => f a).
Proof. destruct r; reflexivity. Qed.

Lemma v_bind {S S' A A' B B'} P (e : vact S A) (r : res B) (f : A -> vact S' A') (g : B -> res B') up Q Y R X :
  vtriple P e (embed r) Q Y -> (forall s, entails (Y s tt) (X (up s) tt)) ->
  (forall a b, vtriple (Q a b tt) (f a) (embed (g b)) R X) ->
  vtriple P (within e up f) (embed (bind r g)) R X.
Proof.
  intros V1 E V2. rewrite embed_bind. eapply v_within; [apply V1| |].
  - intros s []. apply E.
  - intros a b []. apply V2.
Qed.

Lemma v_bind_fr {S S' A A' B B'} P G (e : vact S A) (r : res B) (f : A -> vact S' A') (g : B -> res B') up Q Y R X :
  local G -> vtriple P e (embed r) Q Y -> (forall s, entails (star (Y s tt) G) (X (up s) tt)) ->
  (forall a b, vtriple (star (Q a b tt) G) (f a) (embed (g b)) R X) ->
  vtriple (star P G) (within e up f) (embed (bind r g)) R X.
Proof. intros L V1 E V2. eapply v_bind; [apply v_frame; [apply L|apply V1]|exact E|exact V2]. Qed.

Lemma v_calls {A} P (r : res A) :
  vtriple P (calls r) (embed r) (fun a b _ => pure (a = b) P) (fun _ _ => P).
Proof.
  intros h l F HP. destruct r as [a|p|]; simpl; auto.
  - exists a, h, l. split; auto. split; [apply moves_refl; auto|]. split; auto.
  - exists tt, h, l. split; auto. split; [apply moves_refl; auto|]. auto.
Qed.

Lemma v_call {S A A' B'} P (r : res A) (f : A -> vact S A') (g : A -> res B') up R X :
  entails P (X (up tt) tt) -> (forall a, vtriple P (f a) (embed (g a)) R X) ->
  vtriple P (within (calls r) up f) (embed (bind r g)) R X.
Proof.
  intros E V. eapply v_bind; [apply v_calls| |].
  - intros []. exact E.
  - intros a b. apply v_pure. intros ->. apply V.
Qed.

Lemma v_try {S T A A' B'} P (r : res A) (f : A -> vact S A') (g : A -> kept T B') up s R X :
  entails P (X (up tt) s) -> (forall a, vtriple P (f a) (g a) R X) ->
  vtriple P (within (calls r) up f) (attempt r s g) R X.
Proof.
  intros E V. rewrite attempt_inside. eapply v_within; [apply v_calls| |].
  - intros [] []. exact E.
  - intros a b []. apply v_pure. intros ->. apply V.
Qed.

Lemma v_coef {S T M A A' B'} P (r : kept M A) (f : A * M -> vact S A') (g : A -> M -> kept T B') up up' R X :
  (forall m, entails P (X (up m) (up' m))) -> (forall a m, vtriple P (f (a, m)) (g a m) R X) ->
  vtriple P (within (coefs r) up f) (inside r up' g) R X.
Proof.
  intros E V h l F HP. unfold within, coefs. destruct r as [a m|p m|]; simpl; auto.
  - apply V; auto.
  - exists (up m), h, l. split; auto. split; [apply moves_refl; auto|]. apply E, HP.
Qed.

(** An operation that the model without a heap does not have. *)
Lemma v_does {S A A' T B} P (e : act A) (f : A -> vact S A') (r : kept T B) up Q R X :
  triple P e (Ok tt) Q -> (forall a, vtriple (Q a tt) (f a) r R X) -> vtriple P (within (does_ e) up f) r R X.
Proof.
  intros T1 V h l F HP. specialize (T1 h l F HP). destruct T1 as (a & h1 & l1 & E & M1 & HQ).
  unfold within, does_. rewrite E. specialize (V a h1 l1 (m_fits _ _ _ _ M1) HQ).
  destruct r as [b t|p t|]; simpl in *; auto;
    destruct V as (a' & h2 & l2 & -> & M2 & HR); exists a', h2, l2; (split; [auto|]);
    (split; [eapply moves_trans; eauto|auto]).
Qed.

Lemma v_does_fr {S A A' T B} P G (e : act A) (f : A -> vact S A') (r : kept T B) up Q R X :
  local G -> triple P e (Ok tt) Q -> (forall a, vtriple (star (Q a tt) G) (f a) r R X) ->
  vtriple (star P G) (within (does_ e) up f) r R X.
Proof. intros L T1 V. eapply v_does; [apply t_frame; [apply L|apply T1]|exact V]. Qed.

Lemma v_clean {S A T B} P (e : vact S A) (r : kept T B) (d : S -> act unit) R Y (Z : T -> asrt) :
  vtriple P e r R Y -> (forall s t, triple (Y s t) (d s) (Ok tt) (fun _ _ => Z t)) ->
  vtriple P (cleaning e d) r R (fun _ t => Z t).
Proof.
  intros V T1 h l F HP. specialize (V h l F HP). unfold cleaning. destruct r as [b t|p t|]; simpl in *.
  - destruct V as (a & h' & l' & -> & M & HR). exists a, h', l'. auto.
  - destruct V as (s & h' & l' & -> & M & HY).
    destruct (T1 s t h' l' (m_fits _ _ _ _ M) HY) as (u & h2 & l2 & -> & M2 & HZ).
    exists tt, h2, l2. split; auto. split; auto. eapply moves_trans; eauto.
  - rewrite V. reflexivity.
Qed.

(** Something that always returns. *)
Lemma v_always {S S' A A' T B} P (e : vact S A) (f : A -> vact S' A') (r : kept T B) up Q Y R X :
  vtriple P e (Done tt tt) (fun a _ _ => Q a) Y -> (forall a, vtriple (Q a) (f a) r R X) ->
  vtriple P (within e up f) r R X.
Proof.
  intros V1 V2 h l F HP. destruct (V1 h l F HP) as (a & h1 & l1 & E & M1 & HQ).
  unfold within. rewrite E. specialize (V2 a h1 l1 (m_fits _ _ _ _ M1) HQ).
  destruct r as [b t|p t|]; simpl in *; auto;
    destruct V2 as (a' & h2 & l2 & -> & M2 & HR); exists a', h2, l2; (split; [auto|]);
    (split; [eapply moves_trans; eauto|auto]).
Qed.

Lemma v_always_fr {S S' A A' T B} P G (e : vact S A) (f : A -> vact S' A') (r : kept T B) up Q Y R X :
  local G -> vtriple P e (Done tt tt) (fun a _ _ => Q a) Y -> (forall a, vtriple (star (Q a) G) (f a) r R X) ->
  vtriple (star P G) (within e up f) r R X.
Proof. intros L V1 V2. eapply v_always; [apply (v_frame _ _ _ _ _ _ L V1)|exact V2]. Qed.

Lemma v_comm {S A T B} P Q (e : vact S A) (r : kept T B) R X :
  vtriple (star Q P) e r R X -> vtriple (star P Q) e r R X.
Proof. apply v_pre, star_comm. Qed.

Lemma v_pure_fr {S A T B} (p : Prop) P G (e : vact S A) (r : kept T B) R X :
  (p -> vtriple (star P G) e r R X) -> vtriple (star (pure p P) G) e r R X.
Proof. intro V. eapply v_pre; [apply star_pure|]. apply v_pure, V. Qed.

Lemma v_known {S A B} P (e : vact S A) (r : res B) R (X : S -> unit -> asrt) :
  vtriple P e (embed r) R X -> vtriple P e (embed r) (fun a b t => pure (r = Ok b) (R a b t)) X.
Proof.
  intros V h l F HP. specialize (V h l F HP). destruct r as [b|p|]; auto.
  destruct V as (a & h' & l' & E & M & H). exists a, h', l'. split; auto. split; auto. split; auto.
Qed.

(** ** What is left *)

(** Some clog. *)
Definition left_ (s : sclog) : asrt := fun h l => exists c, own s c h l.

Fixpoint boxes (l : list nat) : asrt :=
  match l with [] => emp | a :: l => star (fun h q => exists c, box a c h q) (boxes l) end.

Definition lost {S T : Type} : S -> T -> asrt := fun _ _ => emp.

Lemma local_left s : local (left_ s).
Proof. intros h h' l (c & O) E. exists c. eapply local_own; eauto. Qed.

Lemma local_boxes l : local (boxes l).
Proof.
  induction l as [|a l IH]; simpl; [apply local_emp|]. apply local_star; auto.
  intros h h' q (c & O) E. exists c. eapply local_box; eauto.
Qed.

Lemma own_left s c : entails (own s c) (left_ s).
Proof. intros h l O. exists c. exact O. Qed.

Lemma box_one a x : entails (box a x) (boxes [a]).
Proof. intros h l B. apply star_comm, emp_star. exists x. exact B. Qed.

Lemma box_two a b x y : entails (star (box a x) (box b y)) (boxes [a; b]).
Proof.
  intros h l (l1 & l2 & P & A & B). exists l1, l2. split; auto. split; [exists x; auto|].
  eapply box_one; eauto.
Qed.

Lemma box_two' a b x y : entails (star (box b y) (box a x)) (boxes [a; b]).
Proof. intros h l H. eapply box_two, star_comm, H. Qed.

Lemma t_some {A B I} (P : I -> asrt) (e : act A) (r : res B) R :
  (forall i, triple (P i) e r R) -> triple (fun h l => exists i, P i h l) e r R.
Proof. intros T h l F (i & H). apply (T i); auto. Qed.

Lemma t_drop_left s : triple (left_ s) (drop_clog s) (Ok tt) (fun _ _ => emp).
Proof. apply t_some. intro c. apply t_drop. Qed.

Lemma t_drop_all l : triple (boxes l) (drop_all l) (Ok tt) (fun _ _ => emp).
Proof.
  induction l as [|a l IH]; simpl; [apply t_ret, entails_refl|].
  eapply t_more_fr; [apply local_boxes| |].
  - apply t_some. intro c. apply t_drop_rc.
  - intros []. eapply t_pre; [|apply IH]. apply star_emp.
    destruct l; [apply emp_perm|apply star_perm].
Qed.

Lemma t_drop_made v v' : triple (own_made v v') (drop_made v) (Ok tt) (fun _ _ => emp).
Proof.
  unfold drop_made, own_made. destruct v as [v [[s m]|]], v' as [v' [[c m']|]]; simpl;
    try (intros h l F (_ & []); fail); apply t_pure; intros _.
  - apply t_pure. intros _. apply t_drop with (c := c).
  - apply t_ret, entails_refl.
Qed.

Lemma num_perm n n' : perm_closed (own_num n n').
Proof.
  destruct n, n'; simpl; try (intros ? ? ? ? []; fail).
  - apply pure_perm, emp_perm.
  - apply pure_perm. intros ? ? ? P O. eapply own_perm; eauto.
Qed.

Lemma own_perm_closed s c : perm_closed (own s c).
Proof. intros h l l' P O. eapply own_perm; eauto. Qed.

Lemma box_perm_closed a c : perm_closed (box a c).
Proof. intros h l l' P O. eapply box_perm; eauto. Qed.

(** ** Writing back through [Rc::get_mut] *)

Lemma write_back h a l0 s h1 l1 s' c' : fits h (a :: l0) -> at_ h a = Some (RcBox 1 s) ->
  moves h l0 h1 l1 -> own s' c' h1 l1 ->
  exists h2, rc_write a s' h1 = Gives tt h2 /\ moves h (a :: l0) h2 (a :: l1) /\ box a c' h2 (a :: l1).
Proof.
  intros F' A M (l1' & P1 & O1). pose proof (fits_cons _ _ _ F') as (No & L & F0).
  assert (Fp : fits h (l0 ++ [a])).
  { eapply fits_perm; [|apply F']. apply Permutation_cons_append. }
  pose proof (moves_frame _ _ _ _ _ Fp M) as M1.
  assert (A1 : at_ h1 a = Some (RcBox 1 s)) by (rewrite (m_rest _ _ _ _ M); auto).
  unfold rc_write. rewrite A1. eexists. split; [reflexivity|].
  pose proof (m_fits _ _ _ _ M1) as F1.
  assert (F1' : fits h1 (a :: l1)).
  { eapply fits_perm; [|apply F1]. apply Permutation_sym, Permutation_cons_append. }
  pose proof (fits_cons _ _ _ F1') as (No1 & L1 & _). split.
  - apply moves_trans with (h1 := h1) (l1 := a :: l1).
    + eapply moves_perm; [apply Permutation_sym, Permutation_cons_append|].
      eapply moves_trans; [apply M1|]. apply moves_refl; auto. apply Permutation_sym, Permutation_cons_append.
    + split; auto.
      * intros q Lq Nq. apply set_at_neq. intros ->. apply Nq. left. auto.
      * intros q [I|I] Nq; [destruct (Nq I)|]. rewrite set_at_neq; [apply F1', I|].
        intros ->. apply Nq. left. auto.
      * destruct F1' as (N & B & Fr). repeat split; auto.
        intros q I. rewrite set_at_neq; [apply Fr, I|]. intros ->. simpl in I. lia.
  - exists s', l1'. split; [constructor; auto|]. split; [apply set_at_eq|].
    eapply owns_local; eauto. intros q I. apply set_at_neq. intros ->. apply No1.
    eapply Permutation_in; [apply Permutation_sym, P1|auto].
Qed.

(** ** The operands *)

Section WithEgest.
  Variable k : cfg.
  Variable eg : sclog -> vact sclog (option reduction * sclog).
  Variable egu : clog -> kept clog (option reduction).
  Hypothesis Eg : forall s c, vtriple (own s c) (eg s) (egu c)
    (fun p o c => pure (fst p = o) (own (snd p) c)) own.
  (** The same, when a panic drops the operand. *)
  Variable eg' : clog -> res (option reduction * clog).
  Hypothesis Same : forall c, forget (egu c) = eg' c.

  Lemma v_rc_egest a c :
    vtriple (box a c) (rc_egest_v eg a) (egu c) (fun o o' c' => pure (o = o') (box a c')) (fun _ c' => box a c').
  Proof.
    intros h l F (s & l0 & P & A & O). pose proof (fits_perm _ _ _ P F) as F'.
    pose proof (fits_cons _ _ _ F') as (No & L & F0).
    pose proof (Eg s c h l0 F0) as V. specialize (V (ex_intro _ l0 (conj (Permutation_refl _) O))).
    unfold rc_egest_v, within, does_, rc_get_mut, cleaning. rewrite A. destruct (egu c) as [o c'|p c'|]; simpl in *.
    - destruct V as ([o1 s'] & h1 & l1 & -> & M & (E & Ow)). simpl in E, Ow. subst o1.
      destruct (write_back h a l0 s h1 l1 s' c' F' A M Ow) as (h2 & -> & M2 & B).
      exists o, h2, (a :: l1). split; [reflexivity|]. split; [|split; auto].
      eapply moves_perm; [apply Permutation_sym, P|exact M2].
    - destruct V as (s' & h1 & l1 & -> & M & Ow).
      destruct (write_back h a l0 s h1 l1 s' c' F' A M Ow) as (h2 & -> & M2 & B).
      exists tt, h2, (a :: l1). split; [reflexivity|]. split; [|auto].
      eapply moves_perm; [apply Permutation_sym, P|exact M2].
    - rewrite V. reflexivity.
  Qed.

  (** ** Homographic *)

  Lemma v_h_prime_ingest x c m :
    vtriple (own x c) (h_prime_ingest_v k eg x m) (embed (h_prime_ingest k eg' c m))
      (fun v v' _ =>
         match v, v' with
         | inl (w, x'), inl w' => pure (w = w') (left_ x')
         | inr (x', m'), inr (c', m'') => pure (m' = m'') (own x' c')
         | _, _ => fun _ _ => False
         end)
      (fun s _ => left_ s).
  Proof.
    unfold h_prime_ingest_v, h_prime_ingest. rewrite <- Same, embed_forget. eapply v_within; [apply Eg| |].
    - intros s t. apply own_left.
    - intros [o x'] o' c'. apply v_pure. simpl fst. intros ->. simpl snd. destruct o' as [[]|].
      + apply v_call; [apply own_left|]. intro m'. apply v_ret. intros h l O. split; auto.
      + apply v_call; [apply own_left|]. intro m'. apply v_ret. intros h l O. split; auto.
      + apply v_call; [apply own_left|]. intros [num den]. apply v_call; [apply own_left|]. intro v.
        apply v_ret. intros h l O. split; [reflexivity|]. eapply own_left, O.
  Qed.

  Lemma v_h_prime fuel : forall x c m,
    vtriple (own x c) (h_prime_v k eg fuel x m) (embed (h_prime k eg' fuel c m))
      (fun v v' _ => own_made v v') (fun s _ => left_ s).
  Proof.
    induction fuel as [|fuel IH]; intros x c m; [apply v_hungry|]. cbn [h_prime_v h_prime].
    apply v_call; [apply own_left|]. intro out. apply v_call; [apply own_left|]. intros [[p m']|].
    - apply v_ret. intros h l O. split; [reflexivity|]. split; auto.
    - eapply v_bind; [apply v_h_prime_ingest| |].
      + intros s. apply entails_refl.
      + intros [[w x']|[x' m']] [w'|[c' m'']]; try (intros h l F []; fail).
        * apply v_pure. intros ->. destruct w' as [[sp p] r].
          eapply v_does; [apply t_drop_left|]. intros []. apply v_ret. intros h l ->. split; reflexivity.
        * apply v_pure. intros ->. apply IH.
  Qed.

  Lemma v_h_as_ratio n d :
    vtriple emp (h_as_ratio_v k n d) (embed (h_as_ratio k n d)) (fun v v' _ => own_made v v') lost.
  Proof.
    unfold h_as_ratio_v, h_as_ratio. apply v_call; [apply entails_refl|]. intros [[sp p] r]. apply v_ret.
    intros h l ->. split; reflexivity.
  Qed.

  Lemma v_h_new fuel x x' nx n dx d :
    vtriple (own_num x x') (h_new_v k eg fuel x nx n dx d) (embed (h_new k eg' fuel x' nx n dx d))
      (fun v v' _ => own_made v v') lost.
  Proof.
    unfold h_new_v, h_new. destruct ((nx =? 0)%Z && (dx =? 0)%Z).
    - replace (h_as_ratio k n d) with (let! v := h_as_ratio k n d in Ok v)
        by (destruct (h_as_ratio k n d); reflexivity).
      eapply v_pre; [apply emp_star|].
      eapply v_bind.
      + eapply v_clean with (Z := fun _ => emp).
        * eapply v_frame; [apply local_num|apply v_h_as_ratio].
        * intros [] []. eapply t_pre; [apply star_emp, num_perm|]. apply t_drop_number.
      + intros s. apply entails_refl.
      + intros v v'. apply v_comm.
        eapply v_does_fr; [apply local_made|apply t_drop_number|]. intros [].
        apply v_ret, star_emp, made_perm.
    - destruct x as [s|p s], x' as [s'|p' c]; try (intros h l F []; fail).
      + apply v_pure. intros ->. destruct s'.
        * apply v_call; [apply entails_refl|]. intro n'. apply v_call; [apply entails_refl|]. intro d'.
          apply v_h_as_ratio.
        * apply v_h_as_ratio.
        * apply v_call; [apply entails_refl|]. intro n'. apply v_call; [apply entails_refl|]. intro d'.
          apply v_h_as_ratio.
      + apply v_pure. intros ->. cbn [unwrap_other bind].
        eapply v_clean with (Z := fun _ => emp) (Y := fun s _ => left_ s).
        * apply v_call; [apply own_left|]. intro m. apply v_h_prime.
        * intros t _. apply t_drop_left.
  Qed.

  Lemma v_h_reduction_ingest x c m :
    vtriple (own x c) (h_reduction_ingest_v k eg x m) (h_reduction_ingest_u k egu c m)
      (fun v v' t => pure (fst v = v' /\ snd (snd v) = snd t) (own (fst (snd v)) (fst t)))
      (fun s t => pure (snd s = snd t) (own (fst s) (fst t))).
  Proof.
    unfold h_reduction_ingest_v, h_reduction_ingest_u. eapply v_within; [apply Eg| |].
    - intros s t h l O. split; auto.
    - intros [o x'] o' c'. apply v_pure. simpl fst. intros ->. simpl snd. destruct o' as [[]|].
      + apply v_coef; [intros m' h l O; split; auto|]. intros [] m'. apply v_ret. intros h l O. split; auto.
      + apply v_coef; [intros m' h l O; split; auto|]. intros [] m'. apply v_ret. intros h l O. split; auto.
      + apply v_try; [intros h l O; split; auto|]. intros [num den].
        apply v_try; [intros h l O; split; auto|]. intros [[[sp|] [p|]] [r|]];
          try (apply v_broke; intros h l O; split; auto; fail).
        apply v_ret. intros h l O. split; auto.
  Qed.

  (** What [Strategy::egest] gives back. *)
  Definition own_res (v : option reduction + sclog) (v' : option reduction + clog) : asrt :=
    match v, v' with
    | inl o, inl o' => pure (o = o') emp
    | inr s, inr c => own s c
    | _, _ => fun _ _ => False
    end.

  Lemma v_h_egest fuel : forall x c m,
    vtriple (own x c) (h_egest_v k eg fuel x m) (h_egest_u k egu fuel c m)
      (fun v v' t => star (own_res (fst v) v') (pure (snd (snd v) = snd t) (own (fst (snd v)) (fst t))))
      (fun s t => pure (snd s = snd t) (own (fst s) (fst t))).
  Proof.
    induction fuel as [|fuel IH]; intros x c m; [apply v_hungry|]. cbn [h_egest_v h_egest_u].
    apply v_try; [intros h l O; split; auto|]. intro out.
    apply v_coef; [intros m' h l O; split; auto|]. intros [o|] m'.
    - apply v_ret. intros h l O. exists [], l. split; auto. split; [split; reflexivity|]. split; auto.
    - eapply v_within; [apply v_h_reduction_ingest| |].
      + intros s t. apply entails_refl.
      + intros [v [x' m1]] v' [c' m1']. apply v_pure. simpl. intros (-> & ->). destruct v' as [r|].
        * apply v_ret. intros h l O. exists [], l. split; auto. split; [exists []; split; constructor|]. split; auto.
        * apply IH.
  Qed.

  (** ** Combine *)

  Lemma v_shutdown a c :
    vtriple (box a c) (c_shutdown_v k a) (Done tt tt)
      (fun v _ _ => star (own_num (fst v) (NOther None c)) (box (snd v) (CRatio (MkRatio 1 2)))) (@lost nat unit).
  Proof.
    intros h l F B. pose proof (t_shutdown k a c h l F B) as T. unfold c_shutdown, c_simple_clog in T.
    rewrite simple_ok in T. cbn [bind ends] in T. destruct T as (v & h' & l' & E & M & H).
    exists v, h', l'. split; [|split; auto]. clear M H.
    unfold c_shutdown_s, seq in E. unfold c_shutdown_v, within, does_, cleaning.
    destruct (rc_clone a h) as [moved h1|x|]; try discriminate.
    destruct (c_simple_clog_s k h1) as [b h2|x|]; try discriminate.
    destruct (drop_rc a h2) as [u h3|x|]; try discriminate.
    destruct (rc_try_unwrap moved h3) as [s h4|x|]; try discriminate.
    injection E as <- <-. reflexivity.
  Qed.

  Lemma v_h_new_other fuel s c nx n dx d :
    vtriple (own s c) (h_new_v k eg fuel (SNOther None s) nx n dx d)
      (embed (h_new k eg' fuel (NOther None c) nx n dx d)) (fun v v' _ => own_made v v') lost.
  Proof. eapply v_pre; [|apply v_h_new]. intros h l O. split; auto. Qed.

  Lemma v_c_prime_ingest fuel a b x y m :
    vtriple (star (box a x) (box b y)) (c_prime_ingest_v k eg fuel a b m) (embed (c_prime_ingest k eg' fuel x y m))
      (fun v v' _ =>
         match v, v' with
         | inl w, inl w' => own_made w w'
         | inr m', inr (x', y', m'') => pure (m' = m'') (star (box a x') (box b y'))
         | _, _ => fun _ _ => False
         end)
      (fun l _ => boxes l).
  Proof.
    unfold c_prime_ingest_v, c_prime_ingest. rewrite <- Same, embed_forget.
    eapply v_within_fr; [apply local_box|apply v_rc_egest| |].
    { intros s t. apply box_two. }
    intros o o' x'. apply v_pure_fr. intros ->. destruct o' as [r|].
    - apply v_call; [apply box_two|]. intro m1. rewrite <- Same, embed_forget. apply v_comm.
      eapply v_within_fr; [apply local_box|apply v_rc_egest| |].
      { intros s t. apply box_two'. }
      intros o o' y'. apply v_pure_fr. intros ->. destruct o' as [r'|].
      + apply v_call; [apply box_two'|]. intro m2. apply v_ret. intros h l H. split; [reflexivity|]. apply star_comm, H.
      + apply v_call; [apply box_two'|]. intro q. apply v_comm.
        eapply v_does_fr; [apply local_box|apply t_try_unwrap|]. intro s.
        eapply v_bind_fr; [apply local_box|apply v_h_new_other| |].
        * intros []. intros h l H. eapply box_one. apply (star_emp _ (box_perm_closed b y')), H.
        * intros v v'. apply v_comm. eapply v_does_fr; [apply local_made|apply t_drop_rc|]. intros [].
          apply v_ret, star_emp, made_perm.
    - apply v_call; [apply box_two|]. intro q. apply v_comm.
      eapply v_does_fr; [apply local_box|apply t_try_unwrap|]. intro s.
      eapply v_bind_fr; [apply local_box|apply v_h_new_other| |].
      + intros []. intros h l H. eapply box_one. apply (star_emp _ (box_perm_closed a x')), H.
      + intros v v'. apply v_comm. eapply v_does_fr; [apply local_made|apply t_drop_rc|]. intros [].
        apply v_ret, star_emp, made_perm.
  Qed.

  Lemma v_c_prime fuel : forall a b x y m,
    vtriple (star (box a x) (box b y)) (c_prime_v k eg fuel a b m) (embed (c_prime k eg' fuel x y m))
      (fun v v' _ => own_cmade v v') (fun l _ => boxes l).
  Proof.
    induction fuel as [|fuel IH]; intros a b x y m; [apply v_hungry|]. cbn [c_prime_v c_prime].
    apply v_call; [apply box_two|]. intro out. apply v_call; [apply box_two|]. intros [[p m']|].
    - apply v_ret. intros h l H. split; [reflexivity|]. apply emp_star. split; [reflexivity|exact H].
    - eapply v_bind; [apply v_c_prime_ingest| |].
      + intro s. apply entails_refl.
      + intros [[[[sp p] r] hm]|m'] [[[[sp' p'] r'] hm']|[[x' y'] m'']]; try (intros h l F []; fail).
        * apply v_pure. simpl fst. intros [= -> -> ->]. apply v_ret. intros h l H. split; [reflexivity|].
          apply star_comm, emp_star, H.
        * apply v_pure. intros ->. apply IH.
  Qed.

  Lemma v_c_as_homographic fuel x x' q :
    vtriple (own_num x x') (c_as_homographic_v k eg fuel x q)
      (embed (let! q := q in c_as_homographic k eg' fuel x' (h_nx q) (h_n q) (h_dx q) (h_d q)))
      (fun v v' _ => own_cmade v v') lost.
  Proof.
    unfold c_as_homographic_v, c_as_homographic. eapply v_bind.
    - eapply v_clean with (Z := fun _ => emp); [apply v_calls|]. intros [] []. apply t_drop_number.
    - intros []. apply entails_refl.
    - intros a b. apply v_pure. intros ->. eapply v_bind; [apply v_h_new| |].
      + intros []. apply entails_refl.
      + intros [[[sp p] r] hm] [[[sp' p'] r'] hm'].
        apply v_pure. simpl fst. intros [= -> -> ->]. apply v_ret. intros h l H. split; [reflexivity|].
        apply star_comm, emp_star, H.
  Qed.

  (** The coefficients are computed before the rest in both models. *)
  Lemma four {B} (r1 r2 r3 r4 : res Z) (g : Z -> Z -> Z -> Z -> res B) :
    (let! p := r1 in let! q := r2 in let! r := r3 in let! s := r4 in g p q r s) =
    (let! q := (let! p := r1 in let! q := r2 in let! r := r3 in let! s := r4 in Ok (HC p q r s)) in
     g (h_nx q) (h_n q) (h_dx q) (h_d q)).
  Proof.
    destruct r1; simpl; auto. destruct r2; simpl; auto. destruct r3; simpl; auto. destruct r4; simpl; auto.
  Qed.

  Lemma v_c_new fuel x x' y y' a b c d e f g h :
    vtriple (star (own_num x x') (own_num y y')) (c_new_v k eg fuel x y a b c d e f g h)
      (embed (c_new k eg' fuel x' y' a b c d e f g h)) (fun v v' _ => own_cmade v v') lost.
  Proof.
    unfold c_new_v, c_new. destruct x as [sx|px sx].
    - destruct x' as [sx'|px' cx]; [|intros q l F (l1 & l2 & _ & [] & _)].
      apply v_pure_fr. intros ->. eapply v_pre; [apply star_emp, num_perm|].
      destruct sx'.
      + rewrite (four _ _ _ _ (fun p q r s => c_as_homographic k eg' fuel y' p q r s)). apply v_c_as_homographic.
      + exact (v_c_as_homographic fuel y y' (Ok (HC c d g h))).
      + rewrite (four _ _ _ _ (fun p q r s => c_as_homographic k eg' fuel y' p q r s)). apply v_c_as_homographic.
    - destruct x' as [sx'|px' cx]; [intros q l F (l1 & l2 & _ & [] & _)|].
      destruct y as [sy|py sy].
      + destruct y' as [sy'|py' cy]; [|intros q l F (l1 & l2 & _ & _ & [])].
        apply v_comm. apply v_pure_fr. intros ->. eapply v_pre; [apply star_emp, num_perm|].
        destruct sy'.
        * rewrite (four _ _ _ _ (fun p q r s => c_as_homographic k eg' fuel (NOther px' cx) p q r s)).
          apply v_c_as_homographic.
        * exact (v_c_as_homographic fuel (SNOther px sx) (NOther px' cx) (Ok (HC b d f h))).
        * rewrite (four _ _ _ _ (fun p q r s => c_as_homographic k eg' fuel (NOther px' cx) p q r s)).
          apply v_c_as_homographic.
      + destruct y' as [sy'|py' cy]; [intros q l F (l1 & l2 & _ & _ & [])|].
        apply v_pure_fr. intros ->. apply v_comm. apply v_pure_fr. intros ->. apply v_comm. cbn [unwrap_other bind].
        replace (let! m := c_absorb_primer_x k px' (CC a b c d e f g h) in
                 let! m0 := c_absorb_primer_y k py' m in c_prime k eg' fuel cx cy m0)
          with (let! m := (let! m := c_absorb_primer_x k px' (CC a b c d e f g h) in c_absorb_primer_y k py' m) in
                c_prime k eg' fuel cx cy m)
          by (destruct (c_absorb_primer_x k px' (CC a b c d e f g h)); reflexivity).
        eapply v_bind.
        * eapply v_clean with (Z := fun _ => emp); [apply v_calls|]. intros [] [].
          eapply t_more_fr; [apply local_own|apply t_drop|]. intros [].
          eapply t_pre; [apply star_emp, own_perm_closed|]. apply t_drop.
        * intros []. apply entails_refl.
        * intros m m0. apply v_pure. intros ->.
          eapply v_does_fr; [apply local_own|apply t_new|]. intro rx. apply v_comm.
          eapply v_does_fr; [apply local_box|apply t_new|]. intro ry. apply v_comm.
          eapply v_clean with (Z := fun _ => emp); [apply v_c_prime|]. intros l []. apply t_drop_all.
  Qed.

  (** The receiver with what it leads to. *)
  Definition own_self (s : nat * nat * ccoef) (t : clog * clog * ccoef) : asrt :=
    pure (snd s = snd t) (star (box (fst (fst s)) (fst (fst t))) (box (snd (fst s)) (snd (fst t)))).

  Lemma self_in a b x y m : entails (star (box a x) (box b y)) (own_self (a, b, m) (x, y, m)).
  Proof. intros h l H. split; auto. Qed.
  Lemma self_in' a b x y m : entails (star (box b y) (box a x)) (own_self (a, b, m) (x, y, m)).
  Proof. intros h l H. split; auto. apply star_comm, H. Qed.

  Lemma local_self s t : local (own_self s t).
  Proof. apply local_pure, local_star; apply local_box. Qed.
  Lemma self_perm s t : perm_closed (own_self s t).
  Proof. apply pure_perm, star_perm. Qed.

  (** The part of [reduction_ingest] after an operand was moved out. *)
  Lemma v_moved fuel q n n' s t :
    vtriple (star (own_num n n') (own_self s t))
      (let^ v := h_new_v k eg fuel n (h_nx q) (h_n q) (h_dx q) (h_d q) keeping s in
       match v with
       | (None, None, r, h) => vret (r, h, s)
       | _ => let^ _ := does_ (drop_made v) keeping s in broke PLogic s
       end)
      (let? v := h_new k eg' fuel n' (h_nx q) (h_n q) (h_dx q) (h_d q) else t in
       match v with
       | (None, None, r, h) => Done (r, h) t
       | _ => Broke PLogic t
       end)
      (fun v v' t => pure (fst (fst v) = fst v') (star (own_hom (snd (fst v)) (snd v')) (own_self (snd v) t)))
      own_self.
  Proof.
    rewrite attempt_inside. eapply v_within_fr; [apply local_self|apply v_h_new| |].
    - intros [] []. apply star_emp, self_perm.
    - intros v v' [].
      assert (Lost : vtriple (star (own_made v v') (own_self s t))
                (let^ _ := does_ (drop_made v) keeping s in broke PLogic s) (Broke PLogic t)
                (fun (v : option ratio * option (sclog * hcoef) * (nat * nat * ccoef)) (v' : option ratio * option (clog * hcoef)) t =>
                   pure (fst (fst v) = fst v') (star (own_hom (snd (fst v)) (snd v')) (own_self (snd v) t)))
                own_self).
      { eapply v_does_fr; [apply local_self|apply t_drop_made|]. intros []. apply v_broke, star_emp, self_perm. }
      destruct v as [[[sp p] r1] hm], v' as [[[sp' p'] r1'] hm']. revert Lost.
      intros Lost h l F H. pose proof H as H0. apply star_pure in H0 as (E & H0). simpl in E. injection E as -> -> ->.
      destruct sp' as [sp'|]; [apply Lost; auto|]. destruct p' as [p'|]; [apply Lost; auto|].
      eexists _, h, l. split; [reflexivity|]. split; [apply moves_refl; auto|]. split; [reflexivity|exact H0].
  Qed.

  Lemma simple_clog_ok : c_simple_clog k = Ok (CRatio (MkRatio 1 2)).
  Proof. unfold c_simple_clog. rewrite simple_ok. reflexivity. Qed.

  Lemma v_c_reduction_ingest fuel a b x y m :
    vtriple (star (box a x) (box b y)) (c_reduction_ingest_v k eg fuel a b m)
      (c_reduction_ingest_u k egu eg' fuel x y m)
      (fun v v' t => pure (fst (fst v) = fst v') (star (own_hom (snd (fst v)) (snd v')) (own_self (snd v) t)))
      own_self.
  Proof.
    unfold c_reduction_ingest_v, c_reduction_ingest_u, c_promote_clog. rewrite simple_clog_ok.
    eapply v_within_fr; [apply local_box|apply v_rc_egest| |].
    { intros s t. apply self_in. }
    intros o o' x'. apply v_pure_fr. intros ->. destruct o' as [r|].
    - apply v_coef; [intro; apply self_in|]. intros [] m1. apply v_comm.
      eapply v_within_fr; [apply local_box|apply v_rc_egest| |].
      { intros s t. apply self_in'. }
      intros o o' y'. apply v_pure_fr. intros ->. destruct o' as [r'|].
      + apply v_coef; [intro; apply self_in'|]. intros [] m2. apply v_ret. intros h l H.
        split; [reflexivity|]. apply emp_star, self_in', H.
      + apply v_try; [apply self_in'|]. intro q. cbn [attempt]. apply v_comm.
        eapply v_always_fr; [apply local_box|apply v_shutdown|]. intros [nx a']. cbn [fst snd].
        eapply v_pre; [|apply (v_moved fuel q nx (NOther None x') (a', b, m1) (CRatio (MkRatio 1 2), y', m1))].
        intros h l H. apply star_assoc' in H. destruct H as (l1 & l2 & P & H1 & H2).
        exists l1, l2. split; auto. split; auto. apply self_in, H2.
    - apply v_try; [apply self_in|]. intro q. cbn [attempt]. apply v_comm.
      eapply v_always_fr; [apply local_box|apply v_shutdown|]. intros [ny b']. cbn [fst snd].
      eapply v_pre; [|apply (v_moved fuel q ny (NOther None y) (a, b', m) (x', CRatio (MkRatio 1 2), m))].
      intros h l H. apply star_assoc' in H. destruct H as (l1 & l2 & P & H1 & H2).
      exists l1, l2. split; auto. split; auto. apply self_in', H2.
  Qed.

  Lemma v_c_egest fuel : forall a b x y m,
    vtriple (star (box a x) (box b y)) (c_egest_v k eg fuel a b m) (c_egest_u k egu eg' fuel x y m)
      (fun v v' t => star (own_res (fst v) v') (own_self (snd v) t)) own_self.
  Proof.
    induction fuel as [|fuel IH]; intros a b x y m; [apply v_hungry|]. cbn [c_egest_v c_egest_u].
    apply v_try; [apply self_in|]. intro out.
    apply v_coef; [intro; apply self_in|]. intros [o|] m'.
    - apply v_ret. intros h l H. exists [], l. split; auto. split; [split; reflexivity|]. apply self_in, H.
    - eapply v_within; [apply v_c_reduction_ingest| |].
      + intros s t. apply entails_refl.
      + intros [[r hm] s] [r' hm'] t. apply v_pure. cbn [fst snd]. intros ->.
        destruct hm as [[z q]|], hm' as [[z' q']|]; try (intros h l F (? & ? & _ & [] & _); fail).
        * apply v_pure_fr. intros ->. destruct r'; apply v_ret; apply star_mono; intros h l (l0 & P & O);
            (exists l0; split; [exact P|constructor; exact O]).
        * destruct r' as [r'|].
          -- apply v_ret. apply star_mono. intros h l ->. exists []. split; constructor.
          -- destruct s as [[a1 b1] m1], t as [[x1 y1] m1']. cbn [fst snd].
             eapply v_pre; [apply star_emp, self_perm|]. apply v_pure. cbn [fst snd]. intros ->. apply IH.
  Qed.
End WithEgest.

(** ** The public API *)

Lemma v_clog_egest k fuel : forall s c,
  vtriple (own s c) (clog_egest_v k fuel s) (clog_egest_u k fuel c)
    (fun p o c => pure (fst p = o) (own (snd p) c)) own.
Proof.
  induction fuel as [|fuel IH]; intros s c; [apply v_hungry|]. cbn [clog_egest_v clog_egest_u].
  assert (V : vtriple (own s c) (strategy_egest_v k (clog_egest_v k fuel) fuel s)
                (strategy_egest_u k (clog_egest_u k fuel) fuel c)
                (fun v v' t => star (own_res (fst v) v') (own (snd v) t)) own).
  { intros h l F (l0 & P & O). destruct O as [r|s c m l0 O|a b sx sy x y m lx ly A Ox B Oy];
      unfold strategy_egest_v, strategy_egest_u.
    - apply v_coef with (P := emp); auto.
      + intros r' h' l' ->. exists []. split; constructor.
      + intros o r'. apply v_ret. intros h' l' ->. exists [], []. split; auto. split; [split; reflexivity|].
        exists []. split; constructor.
      + apply Permutation_sym, Permutation_nil in P. exact P.
    - eapply v_within; [apply (v_h_egest k _ _ IH)| | |exact F|exists l0; auto].
      + intros [x1 m1] [c1 m1'] h' l' (E & l1 & P1 & O1). simpl in E. subst m1'. exists l1. split; auto.
        constructor. exact O1.
      + intros [v [x1 m1]] v' [c1 m1']. apply v_ret. intros h' l' (l1 & l2 & P1 & H1 & E & l3 & P3 & O3).
        simpl in E. subst m1'. exists l1, l2. split; auto. split; auto. exists l3. split; auto. constructor. exact O3.
    - eapply v_within; [apply (v_c_egest k _ _ IH _ (fun c => eq_refl))| | |exact F|].
      + intros [[a1 b1] m1] [[x1 y1] m1'] h' l' (E & H). simpl in E. subst m1'. apply box_own, H.
      + intros [v [[a1 b1] m1]] v' [[x1 y1] m1']. apply v_ret. intros h' l' (l1 & l2 & P1 & H1 & E & H2).
        simpl in E. subst m1'. exists l1, l2. split; auto. split; auto. apply box_own, H2.
      + apply own_box with (m := m). eexists. split; [apply P|]. econstructor; eauto. }
  eapply v_within; [apply V| |].
  - intros s1 t1. apply entails_refl.
  - intros [v old] v' t. destruct v as [o|s1], v' as [o'|c1]; try (intros h l F (? & ? & _ & [] & _); fail).
    + apply v_pure_fr. intros ->. apply v_ret. intros h l H. split; [reflexivity|].
      apply (star_emp _ (own_perm_closed old t)), H.
    + apply v_comm. eapply v_does_fr; [apply local_own|apply t_drop|]. intros [].
      eapply v_pre; [apply star_emp, own_perm_closed|]. apply IH.
Qed.

Lemma v_of_triple {A B} P (e : act A) (r : res B) R (X : unit -> unit -> asrt) :
  triple P e r R -> (entails P (X tt tt)) -> vtriple P (does_ e) (embed r) (fun a b _ => R a b) X.
Proof.
  intros T E h l F HP. specialize (T h l F HP). unfold does_. destruct r as [b|p|]; simpl in *.
  - destruct T as (a & h' & l' & -> & M & H). exists a, h', l'. auto.
  - rewrite T. exists tt, h, l. split; auto. split; [apply moves_refl; auto|]. apply E, HP.
  - rewrite T. reflexivity.
Qed.

Lemma v_number_homographic k fuel x x' nx n dx d :
  vtriple (own_num x x') (number_homographic_v k fuel x nx n dx d)
    (embed (number_homographic k fuel x' nx n dx d)) (fun v v' _ => own_num v v') lost.
Proof.
  unfold number_homographic_v, number_homographic.
  eapply v_bind; [apply v_known, (v_h_new k _ _ (v_clog_egest k fuel) _ (clog_egest_forget k fuel))| |].
  { intros []. apply entails_refl. }
  intros [[[sp p] r] hm] [[[sp' p'] r'] hm']. apply v_pure. intro E. apply h_new_plain in E.
  apply v_pure. cbn [fst snd]. intros [= -> -> ->]. destruct sp' as [sp'|]; simpl in E.
  - subst hm'. destruct hm as [[s0 m0]|]; [intros h l F []|]. apply v_ret. intros h l ->. split; reflexivity.
  - destruct r' as [r'|].
    + subst hm'. destruct hm as [[s0 m0]|]; [intros h l F []|]. apply v_ret, own_r_number.
    + destruct hm as [[s m]|], hm' as [[c m']|]; try (intros h l F []; fail); [|apply v_broke, entails_refl].
      apply v_pure. intros ->. apply v_ret, own_h_number.
Qed.

Lemma v_number_combine k fuel x x' y y' nxy nx ny n dxy dx dy d :
  vtriple (star (own_num x x') (own_num y y')) (number_combine_v k fuel x y nxy nx ny n dxy dx dy d)
    (embed (number_combine k fuel x' y' nxy nx ny n dxy dx dy d)) (fun v v' _ => own_num v v') lost.
Proof.
  unfold number_combine_v, number_combine.
  eapply v_bind; [apply v_known, (v_c_new k _ _ (v_clog_egest k fuel) _ (clog_egest_forget k fuel))| |].
  { intros []. apply entails_refl. }
  intros [[[[sp p] r] hm] cm] [[[[sp' p'] r'] hm'] cm']. apply v_pure. intro E. apply c_new_plain in E.
  apply v_pure. cbn [fst snd]. intros [= -> -> ->]. destruct sp' as [sp'|]; simpl in E.
  - destruct E as (-> & ->). destruct hm as [[s0 m0]|]; [intros h l F (? & ? & _ & [] & _)|].
    destruct cm as [[[a0 b0] m0]|]; [intros h l F (? & ? & _ & _ & [])|].
    eapply v_pre; [apply (star_emp_emp emp), emp_perm|]. apply v_ret. intros h l ->. split; reflexivity.
  - destruct r' as [r'|].
    + destruct E as (-> & ->). destruct hm as [[s0 m0]|]; [intros h l F (? & ? & _ & [] & _)|].
      destruct cm as [[[a0 b0] m0]|]; [intros h l F (? & ? & _ & _ & [])|].
      eapply v_pre; [apply (star_emp_emp emp), emp_perm|]. apply v_ret, own_r_number.
    + destruct hm' as [[c m']|].
      * subst cm'. destruct cm as [[[a0 b0] m0]|]; [intros h l F (? & ? & _ & _ & [])|].
        destruct hm as [[s m]|]; [|intros h l F (? & ? & _ & [] & _)].
        eapply v_pre; [apply (star_emp_emp (own_hom (Some (s, m)) (Some (c, m')))), hom_perm|].
        apply v_pure. intros ->. apply v_ret, own_h_number.
      * destruct hm as [[s m]|]; [intros h l F (? & ? & _ & [] & _)|].
        destruct cm as [[[a b] m]|], cm' as [[[cx cy] m']|];
          try (intros h l F (? & ? & _ & _ & []); fail);
          [|apply v_broke; apply (star_emp_emp emp), emp_perm].
        apply v_comm, v_pure_fr. intros ->.
        eapply v_pre; [apply star_emp_emp, star_perm|]. apply v_ret. intros h l H. split; [reflexivity|].
        apply box_own, H.
Qed.

Definition two_left (s : sclog * sclog) : asrt := star (left_ (snd s)) (left_ (fst s)).

Lemma two_in s1 s2 c1 c2 : entails (star (own s2 c2) (own s1 c1)) (two_left (s1, s2)).
Proof. intros h l (l1 & l2 & P & H1 & H2). exists l1, l2. split; auto. split; eapply own_left; eauto. Qed.
Lemma two_in' s1 s2 c1 c2 : entails (star (own s1 c1) (own s2 c2)) (two_left (s1, s2)).
Proof. intros h l H. eapply two_in, star_comm, H. Qed.

Lemma t_drop_two s : triple (two_left s) (let* _ := drop_clog (snd s) in drop_clog (fst s)) (Ok tt) (fun _ _ => emp).
Proof.
  eapply t_more_fr; [apply local_left|apply t_drop_left|]. intros [].
  eapply t_pre; [|apply t_drop_left]. apply star_emp. intros h l l' P (c & O). exists c. eapply own_perm; eauto.
Qed.

Lemma v_compare_clogs k fuel : forall s1 c1 s2 c2 pol,
  vtriple (star (own s1 c1) (own s2 c2)) (compare_clogs_v k fuel s1 s2 pol) (embed (compare_clogs k fuel c1 c2 pol))
    (fun o o' _ => pure (o = o') emp) (fun s _ => two_left s).
Proof.
  induction fuel as [|fuel IH]; intros s1 c1 s2 c2 pol; [apply v_hungry|]. cbn [compare_clogs_v compare_clogs].
  rewrite <- clog_egest_forget, embed_forget.
  eapply v_within_fr; [apply local_own|apply v_clog_egest| |].
  { intros s t. apply two_in'. }
  intros [e1 s1'] e1' c1'. apply v_pure_fr. cbn [fst snd]. intros ->. apply v_comm.
  rewrite <- clog_egest_forget, embed_forget.
  eapply v_within_fr; [apply local_own|apply v_clog_egest| |].
  { intros s t. apply two_in. }
  intros [e2 s2'] e2' c2'. apply v_pure_fr. cbn [fst snd]. intros ->.
  assert (St : forall o : comparison, vtriple (star (own s2' c2') (own s1' c1'))
                 (let^ _ := does_ (let* _ := drop_clog s2' in drop_clog s1') keeping (s1', s2') in vret o)
                 (embed (Ok o)) (fun (o o' : comparison) _ => pure (o = o') emp) (fun s _ => two_left s)).
  { intro o. eapply v_does; [eapply t_pre; [apply two_in|apply (t_drop_two (s1', s2'))]|]. intros [].
    apply v_ret. intros h l H. split; auto. }
  destruct (option_eqb reduction_eqb e1' e2').
  - destruct e1' as [[]|].
    + apply v_comm, IH.
    + apply v_comm, IH.
    + apply St.
  - apply St.
Qed.

Lemma v_number_compare k fuel x x' y y' :
  vtriple (star (own_num x x') (own_num y y')) (number_compare_v k fuel x y) (embed (number_compare k fuel x' y'))
    (fun o o' _ => pure (o = o') emp) lost.
Proof.
  unfold number_compare_v, number_compare.
  destruct x as [sx|px sx], x' as [sx'|px' cx]; try (intros h l F (? & ? & _ & [] & _); fail);
    destruct y as [sy|py sy], y' as [sy'|py' cy]; try (intros h l F (? & ? & _ & _ & []); fail);
    apply v_pure_fr; intros ->; apply v_comm, v_pure_fr; intros ->.
  - apply v_ret. intros h l H. split; [reflexivity|]. apply (star_emp_emp emp emp_perm), H.
  - eapply v_does_fr; [apply local_emp|apply t_drop|]. intros [].
    apply v_ret. intros h l H. split; [reflexivity|]. apply (star_emp_emp emp emp_perm), H.
  - apply v_comm. eapply v_does_fr; [apply local_emp|apply t_drop|]. intros [].
    apply v_ret. intros h l H. split; [reflexivity|]. apply (star_emp_emp emp emp_perm), H.
  - apply v_comm. unfold compare_others. eapply v_bind.
    + eapply v_clean with (Z := fun _ => emp); [apply v_compare_clogs|]. intros s []. apply t_drop_two.
    + intros []. apply entails_refl.
    + intros o o'. apply v_pure. intros ->. apply v_ret. intros h l H. split; auto.
Qed.

Lemma v_k_consume k fuel : forall s c m,
  vtriple (own s c) (k_consume_v k fuel s m) (embed (k_consume k fuel c m))
    (fun v v' _ => pure (snd v = snd v')
       (match fst v, fst v' with
        | None, None => emp
        | Some s', Some c' => own s' c'
        | _, _ => fun _ _ => False
        end)) (fun s _ => left_ s).
Proof.
  induction fuel as [|fuel IH]; intros s c m; [apply v_hungry|]. cbn [k_consume_v k_consume].
  rewrite <- clog_egest_forget, embed_forget. eapply v_within; [apply v_clog_egest| |].
  { intros s1 t1. apply own_left. }
  intros [o s'] o' c'. apply v_pure. cbn [fst snd]. intros ->.
  destruct o' as [r|].
  - apply v_call; [apply own_left|]. intro m'. apply v_call; [apply own_left|]. intros [|].
    + apply v_ret. intros h l H. split; auto.
    + apply IH.
  - eapply v_does; [apply t_drop|]. intros []. apply v_ret. intros h l H. split; auto.
Qed.

Lemma v_number_consume k fuel x x' :
  vtriple (own_num x x') (number_consume_v k fuel x) (embed (number_consume k fuel x'))
    (fun v v' _ => pure (snd v = snd v')
       (match fst v, fst v' with
        | None, None => emp
        | Some n, Some n' => own_num n n'
        | _, _ => fun _ _ => False
        end)) lost.
Proof.
  unfold number_consume_v, number_consume, consume_new.
  destruct x as [sx|px sx], x' as [sx'|px' cx]; try (intros h l F []; fail); apply v_pure; intros ->.
  - destruct sx'; apply v_ret; intros h l H; (split; [reflexivity|exact H]).
  - cbn [unwrap_other bind]. eapply v_bind.
    + eapply v_clean with (Z := fun _ => emp) (Y := fun s _ => left_ s).
      * apply v_call; [apply own_left|]. intro m. apply v_k_consume.
      * intros s []. apply t_drop_left.
    + intros []. apply entails_refl.
    + intros [co m1] [co' m1']. apply v_pure. cbn [fst snd]. intros ->.
      apply v_ret. intros h l H. split; [reflexivity|].
      destruct co as [s|], co' as [c|]; try (destruct H; fail); auto. split; auto.
Qed.

(** ** A client *)

Definition own_vstep (v : scells * event) (e : event) (t : cells) : asrt := pure (snd v = e) (holds (fst v) t).

Definition vsteps (h : heap) (l : list nat)
  (e : option (vact scells (scells * event))) (r : option (kept cells event)) : Prop :=
  match e, r with
  | None, None => True
  | Some e, Some r => vends own_vstep holds h l (e h) r
  | _, _ => False
  end.

(** What [step_u] makes of a result of [step]. *)
Definition after (o : op) (t : cells) (r : res (cells * event)) : kept cells event :=
  match r with
  | Ok (t, e) => Done e t
  | Panic p => Broke p (spent o t)
  | NoFuel => Short
  end.

Lemma step_u_after k f t o : (forall i, o <> OEgest i) -> step_u k f t o = option_map (after o t) (step k f t o).
Proof.
  intro N. unfold step_u. destruct o; try (destruct (N _ eq_refl));
    (destruct (step k f t _) as [[[t1 e1]|p1|]|]; reflexivity).
Qed.

(** A call by value, with the other cells beside it. *)
Lemma v_apart {S A B} P (e : vact S A) (r : res B) (f : A -> vact scells (scells * event)) (g : B -> res (cells * event))
  (s : scells) (t t0 : cells) o Q :
  spent o t0 = t -> vtriple P e (embed r) Q lost ->
  (forall a b, vtriple (star (Q a b tt) (holds s t)) (f a) (after o t0 (g b)) own_vstep holds) ->
  vtriple (star P (holds s t)) (within e (fun _ => s) f) (after o t0 (bind r g)) own_vstep holds.
Proof.
  intros E V1 V2.
  replace (after o t0 (bind r g)) with (inside (embed r) (fun _ => t) (fun b _ => after o t0 (g b)))
    by (destruct r; simpl; rewrite ?E; reflexivity).
  eapply v_within_fr; [apply local_holds|apply V1| |].
  - intros a []. apply star_emp, holds_perm.
  - intros a b []. apply V2.
Qed.

Lemma v_made s t t0 o P (e : vact unit snumber) (r : res number) : spent o t0 = t ->
  vtriple P e (embed r) (fun v v' _ => own_num v v') lost ->
  vtriple (star P (holds s t)) (made_v s e) (after o t0 (made t r)) own_vstep holds.
Proof.
  intros E V. unfold made_v, made. eapply v_apart; [exact E|exact V|]. intros n n'.
  apply v_ret. intros h l H. split; [reflexivity|]. apply (new_holds s t (SINum n) (INum n')), H.
Qed.

Lemma gone_num i t x t' : take_num i t = Some (x, t') -> gone i t = t'.
Proof. unfold take_num, gone. destruct (take i t) as [[[n|c] t1]|]; try discriminate. intros [= _ ->]. reflexivity. Qed.
Lemma gone_clog i t x t' : take_clog i t = Some (x, t') -> gone i t = t'.
Proof. unfold take_clog, gone. destruct (take i t) as [[[n|c] t1]|]; try discriminate. intros [= _ ->]. reflexivity. Qed.

Lemma vstep_steps k f s t o h l : fits h l -> holds s t h l -> vsteps h l (step_v k f s o) (step_u k f t o).
Proof.
  intros F H.
  assert (K : forall P (e : vact scells (scells * event)) r, vtriple P e r own_vstep holds -> P h l ->
              vends own_vstep holds h l (e h) r) by (intros P e r V HP; apply V; auto).
  destruct o; (match goal with
    | |- vsteps _ _ _ (step_u _ _ _ (OEgest _)) => idtac
    | _ => rewrite step_u_after by discriminate
    end); unfold step_v; unfold step; cbv iota beta.
  - eapply K; [apply (v_made s t t _ emp); [reflexivity|]|apply emp_star, H].
    apply v_of_triple; [apply t_number_ratio|apply entails_refl].
  - eapply K; [apply (v_made s t t _ emp); [reflexivity|]|apply emp_star, H].
    apply v_of_triple; [apply t_number_ratio_u|apply entails_refl].
  - eapply K; [apply (v_made s t t _ emp); [reflexivity|]|apply emp_star, H].
    apply v_ret. intros ? ? ->. split; reflexivity.
  - destruct (take_clog_holds _ _ _ _ H i) as [(-> & ->)|(x & s' & y & t' & -> & E & _ & _ & Hs)]; [exact I|].
    rewrite E. eapply K; [apply (v_made s' t' t _ (own x y)); [exact (gone_clog _ _ _ _ E)|]|exact Hs].
    apply v_ret. intros h' l' O. split; auto.
  - destruct (take_num_holds _ _ _ _ H i) as [(-> & ->)|(x & s' & y & t' & -> & E & Hs)]; [exact I|].
    rewrite E. eapply K; [apply (v_made s' t' t _ (own_num x y)); [exact (gone_num _ _ _ _ E)|]|exact Hs].
    apply v_number_homographic.
  - destruct (take_num_holds _ _ _ _ H i) as [(-> & ->)|(x & s' & y & t' & -> & E & Hs)]; [exact I|]. rewrite E.
    destruct (take_two _ _ _ _ _ _ Hs j) as [(-> & ->)|(x2 & s2 & y2 & t2 & -> & E2 & Hs2)]; [exact I|].
    rewrite E2. eapply K; [eapply v_made; [|apply v_number_combine]|exact Hs2].
    cbn [spent]. rewrite (gone_num _ _ _ _ E). exact (gone_num _ _ _ _ E2).
  - destruct (take_num_holds _ _ _ _ H i) as [(-> & ->)|(x & s' & y & t' & -> & E & Hs)]; [exact I|]. rewrite E.
    destruct (take_two _ _ _ _ _ _ Hs j) as [(-> & ->)|(x2 & s2 & y2 & t2 & -> & E2 & Hs2)]; [exact I|].
    rewrite E2. eapply K; [eapply v_apart; [|apply v_number_compare|]|exact Hs2].
    + cbn [spent]. rewrite (gone_num _ _ _ _ E). exact (gone_num _ _ _ _ E2).
    + intros o o'. apply v_pure_fr. intros ->. apply v_ret. intros h' l' H'. split; [reflexivity|].
      apply (star_emp _ (holds_perm s2 t2)), H'.
  - destruct (take_num_holds _ _ _ _ H i) as [(-> & ->)|(x & s' & y & t' & -> & E & Hs)]; [exact I|].
    rewrite E. eapply K; [eapply v_apart; [exact (gone_num _ _ _ _ E)|apply v_number_consume|]|exact Hs].
    intros [co m] [co' m']. apply v_pure_fr.
    cbn [fst snd]. intros ->. destruct co as [n|], co' as [n'|]; try (intros h' l' F' (? & ? & _ & [] & _); fail).
    + apply v_ret. intros h' l' H'. split; [reflexivity|]. apply (new_holds s' t' (SINum n) (INum n')), H'.
    + apply v_ret. intros h' l' H'. split; [reflexivity|]. apply (star_emp _ (holds_perm s' t')), H'.
  - destruct (take_num_holds _ _ _ _ H i) as [(-> & ->)|(x & s' & y & t' & -> & E & Hs)]; [exact I|]. rewrite E.
    destruct x as [sx|px sx], y as [sy|py cy]; try (destruct Hs as (? & ? & _ & [] & _); fail);
      apply star_pure in Hs as (-> & Hs); cbn [unwrap_special bind option_map after vsteps].
    + eapply K; [|exact Hs]. apply v_ret. intros h' l' H'. split; [reflexivity|].
      apply (star_emp _ (holds_perm s' t')), H'.
    + cbn [spent]. rewrite (gone_num _ _ _ _ E). eapply K; [|exact Hs].
      eapply v_does_fr; [apply local_holds|apply t_drop|]. intros [].
      apply v_broke, star_emp, holds_perm.
  - destruct (take_num_holds _ _ _ _ H i) as [(-> & ->)|(x & s' & y & t' & -> & E & Hs)]; [exact I|]. rewrite E.
    destruct x as [sx|px sx], y as [sy|py cy]; try (destruct Hs as (? & ? & _ & [] & _); fail);
      apply star_pure in Hs as (-> & Hs); cbn [unwrap_other bind option_map after vsteps].
    + cbn [spent]. rewrite (gone_num _ _ _ _ E). eapply K; [|exact Hs].
      apply v_broke, star_emp, holds_perm.
    + eapply K; [|exact Hs]. apply v_ret. intros h' l' H'. split; [reflexivity|].
      apply (new_holds s' t' (SIClog sx) (IClog cy)), H'.
  - destruct (take_num_holds _ _ _ _ H i) as [(-> & ->)|(x & s' & y & t' & -> & E & Hs)]; [exact I|]. rewrite E.
    destruct x as [sx|px sx], y as [sy|py cy]; try (destruct Hs as (? & ? & _ & [] & _); fail);
      apply star_pure in Hs as (-> & Hs); cbn [option_map after vsteps].
    + eapply K; [|exact Hs]. apply v_ret. intros h' l' H'. split; [reflexivity|].
      apply (star_emp _ (holds_perm s' t')), H'.
    + eapply K; [|exact Hs]. apply v_ret. intros h' l' H'. split; [reflexivity|].
      apply (new_holds s' t' (SIClog sx) (IClog cy)), H'.
  - unfold step_u. destruct (take_clog_holds _ _ _ _ H i) as [(-> & ->)|(x & s' & y & t' & -> & -> & E1 & E2 & Hs)]; [exact I|].
    eapply K; [|exact Hs]. eapply v_within_fr; [apply local_holds|apply v_clog_egest| |].
    + intros c c'. apply (put_holds i (SIClog x) (IClog y) s t s' t' (SIClog c) (IClog c') E1 E2).
    + intros [o c] o' c'. apply v_pure_fr. cbn [fst snd]. intros ->. apply v_ret. intros h' l' H'.
      split; [reflexivity|].
      apply (put_holds i (SIClog x) (IClog y) s t s' t' (SIClog c) (IClog c') E1 E2), H'.
Qed.

Lemma vrun_same k f ac : forall s t h l, fits h l -> holds s t h l -> exact h l ->
  fst (run_v k f s h ac) = fst (run_u k f t ac) /\
  same_end (snd (run_v k f s h ac)) (snd (run_u k f t ac)).
Proof.
  induction ac as [|[o|i] ac IH]; intros s t h l F H E; cbn [run_v run_u].
  - split; [reflexivity|]. eapply holds_tidy; eauto.
  - pose proof (vstep_steps k f s t o h l F H) as St. unfold vsteps in St.
    destruct (step_v k f s o) as [e|], (step_u k f t o) as [r|]; try (destruct St; fail); [|split; simpl; auto].
    destruct r as [ev' t'|p t'|]; simpl in St.
    + destruct St as ([s' ev] & h' & l' & -> & M & (Ev & H')). simpl in Ev, H'. subst ev'.
      specialize (IH s' t' h' l' (m_fits _ _ _ _ M) H' (moves_exact _ _ _ _ E M)).
      destruct (run_v k f s' h' ac) as [es d], (run_u k f t' ac) as [es' d']. simpl in *.
      destruct IH as (-> & S'). split; auto.
    + destruct St as (s' & h' & l' & -> & M & H').
      specialize (IH s' t' h' l' (m_fits _ _ _ _ M) H' (moves_exact _ _ _ _ E M)).
      destruct (run_v k f s' h' ac) as [es d], (run_u k f t' ac) as [es' d']. simpl in *.
      destruct IH as (-> & S'). split; auto.
    + rewrite St. split; [reflexivity|exact I].
  - destruct (take_holds _ _ _ _ H i) as [(-> & ->)|(x & s' & y & t' & -> & -> & Hs)]; [split; simpl; auto|].
    pose proof (t_frame _ _ _ _ _ (local_holds s' t') (t_drop_item x y) h l F Hs) as T. simpl in T.
    destruct T as (u & h' & l' & -> & M & Hs').
    apply (star_emp _ (holds_perm s' t')) in Hs'.
    apply (IH s' t' h' l' (m_fits _ _ _ _ M) Hs' (moves_exact _ _ _ _ E M)).
Qed.

Lemma vrun_same_empty k f ac :
  fst (run_v k f [] empty_heap ac) = fst (run_u k f [] ac) /\
  same_end (snd (run_v k f [] empty_heap ac)) (snd (run_u k f [] ac)).
Proof.
  apply (vrun_same k f ac [] [] empty_heap []).
  - repeat split; auto; [constructor|intros a []].
  - exists []. split; [constructor|constructor].
  - intros a _. reflexivity.
Qed.

(** The client without a heap never ends in a panic. *)
Lemma run_u_calm k f ac : forall t p, snd (run_u k f t ac) <> Some (Panic p).
Proof.
  induction ac as [|[o|i] ac IH]; intros t p; cbn [run_u].
  - discriminate.
  - destruct (step_u k f t o) as [[e t'|q t'|]|]; try discriminate;
      specialize (IH t' p); destruct (run_u k f t' ac); exact IH.
  - destruct (take i t) as [[x t']|]; [apply IH|discriminate].
Qed.

(** ** When nothing is caught, this is the client of [Heap.v] *)

Lemma run_u_first k f ac : forall t,
  match run_t k f t ac with
  | (es, Some (Panic p)) => exists rest, fst (run_u k f t ac) = map Saw es ++ Caught p :: rest
  | (es, d) => run_u k f t ac = (map Saw es, d)
  end.
Proof.
  induction ac as [|[o|i] ac IH]; intro t; cbn [run_t run_u].
  - reflexivity.
  - assert (E : match step k f t o with
                | Some (Ok (t', e)) => step_u k f t o = Some (Done e t')
                | Some (Panic p) => exists t', step_u k f t o = Some (Broke p t')
                | Some NoFuel => step_u k f t o = Some Short
                | None => step_u k f t o = None
                end).
    { assert (D : (exists i, o = OEgest i) \/ forall i, o <> OEgest i)
        by (destruct o; try (right; discriminate); left; eauto).
      destruct D as [(i & ->)|N].
      - unfold step, step_u. destruct (take_clog i t) as [[c t']|]; [|reflexivity].
        rewrite <- clog_egest_forget. destruct (clog_egest_u k f c) as [e c'|p c'|]; cbn; eauto.
      - rewrite (step_u_after k f t o N). destruct (step k f t o) as [[[t' e]|p|]|]; cbn; eauto. }
    destruct (step k f t o) as [[[t' e]|p|]|].
    + rewrite E. specialize (IH t'). destruct (run_t k f t' ac) as [es d], (run_u k f t' ac) as [es' d'].
      destruct d as [[t2|p|]|]; try (injection IH as -> ->; reflexivity).
      destruct IH as (rest & IH). cbn in IH. subst es'. exists rest. reflexivity.
    + destruct E as (t' & E). rewrite E. destruct (run_u k f t' ac) as [es' d']. exists es'. reflexivity.
    + rewrite E. reflexivity.
    + rewrite E. reflexivity.
  - destruct (take i t) as [[x t']|]; [apply IH|reflexivity].
Qed.

(** ** What is held *)

Definition cells_held (k : cfg) (t : cells) : Prop := forall x, In (Some x) t -> held_item k x.

Lemma take_held {A} (P : A -> Prop) i : forall t x t', take i t = Some (x, t') -> (forall y, In (Some y) t -> P y) ->
  P x /\ (forall y, In (Some y) t' -> P y).
Proof.
  induction i as [|i IH]; intros [|[y|] t] x t' E H; try discriminate; cbn in E.
  - injection E as <- <-. split; [apply H; left; reflexivity|]. intros z [[=]|I]. apply H. right. exact I.
  - destruct (take i t) as [[a s']|] eqn:E1; [|discriminate]. injection E as <- <-.
    destruct (IH t a s' E1) as (Ha & Hs); [intros z I; apply H; right; exact I|]. split; [exact Ha|].
    intros z [[= ->]|I]; [apply H; left; reflexivity|apply Hs, I].
  - destruct (take i t) as [[a s']|] eqn:E1; [|discriminate]. injection E as <- <-.
    destruct (IH t a s' E1) as (Ha & Hs); [intros z I; apply H; right; exact I|]. split; [exact Ha|].
    intros z [[=]|I]. apply Hs, I.
Qed.

Lemma put_held {A} (P : A -> Prop) i : forall x t, P x -> (forall y, In (Some y) t -> P y) ->
  forall y, In (Some y) (put i x t) -> P y.
Proof.
  induction i as [|i IH]; intros x [|z t] Hx H y; cbn; try tauto.
  - intros [[= ->]|I]; [exact Hx|]. apply H. right. exact I.
  - intros [->|I]; [apply H; left; reflexivity|]. eapply IH; [exact Hx| |exact I]. intros w J. apply H. right. exact J.
Qed.

Lemma new_held {A} (P : A -> Prop) x t : P x -> (forall y, In (Some y) t -> P y) ->
  forall y, In (Some y) (new x t) -> P y.
Proof. intros Hx H y I. apply in_app_iff in I as [I|[[= ->]|[]]]; auto. Qed.

Lemma gone_held {A} (P : A -> Prop) i t : (forall y, In (Some y) t -> P y) -> forall y, In (Some y) (gone i t) -> P y.
Proof.
  intro H. unfold gone. destruct (take i t) as [[x t']|] eqn:E; [|exact H]. apply (take_held P _ _ _ _ E H).
Qed.

Lemma spent_held k o t : cells_held k t -> cells_held k (spent o t).
Proof. intro H. destruct o; cbn [spent];
  first [exact H|exact (gone_held _ _ _ H)|exact (gone_held _ _ _ (gone_held _ _ _ H))]. Qed.

Lemma take_num_held k i t x t' : cells_held k t -> take_num i t = Some (x, t') -> held k x /\ cells_held k t'.
Proof.
  intros H. unfold take_num. destruct (take i t) as [[[n|c] t1]|] eqn:E; try discriminate. intros [= -> ->].
  exact (take_held (held_item k) _ _ _ _ E H).
Qed.
Lemma take_clog_held k i t x t' : cells_held k t -> take_clog i t = Some (x, t') -> held_clog k x /\ cells_held k t'.
Proof.
  intros H. unfold take_clog. destruct (take i t) as [[[n|c] t1]|] eqn:E; try discriminate. intros [= -> ->].
  exact (take_held (held_item k) _ _ _ _ E H).
Qed.

Lemma other_held k p c : held k (NOther p c) -> held_clog k c.
Proof. intro H. eapply held_unwrap; [exact H|reflexivity]. Qed.

(** The panic is none of a broken promise, or the client asked for it. *)
Definition own_fault (o : op) (p : panic) : Prop :=
  match o with
  | OUnwrapSpecial _ => p = PNotSpecial
  | OUnwrapOther _ => p = PNotOther
  | _ => kept_promise p
  end.

Lemma step_held k f t o : op_ok k o -> cells_held k t -> (forall i, o <> OEgest i) ->
  match step k f t o with
  | Some (Ok (t', _)) => cells_held k t'
  | Some (Panic p) => own_fault o p
  | _ => True
  end.
Proof.
  intros Ok_ H N. pose proof (proj2 (held_fit k)) as Fit.
  assert (M : forall t m, cells_held k t -> (forall n, m = Ok n -> held k n) -> (forall p, m = Panic p -> kept_promise p) ->
              match made t m with Ok (t', _) => cells_held k t' | Panic p => kept_promise p | NoFuel => True end).
  { intros t0 m Ht Hn Hp. unfold made. destruct m as [n|p|]; cbn; auto.
    refine (new_held (held_item k) _ _ _ _); [apply (Hn n eq_refl)|exact Ht]. }
  unfold step. destruct o; cbv iota beta; cbn [own_fault]; cbn [op_ok] in Ok_.
  - destruct Ok_ as (A & B). apply M; [exact H| |].
    + intros n E. eapply held_ratio; [exact A|exact B|exact E].
    + intros p. apply (lp_kept _ _ _ (number_ratio_fit k num den A B)).
  - destruct Ok_ as (A & B). apply M; [exact H| |].
    + intros n E. eapply held_ratio_u; [exact A|exact B|exact E].
    + intros p. apply (lp_kept _ _ _ (number_ratio_u_fit k pos num den A B)).
  - apply M; [exact H| |discriminate]. intros n [= <-]. apply held_special.
  - destruct (take_clog i t) as [[c t']|] eqn:E; [|exact I]. destruct (take_clog_held _ _ _ _ _ H E) as (C & H').
    apply M; [exact H'| |discriminate]. intros n [= <-]. apply held_other, C.
  - destruct (take_num i t) as [[x t']|] eqn:E; [|exact I]. destruct (take_num_held _ _ _ _ _ H E) as (X & H').
    destruct Ok_ as (A & B & C & D). apply M; [exact H'| |].
    + intros y. apply held_homographic; assumption.
    + intros p. apply (lp_kept _ _ _ (number_homographic_fit k f x nx n dx d (Fit _ X) A B C D)).
  - destruct (take_num i t) as [[x t']|] eqn:E; [|exact I]. destruct (take_num_held _ _ _ _ _ H E) as (X & H').
    destruct (take_num j t') as [[y t2]|] eqn:E2; [|exact I]. destruct (take_num_held _ _ _ _ _ H' E2) as (Y & H2).
    destruct Ok_ as ((A & B & C & D) & (A' & B' & C' & D')). apply M; [exact H2| |].
    + intros z. apply held_combine; assumption.
    + intros p. refine (lp_kept _ _ _ (number_combine_fit k f x y nxy nx ny n dxy dx dy d (Fit _ X) (Fit _ Y) _)).
      repeat split; cbn; assumption || apply A || apply B || apply C || apply D || apply A' || apply B' || apply C' || apply D'.
  - destruct (take_num i t) as [[x t']|] eqn:E; [|exact I]. destruct (take_num_held _ _ _ _ _ H E) as (X & H').
    destruct (take_num j t') as [[y t2]|] eqn:E2; [|exact I]. destruct (take_num_held _ _ _ _ _ H' E2) as (Y & H2).
    destruct (number_compare k f x y) as [o|p|] eqn:R; cbn; auto.
    exact (lp_kept _ _ _ (number_compare_fit k f x y (Fit _ X) (Fit _ Y)) R).
  - destruct (take_num i t) as [[x t']|] eqn:E; [|exact I]. destruct (take_num_held _ _ _ _ _ H E) as (X & H').
    destruct (number_consume k f x) as [[[y|] m]|p|] eqn:R; cbn; auto.
    + refine (new_held (held_item k) _ _ _ _); [eapply held_consume; [exact X|exact R]|exact H'].
    + exact (lp_kept _ _ _ (number_consume_fit k f x (Fit _ X)) R).
  - destruct (take_num i t) as [[x t']|] eqn:E; [|exact I]. destruct (take_num_held _ _ _ _ _ H E) as (X & H').
    destruct x; cbn; auto.
  - destruct (take_num i t) as [[x t']|] eqn:E; [|exact I]. destruct (take_num_held _ _ _ _ _ H E) as (X & H').
    destruct x as [s|p c]; cbn; auto. refine (new_held (held_item k) _ _ _ _); [eapply other_held, X|exact H'].
  - destruct (take_num i t) as [[x t']|] eqn:E; [|exact I]. destruct (take_num_held _ _ _ _ _ H E) as (X & H').
    destruct x as [s|p c]; cbn; auto. refine (new_held (held_item k) _ _ _ _); [eapply other_held, X|exact H'].
  - destruct (N i eq_refl).
Qed.

Lemma step_u_held k f t o : op_ok k o -> cells_held k t ->
  match step_u k f t o with
  | Some (Done _ t') => cells_held k t'
  | Some (Broke p t') => own_fault o p /\ cells_held k t'
  | _ => True
  end.
Proof.
  intros Ok_ H. assert (D : (exists i, o = OEgest i) \/ forall i, o <> OEgest i)
    by (destruct o; try (right; discriminate); left; eauto).
  destruct D as [(i & ->)|N].
  - unfold step_u. destruct (take_clog i t) as [[c t']|] eqn:E; [|exact I].
    destruct (take_clog_held _ _ _ _ _ H E) as (C & H').
    destruct (clog_egest_u k f c) as [o c'|p c'|] eqn:R; cbn [inside]; auto.
    + refine (put_held (held_item k) _ _ _ _ _); [|exact H']. cbn. eapply (held_egest k c f o c' C).
      rewrite <- clog_egest_forget, R. reflexivity.
    + split.
      * cbn. apply (lp_kept _ _ _ (egest_fit k f c (proj1 (held_fit k) c C))).
        rewrite <- clog_egest_forget, R. reflexivity.
      * refine (put_held (held_item k) _ _ _ _ _); [|exact H']. cbn. eapply (held_caught k c p c' C). exists f. exact R.
  - rewrite (step_u_after k f t o N). pose proof (step_held k f t o Ok_ H N) as S.
    destruct (step k f t o) as [[[t' e]|p|]|]; cbn; auto. split; [exact S|]. apply spent_held, H.
Qed.

Lemma own_fault_calm o p : own_fault o p -> p <> PUnwrapNone.
Proof. destruct o; cbn; try (intros (A & _); exact A); intros ->; discriminate. Qed.

Lemma run_u_held k f ac : Forall (action_ok k) ac -> forall t, cells_held k t ->
  ~ In (Caught PUnwrapNone) (fst (run_u k f t ac)) /\
  (forall t', snd (run_u k f t ac) = Some (Ok t') -> cells_held k t').
Proof.
  induction 1 as [|[o|i] ac Ok_ _ IH]; intros t H; cbn [run_u].
  - split; [intros []|]. intros t' [= <-]. exact H.
  - pose proof (step_u_held k f t o Ok_ H) as S.
    destruct (step_u k f t o) as [[e t'|p t'|]|]; try (split; [intros []|discriminate]).
    + destruct (IH t' S) as (A & B). destruct (run_u k f t' ac) as [es d]. cbn in *. split; [|exact B].
      intros [[=]|I]. apply A, I.
    + destruct S as (Fa & S). destruct (IH t' S) as (A & B). destruct (run_u k f t' ac) as [es d]. cbn in *. split; [|exact B].
      intros [[= ->]|I]; [|apply A, I]. apply (own_fault_calm _ _ Fa). reflexivity.
  - destruct (take i t) as [[x t']|] eqn:E; [|split; [intros []|discriminate]].
    apply IH. exact (proj2 (take_held (held_item k) _ _ _ _ E H)).
Qed.
