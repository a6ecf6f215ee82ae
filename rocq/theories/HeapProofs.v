(** * HeapProofs: the reference counts are always one. *)

From Coq Require Import ZArith Bool List Arith Lia Permutation.
From Verif Require Import Machine Protocol Support Types Ratio Homographic Combine Lib SpecHist History
  Heap SpecHeap.
Import ListNotations.

(** ** Assertions about a part of the heap *)

Definition asrt := heap -> list nat -> Prop.

Definition emp : asrt := fun _ l => l = [].
Definition star (P Q : asrt) : asrt :=
  fun h l => exists l1 l2, Permutation l (l1 ++ l2) /\ P h l1 /\ Q h l2.
Definition own (s : sclog) (c : clog) : asrt :=
  fun h l => exists l0, Permutation l l0 /\ owns h s c l0.
Definition box (a : nat) (c : clog) : asrt :=
  fun h l => exists s l0, Permutation l (a :: l0) /\ at_ h a = Some (RcBox 1 s) /\ owns h s c l0.
Definition pure (p : Prop) (P : asrt) : asrt := fun h l => p /\ P h l.

Definition local (P : asrt) : Prop :=
  forall h h' l, P h l -> (forall a, In a l -> at_ h' a = at_ h a) -> P h' l.

Definition fits (h : heap) (l : list nat) : Prop :=
  NoDup l /\ (forall a, In a l -> (a < next h)%nat) /\ (forall a, (next h <= a)%nat -> at_ h a = None).

Record moves (h : heap) (l : list nat) (h' : heap) (l' : list nat) : Prop := Moves {
  m_next : (next h <= next h')%nat;
  m_rest : forall a, (a < next h)%nat -> ~ In a l -> at_ h' a = at_ h a;
  m_from : forall a, In a l' -> In a l \/ (next h <= a)%nat;
  m_gone : forall a, In a l \/ (next h <= a)%nat -> ~ In a l' -> at_ h' a = None;
  m_fits : fits h' l' }.

Lemma moves_refl h l l' : fits h l -> Permutation l l' -> moves h l h l'.
Proof.
  intros (N & B & F) P. split; auto.
  - intros a I. left. eapply Permutation_in; [apply Permutation_sym, P|apply I].
  - intros a [I|I] No; [|auto]. exfalso. apply No. eapply Permutation_in; eauto.
  - repeat split; auto; [eapply Permutation_NoDup; eauto|].
    intros a I. apply B. eapply Permutation_in; [apply Permutation_sym, P|apply I].
Qed.

Lemma moves_trans h l h1 l1 h2 l2 : moves h l h1 l1 -> moves h1 l1 h2 l2 -> moves h l h2 l2.
Proof.
  intros [N1 R1 F1 G1 (_ & B1 & _)] [N2 R2 F2 G2 T2]. split; auto.
  - lia.
  - intros a L No. rewrite R2; [auto|lia|]. intro I. destruct (F1 a I); [auto|lia].
  - intros a I. destruct (F2 a I) as [I'|I']; [auto|right; lia].
  - intros a I No. destruct (in_dec Nat.eq_dec a l1) as [I1|No1].
    + apply G2; auto.
    + destruct (Nat.lt_ge_cases a (next h1)) as [L|L].
      * rewrite R2; auto.
      * apply G2; auto.
Qed.

Lemma moves_perm h l k h' l' : Permutation l k -> moves h l h' l' -> moves h k h' l'.
Proof.
  intros P [N1 R1 F1 G1 T1]. split; auto.
  - intros a L No. apply R1; auto. intro I. apply No. eapply Permutation_in; eauto.
  - intros a I. destruct (F1 a I) as [J|J]; auto. left. eapply Permutation_in; eauto.
  - intros a [I|I] No; apply G1; auto. left. eapply Permutation_in; [apply Permutation_sym; eauto|auto].
Qed.

Lemma nodup_app {A} (l1 l2 : list A) :
  NoDup (l1 ++ l2) <-> NoDup l1 /\ NoDup l2 /\ (forall a, In a l1 -> ~ In a l2).
Proof.
  induction l1 as [|x l1 IH]; simpl.
  - split; [intro N|intros (_ & N & _)]; [repeat split; auto; constructor|auto].
  - rewrite !NoDup_cons_iff, IH, in_app_iff. clear IH. split.
    + intros (No & N1 & N2 & D). repeat split; auto. intros a [->|I]; auto.
    + intros ((No & N1) & N2 & D). repeat split; auto. intros [I|I]; [auto|]. eapply D; eauto.
Qed.

Lemma moves_frame h l h' l' g : fits h (l ++ g) -> moves h l h' l' -> moves h (l ++ g) h' (l' ++ g).
Proof.
  intros (N & B & F) [N1 R1 F1 G1 (N' & B' & F')]. apply nodup_app in N as (Nl & Ng & D). split; auto.
  - intros a L No. rewrite in_app_iff in No. apply R1; auto.
  - intros a I. rewrite in_app_iff in *. destruct I as [I|I]; [destruct (F1 a I)|]; auto.
  - intros a I No. rewrite in_app_iff in *. apply G1; [|tauto]. destruct I as [[I|I]|I]; auto. tauto.
  - repeat split; auto.
    + apply nodup_app. repeat split; auto. intros a I J. destruct (F1 a I) as [K|K].
      * eapply D; eauto.
      * specialize (B a). rewrite in_app_iff in B. specialize (B (or_intror J)). lia.
    + intros a I. apply in_app_iff in I as [I|I]; auto.
      specialize (B a). rewrite in_app_iff in B. specialize (B (or_intror I)). lia.
Qed.

Lemma fits_app h l g : fits h (l ++ g) -> fits h l.
Proof.
  intros (N & B & F). apply nodup_app in N as (Nl & Ng & D). repeat split; auto.
  intros a I. apply B, in_app_iff. auto.
Qed.

Lemma fits_perm h l g : Permutation l g -> fits h l -> fits h g.
Proof.
  intros P (N & B & F). repeat split; auto; [eapply Permutation_NoDup; eauto|].
  intros a I. apply B. eapply Permutation_in; [apply Permutation_sym, P|apply I].
Qed.

(** ** Locality *)

Lemma owns_local h h' s c l : owns h s c l -> (forall a, In a l -> at_ h' a = at_ h a) -> owns h' s c l.
Proof.
  induction 1 as [r|s c m l O IH|a b sx sy x y m lx ly A Ox IHx B Oy IHy]; intro E.
  - constructor.
  - constructor. auto.
  - econstructor.
    + rewrite E; [apply A|left; auto].
    + apply IHx. intros q I. apply E. right. apply in_app_iff. auto.
    + rewrite E; [apply B|]. right. apply in_app_iff. right. left. auto.
    + apply IHy. intros q I. apply E. right. apply in_app_iff. right. right. auto.
Qed.

Lemma local_own s c : local (own s c).
Proof.
  intros h h' l (l0 & P & O) E. exists l0. split; auto. eapply owns_local; eauto.
  intros a I. apply E. eapply Permutation_in; [apply Permutation_sym, P|apply I].
Qed.

Lemma local_box a c : local (box a c).
Proof.
  intros h h' l (s & l0 & P & A & O) E. exists s, l0. split; auto. split.
  - rewrite E; auto. eapply Permutation_in; [apply Permutation_sym, P|left; auto].
  - eapply owns_local; eauto.
    intros q I. apply E. eapply Permutation_in; [apply Permutation_sym, P|right; auto].
Qed.

Lemma local_star P Q : local P -> local Q -> local (star P Q).
Proof.
  intros LP LQ h h' l (l1 & l2 & Pm & HP & HQ) E. exists l1, l2. split; auto. split.
  - eapply LP; eauto. intros a I. apply E. eapply Permutation_in; [apply Permutation_sym, Pm|].
    apply in_app_iff. auto.
  - eapply LQ; eauto. intros a I. apply E. eapply Permutation_in; [apply Permutation_sym, Pm|].
    apply in_app_iff. auto.
Qed.

Lemma local_emp : local emp.
Proof. intros h h' l ->. reflexivity. Qed.

(** ** Triples: what an action on the heap comes to, beside the model without it *)

Definition ends {A B} (R : A -> B -> asrt) (h : heap) (l : list nat) (e : out A) (r : res B) : Prop :=
  match r with
  | Ok b => exists a h' l', e = Gives a h' /\ moves h l h' l' /\ R a b h' l'
  | Panic p => e = Faults (Usual p)
  | NoFuel => e = Starves
  end.

Definition triple {A B} (P : asrt) (e : act A) (r : res B) (R : A -> B -> asrt) : Prop :=
  forall h l, fits h l -> P h l -> ends R h l (e h) r.

Definition entails (P Q : asrt) : Prop := forall h l, P h l -> Q h l.

Lemma t_pre {A B} P P' (e : act A) (r : res B) R : entails P P' -> triple P' e r R -> triple P e r R.
Proof. intros E T h l F HP. apply T; auto. Qed.

Lemma t_post {A B} P (e : act A) (r : res B) R R' :
  (forall a b, entails (R a b) (R' a b)) -> triple P e r R -> triple P e r R'.
Proof.
  intros E T h l F HP. specialize (T h l F HP). destruct r as [b|p|]; auto.
  destruct T as (a & h' & l' & X & M & HR). exists a, h', l'. repeat split; auto; try apply M. apply E, HR.
Qed.

Lemma t_pure {A B} (p : Prop) P (e : act A) (r : res B) R : (p -> triple P e r R) -> triple (pure p P) e r R.
Proof. intros T h l F (Hp & HP). apply T; auto. Qed.

Lemma t_ret {A B} (P : asrt) (a : A) (b : B) (R : A -> B -> asrt) :
  entails P (R a b) -> triple P (ret a) (Ok b) R.
Proof. intros E h l F HP. exists a, h, l. split; auto. split; [apply moves_refl; auto|auto]. Qed.

Lemma t_bind {A B A' B'} P (e : act A) (r : res B) (f : A -> act A') (g : B -> res B') Q R :
  triple P e r Q -> (forall a b, triple (Q a b) (f a) (g b) R) -> triple P (seq e f) (bind r g) R.
Proof.
  intros T1 T2 h l F HP. specialize (T1 h l F HP). unfold seq. destruct r as [b|p|]; simpl in *.
  - destruct T1 as (a & h1 & l1 & -> & M1 & HQ). specialize (T2 a b h1 l1 (m_fits _ _ _ _ M1) HQ).
    destruct (g b) as [b'|p|]; simpl in *; auto.
    destruct T2 as (a' & h2 & l2 & -> & M2 & HR). exists a', h2, l2. split; auto. split; auto.
    eapply moves_trans; eauto.
  - rewrite T1. reflexivity.
  - rewrite T1. reflexivity.
Qed.

(** An action that the model without a heap does not have. *)
Lemma t_more {A A' B} P (e : act A) (f : A -> act A') (r : res B) Q R :
  triple P e (Ok tt) Q -> (forall a, triple (Q a tt) (f a) r R) -> triple P (seq e f) r R.
Proof.
  intros T1 T2. change r with (bind (Ok tt) (fun _ => r)). eapply t_bind; [apply T1|]. intros a []. apply T2.
Qed.

Lemma t_lift {A A' B'} P (r : res A) (f : A -> act A') (g : A -> res B') R :
  (forall a, triple P (f a) (g a) R) -> triple P (seq (lift r) f) (bind r g) R.
Proof.
  intros T h l F HP. unfold seq, lift. destruct r as [a|p|]; simpl; auto. apply T; auto.
Qed.

Lemma t_fail {A B} P p (R : A -> B -> asrt) : triple P (fail (Usual p)) (Panic p) R.
Proof. intros h l F HP. reflexivity. Qed.

Lemma t_starve {A B} P (R : A -> B -> asrt) : triple P (fun _ => Starves) NoFuel R.
Proof. intros h l F HP. reflexivity. Qed.

Lemma t_frame {A B} P (e : act A) (r : res B) R G : local G ->
  triple P e r R -> triple (star P G) e r (fun a b => star (R a b) G).
Proof.
  intros L T h l F (l1 & l2 & Pm & HP & HG).
  pose proof (fits_perm _ _ _ Pm F) as F'.
  specialize (T h l1 (fits_app _ _ _ F') HP). destruct r as [b|p|]; simpl in *; auto.
  destruct T as (a & h' & l1' & E & M & HR). exists a, h', (l1' ++ l2). split; auto. split.
  - eapply moves_perm; [apply Permutation_sym, Pm|]. apply moves_frame; auto.
  - exists l1', l2. split; auto. split; auto. eapply L; [apply HG|]. intros q I.
    destruct F' as (N & Bd & _). apply nodup_app in N as (_ & _ & D). apply M.
    + apply Bd, in_app_iff. auto.
    + intro J. eapply D; eauto.
Qed.

Lemma star_comm P Q : entails (star P Q) (star Q P).
Proof.
  intros h l (l1 & l2 & Pm & HP & HQ). exists l2, l1. split; auto.
  eapply Permutation_trans; [apply Pm|apply Permutation_app_comm].
Qed.

Lemma star_assoc P Q R : entails (star P (star Q R)) (star (star P Q) R).
Proof.
  intros h l (l1 & l2 & Pm & HP & l3 & l4 & Pm' & HQ & HR). exists (l1 ++ l3), l4. split.
  - eapply Permutation_trans; [apply Pm|]. rewrite <- app_assoc. apply Permutation_app_head, Pm'.
  - split; auto. exists l1, l3. auto.
Qed.

Lemma star_assoc' P Q R : entails (star (star P Q) R) (star P (star Q R)).
Proof.
  intros h l (l1 & l2 & Pm & (l3 & l4 & Pm' & HP & HQ) & HR). exists l3, (l4 ++ l2). split.
  - eapply Permutation_trans; [apply Pm|]. rewrite app_assoc. apply Permutation_app_tail, Pm'.
  - split; auto. exists l4, l2. auto.
Qed.

Lemma star_pure p P Q : entails (star (pure p P) Q) (pure p (star P Q)).
Proof. intros h l (l1 & l2 & Pm & (Hp & HP) & HQ). split; auto. exists l1, l2. auto. Qed.

Lemma star_emp (Q : asrt) : (forall h l l', Permutation l l' -> Q h l' -> Q h l) -> entails (star emp Q) Q.
Proof. intros C h l (l1 & l2 & Pm & E & HQ). red in E. subst l1. eapply C; eauto. Qed.

(** ** Reference counts *)

Lemma own_box a b x y m : entails (own (SCombine a b m) (CCombine x y m)) (star (box a x) (box b y)).
Proof.
  intros h l (l0 & P & O). inversion O as [| |a' b' sx sy x' y' m' lx ly A Ox B Oy]; subst.
  exists (a :: lx), (b :: ly). split; [exact P|]. split; eexists _, _; repeat split; eauto.
Qed.

Lemma box_own a b x y m : entails (star (box a x) (box b y)) (own (SCombine a b m) (CCombine x y m)).
Proof.
  intros h l (l1 & l2 & P & (sx & lx & Px & A & Ox) & (sy & ly & Py & B & Oy)).
  exists (a :: lx ++ b :: ly). split.
  - eapply Permutation_trans; [apply P|]. change (a :: lx ++ b :: ly) with ((a :: lx) ++ b :: ly).
    apply Permutation_app; auto.
  - econstructor; eauto.
Qed.

Lemma set_at_eq h a b : at_ (set_at a b h) a = b.
Proof. simpl. rewrite Nat.eqb_refl. reflexivity. Qed.
Lemma set_at_neq h a b q : q <> a -> at_ (set_at a b h) q = at_ h q.
Proof. intro N. simpl. apply Nat.eqb_neq in N. rewrite N. reflexivity. Qed.

Lemma own_perm s c h l l' : Permutation l l' -> own s c h l' -> own s c h l.
Proof. intros P (l0 & P' & O). exists l0. split; auto. eapply Permutation_trans; eauto. Qed.
Lemma box_perm a c h l l' : Permutation l l' -> box a c h l' -> box a c h l.
Proof. intros P (s & l0 & P' & O). exists s, l0. split; auto. eapply Permutation_trans; eauto. Qed.

(** The box is changed, the value is taken over. *)
Lemma fits_cons h a l : fits h (a :: l) -> ~ In a l /\ (a < next h)%nat /\ fits h l.
Proof.
  intros (N & B & F). apply NoDup_cons_iff in N as (No & N). repeat split; auto.
  - apply B. left. auto.
  - intros q I. apply B. right. auto.
Qed.

(** Moving the value out frees the box. *)
Lemma moves_free h a l : fits h (a :: l) -> moves h (a :: l) (set_at a None h) l.
Proof.
  intro F. pose proof (fits_cons _ _ _ F) as (No & L & (N & B & Fr)). split; simpl; auto.
  - intros q Lq Nq. apply (set_at_neq h a None). intros ->. apply Nq. left. auto.
  - intros q [[<-|I]|I] Nq.
    + rewrite Nat.eqb_refl. reflexivity.
    + destruct (Nq I).
    + destruct (Nat.eqb q a); auto.
  - repeat split; auto. intros q I. simpl. destruct (Nat.eqb q a); auto.
Qed.

Lemma t_new s c : triple (own s c) (rc_new s) (Ok tt) (fun a _ => box a c).
Proof.
  intros h l (N & B & F) (l0 & P & O). exists (next h). eexists. exists (next h :: l). split; [reflexivity|].
  assert (No : ~ In (next h) l) by (intro I; specialize (B _ I); lia). split.
  - split; simpl; auto.
    + intros a L Na. assert (E : Nat.eqb a (next h) = false) by (apply Nat.eqb_neq; lia). rewrite E. auto.
    + intros a [<-|I]; auto.
    + intros a I Na. assert (E : Nat.eqb a (next h) = false) by (apply Nat.eqb_neq; intros ->; apply Na; auto).
      rewrite E. destruct I as [I|I]; [exfalso; auto|auto].
    + repeat split; simpl; auto.
      * constructor; auto.
      * intros a [<-|I]; [lia|]. specialize (B a I). lia.
      * intros a I. assert (E : Nat.eqb a (next h) = false) by (apply Nat.eqb_neq; lia). rewrite E. apply F. lia.
  - exists s, l0. split; [constructor; auto|]. split.
    + simpl. rewrite Nat.eqb_refl. reflexivity.
    + eapply owns_local; eauto. intros a I. simpl.
      assert (E : Nat.eqb a (next h) = false). { apply Nat.eqb_neq. intros ->. apply No.
        eapply Permutation_in; [apply Permutation_sym, P|apply I]. }
      rewrite E. reflexivity.
Qed.

Lemma t_try_unwrap a c : triple (box a c) (rc_try_unwrap a) (Ok tt) (fun s _ => own s c).
Proof.
  intros h l F (s & l0 & P & A & O). exists s, (set_at a None h), l0. split.
  - unfold rc_try_unwrap. rewrite A. reflexivity.
  - pose proof (fits_perm _ _ _ P F) as F'. split.
    + eapply moves_perm; [apply Permutation_sym, P|]. apply moves_free; auto.
    + exists l0. split; auto. eapply owns_local; eauto. intros q I. apply set_at_neq. intros ->.
      apply fits_cons in F' as (No & _). auto.
Qed.

(** ** Dropping *)

Lemma drop_nested_eq n s : drop_nested n s =
  match s with
  | SRatio _ => ret tt
  | SHomographic x _ => drop_nested n x
  | SCombine x y _ =>
      match n with
      | O => fun _ => Starves
      | S n => let* _ := drop_rc_with (drop_nested n) x in drop_rc_with (drop_nested n) y
      end
  end.
Proof. destruct n, s; reflexivity. Qed.

(** With room for [n] nested boxes everything of [c] is freed. *)
Lemma drop_nested_spec s c l : forall n h, owns h s c l -> fits h l -> (length l <= n)%nat ->
  exists h', drop_nested n s h = Gives tt h' /\ moves h l h' [].
Proof.
  intros n. revert s c l. induction n as [n IHn] using lt_wf_ind. intros s c l h O. revert n IHn.
  induction O as [r|s c m l O IH|a b sx sy x y m lx ly A Ox _ B Oy _]; intros n IHn F Le; rewrite drop_nested_eq.
  - exists h. split; [reflexivity|]. apply moves_refl; auto.
  - apply IH; auto.
  - simpl in Le. rewrite app_length in Le. simpl in Le. destruct n as [|n]; [lia|].
    pose proof (fits_cons _ _ _ F) as (No & L & F1).
    pose proof (moves_free _ _ _ F) as M1. set (h1 := set_at a None h) in *.
    pose proof (m_fits _ _ _ _ M1) as F1'.
    assert (Ox1 : owns h1 sx x lx).
    { eapply owns_local; eauto. intros q I. apply set_at_neq. intros ->. apply No, in_app_iff. auto. }
    destruct (IHn n (Nat.lt_succ_diag_r n) sx x lx h1 Ox1 (fits_app _ _ _ F1') ltac:(lia)) as (h2 & E2 & M2).
    pose proof (moves_frame _ _ _ _ _ F1' M2) as M2'. simpl in M2'.
    assert (Same : forall q, In q (b :: ly) -> at_ h2 q = at_ h q).
    { intros q I. assert (Iq : In q (lx ++ b :: ly)) by (apply in_app_iff; auto).
      destruct F1' as (N1 & B1 & _). apply nodup_app in N1 as (_ & _ & D).
      rewrite (m_rest _ _ _ _ M2); [|apply B1; auto|intro J; eapply D; eauto].
      apply set_at_neq. intros ->. auto. }
    pose proof (m_fits _ _ _ _ M2') as F2.
    pose proof (moves_free _ _ _ F2) as M3. set (h3 := set_at b None h2) in *.
    assert (Oy3 : owns h3 sy y ly).
    { eapply owns_local; eauto. intros q I. unfold h3. rewrite set_at_neq; [apply Same; right; auto|].
      intros ->. apply fits_cons in F2 as (No2 & _). auto. }
    destruct (IHn n (Nat.lt_succ_diag_r n) sy y ly h3 Oy3 (m_fits _ _ _ _ M3) ltac:(lia)) as (h4 & E4 & M4).
    exists h4. split.
    + unfold seq, drop_rc_with. rewrite A. fold h1. rewrite E2. rewrite (Same b (or_introl eq_refl)), B. exact E4.
    + eapply moves_trans; [apply M1|]. eapply moves_trans; [apply M2'|]. eapply moves_trans; eauto.
Qed.

Lemma fits_length h l : fits h l -> (length l <= next h)%nat.
Proof.
  intros (N & B & _). rewrite <- (seq_length (next h) 0). apply NoDup_incl_length; auto.
  intros a I. apply in_seq. specialize (B a I). lia.
Qed.

Lemma t_drop s c : triple (own s c) (drop_clog s) (Ok tt) (fun _ _ => emp).
Proof.
  intros h l F (l0 & P & O). pose proof (fits_perm _ _ _ P F) as F'.
  destruct (drop_nested_spec s c l0 (S (next h)) h O F') as (h' & E & M).
  { pose proof (fits_length _ _ F'). lia. }
  exists tt, h', []. split; [exact E|]. split; [|reflexivity].
  eapply moves_perm; [apply Permutation_sym, P|]. exact M.
Qed.

Lemma t_drop_rc a c : triple (box a c) (drop_rc a) (Ok tt) (fun _ _ => emp).
Proof.
  intros h l F (s & l0 & P & A & O). pose proof (fits_perm _ _ _ P F) as F'.
  pose proof (moves_free _ _ _ F') as M1. pose proof (m_fits _ _ _ _ M1) as F1.
  destruct (drop_nested_spec s c l0 (S (next h)) (set_at a None h)) as (h' & E & M); auto.
  { eapply owns_local; eauto. intros q I. apply set_at_neq. intros ->.
    apply fits_cons in F' as (No & _). auto. }
  { pose proof (fits_length _ _ F'). simpl in *. lia. }
  exists tt, h', []. split.
  - unfold drop_rc, drop_rc_with. rewrite A. exact E.
  - split; [|reflexivity]. eapply moves_perm; [apply Permutation_sym, P|]. eapply moves_trans; eauto.
Qed.

(** ** Rules with a frame *)

Lemma t_bind_fr {A B A' B'} P G (e : act A) (r : res B) (f : A -> act A') (g : B -> res B') Q R :
  local G -> triple P e r Q -> (forall a b, triple (star (Q a b) G) (f a) (g b) R) ->
  triple (star P G) (seq e f) (bind r g) R.
Proof. intros L T1 T2. eapply t_bind; [apply t_frame; [apply L|apply T1]|]. apply T2. Qed.

Lemma t_more_fr {A A' B} P G (e : act A) (f : A -> act A') (r : res B) Q R :
  local G -> triple P e (Ok tt) Q -> (forall a, triple (star (Q a tt) G) (f a) r R) ->
  triple (star P G) (seq e f) r R.
Proof. intros L T1 T2. eapply t_more; [apply t_frame; [apply L|apply T1]|]. apply T2. Qed.

Lemma t_comm {A B} P Q (e : act A) (r : res B) R : triple (star Q P) e r R -> triple (star P Q) e r R.
Proof. apply t_pre, star_comm. Qed.

Lemma t_pure_fr {A B} (p : Prop) P G (e : act A) (r : res B) R :
  (p -> triple (star P G) e r R) -> triple (star (pure p P) G) e r R.
Proof. intro T. eapply t_pre; [apply star_pure|]. apply t_pure, T. Qed.

Definition perm_closed (P : asrt) : Prop := forall h l l', Permutation l l' -> P h l' -> P h l.

(** ** Values beside values *)

Definition own_num (n : snumber) (n' : number) : asrt :=
  match n, n' with
  | SNSpecial s, NSpecial s' => pure (s = s') emp
  | SNOther p s, NOther p' c => pure (p = p') (own s c)
  | _, _ => fun _ _ => False
  end.

Definition own_hom (v : option (sclog * hcoef)) (v' : option (clog * hcoef)) : asrt :=
  match v, v' with
  | None, None => emp
  | Some (s, m), Some (c, m') => pure (m = m') (own s c)
  | _, _ => fun _ _ => False
  end.

Definition own_made (v : sh_made) (v' : h_made) : asrt :=
  pure (fst v = fst v') (own_hom (snd v) (snd v')).

Definition own_com (v : option (nat * nat * ccoef)) (v' : option (clog * clog * ccoef)) : asrt :=
  match v, v' with
  | None, None => emp
  | Some (a, b, m), Some (x, y, m') => pure (m = m') (star (box a x) (box b y))
  | _, _ => fun _ _ => False
  end.

Definition own_cmade (v : sc_made) (v' : c_made) : asrt :=
  pure (fst (fst v) = fst (fst v')) (star (own_hom (snd (fst v)) (snd (fst v'))) (own_com (snd v) (snd v'))).

Definition own_sym (p : option reduction * sclog) (q : option reduction * clog) : asrt :=
  pure (fst p = fst q) (own (snd p) (snd q)).

Lemma local_pure p P : local P -> local (pure p P).
Proof. intros L h h' l (Hp & HP) E. split; auto. eapply L; eauto. Qed.

Lemma local_false : local (fun _ _ => False).
Proof. intros h h' l []. Qed.

Lemma local_num n n' : local (own_num n n').
Proof.
  destruct n, n'; simpl; try apply local_false; apply local_pure; [apply local_emp|apply local_own].
Qed.

Lemma local_hom v v' : local (own_hom v v').
Proof.
  destruct v as [[s m]|], v' as [[c m']|]; simpl; try apply local_false.
  - apply local_pure, local_own.
  - apply local_emp.
Qed.

Lemma local_made v v' : local (own_made v v').
Proof. apply local_pure, local_hom. Qed.

Lemma emp_perm : perm_closed emp.
Proof. intros h l l' P E. red in E. subst l'. apply Permutation_sym, Permutation_nil in P. exact P. Qed.

Lemma pure_perm p P : perm_closed P -> perm_closed (pure p P).
Proof. intros C h l l' Pm (Hp & HP). split; auto. eapply C; eauto. Qed.

Lemma hom_perm v v' : perm_closed (own_hom v v').
Proof.
  destruct v as [[s m]|], v' as [[c m']|]; simpl; try (intros ? ? ? ? []; fail).
  - apply pure_perm. intros h l l' P O. eapply own_perm; eauto.
  - apply emp_perm.
Qed.

Lemma made_perm v v' : perm_closed (own_made v v').
Proof. apply pure_perm, hom_perm. Qed.

Lemma star_perm P Q : perm_closed (star P Q).
Proof.
  intros h l l' Pm (l1 & l2 & Pm' & H). exists l1, l2. split; auto. eapply Permutation_trans; eauto.
Qed.

Lemma emp_star P : entails P (star emp P).
Proof. intros h l HP. exists [], l. split; [apply Permutation_refl|]. split; [reflexivity|auto]. Qed.

Lemma star_mono P P' Q : entails P P' -> entails (star P Q) (star P' Q).
Proof. intros E h l (l1 & l2 & Pm & HP & HQ). exists l1, l2. auto. Qed.

Lemma entails_refl P : entails P P.
Proof. intros h l H. exact H. Qed.

(** ** The operands *)

Section WithEgest.
  Variable k : cfg.
  Variable eg : sclog -> act (option reduction * sclog).
  Variable eg' : clog -> res (option reduction * clog).
  Hypothesis Eg : forall s c, triple (own s c) (eg s) (eg' c) own_sym.

  Lemma t_rc_egest a c :
    triple (box a c) (rc_egest eg a) (eg' c) (fun o q => pure (o = fst q) (box a (snd q))).
  Proof.
    intros h l F (s & l0 & P & A & O). pose proof (fits_perm _ _ _ P F) as F'.
    pose proof (fits_cons _ _ _ F') as (No & L & F0).
    pose proof (Eg s c h l0 F0) as T. specialize (T (ex_intro _ l0 (conj (Permutation_refl _) O))).
    unfold rc_egest, seq, rc_get_mut. rewrite A. destruct (eg' c) as [[o c']|p|]; simpl in *.
    - destruct T as ([o1 s'] & h1 & l1 & -> & M & (E & l1' & P1 & O1)). simpl in E, O1. subst o1.
      assert (Fp : fits h (l0 ++ [a])).
      { eapply fits_perm; [|apply F']. apply Permutation_cons_append. }
      pose proof (moves_frame _ _ _ _ _ Fp M) as M1.
      assert (A1 : at_ h1 a = Some (RcBox 1 s)) by (rewrite (m_rest _ _ _ _ M); auto).
      unfold rc_write. rewrite A1. eexists _, _, (a :: l1). split; [reflexivity|].
      pose proof (m_fits _ _ _ _ M1) as F1.
      assert (F1' : fits h1 (a :: l1)).
      { eapply fits_perm; [|apply F1]. apply Permutation_sym, Permutation_cons_append. }
      pose proof (fits_cons _ _ _ F1') as (No1 & L1 & _). split.
      + apply moves_trans with (h1 := h1) (l1 := a :: l1).
        * eapply moves_perm; [apply Permutation_sym, P|].
          eapply moves_perm; [apply Permutation_sym, Permutation_cons_append|].
          eapply moves_trans; [apply M1|]. apply moves_refl; auto. apply Permutation_sym, Permutation_cons_append.
        * split; auto.
          -- intros q Lq Nq. apply set_at_neq. intros ->. apply Nq. left. auto.
          -- intros q [I|I] Nq; [destruct (Nq I)|]. rewrite set_at_neq; [apply F1', I|].
             intros ->. apply Nq. left. auto.
          -- destruct F1' as (N & B & Fr). repeat split; auto.
             intros q I. rewrite set_at_neq; [apply Fr, I|]. intros ->. simpl in I. lia.
      + split; [reflexivity|]. exists s', l1'. split; [constructor; auto|]. split; [apply set_at_eq|].
        eapply owns_local; eauto. intros q I. apply set_at_neq. intros ->. apply No1.
        eapply Permutation_in; [apply Permutation_sym, P1|auto].
    - rewrite T. reflexivity.
    - rewrite T. reflexivity.
  Qed.

  (** ** Homographic *)

  Lemma t_h_prime_ingest x c m :
    triple (own x c) (h_prime_ingest_s k eg x m) (h_prime_ingest k eg' c m)
      (fun v v' =>
         match v, v' with
         | inl (w, x'), inl w' => fun h l => w = w' /\ exists c', own x' c' h l
         | inr (x', m'), inr (c', m'') => pure (m' = m'') (own x' c')
         | _, _ => fun _ _ => False
         end).
  Proof.
    unfold h_prime_ingest_s, h_prime_ingest. eapply t_bind; [apply Eg|]. intros [o x'] [o' c'].
    apply t_pure. simpl. intros ->. destruct o' as [[]|].
    - apply t_lift. intro m'. apply t_ret. intros h l O. split; auto.
    - apply t_lift. intro m'. apply t_ret. intros h l O. split; auto.
    - apply t_lift. intros [num den]. apply t_lift. intro v. apply t_ret. intros h l O. split; eauto.
  Qed.

  Lemma t_h_prime fuel : forall x c m,
    triple (own x c) (h_prime_s k eg fuel x m) (h_prime k eg' fuel c m) own_made.
  Proof.
    induction fuel as [|fuel IH]; intros x c m; [apply t_starve|]. simpl.
    apply t_lift. intro out. apply t_lift. intros [[p m']|].
    - apply t_ret. intros h l O. split; [reflexivity|]. split; auto.
    - eapply t_bind; [apply t_h_prime_ingest|]. intros [[w x']|[x' m']] [w'|[c' m'']].
      + intros h l F (-> & c' & O). destruct w' as [[sp p] r]. revert h l F O.
        change (triple (own x' c') (let* _ := drop_clog x' in ret (sp, p, r, None)) (Ok (sp, p, r, None)) own_made).
        eapply t_more; [apply t_drop|]. intros []. apply t_ret. intros h l ->. split; reflexivity.
      + intros h l F [].
      + intros h l F [].
      + apply t_pure. intros ->. apply IH.
  Qed.

  Lemma t_h_as_ratio n d : triple emp (h_as_ratio_s k n d) (h_as_ratio k n d) own_made.
  Proof.
    unfold h_as_ratio_s, h_as_ratio. apply t_lift. intros [[sp p] r]. apply t_ret.
    intros h l ->. split; reflexivity.
  Qed.

  Lemma t_drop_number n n' : triple (own_num n n') (drop_number n) (Ok tt) (fun _ _ => emp).
  Proof.
    destruct n as [s|p s], n' as [s'|p' c]; simpl; try (intros h l F []; fail).
    - apply t_pure. intros _. apply t_ret, entails_refl.
    - apply t_pure. intros _. apply t_drop with (c := c).
  Qed.

  Lemma t_h_new fuel x x' nx n dx d :
    triple (own_num x x') (h_new_s k eg fuel x nx n dx d) (h_new k eg' fuel x' nx n dx d) own_made.
  Proof.
    unfold h_new_s, h_new. destruct ((nx =? 0)%Z && (dx =? 0)%Z).
    - replace (h_as_ratio k n d) with (let! v := h_as_ratio k n d in Ok v)
        by (destruct (h_as_ratio k n d); reflexivity).
      eapply t_pre; [apply emp_star|].
      eapply t_bind_fr; [apply local_num|apply t_h_as_ratio|]. intros v v'. apply t_comm.
      eapply t_more_fr; [apply local_made|apply t_drop_number|]. intros [].
      apply t_ret, star_emp, made_perm.
    - destruct x as [s|p s], x' as [s'|p' c]; simpl; try (intros h l F []; fail).
      + apply t_pure. intros ->. destruct s'.
        * apply t_lift. intro n'. apply t_lift. intro d'. apply t_h_as_ratio.
        * apply t_h_as_ratio.
        * apply t_lift. intro n'. apply t_lift. intro d'. apply t_h_as_ratio.
      + apply t_pure. intros ->. apply t_lift. intro m. apply t_h_prime.
  Qed.

  Lemma t_h_reduction_ingest x c m :
    triple (own x c) (h_reduction_ingest_s k eg x m) (h_reduction_ingest k eg' c m)
      (fun v v' =>
         match v, v' with
         | inl (r, x'), inl r' => fun h l => r = r' /\ exists c', own x' c' h l
         | inr (x', m'), inr (c', m'') => pure (m' = m'') (own x' c')
         | _, _ => fun _ _ => False
         end).
  Proof.
    unfold h_reduction_ingest_s, h_reduction_ingest. eapply t_bind; [apply Eg|]. intros [o x'] [o' c'].
    apply t_pure. simpl. intros ->. destruct o' as [[]|].
    - apply t_lift. intro m'. apply t_ret. intros h l O. split; auto.
    - apply t_lift. intro m'. apply t_ret. intros h l O. split; auto.
    - apply t_lift. intros [num den]. apply t_lift. intros [[[sp|] [p|]] [r|]]; try apply t_fail.
      apply t_ret. intros h l O. split; eauto.
  Qed.

  (** What [Strategy::egest] gives back; something is left to drop. *)
  Definition own_egested (v : segested) (v' : egested) : asrt :=
    match v, v' with
    | SEmit o s, Emit o' c => pure (o = o') (own s c)
    | SBecome s old, Become c => fun h l => exists c0, star (own s c) (own old c0) h l
    | _, _ => fun _ _ => False
    end.

  Lemma t_h_egest fuel : forall x c m,
    triple (own x c) (h_egest_s k eg fuel x m) (h_egest k eg' fuel c m) own_egested.
  Proof.
    induction fuel as [|fuel IH]; intros x c m; [apply t_starve|]. simpl.
    apply t_lift. intro out. apply t_lift. intros [[o m']|].
    - apply t_ret. intros h l (l0 & P & O). split; [reflexivity|]. exists l0. split; auto. constructor. auto.
    - eapply t_bind; [apply t_h_reduction_ingest|]. intros [[r x']|[x' m']] [r'|[c' m'']];
        try (intros h l F []; fail).
      + intros h l F (-> & c' & O). revert h l F O.
        change (triple (own x' c') (ret (SBecome (SRatio r') (SHomographic x' m))) (Ok (Become (CRatio r'))) own_egested).
        apply t_ret. intros h l (l0 & P & O). exists (CHomographic c' m), [], l. split; [apply Permutation_refl|]. split.
        * exists []. split; [constructor|constructor].
        * exists l0. split; auto. constructor. auto.
      + apply t_pure. intros ->. apply IH.
  Qed.

  (** ** Combine *)

  Lemma simple_ok : ratio_new_i k 1 2 = Ok (None, None, Some (MkRatio 1 2)).
  Proof. destruct k as [[] o]; reflexivity. Qed.

  (** The handle that is cloned, and dropped: the count goes to two and back. *)
  Lemma t_shutdown a c : triple (box a c) (c_shutdown_s k a) (c_shutdown k c)
    (fun v n => star (own_num (fst v) n) (box (snd v) (CRatio (MkRatio 1 2)))).
  Proof.
    intros h l F (s & l0 & P & A & O). pose proof (fits_perm _ _ _ P F) as F'.
    pose proof (fits_cons _ _ _ F') as (No & L & F0).
    unfold c_shutdown, c_simple_clog. rewrite simple_ok. simpl bind. set (b := next h).
    assert (Nb : a <> b) by (unfold b; lia).
    set (h1 := set_at b (Some (RcBox 1 (SRatio (MkRatio 1 2)))) (Heap (S b) (at_ (set_at a (Some (RcBox 2 s)) h)))).
    assert (A1 : at_ h1 a = Some (RcBox 2 s)).
    { unfold h1. rewrite set_at_neq; auto. unfold set_at. simpl. rewrite Nat.eqb_refl. reflexivity. }
    assert (Run : c_shutdown_s k a h = Gives (SNOther None s, b) (set_at a None (set_at a (Some (RcBox 1 s)) h1))).
    { unfold c_shutdown_s, seq, rc_clone. rewrite A. unfold c_simple_clog_s, seq. rewrite simple_ok.
      unfold lift, rc_new. change (next (set_at a (Some (RcBox 2 s)) h)) with b. fold h1.
      unfold drop_rc, drop_rc_with. rewrite A1. unfold rc_try_unwrap. rewrite set_at_eq. reflexivity. }
    rewrite Run. clear Run.
    eexists _, _, (l0 ++ [b]). split; [reflexivity|].
    assert (E : forall q, q <> a -> q <> b ->
              at_ (set_at a None (set_at a (Some (RcBox 1 s)) h1)) q = at_ h q).
    { intros q Na Nq. rewrite !set_at_neq; auto. unfold h1. rewrite set_at_neq; auto. simpl.
      apply Nat.eqb_neq in Na. rewrite Na. reflexivity. }
    assert (Eb : at_ (set_at a None (set_at a (Some (RcBox 1 s)) h1)) b = Some (RcBox 1 (SRatio (MkRatio 1 2)))).
    { rewrite !set_at_neq; auto. unfold h1. rewrite set_at_eq. reflexivity. }
    assert (Ea : at_ (set_at a None (set_at a (Some (RcBox 1 s)) h1)) a = None) by apply set_at_eq.
    set (h2 := set_at a None _) in *.
    assert (N2 : next h2 = S (next h)) by reflexivity.
    clearbody h2. clear h1 A1.
    assert (B0 : forall q, In q l0 -> q <> a /\ q <> b).
    { intros q I. split; [intros ->; auto|]. destruct F0 as (_ & B0 & _). specialize (B0 q I). unfold b. lia. }
    split.
    - eapply moves_perm; [apply Permutation_sym, P|]. destruct F0 as (Nd & Bd & Fr). split.
      + rewrite N2. lia.
      + intros q Lq Nq. apply E; [intros ->; apply Nq; left; auto|unfold b; lia].
      + intros q I. apply in_app_iff in I as [I|[<-|[]]]; [left; right; auto|right; unfold b; lia].
      + intros q I Nq. rewrite in_app_iff in Nq. simpl in Nq.
        destruct (Nat.eq_dec q a) as [->|Na]; auto.
        rewrite E; auto. destruct I as [[<-|I]|I]; [destruct (Na eq_refl)|tauto|].
        apply Fr. lia.
      + repeat split.
        * apply nodup_app. repeat split; auto; [constructor; [intros []|constructor]|].
          intros q I [<-|[]]. destruct (B0 _ I). auto.
        * intros q I. rewrite N2. apply in_app_iff in I as [I|[<-|[]]]; [specialize (Bd q I); lia|unfold b; lia].
        * intros q I. rewrite N2 in I. rewrite E; [apply Fr; lia| |unfold b; lia]. intros ->. lia.
    - exists l0, [b]. split; [apply Permutation_refl|]. split.
      + split; [reflexivity|]. exists l0. split; auto. eapply owns_local; eauto.
        intros q I. destruct (B0 q I). apply E; auto.
      + exists (SRatio (MkRatio 1 2)), []. split; auto. split; [exact Eb|constructor].
  Qed.

  Lemma t_c_prime_ingest fuel a b x y m :
    triple (star (box a x) (box b y)) (c_prime_ingest_s k eg fuel a b m) (c_prime_ingest k eg' fuel x y m)
      (fun v v' =>
         match v, v' with
         | inl w, inl w' => own_made w w'
         | inr m', inr (x', y', m'') => pure (m' = m'') (star (box a x') (box b y'))
         | _, _ => fun _ _ => False
         end).
  Proof.
    unfold c_prime_ingest_s, c_prime_ingest.
    eapply t_bind_fr; [apply local_box|apply t_rc_egest|]. intros o [o' x']. apply t_pure_fr. simpl. intros ->.
    destruct o' as [r|].
    - apply t_lift. intro m1. apply t_comm.
      eapply t_bind_fr; [apply local_box|apply t_rc_egest|]. intros o [o' y']. apply t_pure_fr. simpl. intros ->.
      destruct o' as [r'|].
      + apply t_lift. intro m2. apply t_ret. intros h l H. split; [reflexivity|]. apply star_comm, H.
      + apply t_lift. intro q. apply t_comm.
        eapply t_more_fr; [apply local_box|apply t_try_unwrap|]. intro s.
        eapply t_bind_fr; [apply local_box| |].
        * eapply t_pre; [|apply (t_h_new fuel (SNOther None s) (NOther None x'))]. intros h l O. split; auto.
        * intros v v'. apply t_comm. eapply t_more_fr; [apply local_made|apply t_drop_rc|]. intros [].
          apply t_ret, star_emp, made_perm.
    - apply t_lift. intro q. apply t_comm.
      eapply t_more_fr; [apply local_box|apply t_try_unwrap|]. intro s.
      eapply t_bind_fr; [apply local_box| |].
      + eapply t_pre; [|apply (t_h_new fuel (SNOther None s) (NOther None y))]. intros h l O. split; auto.
      + intros v v'. apply t_comm. eapply t_more_fr; [apply local_made|apply t_drop_rc|]. intros [].
        apply t_ret, star_emp, made_perm.
  Qed.

  Lemma t_c_prime fuel : forall a b x y m,
    triple (star (box a x) (box b y)) (c_prime_s k eg fuel a b m) (c_prime k eg' fuel x y m) own_cmade.
  Proof.
    induction fuel as [|fuel IH]; intros a b x y m; [apply t_starve|]. simpl.
    apply t_lift. intro out. apply t_lift. intros [[p m']|].
    - apply t_ret. intros h l H. split; [reflexivity|]. apply emp_star. split; [reflexivity|exact H].
    - eapply t_bind; [apply t_c_prime_ingest|].
      intros [[[[sp p] r] hm]|m'] [[[[sp' p'] r'] hm']|[[x' y'] m'']]; try (intros h l F []; fail).
      + apply t_pure. simpl. intros [= -> -> ->]. apply t_ret. intros h l H. split; [reflexivity|].
        apply star_comm, emp_star, H.
      + apply t_pure. intros ->. apply IH.
  Qed.

  Lemma t_c_as_homographic fuel x x' nx n dx d :
    triple (own_num x x') (c_as_homographic_s k eg fuel x nx n dx d)
      (c_as_homographic k eg' fuel x' nx n dx d) own_cmade.
  Proof.
    unfold c_as_homographic_s, c_as_homographic. eapply t_bind; [apply t_h_new|].
    intros [[[sp p] r] hm] [[[sp' p'] r'] hm'].
    apply t_pure. simpl. intros [= -> -> ->]. apply t_ret. intros h l H. split; [reflexivity|].
    apply star_comm, emp_star, H.
  Qed.

  Lemma t_c_new fuel x x' y y' a b c d e f g h :
    triple (star (own_num x x') (own_num y y')) (c_new_s k eg fuel x y a b c d e f g h)
      (c_new k eg' fuel x' y' a b c d e f g h) own_cmade.
  Proof.
    unfold c_new_s, c_new. destruct x as [sx|px sx].
    - destruct x' as [sx'|px' cx]; [|intros q l F (l1 & l2 & _ & [] & _)].
      apply t_pure_fr. intros ->.
      assert (N : forall A B (e : act A) (r : res B) R, triple (own_num y y') e r R -> triple (star emp (own_num y y')) e r R).
      { intros A B e0 r R. apply t_pre, star_emp. destruct y, y'; simpl; try (intros ? ? ? ? []; fail).
        - apply pure_perm, emp_perm.
        - apply pure_perm. intros ? ? ? P O. eapply own_perm; eauto. }
      apply N. destruct sx'; repeat (apply t_lift; intro); apply t_c_as_homographic.
    - destruct x' as [sx'|px' cx]; [intros q l F (l1 & l2 & _ & [] & _)|].
      destruct y as [sy|py sy].
      + destruct y' as [sy'|py' cy]; [|intros q l F (l1 & l2 & _ & _ & [])].
        apply t_comm. apply t_pure_fr. intros ->.
        assert (N : forall A B (e : act A) (r : res B) R, triple (own_num (SNOther px sx) (NOther px' cx)) e r R ->
                    triple (star emp (own_num (SNOther px sx) (NOther px' cx))) e r R).
        { intros A B e0 r R. apply t_pre, star_emp. simpl.
          apply pure_perm. intros ? ? ? P O. eapply own_perm; eauto. }
        apply N. destruct sy'; repeat (apply t_lift; intro); apply t_c_as_homographic.
      + destruct y' as [sy'|py' cy]; [intros q l F (l1 & l2 & _ & _ & [])|].
        apply t_pure_fr. intros ->. apply t_comm. apply t_pure_fr. intros ->. apply t_comm. simpl.
        apply t_lift. intro m1. apply t_lift. intro m2.
        eapply t_more_fr; [apply local_own|apply t_new|]. intro rx. apply t_comm.
        eapply t_more_fr; [apply local_box|apply t_new|]. intro ry. apply t_comm. apply t_c_prime.
  Qed.

  Lemma t_c_reduction_ingest fuel a b x y m :
    triple (star (box a x) (box b y)) (c_reduction_ingest_s k eg fuel a b m) (c_reduction_ingest k eg' fuel x y m)
      (fun v v' =>
         match v, v' with
         | inl (r, hm, (a', b')), inl (r', hm') => fun h l =>
             r = r' /\ exists c1 c2, star (own_hom hm hm') (star (box a' c1) (box b' c2)) h l
         | inr m', inr (x', y', m'') => pure (m' = m'') (star (box a x') (box b y'))
         | _, _ => fun _ _ => False
         end).
  Proof.
    unfold c_reduction_ingest_s, c_reduction_ingest.
    eapply t_bind_fr; [apply local_box|apply t_rc_egest|]. intros o [o' x']. apply t_pure_fr. simpl. intros ->.
    destruct o' as [r|].
    - apply t_lift. intro m1. apply t_comm.
      eapply t_bind_fr; [apply local_box|apply t_rc_egest|]. intros o [o' y']. apply t_pure_fr. simpl. intros ->.
      destruct o' as [r'|].
      + apply t_lift. intro m2. apply t_ret. intros h l H. split; [reflexivity|]. apply star_comm, H.
      + apply t_lift. intro q. apply t_comm.
        eapply t_bind_fr; [apply local_box|apply t_shutdown|]. intros [nx b'] nx'. simpl.
        eapply t_pre; [apply star_assoc'|].
        eapply t_bind_fr; [apply local_star; apply local_box|apply t_h_new|].
        intros [[[sp p] r1] hm] [[[sp' p'] r1'] hm']. apply t_pure_fr. simpl. intros [= -> -> ->].
        destruct sp' as [sp'|]; [apply t_fail|]. destruct p' as [p'|]; [apply t_fail|].
        apply t_ret. intros h l H. split; [reflexivity|]. eexists _, _. exact H.
    - apply t_lift. intro q. apply t_comm.
      eapply t_bind_fr; [apply local_box|apply t_shutdown|]. intros [nx b'] nx'. simpl.
      eapply t_pre; [apply star_assoc'|].
      eapply t_bind_fr; [apply local_star; apply local_box|apply t_h_new|].
      intros [[[sp p] r1] hm] [[[sp' p'] r1'] hm']. apply t_pure_fr. simpl. intros [= -> -> ->].
      destruct sp' as [sp'|]; [apply t_fail|]. destruct p' as [p'|]; [apply t_fail|].
      apply t_ret. intros h l (l1 & l2 & Pm & H1 & H2). split; [reflexivity|].
      eexists _, _. exists l1, l2. split; auto. split; auto. apply star_comm, H2.
  Qed.

  Lemma t_c_egest fuel : forall a b x y m,
    triple (star (box a x) (box b y)) (c_egest_s k eg fuel a b m) (c_egest k eg' fuel x y m) own_egested.
  Proof.
    induction fuel as [|fuel IH]; intros a b x y m; [apply t_starve|]. simpl.
    apply t_lift. intro out. apply t_lift. intros [[o m']|].
    - apply t_ret. intros h l H. split; [reflexivity|]. apply box_own, H.
    - eapply t_bind; [apply t_c_reduction_ingest|].
      intros [[[r hm] [a' b']]|m'] [[r' hm']|[[x' y'] m'']]; try (intros h l F []; fail).
      + intros h l F (-> & c1 & c2 & H). destruct hm as [[z q]|], hm' as [[z' q']|];
          try (destruct H as (? & ? & _ & [] & _); fail).
        * apply star_pure in H as (-> & l1 & l2 & Pm & (l0 & P0 & H1) & H2). destruct r' as [r'|];
            (eexists _, _, _; split; [reflexivity|]; split; [apply moves_refl; [exact F|apply Permutation_refl]|];
             exists (CCombine c1 c2 m), l1, l2; split; [exact Pm|]; split;
             [exists l0; split; [exact P0|constructor; exact H1]|apply box_own, H2]).
        * destruct r' as [r'|]; [|reflexivity]. destruct H as (l1 & l2 & Pm & H1 & H2).
          eexists _, _, _; split; [reflexivity|]; split; [apply moves_refl; [exact F|apply Permutation_refl]|].
          exists (CCombine c1 c2 m), l1, l2. split; [exact Pm|]. split; [|apply box_own, H2].
          change (l1 = []) in H1. subst l1. exists []. split; constructor.
      + apply t_pure. intros ->. apply IH.
  Qed.
End WithEgest.

(** ** The public API *)

Lemma t_clog_egest k fuel : forall s c,
  triple (own s c) (clog_egest_s k fuel s) (clog_egest k fuel c) own_sym.
Proof.
  induction fuel as [|fuel IH]; intros s c; [apply t_starve|]. simpl.
  assert (T : triple (own s c) (strategy_egest_s k (clog_egest_s k fuel) fuel s)
                (strategy_egest k (clog_egest k fuel) fuel c) own_egested).
  { intros h l F (l0 & P & O). destruct O as [r|s c m l0 O|a b sx sy x y m lx ly A Ox B Oy].
    - apply t_lift with (P := own (SRatio r) (CRatio r)); auto; [|exists []; split; [auto|constructor]].
      intros [o r']. apply t_ret. intros h' l' (l0 & P' & O). split; [reflexivity|].
      inversion O; subst. exists []. split; [auto|constructor].
    - apply (t_h_egest k _ _ IH); auto. exists l0. auto.
    - apply (t_c_egest k _ _ IH); auto. apply own_box with (m := m). eexists. split; [apply P|].
      econstructor; eauto. }
  eapply t_bind; [apply T|]. intros [o s'|s' old] [o' c'|c']; try (intros h l F []; fail).
  - apply t_pure. intros ->. apply t_ret. intros h l O. split; auto.
  - intros h l F (c0 & H). apply star_comm in H. revert h l F H.
    change (triple (star (own old c0) (own s' c')) (let* _ := drop_clog old in clog_egest_s k fuel s')
              (clog_egest k fuel c') own_sym).
    eapply t_more_fr; [apply local_own|apply t_drop|]. intros [].
    eapply t_pre; [|apply IH]. apply star_emp. intros h l l' P O. eapply own_perm; eauto.
Qed.

Lemma t_number_ratio_u pos num den :
  triple emp (number_ratio_u_s pos num den) (number_ratio_u pos num den) own_num.
Proof.
  unfold number_ratio_u_s, number_ratio_u. apply t_lift. intros [[[sp|] p] [r|]]; try apply t_fail;
    apply t_ret; intros h l ->; (split; [reflexivity|]); try reflexivity; exists []; split; constructor.
Qed.

Lemma t_number_ratio k num den : triple emp (number_ratio_s k num den) (number_ratio k num den) own_num.
Proof.
  unfold number_ratio_s, number_ratio. apply t_lift. intro n. apply t_lift. intro d. apply t_number_ratio_u.
Qed.

Lemma own_h_number p s c m : entails (own s c) (own_num (SNOther p (SHomographic s m)) (NOther p (CHomographic c m))).
Proof. intros h l (l0 & P & O). split; [reflexivity|]. exists l0. split; auto. constructor. auto. Qed.

Lemma own_r_number p r : entails emp (own_num (SNOther p (SRatio r)) (NOther p (CRatio r))).
Proof. intros h l ->. split; [reflexivity|]. exists []. split; constructor. Qed.

(** No part is there beside a special value or a ratio. *)
Definition plain_made (v' : h_made) : Prop :=
  match v' with
  | (Some _, _, _, hm) => hm = None
  | (_, _, Some _, hm) => hm = None
  | _ => True
  end.

Lemma h_prime_plain k eg fuel : forall x m v, h_prime k eg fuel x m = Ok v -> plain_made v.
Proof.
  induction fuel as [|fuel IH]; intros x m v E; [discriminate|]. simpl in E.
  destruct (h_are_singularities_outside_domain k m) as [o|p|]; try discriminate. simpl in E.
  destruct (if o then h_primer_egest k m else Ok None) as [[[p m']|]|p|]; try discriminate; simpl in E.
  - injection E as <-. exact I.
  - destruct (h_prime_ingest k eg x m) as [[[[sp p] r]|[x' m']]|p|]; try discriminate; simpl in E.
    + injection E as <-. destruct sp; [reflexivity|]. destruct r; reflexivity.
    + eapply IH; eauto.
Qed.

Lemma h_as_ratio_plain k n d v : h_as_ratio k n d = Ok v -> plain_made v.
Proof.
  unfold h_as_ratio. destruct (ratio_new_i k n d) as [[[sp p] r]|p|]; try discriminate. simpl.
  intros [= <-]. destruct sp; [reflexivity|]. destruct r; reflexivity.
Qed.

Lemma h_new_plain k eg fuel x nx n dx d v : h_new k eg fuel x nx n dx d = Ok v -> plain_made v.
Proof.
  unfold h_new. destruct ((nx =? 0)%Z && (dx =? 0)%Z); [apply h_as_ratio_plain|]. destruct x as [[]|p c].
  - destruct (checked_sub k n nx); try discriminate. simpl. destruct (checked_sub k d dx); try discriminate.
    apply h_as_ratio_plain.
  - apply h_as_ratio_plain.
  - destruct (checked_add k n nx); try discriminate. simpl. destruct (checked_add k d dx); try discriminate.
    apply h_as_ratio_plain.
  - simpl. destruct (h_absorb_primer k p (HC nx n dx d)); try discriminate. apply h_prime_plain.
Qed.

Lemma t_remember {A B} P (e : act A) (r : res B) R :
  (forall b, r = Ok b -> triple P e r R) -> (forall p, r = Panic p -> triple P e r R) ->
  (r = NoFuel -> triple P e r R) -> triple P e r R.
Proof. destruct r; eauto. Qed.

(** What the model without a heap returns may be used. *)
Lemma t_known {A B} P (e : act A) (r : res B) R :
  triple P e r R -> triple P e r (fun a b => pure (r = Ok b) (R a b)).
Proof.
  intros T h l F HP. specialize (T h l F HP). destruct r as [b|p|]; auto.
  destruct T as (a & h' & l' & E & M & H). exists a, h', l'. split; auto. split; auto. split; auto.
Qed.

Lemma t_number_homographic k fuel x x' nx n dx d :
  triple (own_num x x') (number_homographic_s k fuel x nx n dx d) (number_homographic k fuel x' nx n dx d) own_num.
Proof.
  unfold number_homographic_s, number_homographic.
  eapply t_bind; [apply t_known, (t_h_new k _ _ (t_clog_egest k fuel))|].
  intros [[[sp p] r] hm] [[[sp' p'] r'] hm']. apply t_pure. intro E. apply h_new_plain in E.
  apply t_pure. simpl. intros [= -> -> ->]. destruct sp' as [sp'|]; simpl in E.
  - subst hm'. destruct hm as [[s0 m0]|]; [intros h l F []|]. apply t_ret. intros h l ->. split; reflexivity.
  - destruct r' as [r'|].
    + subst hm'. destruct hm as [[s0 m0]|]; [intros h l F []|]. apply t_ret, own_r_number.
    + destruct hm as [[s m]|], hm' as [[c m']|]; try (intros h l F []; fail); [|apply t_fail].
      apply t_pure. intros ->. apply t_ret, own_h_number.
Qed.

Definition plain_cmade (v' : c_made) : Prop :=
  match v' with
  | (Some _, _, _, hm, cm) => hm = None /\ cm = None
  | (_, _, Some _, hm, cm) => hm = None /\ cm = None
  | (_, _, _, Some _, cm) => cm = None
  | _ => True
  end.

Lemma plain_as_c sp p r hm : plain_made (sp, p, r, hm) -> plain_cmade (sp, p, r, hm, None).
Proof. simpl. destruct sp; [auto|]. destruct r; [auto|]. destruct hm; auto. Qed.

Lemma c_prime_ingest_plain k eg fuel x y m v : c_prime_ingest k eg fuel x y m = Ok (inl v) -> plain_made v.
Proof.
  unfold c_prime_ingest. destruct (eg x) as [[o x']|p|]; try discriminate. simpl. destruct o as [r|].
  - destruct (match r with Amplify => _ | Uncover => _ end) as [m1|p|]; try discriminate. simpl.
    destruct (eg y) as [[o y']|p|]; try discriminate. simpl. destruct o as [r'|].
    + destruct (match r' with Amplify => _ | Uncover => _ end) as [m2|p|]; discriminate.
    + destruct (c_value_at_end_of_y k m1) as [q|p|]; try discriminate. cbn [bind].
      destruct (h_new _ _ _ _ _ _ _ _) as [w|p|] eqn:E; try discriminate. cbn [bind]. intros [= <-].
      eapply h_new_plain; eauto.
  - destruct (c_value_at_end_of_x k m) as [q|p|]; try discriminate. cbn [bind].
    destruct (h_new _ _ _ _ _ _ _ _) as [w|p|] eqn:E; try discriminate. cbn [bind]. intros [= <-].
    eapply h_new_plain; eauto.
Qed.

Lemma c_prime_plain k eg fuel : forall x y m v, c_prime k eg fuel x y m = Ok v -> plain_cmade v.
Proof.
  induction fuel as [|fuel IH]; intros x y m v E; [discriminate|]. cbn [c_prime] in E.
  destruct (c_are_singularities_outside_domain k m) as [o|p|]; try discriminate. cbn [bind] in E.
  destruct (if o then c_primer_egest k m else Ok None) as [[[p m']|]|p|]; try discriminate; cbn [bind] in E.
  - injection E as <-. exact I.
  - destruct (c_prime_ingest k eg fuel x y m) as [[[[[sp p] r] hm]|[[x' y'] m']]|p|] eqn:E1; try discriminate;
      cbn [bind] in E.
    + injection E as <-. apply plain_as_c. eapply c_prime_ingest_plain; eauto.
    + eapply IH; eauto.
Qed.

Lemma c_as_homographic_plain k eg fuel x nx n dx d v : c_as_homographic k eg fuel x nx n dx d = Ok v -> plain_cmade v.
Proof.
  unfold c_as_homographic. destruct (h_new k eg fuel x nx n dx d) as [[[[sp p] r] hm]|p|] eqn:E; try discriminate.
  simpl. intros [= <-]. apply plain_as_c. eapply h_new_plain; eauto.
Qed.

Lemma c_new_plain k eg fuel x y a b c d e f g h v : c_new k eg fuel x y a b c d e f g h = Ok v -> plain_cmade v.
Proof.
  unfold c_new. destruct x as [[]|px cx]; [| | |destruct y as [[]|py cy]];
    repeat match goal with
    | |- context [bind (checked_sub ?k ?u ?w) _] => destruct (checked_sub k u w); cbn [bind]; try discriminate
    | |- context [bind (checked_add ?k ?u ?w) _] => destruct (checked_add k u w); cbn [bind]; try discriminate
    end; try apply c_as_homographic_plain.
  simpl unwrap_other. cbn [bind].
  destruct (c_absorb_primer_x k px _) as [m1|p|]; try discriminate. cbn [bind].
  destruct (c_absorb_primer_y k py m1) as [m2|p|]; try discriminate. cbn [bind]. apply c_prime_plain.
Qed.

Lemma star_emp_emp P : perm_closed P -> entails (star P emp) P.
Proof. intros C h l H. apply star_comm in H. eapply star_emp; eauto. Qed.

Lemma t_number_combine k fuel x x' y y' nxy nx ny n dxy dx dy d :
  triple (star (own_num x x') (own_num y y')) (number_combine_s k fuel x y nxy nx ny n dxy dx dy d)
    (number_combine k fuel x' y' nxy nx ny n dxy dx dy d) own_num.
Proof.
  unfold number_combine_s, number_combine.
  eapply t_bind; [apply t_known, (t_c_new k _ _ (t_clog_egest k fuel))|].
  intros [[[[sp p] r] hm] cm] [[[[sp' p'] r'] hm'] cm']. apply t_pure. intro E. apply c_new_plain in E.
  apply t_pure. simpl. intros [= -> -> ->]. destruct sp' as [sp'|]; simpl in E.
  - destruct E as (-> & ->). destruct hm as [[s0 m0]|]; [intros h l F (? & ? & _ & [] & _)|].
    destruct cm as [[[a0 b0] m0]|]; [intros h l F (? & ? & _ & _ & [])|].
    eapply t_pre; [apply (star_emp_emp emp), emp_perm|]. apply t_ret. intros h l ->. split; reflexivity.
  - destruct r' as [r'|].
    + destruct E as (-> & ->). destruct hm as [[s0 m0]|]; [intros h l F (? & ? & _ & [] & _)|].
      destruct cm as [[[a0 b0] m0]|]; [intros h l F (? & ? & _ & _ & [])|].
      eapply t_pre; [apply (star_emp_emp emp), emp_perm|]. apply t_ret, own_r_number.
    + destruct hm' as [[c m']|].
      * subst cm'. destruct cm as [[[a0 b0] m0]|]; [intros h l F (? & ? & _ & _ & [])|].
        destruct hm as [[s m]|]; [|intros h l F (? & ? & _ & [] & _)].
        eapply t_pre; [apply (star_emp_emp (own_hom (Some (s, m)) (Some (c, m')))), hom_perm|].
        apply t_pure. intros ->. apply t_ret, own_h_number.
      * destruct hm as [[s m]|]; [intros h l F (? & ? & _ & [] & _)|].
        destruct cm as [[[a b] m]|], cm' as [[[cx cy] m']|];
          try (intros h l F (? & ? & _ & _ & []); fail); [|apply t_fail].
        apply t_comm, t_pure_fr. intros ->.
        eapply t_pre; [apply star_emp_emp, star_perm|]. apply t_ret. intros h l H. split; [reflexivity|].
        apply box_own, H.
Qed.

Lemma t_compare_clogs k fuel : forall s1 c1 s2 c2 pol,
  triple (star (own s1 c1) (own s2 c2)) (compare_clogs_s k fuel s1 s2 pol) (compare_clogs k fuel c1 c2 pol)
    (fun o o' => pure (o = o') emp).
Proof.
  induction fuel as [|fuel IH]; intros s1 c1 s2 c2 pol; [apply t_starve|]. simpl.
  eapply t_bind_fr; [apply local_own|apply t_clog_egest|]. intros [e1 s1'] [e1' c1'].
  apply t_pure_fr. simpl. intros ->. apply t_comm.
  eapply t_bind_fr; [apply local_own|apply t_clog_egest|]. intros [e2 s2'] [e2' c2'].
  apply t_pure_fr. simpl. intros ->.
  assert (St : forall o : comparison, triple (star (own s2' c2') (own s1' c1'))
                 (let* _ := drop_clog s2' in let* _ := drop_clog s1' in ret o) (Ok o) (fun o o' : comparison => pure (o = o') emp)).
  { intro o. eapply t_more_fr; [apply local_own|apply t_drop|]. intros [].
    eapply t_pre; [apply star_emp; intros h l l' P O; eapply own_perm; eauto|].
    eapply t_more; [apply t_drop|]. intros []. apply t_ret. intros h l H. split; auto. }
  destruct (option_eqb reduction_eqb e1' e2').
  - destruct e1' as [[]|].
    + apply t_comm, IH.
    + apply t_comm, IH.
    + apply St.
  - apply St.
Qed.

Lemma t_number_compare k fuel x x' y y' :
  triple (star (own_num x x') (own_num y y')) (number_compare_s k fuel x y) (number_compare k fuel x' y')
    (fun o o' => pure (o = o') emp).
Proof.
  unfold number_compare_s, number_compare.
  destruct x as [sx|px sx], x' as [sx'|px' cx]; try (intros h l F (? & ? & _ & [] & _); fail);
    destruct y as [sy|py sy], y' as [sy'|py' cy]; try (intros h l F (? & ? & _ & _ & []); fail);
    apply t_pure_fr; intros ->; apply t_comm, t_pure_fr; intros ->.
  - apply t_ret. intros h l H. split; [reflexivity|]. apply (star_emp_emp emp emp_perm), H.
  - eapply t_more_fr; [apply local_emp|apply t_drop|]. intros [].
    apply t_ret. intros h l H. split; [reflexivity|]. apply (star_emp_emp emp emp_perm), H.
  - apply t_comm. eapply t_more_fr; [apply local_emp|apply t_drop|]. intros [].
    apply t_ret. intros h l H. split; [reflexivity|]. apply (star_emp_emp emp emp_perm), H.
  - apply t_comm. unfold compare_others. eapply t_bind; [apply t_compare_clogs|]. intros o o'.
    apply t_pure. intros ->. apply t_ret. intros h l H. split; auto.
Qed.

Lemma t_k_consume k fuel : forall s c m,
  triple (own s c) (k_consume_s k fuel s m) (k_consume k fuel c m)
    (fun v v' => pure (snd v = snd v')
       (match fst v, fst v' with
        | None, None => emp
        | Some s', Some c' => own s' c'
        | _, _ => fun _ _ => False
        end)).
Proof.
  induction fuel as [|fuel IH]; intros s c m; [apply t_starve|]. simpl.
  eapply t_bind; [apply t_clog_egest|]. intros [o s'] [o' c']. apply t_pure. simpl. intros ->.
  destruct o' as [r|].
  - apply t_lift. intro m'. apply t_lift. intros [|].
    + apply t_ret. intros h l H. split; auto.
    + apply IH.
  - eapply t_more; [apply t_drop|]. intros []. apply t_ret. intros h l H. split; auto.
Qed.

Lemma t_number_consume k fuel x x' :
  triple (own_num x x') (number_consume_s k fuel x) (number_consume k fuel x')
    (fun v v' => pure (snd v = snd v')
       (match fst v, fst v' with
        | None, None => emp
        | Some n, Some n' => own_num n n'
        | _, _ => fun _ _ => False
        end)).
Proof.
  unfold number_consume_s, number_consume, consume_new.
  destruct x as [sx|px sx], x' as [sx'|px' cx]; try (intros h l F []; fail); apply t_pure; intros ->.
  - destruct sx'; apply t_ret; intros h l H; (split; [reflexivity|exact H]).
  - simpl unwrap_other. cbn [bind].
    destruct (h_absorb_primer k px' (HC 1 0 0 1)) as [m|p|] eqn:E; cbn [bind]; unfold lift, seq; [|apply t_fail|apply t_starve].
    eapply t_bind; [apply t_k_consume|]. intros [co m1] [co' m1']. apply t_pure. simpl. intros ->.
    apply t_ret. intros h l H. split; [reflexivity|]. destruct co as [s|], co' as [c|]; try (destruct H; fail); auto.
    split; auto.
Qed.

(** ** A client *)

Definition holds (s : scells) (t : cells) : asrt :=
  fun h l => exists l0, Permutation l l0 /\ owns_all h s t l0.

Definition own_it (x : sitem) (y : item) : asrt :=
  match x, y with
  | SINum n, INum n' => own_num n n'
  | SIClog s, IClog c => own s c
  | _, _ => fun _ _ => False
  end.

Lemma owns_item_local h h' x y l :
  owns_item h x y l -> (forall a, In a l -> at_ h' a = at_ h a) -> owns_item h' x y l.
Proof. intros [] E; constructor; eapply owns_local; eauto. Qed.

Lemma local_holds s t : local (holds s t).
Proof.
  intros h h' l (l0 & P & O) E. exists l0. split; auto.
  assert (E0 : forall a, In a l0 -> at_ h' a = at_ h a).
  { intros a I. apply E. eapply Permutation_in; [apply Permutation_sym, P|apply I]. }
  clear l P E. induction O as [|x y s t l l' Oi Oa IH]; constructor.
  - eapply owns_item_local; eauto. intros a I. apply E0, in_app_iff. auto.
  - apply IH. intros a I. apply E0, in_app_iff. auto.
Qed.

Lemma item_own h x y l : owns_item h (Some x) (Some y) l -> own_it x y h l.
Proof.
  inversion 1; subst; simpl.
  - split; reflexivity.
  - split; [reflexivity|]. eexists. split; [apply Permutation_refl|eassumption].
  - eexists. split; [apply Permutation_refl|eassumption].
Qed.

Lemma own_item h x y l : own_it x y h l -> exists l0, Permutation l l0 /\ owns_item h (Some x) (Some y) l0.
Proof.
  destruct x as [[sp|p s]|s], y as [[sp'|p' c]|c]; simpl; try contradiction.
  - intros (-> & ->). exists []. split; constructor.
  - intros (-> & l0 & P & O). exists l0. split; auto. constructor. auto.
  - intros (l0 & P & O). exists l0. split; auto. constructor. auto.
Qed.

Lemma take_owns h s t l : owns_all h s t l -> forall i,
  (take i s = None /\ take i t = None) \/
  exists x s' y t' l1 l2, take i s = Some (x, s') /\ take i t = Some (y, t') /\ Permutation l (l1 ++ l2) /\
    owns_item h (Some x) (Some y) l1 /\ owns_all h s' t' l2.
Proof.
  induction 1 as [|x y s t l l' Oi Oa IH]; intros [|i]; simpl; auto.
  - pose proof Oi as Oi'. destruct Oi; auto; right;
      (eexists _, _, _, _, _, l'; split; [reflexivity|]; split; [reflexivity|]; split; [apply Permutation_refl|];
       split; [exact Oi'|]; change l' with ([] ++ l'); constructor; [constructor|auto]).
  - destruct (IH i) as [(-> & ->)|(x1 & s' & y1 & t' & l1 & l2 & -> & -> & P & O1 & O2)]; auto. right.
    eexists _, _, _, _, l1, (l ++ l2). split; [reflexivity|]. split; [reflexivity|]. split.
    + eapply Permutation_trans; [apply Permutation_app_head, P|]. rewrite !app_assoc.
      apply Permutation_app_tail, Permutation_app_comm.
    + split; auto. constructor; auto.
Qed.

Lemma take_holds s t h l : holds s t h l -> forall i,
  (take i s = None /\ take i t = None) \/
  exists x s' y t', take i s = Some (x, s') /\ take i t = Some (y, t') /\ star (own_it x y) (holds s' t') h l.
Proof.
  intros (l0 & P & O) i.
  destruct (take_owns _ _ _ _ O i) as [N|(x & s' & y & t' & l1 & l2 & E1 & E2 & P' & O1 & O2)]; auto.
  right. exists x, s', y, t'. split; auto. split; auto. exists l1, l2. split.
  - eapply Permutation_trans; eauto.
  - split; [apply item_own, O1|]. exists l2. split; [apply Permutation_refl|auto].
Qed.

Lemma new_holds s t x y : entails (star (own_it x y) (holds s t)) (holds (new x s) (new y t)).
Proof.
  intros h l (l1 & l2 & P & H1 & (l0 & P0 & O)). apply own_item in H1 as (l3 & P3 & O3).
  exists (l0 ++ l3). split.
  - eapply Permutation_trans; [apply P|]. eapply Permutation_trans; [apply Permutation_app_comm|].
    apply Permutation_app; auto.
  - clear P0 P. unfold new. induction O as [|x1 y1 s t l4 l5 Oi Oa IH]; simpl.
    + rewrite <- (app_nil_r l3). constructor; auto. constructor.
    + rewrite <- app_assoc. constructor; auto.
Qed.

(** A taken cell is empty. *)
Lemma put_owns h i : forall s t l (x : sitem) (y : item) s' t' x1 y1 l1,
  take i s = Some (x, s') -> take i t = Some (y, t') -> owns_all h s' t' l ->
  owns_item h (Some x1) (Some y1) l1 ->
  exists l2, Permutation (l1 ++ l) l2 /\ owns_all h (put i x1 s') (put i y1 t') l2.
Proof.
  induction i as [|i IH]; intros s t l x y s' t' x1 y1 l1 E1 E2 O O1.
  - destruct s as [|[xs|] s]; try discriminate. destruct t as [|[yt|] t]; try discriminate.
    injection E1 as <- <-. injection E2 as <- <-.
    inversion O as [|? ? ? ? l0 l' Oi Oa]; subst. inversion Oi; subst. exists (l1 ++ l'). split; [apply Permutation_refl|].
    simpl. constructor; auto.
  - destruct s as [|xs s]; [discriminate|]. destruct t as [|yt t]; [discriminate|]. simpl in E1, E2.
    destruct (take i s) as [[x2 s2]|] eqn:T1; [|discriminate]. destruct (take i t) as [[y2 t2]|] eqn:T2; [|discriminate].
    injection E1 as <- <-. injection E2 as <- <-.
    inversion O as [|? ? ? ? l0 l' Oi Oa]; subst.
    destruct (IH s t l' x2 y2 s2 t2 x1 y1 l1 T1 T2 Oa O1) as (l2 & P2 & O2).
    exists (l0 ++ l2). split.
    + rewrite app_assoc. eapply Permutation_trans; [apply Permutation_app_tail, Permutation_app_comm|].
      rewrite <- app_assoc. apply Permutation_app_head, P2.
    + simpl. constructor; auto.
Qed.

Lemma put_holds i (x : sitem) (y : item) s t s' t' x1 y1 :
  take i s = Some (x, s') -> take i t = Some (y, t') ->
  entails (star (own_it x1 y1) (holds s' t')) (holds (put i x1 s') (put i y1 t')).
Proof.
  intros E1 E2 h l (l1 & l2 & P & H1 & (l0 & P0 & O)). apply own_item in H1 as (l3 & P3 & O3).
  destruct (put_owns h i s t l0 x y s' t' x1 y1 l3 E1 E2 O O3) as (l4 & P4 & O4). exists l4. split; auto.
  eapply Permutation_trans; [apply P|]. eapply Permutation_trans; [apply Permutation_app; eauto|]. exact P4.
Qed.

(** An operation on the heap, beside the operation without it. *)
Definition own_step (v : scells * event) (v' : cells * event) : asrt :=
  pure (snd v = snd v') (holds (fst v) (fst v')).

Definition steps (s : scells) (t : cells) (h : heap) (l : list nat)
  (e : option (act (scells * event))) (r : option (res (cells * event))) : Prop :=
  match e, r with
  | None, None => True
  | Some e, Some r => ends own_step h l (e h) r
  | _, _ => False
  end.

Lemma t_made s t P (e : act snumber) (r : res number) :
  triple P e r own_num -> triple (star P (holds s t)) (made_s s e) (made t r) own_step.
Proof.
  intro T. unfold made_s, made. eapply t_bind_fr; [apply local_holds|apply T|]. intros n n'.
  apply t_ret. intros h l H. split; [reflexivity|]. apply (new_holds s t (SINum n) (INum n')), H.
Qed.

Lemma holds_perm s t : perm_closed (holds s t).
Proof. intros h l l' P (l0 & P0 & O). exists l0. split; auto. eapply Permutation_trans; eauto. Qed.

Lemma take_num_holds s t h l : holds s t h l -> forall i,
  (take_num_s i s = None /\ take_num i t = None) \/
  exists x s' y t', take_num_s i s = Some (x, s') /\ take_num i t = Some (y, t') /\
    star (own_num x y) (holds s' t') h l.
Proof.
  intros H i. unfold take_num_s, take_num.
  destruct (take_holds _ _ _ _ H i) as [(-> & ->)|(x & s' & y & t' & -> & -> & Hs)]; auto.
  destruct x as [n|c], y as [n'|c']; auto.
  - right. exists n, s', n', t'. auto.
  - destruct Hs as (? & ? & _ & [] & _).
  - destruct Hs as (? & ? & _ & [] & _).
Qed.

Lemma take_clog_holds s t h l : holds s t h l -> forall i,
  (take_clog_s i s = None /\ take_clog i t = None) \/
  exists x s' y t', take_clog_s i s = Some (x, s') /\ take_clog i t = Some (y, t') /\
    take i s = Some (SIClog x, s') /\ take i t = Some (IClog y, t') /\
    star (own x y) (holds s' t') h l.
Proof.
  intros H i. unfold take_clog_s, take_clog.
  destruct (take_holds _ _ _ _ H i) as [(-> & ->)|(x & s' & y & t' & -> & -> & Hs)]; auto.
  destruct x as [n|c], y as [n'|c']; auto.
  - destruct Hs as (? & ? & _ & [] & _).
  - destruct Hs as (? & ? & _ & [] & _).
  - right. exists c, s', c', t'. repeat split; auto.
Qed.

(** Two operands. *)
Lemma take_two h l x y s t : star (own_num x y) (holds s t) h l -> forall j,
  (take_num_s j s = None /\ take_num j t = None) \/
  exists x2 s' y2 t', take_num_s j s = Some (x2, s') /\ take_num j t = Some (y2, t') /\
    star (star (own_num x y) (own_num x2 y2)) (holds s' t') h l.
Proof.
  intros (l1 & l2 & P & H1 & H2) j.
  destruct (take_num_holds _ _ _ _ H2 j) as [N|(x2 & s' & y2 & t' & E1 & E2 & H)]; auto.
  right. exists x2, s', y2, t'. split; auto. split; auto. apply star_assoc. exists l1, l2. auto.
Qed.

Lemma step_steps k f s t o h l : fits h l -> holds s t h l -> steps s t h l (step_s k f s o) (step k f t o).
Proof.
  intros F H. unfold steps, step_s, step. destruct o; cbv iota beta.
  - apply (t_made s t emp); auto; [apply t_number_ratio|apply emp_star, H].
  - apply (t_made s t emp); auto; [apply t_number_ratio_u|apply emp_star, H].
  - apply (t_made s t emp); auto; [apply t_ret; intros ? ? ->; split; reflexivity|apply emp_star, H].
  - destruct (take_clog_holds _ _ _ _ H i) as [(-> & ->)|(x & s' & y & t' & -> & -> & _ & _ & Hs)]; [exact I|].
    apply (t_made s' t' (own x y)); auto. apply t_ret. intros h' l' O. split; auto.
  - destruct (take_num_holds _ _ _ _ H i) as [(-> & ->)|(x & s' & y & t' & -> & -> & Hs)]; [exact I|].
    apply (t_made s' t' (own_num x y)); auto. apply t_number_homographic.
  - destruct (take_num_holds _ _ _ _ H i) as [(-> & ->)|(x & s' & y & t' & -> & -> & Hs)]; [exact I|].
    destruct (take_two _ _ _ _ _ _ Hs j) as [(-> & ->)|(x2 & s2 & y2 & t2 & -> & -> & Hs2)]; [exact I|].
    eapply t_made; [apply t_number_combine|auto|exact Hs2].
  - destruct (take_num_holds _ _ _ _ H i) as [(-> & ->)|(x & s' & y & t' & -> & -> & Hs)]; [exact I|].
    destruct (take_two _ _ _ _ _ _ Hs j) as [(-> & ->)|(x2 & s2 & y2 & t2 & -> & -> & Hs2)]; [exact I|].
    revert h l F H Hs Hs2.
    enough (T : triple (star (star (own_num x y) (own_num x2 y2)) (holds s2 t2))
                  (let* o := number_compare_s k f x x2 in ret (s2, EOrder o))
                  (let! o := number_compare k f y y2 in Ok (t2, EOrder o)) own_step) by (intros; apply T; auto).
    eapply t_bind_fr; [apply local_holds|apply t_number_compare|]. intros o o'. apply t_pure_fr. intros ->.
    apply t_ret. intros h l H. split; [reflexivity|]. apply (star_emp _ (holds_perm s2 t2)), H.
  - destruct (take_num_holds _ _ _ _ H i) as [(-> & ->)|(x & s' & y & t' & -> & -> & Hs)]; [exact I|].
    revert h l F H Hs.
    enough (T : triple (star (own_num x y) (holds s' t'))
                  (let* (y, m) := number_consume_s k f x in
                   ret (match y with
                        | Some y => (new (SINum y) s', ECoefs true m)
                        | None => (s', ECoefs false m)
                        end))
                  (let! (y, m) := number_consume k f y in
                   Ok (match y with
                       | Some y => (new (INum y) t', ECoefs true m)
                       | None => (t', ECoefs false m)
                       end)) own_step) by (intros; apply T; auto).
    eapply t_bind_fr; [apply local_holds|apply t_number_consume|]. intros [co m] [co' m']. apply t_pure_fr.
    simpl. intros ->. destruct co as [n|], co' as [n'|]; try (intros h l F (? & ? & _ & [] & _); fail).
    + apply t_ret. intros h l H. split; [reflexivity|]. apply (new_holds s' t' (SINum n) (INum n')), H.
    + apply t_ret. intros h l H. split; [reflexivity|]. apply (star_emp _ (holds_perm s' t')), H.
  - destruct (take_num_holds _ _ _ _ H i) as [(-> & ->)|(x & s' & y & t' & -> & -> & Hs)]; [exact I|].
    destruct x as [sx|px sx], y as [sy|py cy]; try (destruct Hs as (? & ? & _ & [] & _); fail); simpl.
    + apply star_pure in Hs as (-> & Hs). apply (star_emp _ (holds_perm s' t')) in Hs.
      eexists _, _, l. split; [reflexivity|]. split; [apply moves_refl; auto|]. split; auto.
    + reflexivity.
  - destruct (take_num_holds _ _ _ _ H i) as [(-> & ->)|(x & s' & y & t' & -> & -> & Hs)]; [exact I|].
    destruct x as [sx|px sx], y as [sy|py cy]; try (destruct Hs as (? & ? & _ & [] & _); fail); simpl.
    + reflexivity.
    + apply star_pure in Hs as (-> & Hs). apply (new_holds s' t' (SIClog sx) (IClog cy)) in Hs.
      eexists _, _, l. split; [reflexivity|]. split; [apply moves_refl; auto|]. split; auto.
  - destruct (take_num_holds _ _ _ _ H i) as [(-> & ->)|(x & s' & y & t' & -> & -> & Hs)]; [exact I|].
    destruct x as [sx|px sx], y as [sy|py cy]; try (destruct Hs as (? & ? & _ & [] & _); fail); simpl.
    + apply star_pure in Hs as (-> & Hs). apply (star_emp _ (holds_perm s' t')) in Hs.
      eexists _, _, l. split; [reflexivity|]. split; [apply moves_refl; auto|]. split; auto.
    + apply star_pure in Hs as (-> & Hs). apply (new_holds s' t' (SIClog sx) (IClog cy)) in Hs.
      eexists _, _, l. split; [reflexivity|]. split; [apply moves_refl; auto|]. split; auto.
  - destruct (take_clog_holds _ _ _ _ H i) as [(-> & ->)|(x & s' & y & t' & -> & -> & E1 & E2 & Hs)]; [exact I|].
    revert h l F H Hs.
    enough (T : triple (star (own x y) (holds s' t'))
                  (let* (o, c') := clog_egest_s k f x in ret (put i (SIClog c') s', ESymbol o))
                  (let! (o, c') := clog_egest k f y in Ok (put i (IClog c') t', ESymbol o)) own_step)
      by (intros; apply T; auto).
    eapply t_bind_fr; [apply local_holds|apply t_clog_egest|]. intros [o c] [o' c']. apply t_pure_fr. simpl. intros ->.
    apply t_ret. intros h l H. split; [reflexivity|].
    apply (put_holds i (SIClog x) (IClog y) s t s' t' (SIClog c) (IClog c') E1 E2), H.
Qed.

(** ** Nothing is left behind *)

Lemma owns_live h s c l a : owns h s c l -> In a l -> at_ h a <> None.
Proof.
  induction 1 as [r|s c m l O IH|a0 b sx sy x y m lx ly A Ox IHx B Oy IHy]; simpl; auto.
  intros [<-|I]; [rewrite A; discriminate|]. apply in_app_iff in I as [I|[<-|I]]; auto. rewrite B. discriminate.
Qed.

Lemma owns_all_live h s t l a : owns_all h s t l -> In a l -> at_ h a <> None.
Proof.
  induction 1 as [|x y s t l l' Oi Oa IH]; [intros []|]. intro I. apply in_app_iff in I as [I|I]; auto.
  inversion Oi; subst; try destruct I; eapply owns_live; eauto.
Qed.

Lemma holds_live s t h l a : holds s t h l -> In a l -> at_ h a <> None.
Proof. intros (l0 & P & O) I. eapply owns_all_live; eauto. eapply Permutation_in; eauto. Qed.

(** Only what is listed is on the heap. *)
Definition exact (h : heap) (l : list nat) : Prop := forall a, ~ In a l -> at_ h a = None.

Lemma moves_exact h l h' l' : exact h l -> moves h l h' l' -> exact h' l'.
Proof.
  intros E M a No. destruct (in_dec Nat.eq_dec a l) as [I|N]; [apply M; auto|].
  destruct (Nat.lt_ge_cases a (next h)) as [L|L]; [|apply M; auto].
  rewrite (m_rest _ _ _ _ M); auto.
Qed.

Lemma holds_tidy h l s t : fits h l -> holds s t h l -> exact h l -> tidy h s t.
Proof.
  intros F H E. pose proof H as (l0 & P & O). exists l0. split; auto. split.
  - eapply Permutation_NoDup; [apply P|apply F].
  - intro a. split.
    + intro N. eapply Permutation_in; [apply P|]. destruct (in_dec Nat.eq_dec a l) as [I|No]; auto.
      destruct (N (E a No)).
    + intro I. eapply owns_all_live; eauto.
Qed.

Lemma t_drop_item x y : triple (own_it x y) (drop_item x) (Ok tt) (fun _ _ => emp).
Proof.
  destruct x as [n|s], y as [n'|c]; simpl; try (intros h l F []; fail).
  - apply t_drop_number.
  - apply t_drop.
Qed.

Lemma run_same k f ac : forall s t h l, fits h l -> holds s t h l -> exact h l ->
  fst (run_s k f s h ac) = fst (run_t k f t ac) /\
  same_end (snd (run_s k f s h ac)) (snd (run_t k f t ac)).
Proof.
  induction ac as [|[o|i] ac IH]; intros s t h l F H E; simpl.
  - split; [reflexivity|]. eapply holds_tidy; eauto.
  - pose proof (step_steps k f s t o h l F H) as St. unfold steps in St.
    destruct (step_s k f s o) as [e|], (step k f t o) as [r|]; try (destruct St; fail); [|split; simpl; auto].
    destruct r as [[t' ev']|p|]; simpl in St.
    + destruct St as ([s' ev] & h' & l' & -> & M & (Ev & H')). simpl in Ev, H'. subst ev'.
      specialize (IH s' t' h' l' (m_fits _ _ _ _ M) H' (moves_exact _ _ _ _ E M)).
      destruct (run_s k f s' h' ac) as [es d], (run_t k f t' ac) as [es' d']. simpl in *.
      destruct IH as (-> & S'). split; auto.
    + rewrite St. split; reflexivity.
    + rewrite St. split; [reflexivity|exact I].
  - destruct (take_holds _ _ _ _ H i) as [(-> & ->)|(x & s' & y & t' & -> & -> & Hs)]; [split; simpl; auto|].
    pose proof (t_frame _ _ _ _ _ (local_holds s' t') (t_drop_item x y) h l F Hs) as T. simpl in T.
    destruct T as (u & h' & l' & -> & M & Hs').
    apply (star_emp _ (holds_perm s' t')) in Hs'.
    apply (IH s' t' h' l' (m_fits _ _ _ _ M) Hs' (moves_exact _ _ _ _ E M)).
Qed.

Lemma run_same_empty k f ac :
  fst (run_s k f [] empty_heap ac) = fst (run_t k f [] ac) /\
  same_end (snd (run_s k f [] empty_heap ac)) (snd (run_t k f [] ac)).
Proof.
  apply (run_same k f ac [] [] empty_heap []).
  - repeat split; auto; [constructor|intros a []].
  - exists []. split; [constructor|constructor].
  - intros a _. reflexivity.
Qed.

(** The client without a heap is the client of [History.v]. *)
Lemma run_t_run k f h : forall s,
  run k f s h = (fst (run_t k f s (map Do h)),
                 match snd (run_t k f s (map Do h)) with
                 | None => None
                 | Some (Ok _) => Some (Ok tt)
                 | Some (Panic p) => Some (Panic p)
                 | Some NoFuel => Some NoFuel
                 end).
Proof.
  induction h as [|o h IH]; intro s; simpl; auto. destruct (step k f s o) as [[[s' e]|p|]|]; auto.
  rewrite IH. destruct (run_t k f s' (map Do h)) as [es d]. reflexivity.
Qed.

(** When every cell is empty, so is the heap. *)
Lemma tidy_empty h s t : tidy h s t -> (forall x, In x s -> x = None) -> forall a, at_ h a = None.
Proof.
  intros (l & O & _ & E) N a. destruct (at_ h a) eqn:A; auto. exfalso.
  assert (I : In a l) by (apply E; rewrite A; discriminate). clear E A.
  induction O as [|x y s t l l' Oi Oa IH]; [destruct I|]. apply in_app_iff in I as [I|I].
  - rewrite (N x (or_introl eq_refl)) in Oi. inversion Oi; subst. destruct I.
  - apply IH; auto. intros z J. apply N. right. auto.
Qed.
