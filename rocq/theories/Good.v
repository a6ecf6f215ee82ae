(** * Good: proof framework.  Outcomes with postconditions, eventual outcomes of
    fuel-indexed computations, and what it means for a clog to behave. *)

From Coq Require Import ZArith QArith List Lia.
From Verif Require Import Machine Protocol Types Lib Spec Upto.
Import ListNotations.
Open Scope Z_scope.

(** ** Outcomes *)

Definition ovfp (p : panic) : Prop := p = PChecked \/ p = PArith.

Definition wp {A} (P : A -> Prop) (E : panic -> Prop) (m : res A) : Prop :=
  match m with Ok a => P a | Panic p => E p | NoFuel => False end.

Lemma wp_bind {A B} (P : B -> Prop) E (m : res A) (f : A -> res B) :
  wp (fun a => wp P E (f a)) E m -> wp P E (bind m f).
Proof. destruct m; simpl; auto. Qed.

Lemma wp_mono {A} (P Q : A -> Prop) (E F : panic -> Prop) m :
  wp P E m -> (forall a, P a -> Q a) -> (forall p, E p -> F p) -> wp Q F m.
Proof. destruct m; simpl; auto. Qed.

Lemma wp_and {A} (P Q : A -> Prop) (E F : panic -> Prop) m :
  wp P E m -> wp Q F m -> wp (fun a => P a /\ Q a) (fun p => E p /\ F p) m.
Proof. destruct m; simpl; auto. Qed.

(** ** Machine arithmetic *)

Lemma in_i_spec k z : in_i k z = true <-> isize k z.
Proof. unfold in_i, isize. rewrite Bool.andb_true_iff, !Z.leb_le. tauto. Qed.

Lemma imax_ge k : 32767 <= imax k.
Proof. unfold imax, bits. destruct (wd k); simpl; lia. Qed.
Lemma imin_imax k : imin k = - imax k - 1.
Proof. unfold imax, imin. lia. Qed.
Lemma umax_imax k : umax k = 2 * imax k + 1.
Proof. unfold umax, imax, bits. destruct (wd k); reflexivity. Qed.
Lemma two_bits k : 2 ^ bits (wd k) = 2 * imax k + 2.
Proof. pose proof (umax_imax k). unfold umax in H. lia. Qed.

Lemma wp_checked k z (P : Z -> Prop) (E : panic -> Prop) :
  (isize k z -> P z) -> (~ isize k z -> E PChecked) -> wp P E (checked k z).
Proof.
  unfold checked. destruct (in_i k z) eqn:H; simpl; intros A B.
  - apply A. now apply in_i_spec.
  - apply B. rewrite <- in_i_spec. congruence.
Qed.

Lemma wp_plain k z (P : Z -> Prop) (E : panic -> Prop) : ovf k = true ->
  (isize k z -> P z) -> (~ isize k z -> E PArith) -> wp P E (plain k z).
Proof.
  unfold plain. intro O. rewrite O. destruct (in_i k z) eqn:H; simpl; intros A B.
  - apply A. now apply in_i_spec.
  - apply B. rewrite <- in_i_spec. congruence.
Qed.

(** ** Eventual outcomes *)

(** [ev2 f P E]: from some fuel on, in both indices, the outcome is one and the
    same value satisfying [P] or panic satisfying [E]. *)
Definition ev2 {A} (f : nat -> nat -> res A) (P : A -> Prop) (E : panic -> Prop) : Prop :=
  exists r, (exists F, forall i j, (F <= i)%nat -> (F <= j)%nat -> f i j = r) /\ wp P E r.

Definition ev {A} (f : nat -> res A) (P : A -> Prop) (E : panic -> Prop) : Prop :=
  exists r, settles f r /\ wp P E r.

Lemma ev_ev2 {A} (f : nat -> res A) P E : ev f P E -> ev2 (fun i _ => f i) P E.
Proof. intros (r & (F & H) & W). exists r. split; auto. exists F. auto. Qed.

Lemma ev2_diag {A} (f : nat -> nat -> res A) P E : ev2 f P E -> ev (fun n => f n n) P E.
Proof. intros (r & (F & H) & W). exists r. split; auto. exists F. auto. Qed.

Lemma ev2_const {A} (m : res A) P E : wp P E m -> ev2 (fun _ _ => m) P E.
Proof. intro W. exists m. split; auto. exists O. auto. Qed.

Lemma ev2_S {A} (f : nat -> nat -> res A) P E : ev2 (fun i j => f i (S j)) P E -> ev2 f P E.
Proof.
  intros (r & (F & H) & W). exists r. split; auto. exists (S F). intros i [|j] Hi Hj; [lia|].
  apply H; lia.
Qed.

Lemma ev_S {A} (f : nat -> res A) P E : ev (fun n => f (S n)) P E -> ev f P E.
Proof.
  intros (r & (F & H) & W). exists r. split; auto. exists (S F). intros [|j] Hj; [lia|].
  apply H; lia.
Qed.

Lemma ev2_bind {A B} (g : nat -> nat -> res A) (h : nat -> nat -> A -> res B) P E :
  ev2 g (fun a => ev2 (fun i j => h i j a) P E) E ->
  ev2 (fun i j => bind (g i j) (h i j)) P E.
Proof.
  intros (r & (F & H) & W). destruct r as [a|p|]; simpl in W; [|..].
  - destruct W as (r' & (F' & H') & W'). exists r'. split; auto.
    exists (Nat.max F F'). intros. rewrite H by lia. simpl. apply H'; lia.
  - exists (Panic p). split; auto. exists F. intros. rewrite H by lia. reflexivity.
  - contradiction.
Qed.

Lemma ev_bind {A B} (g : nat -> res A) (h : nat -> A -> res B) P E :
  ev g (fun a => ev (fun i => h i a) P E) E ->
  ev (fun i => bind (g i) (h i)) P E.
Proof.
  intros (r & (F & H) & W). destruct r as [a|p|]; simpl in W; [|..].
  - destruct W as (r' & (F' & H') & W'). exists r'. split; auto.
    exists (Nat.max F F'). intros. rewrite H by lia. simpl. apply H'; lia.
  - exists (Panic p). split; auto. exists F. intros. rewrite H by lia. reflexivity.
  - contradiction.
Qed.

Lemma ev_const {A} (m : res A) P E : wp P E m -> ev (fun _ => m) P E.
Proof. intro W. exists m. split; auto. exists O. auto. Qed.

(** Sequencing after a fuel-free computation. *)
Lemma ev2_step {A B} (m : res A) (h : nat -> nat -> A -> res B) P E :
  wp (fun a => ev2 (fun i j => h i j a) P E) E m ->
  ev2 (fun i j => bind m (h i j)) P E.
Proof. intro W. apply ev2_bind. now apply ev2_const. Qed.

Lemma ev_step {A B} (m : res A) (h : nat -> A -> res B) P E :
  wp (fun a => ev (fun i => h i a) P E) E m ->
  ev (fun i => bind m (h i)) P E.
Proof. intro W. apply ev_bind. now apply ev_const. Qed.

Lemma ev2_ext {A} (f g : nat -> nat -> res A) P E :
  (forall i j, f i j = g i j) -> ev2 f P E -> ev2 g P E.
Proof.
  intros X (r & (F & H) & W). exists r. split; auto. exists F. intros. rewrite <- X. auto.
Qed.
Lemma ev_ext {A} (f g : nat -> res A) P E :
  (forall i, f i = g i) -> ev f P E -> ev g P E.
Proof.
  intros X (r & (F & H) & W). exists r. split; auto. exists F. intros. rewrite <- X. auto.
Qed.

Lemma ev2_mono {A} (f : nat -> nat -> res A) (P Q : A -> Prop) (E F : panic -> Prop) :
  ev2 f P E -> (forall a, P a -> Q a) -> (forall p, E p -> F p) -> ev2 f Q F.
Proof. intros (r & H & W) X Y. exists r. split; auto. eapply wp_mono; eauto. Qed.
Lemma ev_mono {A} (f : nat -> res A) (P Q : A -> Prop) (E F : panic -> Prop) :
  ev f P E -> (forall a, P a -> Q a) -> (forall p, E p -> F p) -> ev f Q F.
Proof. intros (r & H & W) X Y. exists r. split; auto. eapply wp_mono; eauto. Qed.

(** ** Clogs that behave *)

(** [good k E c l]: the clog egests exactly the symbols [l] and then [None] for
    ever, except that a panic satisfying [E] may happen at any call. *)
Fixpoint good (k : cfg) (E : panic -> Prop) (c : clog) (l : list reduction) : Prop :=
  ev (fun f => clog_egest k f c)
     (match l with
      | [] => fun oc => fst oc = None /\ settles (fun f => clog_egest k f (snd oc)) (Ok (None, snd oc))
      | s :: l' => fun oc => fst oc = Some s /\ good k E (snd oc) l'
      end) E.

Lemma good_ev k E c l : good k E c l ->
  ev (fun f => clog_egest k f c)
     (fun oc => fst oc = match l with [] => None | s :: _ => Some s end
        /\ good k E (snd oc) (match l with [] => [] | _ :: l' => l' end)) E.
Proof.
  destruct l as [|s l]; simpl; intro H.
  - eapply ev_mono; [exact H | | auto]. intros [o c'] [Ho Hs]; simpl in *. split; auto.
    exists (Ok (None, c')). split; auto. simpl. split; auto.
  - exact H.
Qed.

Lemma good_mono k (E F : panic -> Prop) l : forall c, (forall p, E p -> F p) ->
  good k E c l -> good k F c l.
Proof.
  induction l; simpl; intros c H G; eapply ev_mono; try exact G; auto.
  intros oc [X Y]. split; auto.
Qed.

(** More fuel does not change an outcome. *)
Lemma frel_fuel f1 f2 : (f1 <= f2)%nat -> frel BadFuel f1 f2.
Proof. auto. Qed.

Lemma egest_fuel k f1 f2 s : (f1 <= f2)%nat -> clog_egest k f1 s <> NoFuel ->
  clog_egest k f2 s = clog_egest k f1 s.
Proof.
  intros Hf Hn. destruct (upto_egest BadFuel k k eq_refl eq_refl f1 f2 s (frel_fuel _ _ Hf)) as [H|H].
  - now elim Hn.
  - auto.
Qed.

Lemma settles_fuel {A} (f : nat -> res A) r :
  (forall f1 f2, (f1 <= f2)%nat -> upto BadFuel (f f1) (f f2)) ->
  forall n, f n = r -> r <> NoFuel -> settles f r.
Proof.
  intros U n Hn Hr. exists n. intros m Hm.
  destruct (U n m Hm) as [H|H]; [unfold bad in H; congruence | congruence].
Qed.

Lemma settles_det {A} (f : nat -> res A) r r' : settles f r -> settles f r' -> r = r'.
Proof.
  intros (F & H) (F' & H').
  rewrite <- (H (Nat.max F F')), <- (H' (Nat.max F F')) by lia. reflexivity.
Qed.

(** A computation with an eventual outcome: what a particular return gives. *)
Lemma ev_returned {A} (f : nat -> res A) P E n a :
  (forall f1 f2, (f1 <= f2)%nat -> upto BadFuel (f f1) (f f2)) ->
  ev f P E -> f n = Ok a -> P a.
Proof.
  intros U (r & S & W) Hn.
  assert (S' : settles f (Ok a)) by (eapply settles_fuel; eauto; discriminate).
  rewrite (settles_det _ _ _ S S') in W. exact W.
Qed.
