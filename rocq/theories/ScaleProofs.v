(** * ScaleProofs: powers of two, and adding one, without overflow. *)

From Coq Require Import ZArith QArith Qabs Qfield List Lia Lqa Psatz Bool.
From Verif Require Import Machine Protocol Support Types Ratio Homographic Combine Lib Spec Upto
  SpecScale SeqProofs Good RatioProofs HomProofs HomValue HomGood CombProofs CombGood LibProofs ApiProofs ArithProofs BuildProofs ExampleTools.
Import ListNotations.
Open Scope Z_scope.

(** ** The powers of two that are machine integers *)

Definition exponents (k : cfg) : list nat := seq 0 (Z.to_nat (bits (wd k)) - 1).

Lemma exponents_in k j : Z.of_nat j <= bits (wd k) - 2 -> In j (exponents k).
Proof. intro H. apply in_seq. destruct k as [[] ?]; cbn in *; lia. Qed.

Lemma each k (P : nat -> bool) j : forallb P (exponents k) = true -> Z.of_nat j <= bits (wd k) - 2 -> P j = true.
Proof. intros F H. rewrite forallb_forall in F. apply F, exponents_in, H. Qed.

Definition two (j : nat) : Z := 2 ^ Z.of_nat j.

(** The states that read [Amplify] symbols, and those that give them. *)
Definition up (s : Z) (j : nat) : hcoef := HC (s * two j) 0 0 1.
Definition down (s : Z) (j : nat) : hcoef := HC 0 s (two j) 0.
Definition less (s : Z) (j : nat) : hcoef := HC s 0 0 (s * two j).

Definition waits (k : cfg) (m m' : hcoef) : Prop :=
  h_are_singularities_outside_domain k m = Ok true /\ h_primer_egest k m = Ok None /\ h_ingest_amplify k m = Ok m'.
Definition opens (k : cfg) (m : hcoef) (p : option primer) (m' : hcoef) : Prop :=
  h_are_singularities_outside_domain k m = Ok true /\ h_primer_egest k m = Ok (Some (p, m')).
Definition ends (k : cfg) (m : hcoef) (s : special) : Prop :=
  exists num den, h_value_at_one_half k m = Ok (num, den) /\ ratio_new_i k num den = Ok (Some s, None, None).


Definition same (m m' : hcoef) : bool :=
  (h_nx m =? h_nx m') && (h_n m =? h_n m') && (h_dx m =? h_dx m') && (h_d m =? h_d m').
Lemma same_eq m m' : same m m' = true -> m = m'.
Proof.
  unfold same. rewrite !andb_true_iff, !Z.eqb_eq. destruct m, m'. cbn. intros (((-> & ->) & ->) & ->). reflexivity.
Qed.
Definition same_primer (p p' : option primer) : bool :=
  match p, p' with
  | None, None | Some Turn, Some Turn | Some Reflect, Some Reflect | Some Ground, Some Ground => true
  | _, _ => false
  end.
Lemma same_primer_eq p p' : same_primer p p' = true -> p = p'.
Proof. destruct p as [[]|], p' as [[]|]; (reflexivity || discriminate). Qed.

Definition waitsb (k : cfg) (m m' : hcoef) : bool :=
  match h_are_singularities_outside_domain k m, h_primer_egest k m, h_ingest_amplify k m with
  | Ok true, Ok None, Ok m1 => same m1 m'
  | _, _, _ => false
  end.
Lemma waitsb_ok k m m' : waitsb k m m' = true -> waits k m m'.
Proof.
  unfold waitsb, waits. destruct (h_are_singularities_outside_domain k m) as [[]| |]; try discriminate.
  destruct (h_primer_egest k m) as [[|]| |]; try discriminate. destruct (h_ingest_amplify k m) as [m1| |]; try discriminate.
  intro H. apply same_eq in H. now subst m1.
Qed.
Definition opensb (k : cfg) (m : hcoef) (p : option primer) (m' : hcoef) : bool :=
  match h_are_singularities_outside_domain k m, h_primer_egest k m with
  | Ok true, Ok (Some (p1, m1)) => same_primer p1 p && same m1 m'
  | _, _ => false
  end.
Lemma opensb_ok k m p m' : opensb k m p m' = true -> opens k m p m'.
Proof.
  unfold opensb, opens. destruct (h_are_singularities_outside_domain k m) as [[]| |]; try discriminate.
  destruct (h_primer_egest k m) as [[[p1 m1]|]| |]; try discriminate. rewrite andb_true_iff. intros [A B].
  apply same_primer_eq in A. apply same_eq in B. now subst.
Qed.
Definition givesb (k : cfg) (m m' : hcoef) : bool :=
  match h_are_singularities_outside_domain k m, h_reduction_egest k m with
  | Ok true, Ok (Some (Some Amplify, m1)) => same m1 m'
  | _, _ => false
  end.
Lemma givesb_ok k m m' : givesb k m m' = true ->
  h_are_singularities_outside_domain k m = Ok true /\ h_reduction_egest k m = Ok (Some (Some Amplify, m')).
Proof.
  unfold givesb. destruct (h_are_singularities_outside_domain k m) as [[]| |]; try discriminate.
  destruct (h_reduction_egest k m) as [[[[[]|] m1]|]| |]; try discriminate. intro H. apply same_eq in H. now subst m1.
Qed.

Ltac all_of k := destruct k as [[] []]; vm_compute; reflexivity.

Lemma up_waits k s j : s = 1 \/ s = -1 -> Z.of_nat j <= bits (wd k) - 2 -> (1 <= j)%nat -> waits k (up s j) (up s (pred j)).
Proof.
  intros H J N. apply waitsb_ok.
  assert (X : (j =? 0)%nat || waitsb k (up s j) (up s (pred j)) = true).
  { destruct H as [-> | ->];
      [apply (each k (fun j => (j =? 0)%nat || waitsb k (up 1 j) (up 1 (pred j))))
      |apply (each k (fun j => (j =? 0)%nat || waitsb k (up (-1) j) (up (-1) (pred j))))]; auto; all_of k. }
  destruct j; [lia|exact X].
Qed.

Lemma down_waits k s j : s = 1 \/ s = -1 -> Z.of_nat j <= bits (wd k) - 2 -> (1 <= j)%nat -> waits k (down s j) (down s (pred j)).
Proof.
  intros H J N. apply waitsb_ok.
  assert (X : (j =? 0)%nat || waitsb k (down s j) (down s (pred j)) = true).
  { destruct H as [-> | ->];
      [apply (each k (fun j => (j =? 0)%nat || waitsb k (down 1 j) (down 1 (pred j))))
      |apply (each k (fun j => (j =? 0)%nat || waitsb k (down (-1) j) (down (-1) (pred j))))]; auto; all_of k. }
  destruct j; [lia|exact X].
Qed.

Lemma less_gives k s j : s = 1 \/ s = -1 -> Z.of_nat j <= bits (wd k) - 2 -> (1 <= j)%nat ->
  h_are_singularities_outside_domain k (less s j) = Ok true /\
  h_reduction_egest k (less s j) = Ok (Some (Some Amplify, less s (pred j))).
Proof.
  intros H J N. apply givesb_ok.
  assert (X : (j =? 0)%nat || givesb k (less s j) (less s (pred j)) = true).
  { destruct H as [-> | ->];
      [apply (each k (fun j => (j =? 0)%nat || givesb k (less 1 j) (less 1 (pred j))))
      |apply (each k (fun j => (j =? 0)%nat || givesb k (less (-1) j) (less (-1) (pred j))))]; auto; all_of k. }
  destruct j; [lia|exact X].
Qed.

Lemma turn_opens k j : Z.of_nat j <= bits (wd k) - 2 -> opens k (HC 0 (two j) 1 0) (Some Turn) (less 1 j).
Proof.
  intro J. apply opensb_ok, (each k (fun j => opensb k (HC 0 (two j) 1 0) (Some Turn) (less 1 j))); auto; all_of k.
Qed.
Lemma ground_opens k j : Z.of_nat j <= bits (wd k) - 2 -> opens k (HC 0 (- two j) 1 0) (Some Ground) (less (-1) j).
Proof.
  intro J. apply opensb_ok, (each k (fun j => opensb k (HC 0 (- two j) 1 0) (Some Ground) (less (-1) j))); auto; all_of k.
Qed.
Lemma none_opens k j : Z.of_nat j <= bits (wd k) - 2 -> opens k (HC 1 0 0 (two j)) None (less 1 j).
Proof.
  intro J. apply opensb_ok, (each k (fun j => opensb k (HC 1 0 0 (two j)) None (less 1 j))); auto; all_of k.
Qed.
Lemma reflect_opens k j : Z.of_nat j <= bits (wd k) - 2 -> opens k (HC (-1) 0 0 (two j)) (Some Reflect) (less 1 j).
Proof.
  intro J. apply opensb_ok, (each k (fun j => opensb k (HC (-1) 0 0 (two j)) (Some Reflect) (less 1 j))); auto; all_of k.
Qed.

(** ** Reading and giving the symbols *)

Lemma egest_at k c o c' : returns (fun f => clog_egest k f c) (o, c') ->
  exists N, forall F, (N <= F)%nat -> clog_egest k F c = Ok (o, c').
Proof. intros [N H]. exists N. exact H. Qed.

Definition primes (k : cfg) (c : clog) (m : hcoef) (r : h_made) : Prop :=
  exists N, forall F n, (N <= F)%nat -> (N <= n)%nat -> h_prime k (clog_egest k F) n c m = Ok r.

Lemma primes_opens k c m p m' : opens k m p m' -> primes k c m (None, p, None, Some (c, m')).
Proof.
  intros [A B]. exists 1%nat. intros F [|n] _ Ln; [lia|]. cbn [h_prime]. rewrite A. cbn [bind]. rewrite B. reflexivity.
Qed.

Lemma primes_waits k c c' m m' r : waits k m m' -> returns (fun f => clog_egest k f c) (Some Amplify, c') ->
  primes k c' m' r -> primes k c m r.
Proof.
  intros (A & B & I) [N E] [N' P]. exists (S (max N N')). intros F [|n] LF Ln; [lia|]. cbn [h_prime].
  rewrite A. cbn [bind]. rewrite B. cbn [bind]. unfold h_prime_ingest. rewrite (E F) by lia. cbn [bind]. rewrite I. cbn [bind].
  apply P; lia.
Qed.

Lemma primes_ends k c c' m m' s : waits k m m' -> ends k m s -> returns (fun f => clog_egest k f c) (None, c') ->
  primes k c m (Some s, None, None, None).
Proof.
  intros (A & B & I) (num & den & V & R) [N E]. exists (S N). intros F [|n] LF Ln; [lia|]. cbn [h_prime].
  rewrite A. cbn [bind]. rewrite B. cbn [bind]. unfold h_prime_ingest. rewrite (E F) by lia. cbn [bind]. rewrite V. cbn [bind].
  rewrite R. reflexivity.
Qed.

(** A family of states that wait for [Amplify] symbols. *)
Lemma primes_some k (m : nat -> hcoef) p m0 J : (forall j, (1 <= j <= J)%nat -> waits k (m j) (m (pred j))) ->
  opens k (m O) p m0 -> forall j c l, (j <= J)%nat -> returns (fun f => drain k f c) (repeat Amplify j ++ l) ->
  exists c', returns (fun f => drain k f c') l /\ primes k c (m j) (None, p, None, Some (c', m0)).
Proof.
  intros W O. induction j as [|j IH]; intros c l L D.
  - exists c. split; [exact D|]. apply primes_opens, O.
  - cbn [repeat app] in D. destruct (drain_inv _ _ _ D) as (o & c1 & E & M). destruct o as [s|]; [|discriminate].
    destruct M as (l1 & M & D1). injection M as <- <-. destruct (IH c1 l ltac:(lia) D1) as (c' & D' & P).
    exists c'. split; [exact D'|]. eapply primes_waits; [apply (W (S j)); lia|exact E|exact P].
Qed.

Lemma primes_end k (m : nat -> hcoef) s J : (forall j, (1 <= j <= J)%nat -> waits k (m j) (m (pred j))) ->
  ends k (m 1%nat) s -> forall j c, (S j <= J)%nat -> returns (fun f => drain k f c) (repeat Amplify j) ->
  primes k c (m (S j)) (Some s, None, None, None).
Proof.
  intros W X. induction j as [|j IH]; intros c L D; destruct (drain_inv _ _ _ D) as (o & c1 & E & M).
  - destruct o as [s'|]; [destruct M as (l1 & M & _); discriminate|].
    eapply primes_ends; [apply (W 1%nat); lia|exact X|exact E].
  - cbn [repeat] in M. destruct o as [s'|]; [|discriminate]. destruct M as (l1 & M & D1). injection M as <- <-.
    eapply primes_waits; [apply (W (S (S j))); lia|exact E|]. apply IH; [lia|exact D1].
Qed.

Lemma less_drain k s c l : s = 1 \/ s = -1 -> returns (fun f => drain k f c) l ->
  forall j, Z.of_nat j <= bits (wd k) - 2 -> returns (fun f => drain k f (CHomographic c (less s j))) (repeat Amplify j ++ l).
Proof.
  intros H D. induction j as [|j IH]; intro L.
  - replace (less s 0) with (ident (s =? 1)) by (destruct H as [-> | ->]; reflexivity). now apply ident_drain.
  - cbn [repeat app]. eapply drain_some; [|apply IH; lia].
    destruct (less_gives k s (S j) H L ltac:(lia)) as [A B]. exists 2%nat. intros [|[|f]] Lf; [lia|lia|].
    cbn [clog_egest strategy_egest h_egest]. rewrite A. cbn [bind]. rewrite B. reflexivity.
Qed.

Lemma less_uncovers k s c l : s = 1 \/ s = -1 -> returns (fun f => drain k f c) l ->
  returns (fun f => drain k f (CHomographic c (ident_u (s =? 1)))) (Uncover :: l).
Proof.
  intros H D. eapply drain_some; [|apply (ident_drain k (s =? 1)); exact D]. exists 2%nat. intros [|[|f]] L; [lia|lia|].
  cbn [clog_egest strategy_egest]. rewrite ident_uncovers. reflexivity.
Qed.

(** ** The sequences *)

Lemma zq_two j : (zq (two (S j)) == 2 * zq (two j))%Q.
Proof. unfold zq, two. rewrite Nat2Z.inj_succ, Z.pow_succ_r, inject_Z_mult by lia. reflexivity. Qed.

Lemma two_pos j : (1 <= zq (two j))%Q.
Proof.
  unfold zq, two. change 1%Q with (inject_Z 1). rewrite <- Zle_Qle. pose proof (Z.pow_pos_nonneg 2 (Z.of_nat j)). lia.
Qed.

Lemma small_seq j : forall v l, clog_seq v l -> (zq (two j) * v <= 1)%Q ->
  (exists l', l = repeat Amplify j ++ l' /\ clog_seq (zq (two j) * v) l') \/
  (exists i, j = S i /\ l = repeat Amplify i /\ (zq (two j) * v == 1)%Q).
Proof.
  induction j as [|j IH]; intros v l S H.
  - left. exists l. split; [reflexivity|]. eapply clog_seq_compat; [exact S|]. change (zq (two 0)) with 1%Q. lra.
  - rewrite zq_two in H. pose proof (two_pos j) as P. destruct S as [v E|v l A B S|v l A B S].
    + right. exists 0%nat. destruct j as [|j]; [split; [reflexivity|split; [reflexivity|rewrite E; reflexivity]]|]. exfalso. rewrite E, zq_two in H.
      pose proof (two_pos j). lra.
    + destruct (IH (2 * v)%Q l S) as [(l' & -> & S')|(i & -> & -> & E)].
      * lra.
      * left. exists l'. split; [reflexivity|]. eapply clog_seq_compat; [exact S'|]. rewrite zq_two. ring.
      * right. exists (Datatypes.S i). split; [reflexivity|]. split; [reflexivity|]. rewrite <- E, (zq_two (Datatypes.S i)). ring.
    + exfalso. nra.
Qed.

Lemma grow_seq j : forall v l, clog_seq v l -> clog_seq (v / zq (two j)) (repeat Amplify j ++ l).
Proof.
  induction j as [|j IH]; intros v l S.
  - eapply clog_seq_compat; [exact S|]. change (zq (two 0)) with 1%Q. field.
  - cbn [repeat app]. destruct (clog_seq_range _ _ S) as [A B]. pose proof (two_pos j) as P. pose proof (zq_two j) as Z.
    assert (E : (2 * (v / zq (two (Datatypes.S j))) == v / zq (two j))%Q) by (rewrite Z; field; lra).
    destruct (clog_seq_range _ _ (IH v l S)) as [A' B'].
    apply seq_amplify; [lra|lra|]. eapply clog_seq_compat; [apply IH, S|]. symmetry. exact E.
Qed.

(** ** The results *)

Lemma number_made k x nx n dx d p c m a :
  (nx =? 0) && (dx =? 0) = false -> x = NOther p c -> h_absorb_primer k p (HC nx n dx d) = Ok m -> primes k c m a ->
  forall y, match a with
            | (Some s, _, _, _) => y = NSpecial s
            | (None, p, None, Some (c', m')) => y = NOther p (CHomographic c' m')
            | _ => False
            end -> returns (fun f => number_homographic k f x nx n dx d) y.
Proof.
  intros Z -> A [N P] y Y. exists N. intros f L. unfold number_homographic, h_new. rewrite Z. cbn [unwrap_other bind].
  rewrite A. cbn [bind]. rewrite P by exact L. cbn [bind].
  destruct a as [[[[s|] q] [r|]] [[c' m']|]]; try contradiction; now subst y.
Qed.

(** A special operand gives a ratio. *)
Lemma special_ratio k f nx n dx d s n' d' :
  match s with
  | NegOne => checked_sub k n nx = Ok n' /\ checked_sub k d dx = Ok d'
  | Zero => n' = n /\ d' = d
  | PosOne => checked_add k n nx = Ok n' /\ checked_add k d dx = Ok d'
  end -> (nx =? 0) && (dx =? 0) = false ->
  number_homographic k f (NSpecial s) nx n dx d = number_ratio k n' d'.
Proof.
  intros H Z. assert (X : h_new k (clog_egest k f) f (NSpecial s) nx n dx d = h_as_ratio k n' d').
  { unfold h_new. rewrite Z. destruct s; destruct H as [A B]; try (rewrite A; cbn [bind]; rewrite B; reflexivity). }
  unfold number_homographic. rewrite X. unfold h_as_ratio, ratio_new_i, number_ratio, number_ratio_u.
  destruct (magnitude k n'); try reflexivity. destruct (magnitude k d'); try reflexivity. cbn [bind].
  destruct (ratio_new _ _ _) as [[[[s'|] p] [r|]]| |]; reflexivity.
Qed.

Lemma computes_ratio k f n d : isize k n -> isize k d -> d <> 0 -> n <> imin k -> d <> imin k ->
  (forall i, f i = number_ratio k n d) -> computes k f (zq n / zq d).
Proof.
  intros I J Z A B E. destruct (proj2 (ratio_value k n d I J Z)) as (y & r & Y & R & D).
  - intros [_ [X|X]]; contradiction.
  - exists y, r. repeat split; auto. exists 0%nat. intros i _. rewrite E. exact Y.
Qed.

Lemma computes_eq k f q q' : (q == q')%Q -> computes k f q -> computes k f q'.
Proof.
  intros E (y & r & A & B & C). exists y, r. repeat split; auto. destruct r as [s|[p l]]; cbn [represents] in *.
  - now rewrite <- E.
  - destruct C as (v & S & C). exists v. split; [exact S|]. now rewrite <- E.
Qed.

Lemma two_isize k j s : s = 1 \/ s = -1 -> Z.of_nat j <= bits (wd k) - 2 -> isize k (s * two j) /\ s * two j <> imin k.
Proof.
  intros H J. assert (X : 0 < two j <= 2 ^ (bits (wd k) - 2)).
  { unfold two. split; [apply Z.pow_pos_nonneg; lia|apply Z.pow_le_mono_r; lia]. }
  unfold isize, imin, imax. destruct k as [[] ?]; cbn in *; lia.
Qed.

Lemma checked_in k z : isize k z -> checked k z = Ok z.
Proof. intro H. unfold checked. apply in_i_spec in H. now rewrite H. Qed.

Lemma special_computes k nx n dx d s n' d' :
  let v := match s with NegOne => -1 | Zero => 0 | PosOne => 1 end in
  n' = n + v * nx -> d' = d + v * dx -> isize k n' -> isize k d' -> n' <> imin k -> d' <> imin k -> d' <> 0 ->
  (nx =? 0) && (dx =? 0) = false ->
  computes k (fun f => number_homographic k f (NSpecial s) nx n dx d) (zq n' / zq d').
Proof.
  cbv zeta. intros A B I J A' B' D Z. apply computes_ratio; auto. intro i. apply special_ratio; [|exact Z].
  unfold checked_sub, checked_add. destruct s; [| |].
  - replace (n - nx) with n' by lia. replace (d - dx) with d' by lia. split; now apply checked_in.
  - split; lia.
  - replace (n + nx) with n' by lia. replace (d + dx) with d' by lia. split; now apply checked_in.
Qed.

Definition made (a : h_made) (y : number) : Prop :=
  match a with
  | (Some s, _, _, _) => y = NSpecial s
  | (None, p, None, Some (c', m')) => y = NOther p (CHomographic c' m')
  | _ => False
  end.

Lemma family k (m : nat -> hcoef) p b s c l v j :
  (forall i, (1 <= i <= j)%nat -> waits k (m i) (m (pred i))) -> opens k (m O) p (ident b) -> ends k (m 1%nat) s ->
  (special_val s == primed p 1)%Q -> returns (fun f => drain k f c) l -> clog_seq v l -> (zq (two j) * v <= 1)%Q ->
  exists a y r, primes k c (m j) a /\ made a y /\ read k y r /\ represents (primed p (zq (two j) * v)) r.
Proof.
  intros W O X V D S H. destruct (small_seq j v l S H) as [(l' & -> & S')|(i & -> & -> & E)].
  - destruct (primes_some k m p (ident b) j W O j c l' (le_n j) D) as (c' & D' & P).
    exists (None, p, None, Some (c', ident b)), (NOther p (CHomographic c' (ident b))), (inr (p, l')).
    split; [exact P|]. split; [reflexivity|]. split; [split; [reflexivity|now apply ident_drain]|].
    exists (zq (two j) * v)%Q. split; [exact S'|reflexivity].
  - exists (Some s, None, None, None), (NSpecial s), (inl s).
    split; [exact (primes_end k m s (Datatypes.S i) W X i c (le_n _) D)|]. split; [reflexivity|]. split; [reflexivity|].
    cbn [represents]. rewrite V. destruct p as [[]|]; cbn [primed]; rewrite E; reflexivity.
Qed.

Lemma lessens k c m p s j l v : s = 1 \/ s = -1 -> Z.of_nat j <= bits (wd k) - 2 -> opens k m p (less s j) ->
  returns (fun f => drain k f c) l -> clog_seq v l ->
  exists a y r, primes k c m a /\ made a y /\ read k y r /\ represents (primed p (v / zq (two j))) r.
Proof.
  intros H J O D S. exists (None, p, None, Some (c, less s j)), (NOther p (CHomographic c (less s j))), (inr (p, repeat Amplify j ++ l)).
  split; [now apply primes_opens|]. split; [reflexivity|]. split; [split; [reflexivity|now apply less_drain]|].
  exists (v / zq (two j))%Q. split; [now apply grow_seq|reflexivity].
Qed.

Lemma opens_up k : opens k (up 1 0) None (ident true). Proof. apply opensb_ok. all_of k. Qed.
Lemma opens_up_m k : opens k (up (-1) 0) (Some Reflect) (ident true). Proof. apply opensb_ok. all_of k. Qed.
Lemma opens_down k : opens k (down 1 0) (Some Turn) (ident true). Proof. apply opensb_ok. all_of k. Qed.
Lemma opens_down_m k : opens k (down (-1) 0) (Some Ground) (ident false). Proof. apply opensb_ok. all_of k. Qed.
Lemma ends_up k : ends k (up 1 1) PosOne. Proof. destruct k as [[] []]; eexists; eexists; split; reflexivity. Qed.
Lemma ends_up_m k : ends k (up (-1) 1) NegOne. Proof. destruct k as [[] []]; eexists; eexists; split; reflexivity. Qed.
Lemma ends_down k : ends k (down 1 1) PosOne. Proof. destruct k as [[] []]; eexists; eexists; split; reflexivity. Qed.
Lemma ends_down_m k : ends k (down (-1) 1) NegOne. Proof. destruct k as [[] []]; eexists; eexists; split; reflexivity. Qed.

Lemma computes_made k p c nx n dx d m a y r q : (nx =? 0) && (dx =? 0) = false ->
  h_absorb_primer k p (HC nx n dx d) = Ok m -> primes k c m a -> made a y -> read k y r -> represents q r ->
  computes k (fun f => number_homographic k f (NOther p c) nx n dx d) q.
Proof.
  intros Z A P M R Q. exists y, r. split; [|split; assumption]. eapply number_made; try eassumption. reflexivity.
Qed.

Lemma neg_two k j : Z.of_nat j <= bits (wd k) - 2 -> neg k (two j) = Ok (- two j).
Proof. intro J. unfold neg. apply plain_ok. replace (- two j) with (-1 * two j) by lia. apply two_isize; auto. Qed.
Lemma neg_0 k : neg k 0 = Ok 0. Proof. destruct k as [[] []]; reflexivity. Qed.
Lemma neg_1 k : neg k 1 = Ok (-1). Proof. destruct k as [[] []]; reflexivity. Qed.

Lemma two_ge j : 1 <= two j.
Proof. unfold two. pose proof (Z.pow_pos_nonneg 2 (Z.of_nat j)). lia. Qed.

Theorem scale_up k x q r j : read k x r -> represents q r -> Z.of_nat j <= bits (wd k) - 2 ->
  (zq (two j) * Qabs q <= 1 \/ 1 <= Qabs q)%Q ->
  computes k (fun f => number_homographic k f x (two j) 0 0 1) (zq (two j) * q).
Proof.
  pose proof (two_ge j) as T. pose proof (two_pos j) as T'.
  assert (Z : (two j =? 0) && (0 =? 0) = false) by (apply andb_false_intro1, Z.eqb_neq; lia).
  destruct x as [s|p c], r as [s'|[p' l]]; cbn [read]; try contradiction; intros R Hq J B.
  - subst s'. cbn [represents] in Hq.
    set (n' := match s with NegOne => -1 * two j | Zero => 0 | PosOne => 1 * two j end).
    apply computes_eq with (zq n' / zq 1)%Q.
    + rewrite Hq. unfold n'. destruct s; cbn [special_val]; unfold zq; rewrite ?inject_Z_mult; cbn; field.
    + assert (isize k n' /\ n' <> imin k) as [I N].
      { destruct s; [apply two_isize; auto| |apply two_isize; auto]. unfold n', isize. destruct k as [[] ?]; cbn; lia. }
      apply special_computes; auto; try (destruct k as [[] ?]; unfold isize; cbn; lia); unfold n'; destruct s; lia.
  - destruct R as [-> D]. destruct Hq as (v & S & Hq). destruct (clog_seq_range _ _ S) as [A0 A1].
    assert (W : forall s, s = 1 \/ s = -1 -> forall i, (1 <= i <= j)%nat -> waits k (up s i) (up s (pred i)))
      by (intros s Hs i Hi; apply up_waits; auto; lia).
    destruct p' as [[]|].
    + (* Turn *) destruct (lessens k c _ _ 1 j l v (or_introl eq_refl) J (turn_opens k j J) D S) as (a & y & r & P & M & Rd & Q).
      eapply computes_eq; [|eapply computes_made; try eassumption; reflexivity]. rewrite Hq. cbn [primed]. field. split; lra.
    + (* Reflect *) assert (B' : (zq (two j) * v <= 1)%Q).
      { destruct B as [B|B].
        - rewrite Hq in B. cbn [primed] in B. rewrite Qabs_opp, Qabs_pos in B by lra. exact B.
        - exfalso. rewrite Hq in B. cbn [primed] in B. rewrite Qabs_opp, Qabs_pos in B by lra. lra. }
      destruct (family k (up (-1)) (Some Reflect) true NegOne c l v j (W (-1) (or_intror eq_refl)) (opens_up_m k) (ends_up_m k) ltac:(reflexivity) D S B')
        as (a & y & r & P & M & Rd & Q).
      eapply computes_eq; [|eapply computes_made; try eassumption].
      * rewrite Hq. cbn [primed]. ring.
      * cbn [h_absorb_primer h_nx h_dx h_n h_d]. rewrite neg_two, neg_0 by exact J. cbn [bind]. unfold up. replace (-1 * two j) with (- two j) by lia. reflexivity.
    + (* Ground *) destruct (lessens k c _ _ (-1) j l v (or_intror eq_refl) J (ground_opens k j J) D S) as (a & y & r & P & M & Rd & Q).
      eapply computes_eq; [|eapply computes_made; try eassumption].
      * rewrite Hq. cbn [primed]. field. split; lra.
      * cbn [h_absorb_primer h_nx h_dx h_n h_d]. rewrite neg_two, neg_0 by exact J. cbn [bind]. reflexivity.
    + assert (B' : (zq (two j) * v <= 1)%Q).
      { destruct B as [B|B]; rewrite Hq in B; cbn [primed] in B; rewrite Qabs_pos in B by lra; lra. }
      destruct (family k (up 1) None true PosOne c l v j (W 1 (or_introl eq_refl)) (opens_up k) (ends_up k) ltac:(reflexivity) D S B')
        as (a & y & r & P & M & Rd & Q).
      eapply computes_eq; [|eapply computes_made; try eassumption].
      * rewrite Hq. reflexivity.
      * cbn [h_absorb_primer]. unfold up. rewrite Z.mul_1_l. reflexivity.
Qed.

Theorem scale_down k x q r j : read k x r -> represents q r -> Z.of_nat j <= bits (wd k) - 2 ->
  (Qabs q <= 1 \/ zq (two j) <= Qabs q)%Q ->
  computes k (fun f => number_homographic k f x 1 0 0 (two j)) (q / zq (two j)).
Proof.
  pose proof (two_ge j) as T. pose proof (two_pos j) as T'.
  assert (Z : (1 =? 0) && (0 =? 0) = false) by reflexivity.
  destruct x as [s|p c], r as [s'|[p' l]]; cbn [read]; try contradiction; intros R Hq J B.
  - subst s'. cbn [represents] in Hq.
    set (n' := match s with NegOne => -1 | Zero => 0 | PosOne => 1 end).
    apply computes_eq with (zq n' / zq (1 * two j))%Q.
    + rewrite Hq. rewrite Z.mul_1_l. unfold n'. destruct s; cbn [special_val]; reflexivity.
    + destruct (two_isize k j 1 (or_introl eq_refl) J) as [I N].
      apply special_computes; auto; try (unfold n'; destruct s, k as [[] ?]; unfold isize; cbn; lia); unfold n'; destruct s; lia.
  - destruct R as [-> D]. destruct Hq as (v & S & Hq). destruct (clog_seq_range _ _ S) as [A0 A1].
    assert (W : forall s, s = 1 \/ s = -1 -> forall i, (1 <= i <= j)%nat -> waits k (down s i) (down s (pred i)))
      by (intros s Hs i Hi; apply down_waits; auto; lia).
    assert (I1 : (1 < / v)%Q).
    { apply Qlt_shift_inv_l; lra. }
    assert (I2 : (zq (two j) <= / v -> zq (two j) * v <= 1)%Q).
    { intro Hh. setoid_replace 1%Q with (/ v * v)%Q by (field; lra). apply Qmult_le_compat_r; lra. }
    destruct p' as [[]|].
    + (* Turn *) assert (B' : (zq (two j) * v <= 1)%Q).
      { destruct B as [B|B]; rewrite Hq in B; cbn [primed] in B; rewrite Qabs_pos in B by lra; [lra|auto]. }
      destruct (family k (down 1) (Some Turn) true PosOne c l v j (W 1 (or_introl eq_refl)) (opens_down k) (ends_down k) ltac:(reflexivity) D S B')
        as (a & y & r & P & M & Rd & Q).
      eapply computes_eq; [|eapply computes_made; try eassumption; reflexivity]. rewrite Hq. cbn [primed]. field. split; lra.
    + (* Reflect *) destruct (lessens k c _ _ 1 j l v (or_introl eq_refl) J (reflect_opens k j J) D S) as (a & y & r & P & M & Rd & Q).
      eapply computes_eq; [|eapply computes_made; try eassumption].
      * rewrite Hq. cbn [primed]. field. lra.
      * cbn [h_absorb_primer h_nx h_dx h_n h_d]. rewrite neg_1, neg_0. reflexivity.
    + (* Ground *) assert (B' : (zq (two j) * v <= 1)%Q).
      { destruct B as [B|B]; rewrite Hq in B; cbn [primed] in B; rewrite Qabs_opp, Qabs_pos in B by lra; [lra|auto]. }
      destruct (family k (down (-1)) (Some Ground) false NegOne c l v j (W (-1) (or_intror eq_refl)) (opens_down_m k) (ends_down_m k) ltac:(reflexivity) D S B')
        as (a & y & r & P & M & Rd & Q).
      eapply computes_eq; [|eapply computes_made; try eassumption].
      * rewrite Hq. cbn [primed]. field. split; lra.
      * cbn [h_absorb_primer h_nx h_dx h_n h_d]. rewrite neg_1, neg_0. reflexivity.
    + destruct (lessens k c _ _ 1 j l v (or_introl eq_refl) J (none_opens k j J) D S) as (a & y & r & P & M & Rd & Q).
      eapply computes_eq; [|eapply computes_made; try eassumption; reflexivity]. rewrite Hq. reflexivity.
Qed.

(** ** Adding and subtracting one *)

Lemma shifts k c m p b l v : opens k m p (ident_u b) -> returns (fun f => drain k f c) l -> clog_seq v l ->
  exists a y r, primes k c m a /\ made a y /\ read k y r /\ represents (primed p (/ (1 + v))) r.
Proof.
  intros O D S. destruct (clog_seq_range _ _ S) as [A0 A1].
  exists (None, p, None, Some (c, ident_u b)), (NOther p (CHomographic c (ident_u b))), (inr (p, Uncover :: l)).
  split; [now apply primes_opens|]. split; [reflexivity|]. split.
  - split; [reflexivity|]. destruct b; [apply (less_uncovers k 1)|apply (less_uncovers k (-1))]; auto.
  - exists (/ (1 + v))%Q. split; [|reflexivity].
    assert (E : (/ / (1 + v) - 1 == v)%Q) by (field; lra). assert (H : ((1#2) < / (1 + v))%Q).
    { apply Qlt_shift_inv_l; lra. }
    assert (H1 : (/ (1 + v) < 1)%Q) by (apply Qlt_shift_inv_r; lra).
    apply seq_uncover; auto. eapply clog_seq_compat; [exact S|]. now symmetry.
Qed.

Ltac small_size k := destruct k as [[] ?]; unfold isize; cbn; lia.

Theorem increment k x q r : read k x r -> represents q r -> (0 <= q <= 1)%Q ->
  computes k (fun f => number_homographic k f x 1 1 0 1) (q + 1) /\
  computes k (fun f => number_homographic k f x 0 1 1 1) (/ (q + 1)).
Proof.
  destruct x as [s|p c], r as [s'|[p' l]]; cbn [read]; try contradiction; intros R Hq [B0 B1].
  - subst s'. cbn [represents] in Hq. destruct s; cbn [special_val] in Hq; [exfalso; lra| |]; split.
    + apply computes_eq with (zq 1 / zq 1)%Q; [rewrite Hq; reflexivity|]. apply special_computes; try reflexivity; small_size k.
    + apply computes_eq with (zq 1 / zq 1)%Q; [rewrite Hq; reflexivity|]. apply special_computes; try reflexivity; small_size k.
    + apply computes_eq with (zq 2 / zq 1)%Q; [rewrite Hq; reflexivity|]. apply special_computes; try reflexivity; small_size k.
    + apply computes_eq with (zq 1 / zq 2)%Q; [rewrite Hq; reflexivity|]. apply special_computes; try reflexivity; small_size k.
  - destruct R as [-> D]. destruct Hq as (v & S & Hq). destruct (clog_seq_range _ _ S) as [A0 A1].
    assert (I1 : (1 < / v)%Q) by (apply Qlt_shift_inv_l; lra).
    destruct p' as [[]|]; cbn [primed] in Hq; try (exfalso; lra).
    split.
    + destruct (shifts k c (HC 1 1 0 1) (Some Turn) true l v ltac:(apply opensb_ok; all_of k) D S) as (a & y & r & P & M & Rd & Q).
      eapply computes_eq; [|eapply computes_made; try eassumption; reflexivity]. rewrite Hq. cbn [primed]. field; repeat split; lra.
    + destruct (shifts k c (HC 0 1 1 1) None true l v ltac:(apply opensb_ok; all_of k) D S) as (a & y & r & P & M & Rd & Q).
      eapply computes_eq; [|eapply computes_made; try eassumption; reflexivity]. rewrite Hq. cbn [primed]. field; repeat split; lra.
Qed.

Theorem increment_inverse k x q r : read k x r -> represents q r -> (1 <= q)%Q ->
  computes k (fun f => number_homographic k f x 1 1 1 0) ((q + 1) / q) /\
  computes k (fun f => number_homographic k f x 1 0 1 1) (q / (q + 1)).
Proof.
  destruct x as [s|p c], r as [s'|[p' l]]; cbn [read]; try contradiction; intros R Hq B.
  - subst s'. cbn [represents] in Hq. destruct s; cbn [special_val] in Hq; try (exfalso; lra); split.
    + apply computes_eq with (zq 2 / zq 1)%Q; [rewrite Hq; reflexivity|]. apply special_computes; try reflexivity; small_size k.
    + apply computes_eq with (zq 1 / zq 2)%Q; [rewrite Hq; reflexivity|]. apply special_computes; try reflexivity; small_size k.
  - destruct R as [-> D]. destruct Hq as (v & S & Hq). destruct (clog_seq_range _ _ S) as [A0 A1].
    assert (I1 : (1 < / v)%Q) by (apply Qlt_shift_inv_l; lra).
    destruct p' as [[]|]; cbn [primed] in Hq; try (exfalso; lra).
    assert (NZ : ~ (/ v == 0)%Q) by lra. assert (NZ1 : ~ (/ v + 1 == 0)%Q) by lra.
    split.
    + destruct (shifts k c (HC 1 1 0 1) (Some Turn) true l v ltac:(apply opensb_ok; all_of k) D S) as (a & y & r & P & M & Rd & Q).
      eapply computes_eq; [|eapply computes_made; try eassumption; reflexivity]. rewrite Hq. cbn [primed]. field; repeat split; lra.
    + destruct (shifts k c (HC 0 1 1 1) None true l v ltac:(apply opensb_ok; all_of k) D S) as (a & y & r & P & M & Rd & Q).
      eapply computes_eq; [|eapply computes_made; try eassumption; reflexivity]. rewrite Hq. cbn [primed]. field; repeat split; lra.
Qed.

Theorem decrement k x q r : read k x r -> represents q r -> (-1 <= q <= 0)%Q ->
  computes k (fun f => number_homographic k f x 1 (-1) 0 1) (q - 1) /\
  computes k (fun f => number_homographic k f x 0 1 1 (-1)) (/ (q - 1)).
Proof.
  destruct x as [s|p c], r as [s'|[p' l]]; cbn [read]; try contradiction; intros R Hq [B0 B1].
  - subst s'. cbn [represents] in Hq. destruct s; cbn [special_val] in Hq; [| |exfalso; lra]; split.
    + apply computes_eq with (zq (-2) / zq 1)%Q; [rewrite Hq; reflexivity|]. apply special_computes; try reflexivity; small_size k.
    + apply computes_eq with (zq 1 / zq (-2))%Q; [rewrite Hq; reflexivity|]. apply special_computes; try reflexivity; small_size k.
    + apply computes_eq with (zq (-1) / zq 1)%Q; [rewrite Hq; reflexivity|]. apply special_computes; try reflexivity; small_size k.
    + apply computes_eq with (zq 1 / zq (-1))%Q; [rewrite Hq; reflexivity|]. apply special_computes; try reflexivity; small_size k.
  - destruct R as [-> D]. destruct Hq as (v & S & Hq). destruct (clog_seq_range _ _ S) as [A0 A1].
    assert (I1 : (1 < / v)%Q) by (apply Qlt_shift_inv_l; lra).
    destruct p' as [[]|]; cbn [primed] in Hq; try (exfalso; lra).
    split.
    + destruct (shifts k c (HC (-1) (-1) 0 1) (Some Ground) false l v ltac:(apply opensb_ok; all_of k) D S) as (a & y & r & P & M & Rd & Q).
      eapply computes_eq; [|eapply computes_made; try eassumption; try reflexivity].
      * rewrite Hq. cbn [primed]. field; repeat split; lra.
      * cbn [h_absorb_primer h_nx h_dx h_n h_d]. rewrite neg_1, neg_0. reflexivity.
    + destruct (shifts k c (HC 0 1 (-1) (-1)) (Some Reflect) false l v ltac:(apply opensb_ok; all_of k) D S) as (a & y & r & P & M & Rd & Q).
      eapply computes_eq; [|eapply computes_made; try eassumption; try reflexivity].
      * rewrite Hq. cbn [primed]. field; repeat split; lra.
      * cbn [h_absorb_primer h_nx h_dx h_n h_d]. rewrite neg_1, neg_0. reflexivity.
Qed.

(** ** Elsewhere the checks fail *)

Definition broken (k : cfg) (f : nat) (x : res number) (nx n dx d : Z) : bool :=
  match x with
  | Ok x =>
      match number_homographic k f x nx n dx d with
      | Panic PChecked => true
      | Ok (NOther _ c) => match drain k f c with Panic PChecked => true | _ => false end
      | _ => false
      end
  | _ => false
  end.

Lemma broken_breaks k f num den x nx n dx d : number_ratio k num den = Ok x ->
  broken k f (number_ratio k num den) nx n dx d = true -> breaks k (fun f => number_homographic k f x nx n dx d).
Proof.
  intros -> B. cbn [broken] in B. destruct (number_homographic k f x nx n dx d) as [[s|p c]|p|] eqn:H; try discriminate.
  - right. exists p, c. split; [apply (ran_homographic k f); [exact H|discriminate]|].
    destruct (drain k f c) as [?|[]|] eqn:D; try discriminate.
    eapply settles_fuel; [|exact D|discriminate]. intros. apply upto_drain; auto.
  - left. apply (ran_homographic k f); [|discriminate]. destruct p; try discriminate. exact H.
Qed.

(** The numbers that are too much: these are of about half as many bits as there
    are in a square root of the largest integer. *)
Definition much (k : cfg) : Z := match wd k with W16 => 16 | W32 => 64 | W64 => 256 end.

Definition same_symbol (a b : reduction) : bool :=
  match a, b with Amplify, Amplify | Uncover, Uncover => true | _, _ => false end.
Fixpoint same_list (a b : list reduction) : bool :=
  match a, b with
  | [], [] => true
  | x :: a, y :: b => same_symbol x y && same_list a b
  | _, _ => false
  end.
Lemma same_list_eq a : forall b, same_list a b = true -> a = b.
Proof.
  induction a as [|x a IH]; intros [|y b]; cbn; try discriminate; auto. rewrite andb_true_iff. intros [A B].
  f_equal; [destruct x, y; (reflexivity || discriminate)|auto].
Qed.

Definition next_ok (k : cfg) (f : nat) (n : Z) : bool :=
  match number_ratio k n 1, number_ratio k (n + 1) 1 with
  | Ok x, Ok (NOther p c) =>
      match number_homographic k f x 1 1 0 1 with
      | Ok (NOther p' c') =>
          match drain k f c, drain k f c' with
          | Ok l, Ok l' => same_primer p' p && same_list l l'
          | _, _ => false
          end
      | _ => false
      end
  | _, _ => false
  end.

Lemma next_computes k f n x : isize k (n + 1) -> n + 1 <> imin k -> next_ok k f n = true -> number_ratio k n 1 = Ok x ->
  computes k (fun f => number_homographic k f x 1 1 0 1) (zq (n + 1)).
Proof.
  intros I N H X. unfold next_ok in H. rewrite X in H.
  destruct (number_ratio k (n + 1) 1) as [[s|p c]| |] eqn:Y; try discriminate.
  destruct (number_homographic k f x 1 1 0 1) as [[s|p' c']| |] eqn:M; try discriminate.
  destruct (drain k f c) as [l| |] eqn:D; try discriminate. destruct (drain k f c') as [l'| |] eqn:D'; try discriminate.
  apply andb_true_iff in H. destruct H as [A B]. apply same_primer_eq in A. apply same_list_eq in B. subst p' l'.
  destruct (proj2 (ratio_value k (n + 1) 1 I ltac:(small_size k) ltac:(lia))) as (y & r & Y' & R & Rd).
  { intros [_ [E|E]]; [contradiction|]. destruct k as [[] ?]; cbn in E; lia. }
  rewrite Y in Y'. injection Y' as <-. destruct r as [s|[p' l1]]; [contradiction|]. destruct Rd as [<- Dr].
  pose proof (settles_det _ _ _ (ran_drain k f c l D) Dr) as E. injection E as <-.
  apply computes_eq with (zq (n + 1) / zq 1)%Q; [change (zq 1) with 1%Q; field|].
  exists (NOther p c'), (inr (p, l)). split; [apply (ran_homographic k f); [exact M|discriminate]|]. split; [|exact R].
  split; [reflexivity|]. apply (ran_drain k f); exact D'.
Qed.

Definition range (a : Z) (n : nat) : list Z := map (fun i => a + Z.of_nat i) (seq 0 n).
Lemma range_in a n z : a <= z < a + Z.of_nat n -> In z (range a n).
Proof. intro H. apply in_map_iff. exists (Z.to_nat (z - a)). split; [lia|]. apply in_seq. lia. Qed.

Theorem next_small k n x : 2 <= n < much k - 1 -> number_ratio k n 1 = Ok x ->
  computes k (fun f => number_homographic k f x 1 1 0 1) (zq (n + 1)).
Proof.
  intros H X. apply (next_computes k 300); auto; try (destruct k as [[] ?]; unfold isize, much in *; cbn in *; lia).
  assert (F : forallb (next_ok k 300) (range 2 (Z.to_nat (much k - 3))) = true) by (all_of k).
  rewrite forallb_forall in F. apply F, range_in.
  assert (3 <= much k) by (destruct k as [[] ?]; cbn; lia). rewrite Z2Nat.id by lia. lia.
Qed.

Theorem next_least k n x : 0 <= n < much k - 1 -> number_ratio k n 1 = Ok x ->
  computes k (fun f => number_homographic k f x 1 1 0 1) (zq (n + 1)).
Proof.
  intros H X. assert (C : n = 0 \/ n = 1 \/ 2 <= n) by lia. destruct C as [-> | [-> | C]].
  - assert (E : x = NSpecial Zero) by (destruct k as [[] []]; injection X; auto). subst x.
    apply computes_eq with (0 + 1)%Q; [reflexivity|]. apply (increment k _ 0%Q (inl Zero)); [reflexivity|reflexivity|lra].
  - assert (E : x = NSpecial PosOne) by (destruct k as [[] []]; injection X; auto). subst x.
    apply computes_eq with (1 + 1)%Q; [reflexivity|]. apply (increment k _ 1%Q (inl PosOne)); [reflexivity|reflexivity|lra].
  - apply next_small; [lia|exact X].
Qed.
