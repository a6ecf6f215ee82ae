(** * BuildProofs: overflow.  The identity-like homographics, the two builds,
    small coefficients, and which panics are possible. *)

From Coq Require Import ZArith QArith Qfield List Lia Lqa Psatz Bool.
From Verif Require Import Machine Protocol Support Types Ratio Homographic Combine Lib Spec Upto
  SeqProofs Good RatioProofs HomProofs HomValue HomGood CombProofs CombGood LibProofs ApiProofs ArithProofs.
Import ListNotations.
Open Scope Z_scope.

(** ** Identity *)

Definition ident (s : bool) : hcoef := if s then HC 1 0 0 1 else HC (-1) 0 0 (-1).
Definition ident_a (s : bool) : hcoef := if s then HC 1 0 0 2 else HC (-1) 0 0 (-2).
Definition ident_u (s : bool) : hcoef := if s then HC 0 1 1 1 else HC 0 (-1) (-1) (-1).

Lemma ident_ingests k eg f c s : h_egest k eg (S f) c (ident s) =
  let! ing := h_reduction_ingest k eg c (ident s) in
  match ing with inl r => Ok (Become (CRatio r)) | inr (x', m') => h_egest k eg f x' m' end.
Proof. destruct k as [[] []], s; reflexivity. Qed.

Lemma ident_amplifies k eg f c s :
  h_egest k eg (S f) c (ident_a s) = Ok (Emit (Some Amplify) (CHomographic c (ident s))).
Proof. destruct k as [[] []], s; reflexivity. Qed.

Lemma ident_uncovers k eg f c s :
  h_egest k eg (S f) c (ident_u s) = Ok (Emit (Some Uncover) (CHomographic c (ident s))).
Proof. destruct k as [[] []], s; reflexivity. Qed.

Lemma ident_ingest k eg c s o c' : eg c = Ok (o, c') ->
  h_reduction_ingest k eg c (ident s) =
  match o with
  | None => Ok (inl (MkRatio 1 2))
  | Some Amplify => Ok (inr (c', ident_a s))
  | Some Uncover => Ok (inr (c', ident_u s))
  end.
Proof. intro H. unfold h_reduction_ingest. rewrite H. destruct k as [[] []], s, o as [[]|]; reflexivity. Qed.

Lemma ident_egest k c s o c' : returns (fun f => clog_egest k f c) (o, c') ->
  returns (fun f => clog_egest k f (CHomographic c (ident s)))
    (o, match o with None => CRatio (MkRatio 1 2) | Some _ => CHomographic c' (ident s) end).
Proof.
  intros (F & H). exists (S (S (S F))). intros [|[|[|f]]] L; [lia .. |].
  specialize (H (S (S f)) ltac:(lia)).
  cbn [clog_egest]. cbn [strategy_egest]. change (clog_egest k (S (S f))) with (clog_egest k (S (S f))).
  rewrite ident_ingests. fold (clog_egest k (S (S f))).
  erewrite ident_ingest by exact H.
  destruct o as [[]|]; cbn [bind].
  - now rewrite ident_amplifies.
  - now rewrite ident_uncovers.
  - destruct k as [[] []]; reflexivity.
Qed.

Lemma drain_inv k c l : returns (fun f => drain k f c) l ->
  exists o c', returns (fun f => clog_egest k f c) (o, c') /\
    match o with
    | None => l = []
    | Some s => exists l', l = s :: l' /\ returns (fun f => drain k f c') l'
    end.
Proof.
  intros (F & H). pose proof (H (S F) ltac:(lia)) as H1. cbn [drain] in H1.
  destruct (clog_egest k F c) as [[o c']|p|] eqn:E; cbn [bind] in H1; try discriminate.
  assert (R : returns (fun f => clog_egest k f c) (o, c')) by (eapply egest_settles; eauto; discriminate).
  exists o, c'. split; auto. destruct o as [s'|].
  - destruct (drain k F c') as [l'|p|] eqn:D; cbn [bind] in H1; try discriminate.
    exists l'. split; [congruence|]. eapply settles_fuel; eauto; [|discriminate].
    intros. apply upto_drain; auto.
  - congruence.
Qed.

Lemma drain_none k c c' : returns (fun f => clog_egest k f c) (None, c') -> returns (fun f => drain k f c) [].
Proof.
  intros (F & E). exists (S F). intros [|f] L; [lia|]. cbn [drain]. now rewrite E by lia.
Qed.
Lemma drain_some k c s c' l : returns (fun f => clog_egest k f c) (Some s, c') ->
  returns (fun f => drain k f c') l -> returns (fun f => drain k f c) (s :: l).
Proof.
  intros (F & E) (F' & D). exists (S (Nat.max F F')). intros [|f] L; [lia|].
  cbn [drain]. rewrite E by lia. cbn [bind]. now rewrite D by lia.
Qed.

Lemma ident_drain k s l : forall c, returns (fun f => drain k f c) l ->
  returns (fun f => drain k f (CHomographic c (ident s))) l.
Proof.
  induction l as [|t l IH]; intros c D; destruct (drain_inv _ _ _ D) as (o & c' & R & M).
  - destruct o as [s'|]; [destruct M as (l' & M & _); discriminate|].
    eapply drain_none, ident_egest, R.
  - destruct o as [s'|]; [|discriminate]. destruct M as (l' & M & D'). inversion M; subst s' l'.
    eapply drain_some; [apply ident_egest, R | now apply IH].
Qed.

(** Which primer the three operations make. *)
Definition id_primer (p : option primer) : option primer * bool :=
  (p, match p with Some Ground => false | _ => true end).
Definition neg_primer (p : option primer) : option primer * bool :=
  match p with
  | None => (Some Reflect, true)
  | Some Turn => (Some Ground, false)
  | Some Reflect => (None, true)
  | Some Ground => (Some Turn, true)
  end.
Definition inv_primer (p : option primer) : option primer * bool :=
  match p with
  | None => (Some Turn, true)
  | Some Turn => (None, true)
  | Some Reflect => (Some Ground, true) (* not used: see RecipProofs *)
  | Some Ground => (Some Reflect, false)
  end.

Lemma id_other k f p c : number_homographic k (S f) (NOther p c) 1 0 0 1 =
  Ok (NOther (fst (id_primer p)) (CHomographic c (ident (snd (id_primer p))))).
Proof. destruct k as [[] []], p as [[]|]; reflexivity. Qed.
Lemma neg_other k f p c : number_homographic k (S f) (NOther p c) (-1) 0 0 1 =
  Ok (NOther (fst (neg_primer p)) (CHomographic c (ident (snd (neg_primer p))))).
Proof. destruct k as [[] []], p as [[]|]; reflexivity. Qed.
Lemma inv_other k f p c : p <> Some Reflect -> number_homographic k (S f) (NOther p c) 0 1 1 0 =
  Ok (NOther (fst (inv_primer p)) (CHomographic c (ident (snd (inv_primer p))))).
Proof. intro N. destruct p as [[]|]; try (now elim N); destruct k as [[] []]; reflexivity. Qed.

Lemma returns_S {A} (f : nat -> res A) a : (forall n, f (S n) = Ok a) -> returns f a.
Proof. intro H. exists 1%nat. intros [|n] L; [lia|]. apply H. Qed.

Theorem identity_total k x q r : read k x r -> represents q r ->
  exists y, returns (fun f => number_homographic k f x 1 0 0 1) y /\ read k y r.
Proof.
  destruct x as [s|p c], r as [s'|[p' l]]; cbn [read]; try contradiction; intros R Hq.
  - subst s'. exists (NSpecial s). split; [|reflexivity].
    apply returns_S. intro n. destruct k as [[] []], s; reflexivity.
  - destruct R as [-> R]. eexists. split; [apply returns_S; intro; apply id_other|].
    cbn [read id_primer fst snd]. split; auto. now apply ident_drain.
Qed.

Theorem negation_total k x q r : read k x r -> represents q r ->
  exists y r', returns (fun f => number_homographic k f x (-1) 0 0 1) y /\
    represents (- q) r' /\ read k y r'.
Proof.
  destruct x as [s|p c], r as [s'|[p' l]]; cbn [read]; try contradiction; intros R Hq.
  - subst s'. cbn [represents] in Hq.
    exists (NSpecial (match s with NegOne => PosOne | Zero => Zero | PosOne => NegOne end)), (inl (match s with NegOne => PosOne | Zero => Zero | PosOne => NegOne end)).
    split; [|split; [|reflexivity]].
    + apply returns_S. intro n. destruct k as [[] []], s; reflexivity.
    + cbn [represents]. rewrite Hq. destruct s; reflexivity.
  - destruct R as [-> R]. eexists. exists (inr (fst (neg_primer p'), l)).
    split; [apply returns_S; intro; apply neg_other|].
    split; [|split; [reflexivity | now apply ident_drain]].
    destruct Hq as (v & S & Hq). exists v. split; auto. rewrite Hq.
    destruct p' as [[]|]; cbn [neg_primer fst primed]; ring.
Qed.

Theorem reciprocal_total k x q r : read k x r -> represents q r ->
  (q <= -1 \/ 0 <= q)%Q ->
  ((q == 0)%Q -> forall f, number_homographic k (S f) x 0 1 1 0 = Panic PDivZero) /\
  (~ (q == 0)%Q -> exists y r', returns (fun f => number_homographic k f x 0 1 1 0) y /\
     represents (/ q) r' /\ read k y r').
Proof.
  destruct x as [s|p c], r as [s'|[p' l]]; cbn [read]; try contradiction; intros R Hq Rg.
  - subst s'. cbn [represents] in Hq. split.
    + intros Z f. assert (E : s = Zero) by (apply special_val_inj; rewrite <- Hq; exact Z). subst s.
      destruct k as [[] []]; reflexivity.
    + intro NZ. exists (NSpecial s), (inl s). split; [|split; [|reflexivity]].
      * apply returns_S. intro n. destruct s; try (destruct k as [[] []]; reflexivity).
        exfalso. apply NZ. exact Hq.
      * cbn [represents]. rewrite Hq. destruct s; reflexivity.
  - destruct R as [-> R]. destruct Hq as (v & S & Hq). destruct (clog_seq_range _ _ S) as [A B]. split.
    + intro Z. exfalso. apply (primed_not_special p' v Zero A B). cbn [special_val]. now rewrite <- Hq.
    + intros _. eexists. exists (inr (fst (inv_primer p'), l)).
      split; [apply returns_S; intro; apply inv_other|].
      { intros ->. cbn [primed] in Hq. lra. }
      split; [|split; [reflexivity | now apply ident_drain]].
      exists v. split; auto. rewrite Hq.
      assert (~ (v == 0)%Q) by (intro; lra).
      destruct p' as [[]|]; cbn [inv_primer fst primed]; field; auto.
Qed.

(** ** The two builds *)

Lemma upto_builds {A} (a b : res A) : upto BadArith a b -> a = Panic PArith \/ b = a.
Proof. intros [H|H]; [left; exact H | right; symmetry; exact H]. Qed.

Lemma builds_egest k f c : clog_egest (debug k) f c = Panic PArith \/
  clog_egest (release k) f c = clog_egest (debug k) f c.
Proof. apply upto_builds. exact (upto_egest BadArith (debug k) (release k) eq_refl eq_refl f f c eq_refl). Qed.
Lemma builds_ratio k n d : number_ratio (debug k) n d = Panic PArith \/
  number_ratio (release k) n d = number_ratio (debug k) n d.
Proof. apply upto_builds. exact (upto_number_ratio BadArith (debug k) (release k) eq_refl eq_refl n d). Qed.
Lemma builds_homographic k f x nx n dx d : number_homographic (debug k) f x nx n dx d = Panic PArith \/
  number_homographic (release k) f x nx n dx d = number_homographic (debug k) f x nx n dx d.
Proof. apply upto_builds. exact (upto_homographic BadArith (debug k) (release k) eq_refl eq_refl f f x nx n dx d eq_refl). Qed.
Lemma builds_combine k n x y a b c d e f g h :
  number_combine (debug k) n x y a b c d e f g h = Panic PArith \/
  number_combine (release k) n x y a b c d e f g h = number_combine (debug k) n x y a b c d e f g h.
Proof. apply upto_builds. exact (upto_combine BadArith (debug k) (release k) eq_refl eq_refl n n x y a b c d e f g h eq_refl). Qed.
Lemma builds_compare k f x y : number_compare (debug k) f x y = Panic PArith \/
  number_compare (release k) f x y = number_compare (debug k) f x y.
Proof. apply upto_builds. exact (upto_compare BadArith (debug k) (release k) eq_refl eq_refl f f x y eq_refl). Qed.
Lemma builds_consume k f x : number_consume (debug k) f x = Panic PArith \/
  number_consume (release k) f x = number_consume (debug k) f x.
Proof. apply upto_builds. exact (upto_consume BadArith (debug k) (release k) eq_refl eq_refl f f x eq_refl). Qed.
Lemma builds_drain k f c : drain (debug k) f c = Panic PArith \/
  drain (release k) f c = drain (debug k) f c.
Proof. apply upto_builds. exact (upto_drain BadArith (debug k) (release k) eq_refl eq_refl f f c eq_refl). Qed.

(** What returns in the debug build returns in both. *)
Lemma builds_returns {A} (fd fr : nat -> res A) a :
  (forall n, fd n = Panic PArith \/ fr n = fd n) -> returns fd a -> returns fr a.
Proof.
  intros U (F & H). exists F. intros n L. destruct (U n) as [X|X]; [|rewrite X]; auto.
  rewrite H in X by auto. discriminate.
Qed.

Lemma builds_read k n r : read (debug k) n r -> read (release k) n r.
Proof.
  destruct n as [s|p c], r as [s'|[p' l]]; cbn [read]; auto.
  intros [-> R]. split; auto. eapply builds_returns; eauto. intro n. apply builds_drain.
Qed.

Lemma either_build k : k = debug k \/ k = release k.
Proof. destruct k as [w []]; [left | right]; reflexivity. Qed.

Lemma both_returns {A} (f : cfg -> nat -> res A) k a :
  (forall n, f (debug k) n = Panic PArith \/ f (release k) n = f (debug k) n) ->
  returns (f (debug k)) a -> returns (f k) a.
Proof.
  intros U R. destruct (either_build k) as [-> | ->]; [exact R|].
  eapply builds_returns; eauto.
Qed.
Lemma both_read k n r : read (debug k) n r -> read k n r.
Proof.
  intro R. destruct (either_build k) as [-> | ->]; [exact R|]. now apply builds_read.
Qed.

(** Every object a client of the debug build can make, a client of the release
    build can make, with the same value. *)
Theorem builds_has k :
  (forall c v, clog_has (debug k) c v -> clog_has (release k) c v) /\
  (forall n q, num_has (debug k) n q -> num_has (release k) n q).
Proof.
  assert (OkEq : forall A (a b : res A) x, a = Panic PArith \/ b = a -> a = Ok x -> b = Ok x).
  { intros A a b x [-> | ->]; congruence. }
  apply has_mutind; intros.
  - eapply has_unwrap; eauto.
  - eapply has_egest; eauto. eapply OkEq; [apply builds_egest | eauto].
  - eapply has_same_clog; eauto.
  - apply has_special.
  - now apply has_other.
  - apply has_ratio; auto. eapply OkEq; [apply builds_ratio | eauto].
  - apply has_ratio_u; auto.
  - eapply has_homographic; eauto. eapply OkEq; [apply builds_homographic | eauto].
  - eapply has_combine; eauto. eapply OkEq; [apply builds_combine | eauto].
  - eapply has_consume; eauto. eapply OkEq; [apply builds_consume | eauto].
  - eapply has_same; eauto.
Qed.

(** ** Small coefficients *)

Lemma represents_zlen q r : represents q r -> zlen q (symbols r).
Proof.
  intros R p v l E S. pose proof (represents_inj q q r (inr (p, l)) R (ex_intro _ v (conj S E))) as X.
  destruct X as [X _]. rewrite (X (Qeq_refl q)). reflexivity.
Qed.

Lemma has_read_good k x q r : ovf k = true -> num_has k x q -> read k x r ->
  numgood k (fun _ => False) x q /\ represents q r.
Proof.
  intros O X R. pose proof (proj2 (has_good k O) _ _ X) as G.
  assert (G' : numgood k (fun _ => False) x q).
  { destruct x as [s|p c]; cbn [numgood] in *; auto.
    destruct G as (v & l & S & E & G). exists v, l. split; auto. split; auto.
    destruct r as [s|[p' l']]; cbn [read] in R; [contradiction|]. destruct R as [_ R].
    eapply drained_good; eauto.
    destruct (drain_ev k ovfp l c G) as ([l0|pp|] & S0 & W); cbn [wp] in W; try contradiction.
    - subst l0. exact S0.
    - pose proof (settles_det _ _ _ S0 R). discriminate. }
  split; auto. eapply numgood_reads; eauto.
Qed.

Theorem small_homographic k x q rx nx n dx d r M :
  num_has (debug k) x q -> read (debug k) x rx ->
  Z.abs nx <= M -> Z.abs n <= M -> Z.abs dx <= M -> Z.abs d <= M ->
  ~ (hom_num dx d q == 0)%Q -> represents (hom nx n dx d q) r ->
  16 * (M * 2 ^ Z.of_nat (symbols rx + symbols r + 1)) ^ 2 <= imax k ->
  exists y, returns (fun f => number_homographic k f x nx n dx d) y /\ read k y r.
Proof.
  intros X R B1 B2 B3 B4 ND Hr Room.
  destruct (has_read_good (debug k) x q rx eq_refl X R) as [G Rq].
  set (t := S (symbols rx + symbols r)).
  replace (symbols rx + symbols r + 1)%nat with t in Room by (unfold t; lia).
  assert (M1 : 1 <= M).
  { destruct (Z.eq_dec M 0) as [-> |]; [|lia]. exfalso. apply ND.
    assert (dx = 0) by lia. assert (d = 0) by lia. subst. unfold hom_num. rewrite zq_0. ring. }
  pose proof (pow2_pos t) as P.
  assert (HR : hroom (debug k) (M * 2 ^ Z.of_nat t)).
  { clear - M1 P Room. split; [nia|]. change (imax (debug k)) with (imax k). lia. }
  destruct (hroom_pow _ _ _ HR) as [_ HM].
  assert (Is : forall z, Z.abs z <= M -> isize (debug k) z).
  { intros z Hz. eapply hroom_lin; [exact HM | clear - Hz M1; lia]. }
  assert (F : fits (debug k) (fun _ => False) (HC nx n dx d) t).
  { right. exists M. split; [unfold hbound; hc; auto | exact HR]. }
  assert (W := homographic_ev (debug k) eq_refl (fun _ => False) x q nx n dx d (symbols rx) (symbols r) G
     (Is _ B1) (Is _ B2) (Is _ B3) (Is _ B4) ND).
  destruct (ev_returns _ _ (W ltac:(destruct x; cbn; auto; now apply represents_zlen)
     (represents_zlen _ _ Hr) F)) as (y & Ry & Gy).
  exists y. split.
  - apply (both_returns (fun k f => number_homographic k f x nx n dx d)); [|exact Ry].
    intro. apply builds_homographic.
  - apply both_read. destruct (numgood_read _ _ _ Gy) as (r' & Rr & Y).
    now rewrite (proj1 (represents_inj _ _ _ _ Hr Rr) (Qeq_refl _)).
Qed.

Theorem small_combine k x p rx y q ry a b c d e f g h r M :
  num_has (debug k) x p -> read (debug k) x rx ->
  num_has (debug k) y q -> read (debug k) y ry ->
  Z.abs a <= M -> Z.abs b <= M -> Z.abs c <= M -> Z.abs d <= M ->
  Z.abs e <= M -> Z.abs f <= M -> Z.abs g <= M -> Z.abs h <= M ->
  ~ (comb_num e f g h p q == 0)%Q -> represents (comb a b c d e f g h p q) r ->
  16 * (M * 2 ^ Z.of_nat (symbols rx + symbols ry + symbols r + 3)) ^ 2 <= imax k ->
  exists z, returns (fun n => number_combine k n x y a b c d e f g h) z /\ read k z r.
Proof.
  intros X R Y Ry B1 B2 B3 B4 B5 B6 B7 B8 ND Hr Room.
  destruct (has_read_good (debug k) x p rx eq_refl X R) as [G Rp].
  destruct (has_read_good (debug k) y q ry eq_refl Y Ry) as [G2 Rq].
  set (t := (symbols rx + symbols ry + symbols r + 3)%nat) in *.
  assert (M1 : 1 <= M).
  { destruct (Z.eq_dec M 0) as [-> |]; [|lia]. exfalso. apply ND.
    assert (e = 0) by lia. assert (f = 0) by lia. assert (g = 0) by lia. assert (h = 0) by lia.
    subst. unfold comb_num. rewrite zq_0. ring. }
  pose proof (pow2_pos t) as P.
  assert (HR : hroom (debug k) (M * 2 ^ Z.of_nat t)).
  { clear - M1 P Room. split; [nia|]. change (imax (debug k)) with (imax k). lia. }
  destruct (hroom_pow _ _ _ HR) as [_ HM].
  assert (Is : forall z, Z.abs z <= M -> isize (debug k) z).
  { intros z Hz. eapply hroom_lin; [exact HM | clear - Hz M1; lia]. }
  assert (F : cfits (debug k) (fun _ => False) (CC a b c d e f g h) t).
  { right. exists M. split; [unfold cbound; cbn [c_a c_b c_c c_d c_e c_f c_g c_h]; auto 10 | exact HR]. }
  assert (W := combine_ev (debug k) eq_refl (fun _ => False) x p y q a b c d e f g h
     (symbols rx) (symbols ry) (symbols r) G G2
     (Is _ B1) (Is _ B2) (Is _ B3) (Is _ B4) (Is _ B5) (Is _ B6) (Is _ B7) (Is _ B8) ND).
  destruct (ev_returns _ _ (W ltac:(destruct x; cbn; auto; now apply represents_zlen)
     ltac:(destruct y; cbn; auto; now apply represents_zlen) (represents_zlen _ _ Hr) F)) as (z & Rz & Gz).
  exists z. split.
  - apply (both_returns (fun k n => number_combine k n x y a b c d e f g h)); [|exact Rz].
    intro. apply builds_combine.
  - apply both_read. destruct (numgood_read _ _ _ Gz) as (r' & Rr & Yr).
    now rewrite (proj1 (represents_inj _ _ _ _ Hr Rr) (Qeq_refl _)).
Qed.

(** ** Which panics *)

Lemma yields_panic {A} (f : nat -> res A) P n p :
  (forall f1 f2, (f1 <= f2)%nat -> upto BadFuel (f f1) (f f2)) ->
  yields f P -> f n = Panic p -> p = PChecked \/ p = PArith.
Proof.
  intros U Y H. assert (S : settles f (Panic p)) by (eapply settles_fuel; eauto; discriminate).
  destruct Y as [(a & R & _)|[R|R]]; pose proof (settles_det _ _ _ S R); try discriminate; intuition congruence.
Qed.

Lemma yields_settles {A} (f : nat -> res A) P : yields f P -> exists r, settles f r /\ r <> NoFuel.
Proof. intros [(a & R & _)|[R|R]]; eexists; (split; [exact R | discriminate]). Qed.
