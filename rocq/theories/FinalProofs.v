(** * FinalProofs: the remaining API-level theorems. *)

From Coq Require Import ZArith QArith List Lia Lqa.
From Verif Require Import Machine Protocol Types Ratio Lib Spec Upto SeqProofs Good RatioProofs
  HomValue LibProofs ApiProofs ArithProofs BuildProofs LengthProofs DivProofs HistProofs.
Import ListNotations.
Open Scope Z_scope.

(** ** Draining ratios *)

(** A rational below one as a fraction of integers. *)
Lemma frac_lt n d v : 0 < d -> (0 < v)%Q -> (v < 1)%Q -> (v == zq n / zq d)%Q -> 0 < n < d.
Proof.
  intros D V0 V1 E. assert (Dq : (0 < zq d)%Q) by now apply zq_pos.
  assert (M : (v * zq d == zq n)%Q) by (rewrite E; field; lra).
  split; apply zq_lt; [change (zq 0) with 0%Q|]; rewrite <- M; nra.
Qed.

Lemma neg_half a b : (a == -1 * b)%Q -> (a == - b)%Q.
Proof. intro H. rewrite H. ring. Qed.

Lemma unprimed_frac p v n d (pos : bool) : 0 <= n -> 0 < d -> (0 < v)%Q -> (v < 1)%Q ->
  ((if pos then 1 else -1) * (zq n / zq d) == primed p v)%Q ->
  exists a b, 0 < a < b /\ b <= Z.max n d /\ (v == zq a / zq b)%Q.
Proof.
  intros N D V0 V1 E. assert (Dq : (0 < zq d)%Q) by now apply zq_pos.
  assert (Nq : (0 <= zq n)%Q) by exact (proj1 (zq_le 0 n) N).
  assert (Q0 : (0 <= zq n / zq d)%Q) by (apply Qle_shift_div_l; auto; lra).
  assert (Iv : (0 < / v)%Q) by now apply Qinv_lt_0_compat.
  assert (Case : (v == zq n / zq d \/ / v == zq n / zq d)%Q).
  { set (r := (zq n / zq d)%Q) in *. clearbody r. clear - E V0 V1 Q0 Iv.
    destruct p as [[]|], pos; cbn [primed] in E; set (u := (/ v)%Q) in *; clearbody u;
      first [left; lra | right; lra | exfalso; lra]. }
  destruct Case as [C | C].
  - exists n, d. pose proof (frac_lt n d v D V0 V1 C). split; auto. split; [lia | auto].
  - assert (N' : 0 < n).
    { destruct (Z.eq_dec n 0) as [-> |]; [|lia]. exfalso. unfold Qdiv in C. change (zq 0) with 0%Q in C.
      rewrite Qmult_0_l in C. lra. }
    assert (C' : (v == zq d / zq n)%Q).
    { rewrite <- (Qinv_involutive v), C. field. split; [intro Z|lra].
      assert (0 < zq n)%Q by now apply zq_pos. lra. }
    exists d, n. pose proof (frac_lt d n v N' V0 V1 C'). split; auto. split; [lia | auto].
Qed.

(** The symbols of a clog, one call after the other; then [None] for ever. *)
Lemma good_egests k l : forall c, good k (fun _ => False) c l ->
  exists c' c'', egests k c l c' /\ returns (fun f => clog_egest k f c') (None, c'') /\
    returns (fun f => clog_egest k f c'') (None, c'').
Proof.
  induction l as [|s l IH]; intros c G.
  - destruct G as ([[o c']|p|] & S & W); cbn [wp fst snd] in W; try contradiction.
    destruct W as [-> W]. exists c, c'. split; [constructor|]. auto.
  - destruct G as ([[o c']|p|] & S & W); cbn [wp fst snd] in W; try contradiction.
    destruct W as [-> W]. destruct (IH c' W) as (c1 & c2 & H1 & H2 & H3). exists c1, c2.
    split; [|auto]. econstructor; eauto.
Qed.

Lemma umax_lt k : umax k < 2 ^ bits (wd k).
Proof. unfold umax. lia. Qed.

Lemma bits_ge k : 16 <= bits (wd k).
Proof. destruct (wd k); cbn; lia. Qed.

Theorem ratio_u_drain k (pos : bool) num den p c : usize k num -> usize k den ->
  number_ratio_u pos num den = Ok (NOther p c) ->
  exists l c' c'', egests k c l c' /\ returns (fun f => clog_egest k f c') (None, c'') /\
    returns (fun f => clog_egest k f c'') (None, c'') /\
    2 * Z.of_nat (length l) <= bits (wd k) * bits (wd k) + 3 * bits (wd k) - 4.
Proof.
  intros In Id H. pose proof (made_u_good k (fun _ => False) pos num den _ In Id H) as G.
  pose proof (ratio_u_den pos num den _ H) as D. cbn [numgood] in G. destruct G as (v & l & Sq & E & G).
  destruct (clog_seq_range _ _ Sq) as [V0 V1]. unfold usize in *.
  destruct (unprimed_frac p v num den pos) as (a & b & Hab & Hb & Hv); auto; try lia.
  destruct (good_egests k l c G) as (c' & c'' & H1 & H2 & H3).
  exists l, c', c''. repeat (split; auto).
  apply (length_bound (bits (wd k)) a b); auto.
  - pose proof (bits_ge k). lia.
  - pose proof (umax_lt k). lia.
  - eapply clog_seq_compat; eauto.
Qed.

Theorem ratio_drain k num den p c : isize k num -> isize k den ->
  number_ratio k num den = Ok (NOther p c) ->
  exists l c' c'', egests k c l c' /\ returns (fun f => clog_egest k f c') (None, c'') /\
    returns (fun f => clog_egest k f c'') (None, c'') /\
    2 * Z.of_nat (length l) <= bits (wd k) * bits (wd k) + 3 * bits (wd k) - 4.
Proof.
  intros In Id H. destruct (ratio_den num den k _ H In Id) as [D M].
  unfold number_ratio in H.
  rewrite (magnitude_ok k num), (magnitude_ok k den) in H by (auto; intro; now apply M). cbn [bind] in H.
  pose proof (imin_imax k). pose proof (umax_imax k). pose proof (imax_ge k).
  eapply ratio_u_drain; [| |exact H]; unfold usize, isize in *; lia.
Qed.

(** ** Termination and panics *)

Section Ops.
  Context (k : cfg) (Ov : ovf k = true).

  Theorem egest_ends c v : clog_has k c v ->
    exists r, settles (fun f => clog_egest k f c) r /\ r <> NoFuel.
  Proof. intro H. exact (yields_settles _ _ (egest_value k c v Ov H)). Qed.
  Theorem drain_ends c v : clog_has k c v ->
    exists r, settles (fun f => drain k f c) r /\ r <> NoFuel.
  Proof. intro H. destruct (drain_value k c v Ov H) as (l & _ & Y). exact (yields_settles _ _ Y). Qed.
  Theorem compare_ends x y p q : num_has k x p -> num_has k y q ->
    exists r, settles (fun f => number_compare k f x y) r /\ r <> NoFuel.
  Proof. intros X Y. exact (yields_settles _ _ (compare_values k x y p q Ov X Y)). Qed.
  Theorem consume_ends x q : num_has k x q ->
    exists r, settles (fun f => number_consume k f x) r /\ r <> NoFuel.
  Proof. intro X. exact (yields_settles _ _ (consume_value k x q Ov X)). Qed.

  Theorem egest_panics c v f p : clog_has k c v -> clog_egest k f c = Panic p -> p = PChecked \/ p = PArith.
  Proof.
    intros H. refine (yields_panic _ _ f p _ (egest_value k c v Ov H)).
    intros. apply upto_egest; auto.
  Qed.
  Theorem compare_panics x y a b f p : num_has k x a -> num_has k y b ->
    number_compare k f x y = Panic p -> p = PChecked \/ p = PArith.
  Proof.
    intros X Y. refine (yields_panic _ _ f p _ (compare_values k x y a b Ov X Y)).
    intros. apply upto_compare; auto.
  Qed.
  Theorem consume_panics x q f p : num_has k x q ->
    number_consume k f x = Panic p -> p = PChecked \/ p = PArith.
  Proof.
    intros X. refine (yields_panic _ _ f p _ (consume_value k x q Ov X)).
    intros. apply upto_consume; auto.
  Qed.
  Theorem homographic_panics x q nx n dx d f p : num_has k x q ->
    isize k nx -> isize k n -> isize k dx -> isize k d -> ~ (hom_num dx d q == 0)%Q ->
    number_homographic k f x nx n dx d = Panic p -> p = PChecked \/ p = PArith.
  Proof.
    intros X V1 V2 V3 V4 ND.
    refine (yields_panic _ _ f p _ (homographic_value k x q nx n dx d Ov X V1 V2 V3 V4 ND)).
    intros. apply upto_homographic; auto.
  Qed.
  Theorem combine_panics x a y b nxy nx ny n dxy dx dy d f p : num_has k x a -> num_has k y b ->
    isize k nxy -> isize k nx -> isize k ny -> isize k n ->
    isize k dxy -> isize k dx -> isize k dy -> isize k d -> ~ (comb_num dxy dx dy d a b == 0)%Q ->
    number_combine k f x y nxy nx ny n dxy dx dy d = Panic p -> p = PChecked \/ p = PArith.
  Proof.
    intros X Y V1 V2 V3 V4 V5 V6 V7 V8 ND.
    refine (yields_panic _ _ f p _
      (combine_value k x a y b nxy nx ny n dxy dx dy d Ov X Y V1 V2 V3 V4 V5 V6 V7 V8 ND)).
    intros. apply upto_combine; auto.
  Qed.
End Ops.

(** ** The shape of a number *)

Theorem special_iff k x q : ovf k = true -> num_has k x q ->
  forall s, unwrap_special x = Ok s <-> (q == special_val s)%Q.
Proof.
  intros Ov H s. pose proof (shape k Ov x q H) as Sh. destruct x as [s'|p c]; cbn [unwrap_special].
  - split; intro E.
    + inversion E; subst. exact Sh.
    + f_equal. apply special_val_inj. now rewrite <- Sh, <- E.
  - destruct Sh as (v & V0 & V1 & E & _). split; intro X; [discriminate|]. exfalso.
    apply (special_apart s p v V0 V1). now rewrite <- E, <- X.
Qed.

Theorem primer_iff k x q : ovf k = true -> num_has k x q ->
  forall p, (exists c, unwrap_other x = Ok (p, c)) <->
    match p with
    | Some Ground => (q < -1)%Q
    | Some Reflect => (-1 < q)%Q /\ (q < 0)%Q
    | None => (0 < q)%Q /\ (q < 1)%Q
    | Some Turn => (1 < q)%Q
    end.
Proof.
  intros Ov H p. pose proof (shape k Ov x q H) as Sh. destruct x as [s'|p' c]; cbn [unwrap_other].
  - split; [intros [c E]; discriminate|]. intro X. exfalso.
    destruct s', p as [[]|]; cbn [special_val] in Sh; lra.
  - destruct Sh as (v & V0 & V1 & E & _). pose proof (primed_range p' v V0 V1) as R. split.
    + intros [c' X]. inversion X; subst. destruct p as [[]|]; cbn [primed] in *; lra.
    + intro X. exists c. f_equal. f_equal. destruct p as [[]|], p' as [[]|]; cbn [primed] in *; auto; exfalso; lra.
Qed.

(** ** Only the value matters *)

Lemma egest_mono k c : forall f1 f2, (f1 <= f2)%nat -> upto BadFuel (clog_egest k f1 c) (clog_egest k f2 c).
Proof. intros. apply upto_egest; auto. Qed.

Lemma k_consume_same k E l : forall c1 c2 m f1 f2 r1 r2, good k E c1 l -> good k E c2 l ->
  k_consume k f1 c1 m = Ok r1 -> k_consume k f2 c2 m = Ok r2 ->
  snd r1 = snd r2 /\ (fst r1 = None <-> fst r2 = None).
Proof.
  induction l as [|s l IH]; intros c1 c2 m f1 f2 r1 r2 G1 G2 H1 H2;
    (destruct f1 as [|f1]; [discriminate|]); (destruct f2 as [|f2]; [discriminate|]);
    cbn [k_consume] in H1, H2;
    destruct (clog_egest k f1 c1) as [[o1 c1']|?|] eqn:E1; cbn [bind] in H1; try discriminate;
    destruct (clog_egest k f2 c2) as [[o2 c2']|?|] eqn:E2; cbn [bind] in H2; try discriminate;
    pose proof (ev_returned _ _ _ f1 (o1, c1') (egest_mono k c1) (good_ev _ _ _ _ G1) E1) as [X1 Y1];
    pose proof (ev_returned _ _ _ f2 (o2, c2') (egest_mono k c2) (good_ev _ _ _ _ G2) E2) as [X2 Y2];
    cbn [fst snd] in X1, Y1, X2, Y2; subst o1 o2.
  - inversion H1; inversion H2; subst. cbn. tauto.
  - destruct (match s with Amplify => k_amplify_x k m | Uncover => k_uncover_x k m end) as [m'|?|];
      cbn [bind] in H1, H2; try discriminate.
    destruct (k_is_state_unsafe k m') as [[|]|?|]; cbn [bind] in H1, H2; try discriminate.
    + inversion H1; inversion H2; subst. cbn. split; auto. split; discriminate.
    + exact (IH c1' c2' m' f1 f2 r1 r2 Y1 Y2 H1 H2).
Qed.

Theorem consume_same k x1 x2 q f1 f2 y1 m1 y2 m2 : ovf k = true -> num_has k x1 q -> num_has k x2 q ->
  number_consume k f1 x1 = Ok (y1, m1) -> number_consume k f2 x2 = Ok (y2, m2) ->
  m1 = m2 /\
  match y1, y2 with
  | None, None => True
  | Some z1, Some z2 => exists w, num_has k z1 w /\ num_has k z2 w
  | _, _ => False
  end.
Proof.
  intros Ov X1 X2 H1 H2.
  assert (M : m1 = m2 /\ (y1 = None <-> y2 = None)).
  { pose proof (proj2 (has_good k Ov) _ _ X1) as G1. pose proof (proj2 (has_good k Ov) _ _ X2) as G2.
    destruct x1 as [s1|p1 c1], x2 as [s2|p2 c2]; cbn [numgood] in G1, G2.
    - assert (s1 = s2) by (apply special_val_inj; now rewrite <- G1, <- G2). subst s2.
      destruct s1; cbn in H1, H2; inversion H1; inversion H2; subst; tauto.
    - destruct G2 as (v & l & Sq & E & _). destruct (clog_seq_range _ _ Sq) as [V0 V1]. exfalso.
      apply (special_apart s1 p2 v V0 V1). now rewrite <- E, <- G1.
    - destruct G1 as (v & l & Sq & E & _). destruct (clog_seq_range _ _ Sq) as [V0 V1]. exfalso.
      apply (special_apart s2 p1 v V0 V1). now rewrite <- E, <- G2.
    - destruct G1 as (v1 & l1 & S1 & E1 & G1), G2 as (v2 & l2 & S2 & E2 & G2).
      destruct (clog_seq_range _ _ S1) as [A0 A1], (clog_seq_range _ _ S2) as [B0 B1].
      destruct (HistProofs.primed_inj p1 v1 p2 v2 A0 A1 B0 B1) as [-> V]; [now rewrite <- E1, <- E2|].
      assert (l1 = l2) by (eapply clog_seq_det; eauto). subst l2.
      rewrite consume_cases in H1, H2.
      destruct (k_consume k f1 c1 _) as [[o1 n1]|?|] eqn:K1; cbn [bind] in H1; try discriminate.
      destruct (k_consume k f2 c2 _) as [[o2 n2]|?|] eqn:K2; cbn [bind] in H2; try discriminate.
      destruct (k_consume_same k _ _ _ _ _ _ _ _ _ G1 G2 K1 K2) as [Q1 Q2]. cbn [fst snd] in Q1, Q2.
      inversion H1; inversion H2; subst. split; auto. destruct o1, o2; cbn; intuition congruence. }
  destruct M as [-> N]. split; auto.
  assert (U : forall x f1 f2, (f1 <= f2)%nat -> upto BadFuel (number_consume k f1 x) (number_consume k f2 x)).
  { intros. apply upto_consume; auto. }
  assert (W : forall x f y m, num_has k x q -> number_consume k f x = Ok (Some y, m) ->
    exists w, num_has k y w /\ hv m w q).
  { intros x f y m X H. pose proof (ev_returned _ _ _ _ _ (U x)
      (consume_ev k ovfp x q (proj2 (has_good k Ov) _ _ X)) H) as C.
    destruct C as (_ & D & _ & w & G & V). exists w. split; auto.
    destruct (hv_hom _ _ _ V) as [A B]. eapply has_consume; eauto. }
  destruct y1 as [z1|], y2 as [z2|]; auto.
  - destruct (W _ _ _ _ X1 H1) as (w1 & A1 & B1), (W _ _ _ _ X2 H2) as (w2 & A2 & B2).
    exists w1. split; auto. eapply has_same; eauto.
    pose proof (ev_returned _ _ _ _ _ (U x1) (consume_ev k ovfp x1 q (proj2 (has_good k Ov) _ _ X1)) H1) as C.
    destruct C as (_ & D & _). eapply hv_inj; eauto.
  - destruct N as [_ N]. specialize (N eq_refl). discriminate.
  - destruct N as [N _]. specialize (N eq_refl). discriminate.
Qed.

Theorem homographic_same k x1 x2 q nx n dx d f1 f2 y1 y2 r1 r2 : ovf k = true ->
  num_has k x1 q -> num_has k x2 q ->
  isize k nx -> isize k n -> isize k dx -> isize k d -> ~ (hom_num dx d q == 0)%Q ->
  number_homographic k f1 x1 nx n dx d = Ok y1 -> number_homographic k f2 x2 nx n dx d = Ok y2 ->
  read k y1 r1 -> read k y2 r2 -> r1 = r2.
Proof.
  intros Ov X1 X2 V1 V2 V3 V4 ND H1 H2 R1 R2.
  destruct (has_read_good k y1 _ r1 Ov (has_homographic _ _ _ _ _ _ _ _ _ X1 V1 V2 V3 V4 ND H1) R1) as [_ P1].
  destruct (has_read_good k y2 _ r2 Ov (has_homographic _ _ _ _ _ _ _ _ _ X2 V1 V2 V3 V4 ND H2) R2) as [_ P2].
  apply (represents_inj _ _ _ _ P1 P2). reflexivity.
Qed.

Theorem combine_same k x1 x2 p y1 y2 q a b c d e f g h f1 f2 z1 z2 r1 r2 : ovf k = true ->
  num_has k x1 p -> num_has k x2 p -> num_has k y1 q -> num_has k y2 q ->
  isize k a -> isize k b -> isize k c -> isize k d ->
  isize k e -> isize k f -> isize k g -> isize k h -> ~ (comb_num e f g h p q == 0)%Q ->
  number_combine k f1 x1 y1 a b c d e f g h = Ok z1 -> number_combine k f2 x2 y2 a b c d e f g h = Ok z2 ->
  read k z1 r1 -> read k z2 r2 -> r1 = r2.
Proof.
  intros Ov X1 X2 Y1 Y2 V1 V2 V3 V4 V5 V6 V7 V8 ND H1 H2 R1 R2.
  destruct (has_read_good k z1 _ r1 Ov
    (has_combine _ _ _ _ _ _ _ _ _ _ _ _ _ _ _ X1 Y1 V1 V2 V3 V4 V5 V6 V7 V8 ND H1) R1) as [_ P1].
  destruct (has_read_good k z2 _ r2 Ov
    (has_combine _ _ _ _ _ _ _ _ _ _ _ _ _ _ _ X2 Y2 V1 V2 V3 V4 V5 V6 V7 V8 ND H2) R2) as [_ P2].
  apply (represents_inj _ _ _ _ P1 P2). reflexivity.
Qed.

Theorem compare_same k x1 x2 p y1 y2 q f1 f2 o1 o2 : ovf k = true ->
  num_has k x1 p -> num_has k x2 p -> num_has k y1 q -> num_has k y2 q ->
  number_compare k f1 x1 y1 = Ok o1 -> number_compare k f2 x2 y2 = Ok o2 -> o1 = o2.
Proof.
  intros Ov X1 X2 Y1 Y2 H1 H2.
  assert (W : forall x y f o, num_has k x p -> num_has k y q -> number_compare k f x y = Ok o -> o = (p ?= q)%Q).
  { intros x y f o X Y H. assert (S : settles (fun f => number_compare k f x y) (Ok o)).
    { eapply settles_fuel; eauto; [|discriminate]. intros. apply upto_compare; auto. }
    destruct (compare_values k x y p q Ov X Y) as [(o' & R & <-) | [R|R]];
      pose proof (settles_det _ _ _ S R); congruence. }
  rewrite (W _ _ _ _ X1 Y1 H1), (W _ _ _ _ X2 Y2 H2). reflexivity.
Qed.

(** ** Sequences with primers *)

Theorem rep_decode p l : exists q, represents q (inr (p, l)) /\
  (forall q', represents q' (inr (p, l)) <-> (q == q')%Q) /\ (forall s, ~ (q == special_val s)%Q).
Proof.
  destruct (seq_decode l) as (v & Sq & _). exists (primed p v).
  assert (R : represents (primed p v) (inr (p, l))) by (exists v; split; [auto | reflexivity]).
  split; auto. split.
  - intro q'. split; intro H.
    + now apply (represents_inj _ _ _ _ R H).
    + eapply represents_compat; eauto.
  - destruct (clog_seq_range _ _ Sq). intro s. now apply special_apart.
Qed.

Theorem rep_reproduced k p l num den n : isize k num -> isize k den ->
  represents (zq num / zq den) (inr (p, l)) -> number_ratio k num den = Ok n -> read k n (inr (p, l)).
Proof.
  intros In Id R H. destruct (numgood_read _ _ _ (made_good k (fun _ => False) _ _ _ In Id H)) as (r & R' & Y).
  now rewrite (proj1 (represents_inj _ _ _ _ R R') (Qeq_refl _)).
Qed.

(** ** Construction terminates, even by zero (C15). *)

Lemma homographic_ends k (Ov : ovf k = true) x q nx n dx d : num_has k x q ->
  isize k nx -> isize k n -> isize k dx -> isize k d ->
  exists r, settles (fun f => number_homographic k f x nx n dx d) r /\ r <> NoFuel.
Proof.
  intros X A B C D. destruct (Qeq_dec (hom_num dx d q) 0) as [Z|N].
  - destruct (homographic_by_zero k x q nx n dx d Ov X Z) as [H|[[H|H]|(_ & p & c & H & _)]];
      eexists; (split; [exact H|discriminate]).
  - destruct (homographic_value k x q nx n dx d Ov X A B C D N) as [(y & H & _)|[H|H]];
      eexists; (split; [exact H|discriminate]).
Qed.

Lemma combine_ends k (Ov : ovf k = true) x p y q nxy nx ny n dxy dx dy d : num_has k x p -> num_has k y q ->
  isize k nxy -> isize k nx -> isize k ny -> isize k n -> isize k dxy -> isize k dx -> isize k dy -> isize k d ->
  exists r, settles (fun f => number_combine k f x y nxy nx ny n dxy dx dy d) r /\ r <> NoFuel.
Proof.
  intros X Y A B C D E F G H. destruct (Qeq_dec (comb_num dxy dx dy d p q) 0) as [Z|N].
  - destruct (combine_by_zero k x p y q nxy nx ny n dxy dx dy d Ov X Y Z) as [R|[[R|R]|(_ & pr & c & R & _)]];
      eexists; (split; [exact R|discriminate]).
  - destruct (combine_value k x p y q nxy nx ny n dxy dx dy d Ov X Y A B C D E F G H N) as [(z & R & _)|[R|R]];
      eexists; (split; [exact R|discriminate]).
Qed.

(** ** The two unwraps (C29). *)

Lemma unwrap_special_iff x :
  (forall s, unwrap_special x = Ok s <-> x = NSpecial s) /\
  (unwrap_special x = Panic PNotSpecial <-> exists p c, x = NOther p c).
Proof.
  destruct x as [s|p c]; cbn; split.
  - intro t. split; congruence.
  - split; [discriminate|]. intros (p & c & H). discriminate.
  - intro t. split; discriminate.
  - split; eauto.
Qed.

Lemma unwrap_other_iff x :
  (forall p c, unwrap_other x = Ok (p, c) <-> x = NOther p c) /\
  (unwrap_other x = Panic PNotOther <-> exists s, x = NSpecial s).
Proof.
  destruct x as [s|p c]; cbn; split.
  - intros p c. split; discriminate.
  - split; eauto.
  - intros p' c'. split; congruence.
  - split; [discriminate|]. intros (s & H). discriminate.
Qed.

(** ** The arithmetic of consume never overflows (C22). *)

Lemma consume_builds k f p c :
  (forall l c', egests (debug k) c l c' -> ~ settles (fun f => clog_egest (debug k) f c') (Panic PArith)) ->
  number_consume (release k) f (NOther p c) = number_consume (debug k) f (NOther p c).
Proof.
  intro H. destruct (builds_consume k f (NOther p c)) as [E|E]; [|exact E].
  pose proof (consume_stop (debug k) f p c) as St. rewrite E in St.
  destruct St as (l & c' & A & B). destruct (H l c' A B).
Qed.

(** ** The release build, when the debug build does not panic in a built-in operator (C25). *)

Lemma builds_yields {A} (fd fr : nat -> res A) P : (forall n, fd n = Panic PArith \/ fr n = fd n) ->
  yields fd P -> yields fr P \/ settles fd (Panic PArith).
Proof.
  intros B [(a & H & Pa)|[H|H]]; [left; left; exists a; split; auto; eapply builds_returns; eauto| |right; auto].
  left. right. left. destruct H as (F & H). exists F. intros n L. destruct (B n) as [E|E]; rewrite H in E by auto; [discriminate|auto].
Qed.

Lemma homographic_release k x q nx n dx d :
  num_has (debug k) x q -> isize k nx -> isize k n -> isize k dx -> isize k d -> ~ (hom_num dx d q == 0)%Q ->
  yields (fun f => number_homographic (release k) f x nx n dx d) (fun y => num_has (debug k) y (hom nx n dx d q)) \/
  settles (fun f => number_homographic (debug k) f x nx n dx d) (Panic PArith).
Proof.
  intros X A B C D N. apply builds_yields with (fd := fun f => number_homographic (debug k) f x nx n dx d).
  - intro f. apply builds_homographic.
  - destruct (homographic_value (debug k) x q nx n dx d eq_refl X A B C D N) as [(y & H & I & _)|H]; [left; eauto|right; auto].
Qed.

Lemma combine_release k x p y q nxy nx ny n dxy dx dy d :
  num_has (debug k) x p -> num_has (debug k) y q ->
  isize k nxy -> isize k nx -> isize k ny -> isize k n -> isize k dxy -> isize k dx -> isize k dy -> isize k d ->
  ~ (comb_num dxy dx dy d p q == 0)%Q ->
  yields (fun f => number_combine (release k) f x y nxy nx ny n dxy dx dy d)
    (fun z => num_has (debug k) z (comb nxy nx ny n dxy dx dy d p q)) \/
  settles (fun f => number_combine (debug k) f x y nxy nx ny n dxy dx dy d) (Panic PArith).
Proof.
  intros X Y A B C D E F G H N.
  apply builds_yields with (fd := fun f => number_combine (debug k) f x y nxy nx ny n dxy dx dy d).
  - intro f. apply builds_combine.
  - destruct (combine_value (debug k) x p y q nxy nx ny n dxy dx dy d eq_refl X Y A B C D E F G H N) as [(z & R & I & _)|R];
      [left; eauto|right; auto].
Qed.
